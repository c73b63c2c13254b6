(** The events of a program belong to existing actions of the logger they are sent to. *)
From Verif Require Import model.PyBase model.Core model.Concurrent model.ThreadPrograms proof.CoreLib proof.ThreadProgramSim.
Open Scope nat_scope.

Definition ext (h h' : list action) : Prop :=
  forall r a, nth_error h r = Some a -> exists a', nth_error h' r = Some a' /\ a_log a' = a_log a.
Definition ok_act (r : nat) (a : action) : Prop :=
  (forall e, a_begin a = Some e -> e_act e = r) /\ (forall e, a_end a = Some e -> e_act e = r).
Definition hinv (h : list action) : Prop := forall r a, nth_error h r = Some a -> ok_act r a.
Definition of_logger (h : list action) (l : nat) (e : event) : Prop := exists a, nth_error h (e_act e) = Some a /\ a_log a = l.
Definition ok_call (h : list action) (l : nat) (c : call) : Prop :=
  match c with CLog _ e => of_logger h l e | _ => True end.
Fixpoint wp {A} (Q : res A -> list action -> Prop) (h : list action) (c : code A) : Prop :=
  match c with
  | Return a => Q (Ok a) h
  | Fail e => Q (Raise e) h
  | Atom m k => forall w, w_acts w = h -> ext h (w_acts (fst (m w))) /\ wp Q (w_acts (fst (m w))) (k (snd (m w)))
  | Call l x k => ok_call h l x /\ wp Q h (k (Ok tt))
  end.
Lemma ext_refl h : ext h h.
Proof. intros r a H. eauto. Qed.
Lemma ext_trans a b c : ext a b -> ext b c -> ext a c.
Proof. intros H1 H2 r x H. destruct (H1 r x H) as (y & A & B). destruct (H2 r y A) as (z & C & D). exists z. split; [exact C|congruence]. Qed.
Lemma wp_mono {A} (Q Q' : res A -> list action -> Prop) : (forall r h, Q r h -> Q' r h) -> forall c h, wp Q h c -> wp Q' h c.
Proof.
  intros K. induction c as [a|e|B m k IH|l x k IH]; intros h H; cbn in H |- *; auto.
  - intros w E. destruct (H w E). auto.
  - destruct H. auto.
Qed.
Lemma wp_andthen {A B} (Q : res B -> list action -> Prop) (f : res A -> code B) : forall c h,
  wp (fun r h' => wp Q h' (f r)) h c -> wp Q h (andthen c f).
Proof.
  induction c as [a|e|X m k IH|l x k IH]; intros h H; cbn in H |- *; auto.
  - intros w E. destruct (H w E). auto.
  - destruct H. auto.
Qed.

Definition st (h0 h : list action) : Prop := hinv h /\ ext h0 h.
Definition G {A} (h0 h : list action) (c : code A) : Prop := wp (fun _ h' => st h0 h') h c.
Lemma st_trans a b c : st a b -> st b c -> st a c.
Proof. intros (_ & H) (I & H'). split; [exact I|]. eapply ext_trans; eauto. Qed.
Lemma g_andthen {A B} h0 h (c : code A) (f : res A -> code B) :
  st h0 h -> G h h c -> (forall o h', st h h' -> st h0 h' -> G h0 h' (f o)) -> G h0 h (andthen c f).
Proof.
  intros S H K. apply wp_andthen. eapply wp_mono; [|exact H]. cbn. intros r h' S'. apply K; [exact S'|]. eapply st_trans; eauto.
Qed.
Lemma g_chain {A B} h0 h (c : code A) (f : A -> code B) :
  st h0 h -> G h h c -> (forall a h', st h h' -> st h0 h' -> G h0 h' (f a)) -> G h0 h (chain c f).
Proof. intros S H K. apply g_andthen; [exact S|exact H|]. intros [a|e] h' S1 S2; [apply K; assumption|exact S2]. Qed.
Lemma g_pure {A B} h0 h (m : M A) (f : A -> code B) :
  (forall w, w_acts (fst (m w)) = w_acts w) -> st h0 h -> (forall a, G h0 h (f a)) -> G h0 h (chain (atom m) f).
Proof.
  intros P S K. apply wp_andthen. cbn. intros w E. rewrite P, E. split; [apply ext_refl|]. destruct (snd (m w)); cbn; [apply K|exact S].
Qed.
Lemma g_get {B} h0 h r (f : action -> code B) :
  st h0 h -> (forall a, nth_error h r = Some a -> G h0 h (f a)) -> G h0 h (chain (atom (get_act r)) f).
Proof.
  intros S K. apply wp_andthen. cbn. intros w <-. unfold get_act. destruct (nth_error (w_acts w) r) as [a|] eqn:E; cbn; (split; [apply ext_refl|]); [apply K; reflexivity|exact S].
Qed.
Definition good_mod (r : nat) (f : action -> action) : Prop := forall a, a_log (f a) = a_log a /\ (ok_act r a -> ok_act r (f a)).
Lemma st_set h r a f : hinv h -> nth_error h r = Some a -> good_mod r f -> st h (list_set h r (f a)) /\ nth_error (list_set h r (f a)) r = Some (f a).
Proof.
  intros HI E P. assert (N : nth_error (list_set h r (f a)) r = Some (f a)) by (eapply nth_set_at; eauto). split; [|exact N]. split.
  - intros r' x H. apply nth_set_cases in H as [(-> & ->)|H]; [apply P, HI, E|apply HI, H].
  - intros r' x H. destruct (Nat.eq_dec r' r) as [-> |D].
    + exists (f a). split; [exact N|]. rewrite (proj1 (P a)). congruence.
    + exists x. split; [rewrite nth_set_off by exact D; exact H|reflexivity].
Qed.
Lemma g_mod {B} h0 h r f (k : unit -> code B) : st h0 h -> good_mod r f ->
  (forall a h', nth_error h r = Some a -> nth_error h' r = Some (f a) -> st h0 h' -> G h0 h' (k tt)) -> G h0 h (chain (atom (mod_act r f)) k).
Proof.
  intros S P K. apply wp_andthen. cbn. intros w <-. unfold mod_act. destruct (nth_error (w_acts w) r) as [a|] eqn:E; cbn.
  - destruct (st_set _ _ _ f (proj1 S) E P) as (S' & N). split; [apply S'|]. apply (K a); auto. eapply st_trans; eauto.
  - split; [apply ext_refl|exact S].
Qed.
Lemma g_mod_last h0 h r f : st h0 h -> good_mod r f -> G h0 h (atom (mod_act r f)).
Proof.
  intros S P. cbn. intros w <-. unfold mod_act. destruct (nth_error (w_acts w) r) as [a|] eqn:E; cbn.
  - destruct (st_set _ _ _ f (proj1 S) E P) as (S' & N). split; [apply S'|]. eapply st_trans; eauto.
  - split; [apply ext_refl|exact S].
Qed.
Lemma g_pure_last {A} h0 h (m : M A) : (forall w, w_acts (fst (m w)) = w_acts w) -> st h0 h -> G h0 h (atom m).
Proof. intros P S. cbn. intros w E. rewrite P, E. split; [apply ext_refl|]. destruct (snd (m w)); exact S. Qed.
Lemma g_call {B} h0 h l x (k : unit -> code B) : ok_call h l x -> st h0 h -> G h0 h (k tt) -> G h0 h (chain (call_logger l x) k).
Proof. intros P S K. cbn. split; [exact P|exact K]. Qed.
Lemma g_call_last h0 h l x : ok_call h l x -> st h0 h -> G h0 h (call_logger l x).
Proof. intros P S. cbn. split; [exact P|exact S]. Qed.

Section Codes.
Variable cfg : config.
Local Notation id1 := (fun r : nat => r).
Lemma g_event {B} h0 h k r t m s x (f : event -> code B) :
  st h0 h -> (forall e, e_act e = r -> G h0 h (f e)) -> G h0 h (chain (new_eventC id1 k r t m s x) f).
Proof.
  intros S K. unfold new_eventC. apply wp_andthen. cbn. intros w <-. cbn. split; [apply ext_refl|]. intros w' E. cbn. rewrite E. split; [apply ext_refl|].
  apply K. reflexivity.
Qed.
Lemma g_new_action {B} h0 h l lvl nm kw rr p (f : nat -> code B) : st h0 h ->
  (forall r a h', nth_error h' r = Some a -> a_log a = l -> st h0 h' -> G h0 h' (f r)) -> G h0 h (chain (new_actionC id1 l lvl nm kw rr p) f).
Proof.
  intros S K. unfold new_actionC. apply wp_andthen.
  assert (L : forall i q, wp (fun r h' => wp (fun _ h'0 => st h0 h'0) h' (match r with Ok a => f a | Raise e => Fail e end)) h (atom (alloc i l lvl nm kw rr q))).
  { intros i q. cbn. intros w <-. cbn. set (a := mkAction i l lvl nm kw rr q None None [] [] false false).
    assert (X : st (w_acts w) (w_acts w ++ [a])).
    { split.
      - intros r x H. destruct (Nat.lt_ge_cases r (length (w_acts w))) as [LT|GE].
        + rewrite nth_error_app1 in H by exact LT. apply (proj1 S), H.
        + rewrite nth_error_app2 in H by exact GE. destruct (r - length (w_acts w)) as [|j]; cbn in H; [|destruct j; discriminate]. injection H as <-. split; discriminate.
      - intros r x H. exists x. split; [|reflexivity]. rewrite nth_error_app1; [exact H|]. apply nth_error_Some. congruence. }
    split; [apply X|]. apply (K _ a); [|reflexivity|eapply st_trans; eauto]. rewrite nth_error_app2, Nat.sub_diag by lia. reflexivity. }
  apply wp_andthen. cbn. intros w <-. cbn. split; [apply ext_refl|]. destruct p; [apply L|].
  intros w' E. cbn. rewrite E. split; [apply ext_refl|]. apply L.
Qed.
Ltac gm := intros ?; cbn; split; [reflexivity|intros ?; assumption].
Ltac pure := intros ?; reflexivity.
Lemma g_begin h0 h r m kw : st h0 h -> G h0 h (beginC cfg id1 r m kw).
Proof.
  intros S. unfold beginC. apply g_mod; [exact S|gm|]. intros a0 h1 _ _ S1. apply g_get; [exact S1|]. intros a E. destruct (a_begin a); [exact S1|].
  apply g_pure; [pure|exact S1|]. intros t. apply g_event; [exact S1|]. intros e He.
  apply g_mod; [exact S1| |].
  - intros x. split; [reflexivity|]. intros (_ & H2). split; [intros y Hy; cbn in Hy; congruence|exact H2].
  - intros a1 h2 E1 E2 S2. apply g_call_last; [|exact S2]. unfold ok_call, of_logger. rewrite He. eexists. split; [exact E2|]. cbn. congruence.
Qed.
Lemma g_warn h0 h r m kw : st h0 h -> G h0 h (warnC cfg id1 r m kw).
Proof.
  intros S. unfold warnC. apply g_mod; [exact S|gm|]. intros a0 h1 _ _ S1. apply g_get; [exact S1|]. intros a E.
  apply g_pure; [pure|exact S1|]. intros t. apply g_event; [exact S1|]. intros e He. apply g_mod; [exact S1|gm|].
  intros a1 h2 E1 E2 S2. apply g_call_last; [|exact S2]. unfold ok_call, of_logger. rewrite He. eexists. split; [exact E2|]. cbn. congruence.
Qed.
Lemma g_end h0 h r s m kw et x : st h0 h -> G h0 h (endC cfg id1 r s m kw et x).
Proof.
  intros S. unfold endC. apply g_mod; [exact S|gm|]. intros a0 h1 _ _ S1. apply g_get; [exact S1|]. intros a E.
  assert (R1 : st h1 h1) by (split; [apply S1|apply ext_refl]).
  apply g_chain; [exact S1| |].
  - destruct (a_trans a).
    + destruct et as [t0|]; apply g_pure_last; auto. intros w. destruct (Z.eqb t0 0); reflexivity.
    + apply g_chain; [exact R1|destruct (a_begin a); [exact R1|apply g_begin, R1]|]. intros u h2 _ S2. apply g_get; [exact S2|].
      intros b Eb. destruct (a_begin b); exact S2.
  - intros t h2 _ S2. apply g_event; [exact S2|]. intros e He. apply g_mod; [exact S2| |].
    + intros y. split; [reflexivity|]. intros (H1 & _). split; [exact H1|]. intros z Hz. cbn in Hz. congruence.
    + intros a1 h3 E1 E2 S3. apply g_get; [exact S3|]. intros b Eb. destruct (a_defer b); [exact S3|]. apply g_call_last; [|exact S3].
      unfold ok_call, of_logger. rewrite He. exists b. auto.
Qed.
Lemma g_success h0 h r m kw : st h0 h -> G h0 h (successC cfg id1 r m kw).
Proof. intros S. apply g_get; [exact S|]. intros a E. apply g_end, S. Qed.
Lemma g_failure h0 h r m kw : st h0 h -> G h0 h (failureC cfg id1 r m kw).
Proof. intros S. apply g_get; [exact S|]. intros a E. apply g_end, S. Qed.
Lemma g_exception h0 h r x m kw : st h0 h -> G h0 h (exceptionC cfg id1 r x m kw).
Proof.
  intros S. unfold exceptionC. apply g_get; [exact S|]. intros a E. apply g_pure; [pure|exact S|]. intros t. destruct x as [ex|]; [|exact S].
  assert (K : forall mm, G h0 h (e <~ new_eventC id1 KExc r t mm None (Some ex) ;; atom (mod_act r (fun a0 => a_set_excs (a_excs a0 ++ [e]) a0)) ;~
      call_logger (a_log a) (CLog KExc e) ;~ endC cfg id1 r Exception_ mm kw (Some t) (Some ex))).
  { intros mm. apply g_event; [exact S|]. intros e He. apply g_mod; [exact S|gm|]. intros a1 h2 E1 E2 S2. apply g_call; [|exact S2|apply g_end, S2].
    unfold ok_call, of_logger. rewrite He. eexists. split; [exact E2|]. cbn. congruence. }
  destruct (String.eqb (opt_msg m "") ""); [destruct (cf_describe cfg ex); [apply K|exact S]|apply K].
Qed.
Lemma g_enter h0 h r : st h0 h -> G h0 h (enterC cfg id1 r).
Proof.
  intros S. unfold enterC. apply g_mod; [exact S|gm|]. intros a0 h1 _ _ S1. apply g_get; [exact S1|]. intros a E. apply g_pure; [pure|exact S1|]. intros _. apply g_begin, S1.
Qed.
Lemma g_exit h0 h r x : st h0 h -> G h0 h (exitC cfg id1 r x).
Proof.
  intros S. unfold exitC. apply g_mod; [exact S|gm|]. intros a0 h1 _ _ S1. assert (R1 : st h1 h1) by (split; [apply S1|apply ext_refl]).
  apply g_chain; [exact S1| |].
  - destruct x as [ex|].
    + apply g_andthen; [exact R1|apply g_exception, R1|]. intros [u|e] h2 _ S2; [exact S2|]. destruct (exn_ord e); [|exact S2].
      apply g_pure_last; [|exact S2]. intros w. unfold note. cbn. destruct (cf_note cfg (w_trace w) "action_exit"); reflexivity.
    + apply g_get; [exact R1|]. intros a E. destruct (a_end a) as [e|] eqn:EE; [|apply g_success, R1]. apply g_call_last; [|exact R1].
      cbn. exists a. split; [|reflexivity]. rewrite (proj2 (proj1 R1 r a E) e EE). exact E.
  - intros u h2 _ S2. apply g_get; [exact S2|]. intros a E. apply g_pure; [pure|exact S2|]. intros _. exact S2.
Qed.
Lemma g_comment h0 h l m kw p : st h0 h -> G h0 h (commentC cfg id1 l m kw p).
Proof.
  intros S. unfold commentC. apply g_new_action; [exact S|]. intros r a h1 E EL S1. apply g_pure; [pure|exact S1|]. intros t.
  apply g_event; [exact S1|]. intros b Hb. apply g_mod; [exact S1| |].
  { intros x. split; [reflexivity|]. intros (_ & H2). split; [intros y Hy; cbn in Hy; congruence|exact H2]. }
  intros a1 h2 E1 E2 S2. apply g_event; [exact S2|]. intros e He. apply g_mod; [exact S2| |].
  { intros y. split; [reflexivity|]. intros (H1 & _). split; [exact H1|]. intros z Hz. cbn in Hz. congruence. }
  intros a2 h3 E3 E4 S3. apply g_event; [exact S3|]. intros c Hc. apply g_call_last; [|exact S3]. unfold ok_call, of_logger. rewrite Hc. eexists. split; [exact E4|]. cbn.
  assert (a2 = a_set_begin (Some b) a1) by congruence. subst a2. cbn. congruence.
Qed.
Lemma g_lookup h0 h px : st h0 h -> G h0 h (lookup_optC px).
Proof.
  intros S. destruct px as [x|]; [|exact S]. apply g_pure; [|exact S|intros; exact S]. intros w. unfold lookup. destruct (w_env w x); reflexivity.
Qed.
Lemma g_with h0 h r b : st h0 h -> (forall h', st h' h' -> G h' h' b) -> G h0 h (with_blockC cfg id1 r b).
Proof.
  intros S K. assert (R : st h h) by (split; [apply S|apply ext_refl]).
  apply g_chain; [exact S|apply g_enter, R|]. intros u h1 _ S1. assert (R1 : st h1 h1) by (split; [apply S1|apply ext_refl]).
  apply g_andthen; [exact S1|apply K, R1|]. intros [v|e] h2 _ S2; assert (R2 : st h2 h2) by (split; [apply S2|apply ext_refl]);
    (apply g_chain; [exact S2|apply g_exit, R2|]); intros y h3 _ S3; [exact S3|]. destruct y; exact S3.
Qed.
Lemma g_prog s : forall cur h0 h, st h0 h -> G h0 h (prog cfg id1 cur s).
Proof.
  assert (LK : forall x w, w_acts (fst (lookup x w)) = w_acts w) by (intros x w; unfold lookup; destruct (w_env w x); reflexivity).
  assert (RF : forall h0 h, st h0 h -> st h h) by (intros h0 h S; split; [apply S|apply ext_refl]).
  induction s; intros cur h0 h S; cbn [prog]; try exact S;
    try (apply g_pure; [apply LK|exact S|intros r]).
  - apply g_chain; [exact S|apply IHs1, (RF _ _ S)|]. intros u h1 _ S1. apply IHs2, S1.
  - apply g_chain; [exact S|apply g_lookup, (RF _ _ S)|]. intros p h1 _ S1. apply g_new_action; [exact S1|]. intros r a h2 _ _ S2. apply g_pure_last; [pure|exact S2].
  - apply g_with; [exact S|]. intros h' S'. apply IHs, S'.
  - apply g_chain; [exact S|apply g_lookup, (RF _ _ S)|]. intros p h1 _ S1. apply g_new_action; [exact S1|]. intros r a h2 _ _ S2.
    apply g_with; [exact S2|]. intros h' S'. apply g_pure; [pure|exact S'|]. intros _. apply IHs, S'.
  - apply g_begin, S.
  - apply g_warn, S.
  - apply g_chain; [exact S|apply g_success, (RF _ _ S)|]. intros u h1 _ S1. apply g_pure_last; [pure|exact S1].
  - apply g_chain; [exact S|apply g_failure, (RF _ _ S)|]. intros u h1 _ S1. apply g_pure_last; [pure|exact S1].
  - apply g_chain; [exact S|apply g_exception, (RF _ _ S)|]. intros u h1 _ S1. apply g_pure_last; [pure|exact S1].
  - apply g_mod_last; [exact S|gm].
  - unfold get_elapsedC. apply g_chain; [exact S| |intros; assumption]. apply g_get; [apply (RF _ _ S)|]. intros a E. destruct (a_begin a); [|apply (RF _ _ S)].
    apply g_pure; [pure|apply (RF _ _ S)|]. intros; apply (RF _ _ S).
  - apply g_comment, S.
  - apply g_call_last; [exact I|exact S].
  - destruct cur; exact S.
  - apply g_andthen; [exact S|apply IHs1, (RF _ _ S)|]. intros [u|e] h1 _ S1; [exact S1|]. destruct (all || exn_ord e); [apply IHs2, S1|exact S1].
Qed.
Lemma prog_valid s cur : wp (fun _ _ => True) [] (prog cfg id1 cur s).
Proof.
  assert (S : st [] []) by (split; [intros [|r] a H; discriminate|apply ext_refl]).
  eapply wp_mono; [|apply (g_prog s cur [] [] S)]. auto.
Qed.
End Codes.
