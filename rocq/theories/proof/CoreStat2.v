(** The status of an action over a history of calls. *)
From Verif Require Import model.PyBase model.Core spec.CoreSpec
  proof.CoreLib proof.CoreTrans proof.CoreEval proof.CoreInv proof.CoreWith proof.CoreHist proof.CoreData proof.CoreStatus.

Section Stat.
Variable cfg : config.
Variable r : nat.
Hypothesis HB : hook_quiet cfg KBegin.
Hypothesis HX : exc_quiet cfg.
Notation pres := (pres (option (option status)) est r).
Definition becomes {A} (m : M A) (g : option (option status) -> option (option status)) : Prop :=
  forall w a, nth_error (w_acts w) r = Some a -> exists a', nth_error (w_acts (fst (m w))) r = Some a' /\ est a' = g (est a).
Definition safe {A} (m : M A) : Prop := forall w a e, nth_error (w_acts w) r = Some a -> snd (m w) <> Raise e.

Lemma pres_becomes {A} (m : M A) g : pres m -> (forall s, g s = s) -> becomes m g.
Proof. intros H G w a Ha. destruct (H w a Ha) as (a' & H1 & H2). exists a'. rewrite G. auto. Qed.
Lemma becomes_after {A B} (m : M A) (f : A -> M B) g : pres m -> safe m -> (forall x, becomes (f x) g) -> becomes (bind m f) g.
Proof.
  intros Hm Hs Hf w a Ha. unfold bind. destruct (Hm w a Ha) as (a1 & H1 & E1). specialize (Hs w a). destruct (m w) as [w1 [y|e]]; cbn [fst snd] in *.
  - destruct (Hf y w1 a1 H1) as (a2 & H2 & E2). exists a2. split; auto. congruence.
  - destruct (Hs e Ha eq_refl).
Qed.
Lemma becomes_then {A B} (m : M A) (f : A -> M B) g : becomes m g -> (forall x, pres (f x)) -> becomes (bind m f) g.
Proof.
  intros Hm Hf w a Ha. unfold bind. destruct (Hm w a Ha) as (a1 & H1 & E1). destruct (m w) as [w1 [y|e]]; cbn [fst] in *; [|eauto].
  destruct (Hf y w1 a1 H1) as (a2 & H2 & E2). exists a2. split; auto. congruence.
Qed.
Lemma safe_bind {A B} (m : M A) (f : A -> M B) : pres m -> safe m -> (forall x, safe (f x)) -> safe (bind m f).
Proof.
  intros Hm Hs Hf w a e Ha. unfold bind. destruct (Hm w a Ha) as (a1 & H1 & E1). specialize (Hs w a). destruct (m w) as [w1 [y|e1]]; cbn [fst snd] in *.
  - apply (Hf y w1 a1 e H1).
  - intros _. exact (Hs e1 Ha eq_refl).
Qed.
Lemma safe_ret {A} (x : A) : safe (ret x). Proof. intros w a e _. discriminate. Qed.
Lemma safe_now : safe (now cfg). Proof. intros w a e _. discriminate. Qed.
Lemma safe_get : safe (get_act r). Proof. intros w a e Ha. unfold get_act. rewrite Ha. discriminate. Qed.
Lemma safe_mod f : safe (mod_act r f). Proof. intros w a e Ha. unfold mod_act. rewrite Ha. discriminate. Qed.
Lemma safe_event k q t m st x : safe (new_event k q t m st x). Proof. intros w a e _. discriminate. Qed.
Lemma safe_hooks l k e hs : hook_quiet cfg k -> safe (call_hooks cfg l k e hs).
Proof. intros H w a x _. destruct (call_hooks_ok cfg l k e hs w H) as (w' & ->). discriminate. Qed.
Lemma safe_on_begin l e : safe (on_begin cfg l e).
Proof.
  unfold on_begin. apply safe_bind; [pres|intros w a x _; discriminate|]. intros g. destruct (lg_async g); [intros w a x _; discriminate|].
  apply safe_hooks, HB.
Qed.
Lemma safe_on_exception l e : safe (on_exception cfg l e).
Proof. unfold on_exception. apply safe_bind; [pres|intros w a x _; discriminate|]. intros g. apply safe_hooks, HX. Qed.

Lemma st_begin q m kw : pres (begin cfg q m kw).
Proof. unfold begin. pres. Qed.
Lemma safe_begin m kw : safe (begin cfg r m kw).
Proof.
  unfold begin. apply safe_bind; [pres|apply safe_mod|]. intros []. apply safe_bind; [pres|apply safe_get|]. intros a. destruct (a_begin a); [apply safe_ret|].
  apply safe_bind; [pres|apply safe_now|]. intros t. apply safe_bind; [pres|apply safe_event|]. intros e. apply safe_bind; [pres|apply safe_mod|]. intros [].
  apply safe_on_begin.
Qed.
Lemma becomes_mod e st : e_status e = Some st -> becomes (mod_act r (a_set_end (Some e))) (fun _ => Some (Some st)).
Proof.
  intros E w a Ha. unfold mod_act. rewrite Ha. cbn [fst w_acts set_acts]. rewrite nth_error_list_set, Nat.eqb_refl, Ha. eexists. split; [reflexivity|]. unfold est. cbn. rewrite E. reflexivity.
Qed.
Lemma new_event_status k q t m st x w e w' : new_event k q t m st x w = (w', Ok e) -> e_status e = st.
Proof. unfold new_event, bind, next_id, add_hist, ret. intros H. injection H as _ <-. reflexivity. Qed.
(** After begin() the action has its begin event. *)
Definition time_of (a : action) : M Z :=
  (match a_begin a with Some _ => ret tt | None => begin cfg r None [] end) ;;;
  a' <- get_act r ;;
  match a_begin a' with Some b => ret (e_time b) | None => raise exn_name_error end.
Lemma begin_sets w a m kw : nth_error (w_acts w) r = Some a -> exists a', nth_error (w_acts (fst (begin cfg r m kw w))) r = Some a' /\ a_begin a' <> None.
Proof.
  intros Ha. unfold begin, bind, mod_act, get_act. rewrite Ha. cbn [w_acts set_acts]. rewrite nth_error_list_set, Nat.eqb_refl, Ha. cbn [a_begin a_set_data].
  destruct (a_begin a) eqn:E; cbn [ret fst w_acts set_acts].
  - rewrite nth_error_list_set, Nat.eqb_refl, Ha. eexists. split; [reflexivity|]. cbn. congruence.
  - unfold now, new_event, next_id, add_hist, bind, ret. cbn [w_acts set_hist set_ctr set_acts set_clk].
    match goal with |- context [nth_error ?l r] => assert (Hn : exists b, nth_error l r = Some b) by (cbn; rewrite nth_error_list_set, Nat.eqb_refl, Ha; eauto) end.
    destruct Hn as (b & Hn). rewrite Hn.
    match goal with |- context [on_begin cfg ?l ?e ?w0] => destruct (pres_on_begin cfg (option event) a_begin r l e w0 (a_set_begin (Some e) b)) as (a' & H1 & H2); [cbn in Hn |- *; rewrite nth_error_list_set, Nat.eqb_refl, Hn; reflexivity|]; exists a'; split; [exact H1|] end.
    rewrite H2. discriminate.
Qed.
Lemma pres_time a : pres (time_of a).
Proof. unfold time_of. pres; apply st_begin. Qed.
Lemma safe_time w a e : nth_error (w_acts w) r = Some a -> snd (time_of a w) <> Raise e.
Proof.
  intros Ha. unfold time_of. destruct (a_begin a) eqn:E.
  - unfold bind, ret, get_act. rewrite Ha. cbn. rewrite E. discriminate.
  - unfold bind. destruct (begin_sets w a None [] Ha) as (a' & H1 & H2). pose proof (safe_begin None [] w a) as Hs.
    destruct (begin cfg r None [] w) as [w1 [u|x]]; cbn [fst snd] in *; [|intros _; exact (Hs x Ha eq_refl)].
    unfold get_act. rewrite H1. destruct (a_begin a'); [discriminate|congruence].
Qed.
Lemma st_end q st m kw et x : becomes (end_ cfg q st m kw et x) (fun s => if Nat.eqb q r then Some (Some st) else s).
Proof.
  destruct (Nat.eqb_spec q r) as [->|Hn].
  2:{ apply pres_becomes; auto. unfold end_. pres; try apply st_begin; congruence. }
  unfold end_. apply becomes_after; [pres|apply safe_mod|]. intros [].
  intros w a Ha. unfold bind at 1. unfold get_act at 1. rewrite Ha.
  assert (Z0 : forall B (mt : M Z) (K : Z -> M B) g, pres mt -> (forall e, snd (mt w) <> Raise e) -> (forall t, becomes (K t) g) ->
     exists a', nth_error (w_acts (fst (bind mt K w))) r = Some a' /\ est a' = g (est a)).
  { intros B mt K g P S HK. unfold bind. destruct (P w a Ha) as (a1 & H1 & E1). destruct (mt w) as [w1 [t|e]]; cbn [fst snd] in *; [|destruct (S e eq_refl)].
    destruct (HK t w1 a1 H1) as (a2 & H2 & E2). exists a2. split; auto. congruence. }
  match goal with |- context [bind ?mt ?K w] => apply (Z0 _ mt K (fun _ => Some (Some st))) end.
  - destruct (a_trans a); [pres|]. change (pres (time_of a)). apply pres_time.
  - intros e. destruct (a_trans a).
    + destruct et as [t0|]; [destruct (t0 =? 0)%Z|]; discriminate.
    + change (snd (time_of a w) <> Raise e). apply safe_time, Ha.
  - intros t w1 a1 H1. unfold bind at 1. destruct (new_event KEnd r t m (Some st) x w1) as [w2 [e|y]] eqn:EE.
    + pose proof (new_event_status _ _ _ _ _ _ _ _ _ EE) as Es. destruct (pres_new_event (option (option status)) est r KEnd r t m (Some st) x w1 a1 H1) as (a2 & H2 & E2). rewrite EE in H2. cbn [fst] in H2.
      match goal with |- context [fst (bind ?mm ?ff w2)] => pose proof (becomes_then mm ff _ (becomes_mod e st Es)) as HH end.
      destruct (HH ltac:(intros []; pres) w2 a2 H2) as (a3 & H3 & E3). exists a3. split; [exact H3|exact E3].
    + discriminate.
Qed.
Lemma safe_missing {A} q (f : action -> M A) g : (forall a, becomes (f a) g) -> (q <> r -> forall s, g s = s) -> becomes (bind (get_act q) f) g.
Proof.
  intros Hf Hg. destruct (Nat.eq_dec q r) as [->|Hn]; [apply becomes_after; [pres|apply safe_get|exact Hf]|].
  intros w a Ha. unfold bind, get_act. destruct (nth_error (w_acts w) q); [apply Hf, Ha|]. exists a. rewrite (Hg Hn). auto.
Qed.
Lemma st_success q m kw : becomes (success cfg q m kw) (fun s => if Nat.eqb q r then Some (Some Success) else s).
Proof. unfold success. apply safe_missing; [intros; apply st_end|]. intros Hn s. destruct (Nat.eqb_spec q r); congruence. Qed.
Lemma st_failure q m kw : becomes (failure cfg q m kw) (fun s => if Nat.eqb q r then Some (Some Failure) else s).
Proof. unfold failure. apply safe_missing; [intros; apply st_end|]. intros Hn s. destruct (Nat.eqb_spec q r); congruence. Qed.
Lemma st_exception q x m kw : becomes (exception_ cfg q x m kw) (fun s => match x with Some _ => if Nat.eqb q r then Some (Some Exception_) else s | None => s end).
Proof.
  unfold exception_. destruct x as [ex|]; [|apply pres_becomes; auto; pres].
  apply safe_missing; [|intros Hn s; destruct (Nat.eqb_spec q r); congruence]. intros a. apply becomes_after; [pres|apply safe_now|]. intros t.
  apply becomes_after; [pres| |].
  { intros w b e _. destruct HX as [_ Hd]. destruct (Hd ex) as (d & Hd'). destruct (String.eqb _ _); [rewrite Hd'|]; discriminate. }
  intros ms. apply becomes_after; [pres|apply safe_event|]. intros e.
  destruct (Nat.eq_dec q r) as [->|Hn].
  - apply becomes_after; [pres|apply safe_mod|]. intros []. apply becomes_after; [pres|apply safe_on_exception|]. intros []. apply st_end.
  - apply pres_becomes; [|intros s; destruct (Nat.eqb_spec q r); congruence]. pres. unfold end_. pres; try apply st_begin; congruence.
Qed.
(** Leaving a block. *)
Definition left_with (x : option exn) (s : option (option status)) : option (option status) :=
  match x, s with Some _, _ => Some (Some Exception_) | None, None => Some (Some Success) | None, Some st => Some st end.
Lemma st_exit q x : becomes (exit_ cfg q x) (fun s => if Nat.eqb q r then left_with x s else s).
Proof.
  destruct (Nat.eqb_spec q r) as [->|Hn].
  - unfold exit_. apply becomes_after; [pres|apply safe_mod|]. intros [].
    apply becomes_then; [|intros; pres]. destruct x as [ex|].
    + intros w a Ha. destruct (st_exception r (Some ex) None [] w a Ha) as (a' & H1 & H2). rewrite Nat.eqb_refl in H2.
      destruct (exception_ cfg r (Some ex) None [] w) as [w1 [u|e]]; cbn [fst] in *; [eauto|]. destruct (exn_ord e); [|eauto].
      destruct (pres_note cfg (option (option status)) est r "action_exit" w1 a' H1) as (a2 & H3 & H4). exists a2. split; auto. rewrite H4, H2. reflexivity.
    + intros w a Ha. unfold bind at 1. unfold get_act. rewrite Ha. destruct (a_end a) as [e|] eqn:E.
      * destruct (pres_on_end cfg (option (option status)) est r (a_log a) e w a Ha) as (a' & H1 & H2). exists a'. split; auto. rewrite H2.
        unfold est. rewrite E. reflexivity.
      * destruct (st_success r None [] w a Ha) as (a' & H1 & H2). exists a'. split; auto. rewrite H2, Nat.eqb_refl. unfold est. rewrite E. reflexivity.
  - apply pres_becomes; auto. unfold exit_. apply pres_bind; [apply pres_mod_act; reflexivity|]. intros [].
    apply pres_bind; [|intros; pres]. destruct x as [ex|].
    + intros w. assert (H : pres (exception_ cfg q (Some ex) None [])) by (unfold exception_, end_; pres; try apply st_begin; congruence). specialize (H w).
      destruct (exception_ cfg q (Some ex) None [] w) as [w1 [u|e]]; auto. destruct (exn_ord e); auto. eapply keepF_trans; [exact H | apply pres_note].
    + unfold success, end_. pres; try apply st_begin; congruence.
Qed.
Definition next_est (o : op) (s : option (option status)) : option (option status) :=
  match o with
  | OpSuccess q _ _ => if Nat.eqb q r then Some (Some Success) else s
  | OpFailure q _ _ => if Nat.eqb q r then Some (Some Failure) else s
  | OpException q (Some _) _ _ => if Nat.eqb q r then Some (Some Exception_) else s
  | OpExit q x => if Nat.eqb q r then left_with x s else s
  | _ => s
  end.
Lemma st_step o : becomes (step cfg o) (next_est o).
Proof.
  Local Opaque begin end_ exception_ exit_ enter.
  destruct o; cbn [step next_est]; unfold discard;
    try (apply pres_becomes; auto; unfold set_async, add_sink, set_sinks, setitem, warn; pres; fail).
  - apply pres_becomes; auto. apply st_begin.
  - apply st_success.
  - apply st_failure.
  - apply st_exception.
  - apply pres_becomes; auto. Local Transparent enter. unfold enter. pres; apply st_begin.
  - apply becomes_then; [apply st_exit|intros; pres].
Qed.
Lemma st_run os : forall w a, nth_error (w_acts w) r = Some a ->
  exists a', nth_error (w_acts (run_ops cfg os w)) r = Some a' /\ est a' = fold_left (fun s o => next_est o s) os (est a).
Proof.
  induction os as [|o os IH]; intros w a Ha; [exists a; auto|]. cbn [run_ops fold_left].
  destruct (st_step o w a Ha) as (a1 & H1 & E1). destruct (IH _ _ H1) as (a2 & H2 & E2). exists a2. rewrite <- E1. auto.
Qed.
End Stat.

(** End events have a status. *)
Definition ended_ok (w : world) : Prop := forall r a, nth_error (w_acts w) r = Some a -> est a <> Some None.
Lemma T_ended cfg lb w w' : CoreTrans.T cfg lb w w' -> ended_ok w -> ended_ok w'.
Proof.
  intros HT H.
  assert (Hupd : forall r0 a0 a1, w_acts w' = list_set (w_acts w) r0 a1 -> nth_error (w_acts w) r0 = Some a0 -> (a_end a1 = a_end a0 \/ est a1 <> Some None) -> ended_ok w').
  { intros r0 a0 a1 He H0 Hs r a. rewrite He, nth_error_list_set. destruct (Nat.eqb_spec r0 r) as [->|Hn]; [|apply H].
    rewrite H0. intros Ha. injection Ha as <-. destruct Hs as [Hs|Hs]; [|exact Hs]. unfold est. rewrite Hs. apply (H _ _ H0). }
  assert (Hsame : w_acts w' = w_acts w -> ended_ok w') by (intros E r a; rewrite E; apply H).
  assert (Hsn : forall a1, w_acts w' = w_acts w ++ [a1] -> est a1 <> Some None -> ended_ok w').
  { intros a1 E Hs r a. rewrite E, nth_error_snoc. destruct (Nat.eqb_spec r (length (w_acts w))) as [->|Hn]; [|apply H]. intros Ha. injection Ha as <-. exact Hs. }
  destruct HT;
    try (apply Hsame; pubrw; reflexivity);
    try (eapply Hsn; [pubrw; reflexivity|discriminate]);
    try (eapply Hupd; [pubrw; reflexivity | eassumption | left; reflexivity]; fail).
  - eapply Hupd with (r0 := r) (a0 := a) (a1 := a_set_begin (Some e) (a_set_defer true (a_set_trans true a))); [pubrw | eassumption | left; reflexivity].
    unfold with_event, act_upd, tick, flag_enter, act_upd; simpl. apply list_set_list_set.
  - eapply Hupd; [reflexivity | eassumption | right; subst e; discriminate].
Qed.
Lemma reach_ended cfg w : reach cfg w -> ended_ok w.
Proof.
  induction 1.
  - intros [|r] a; discriminate.
  - eapply (chain_inv cfg ended_ok Pany); [intros lb w1 w2 _; apply T_ended | apply step_chain, (reach_winv cfg); auto | auto].
  - eapply (chain_inv cfg ended_ok Pany); [intros lb w1 w2 _; apply T_ended | apply eval_chain, (reach_winv cfg); auto | auto].
  - eapply (T_ended cfg); [|exact IHreach]. eapply T_env; auto.
Qed.
Definition flat_st (s : option (option status)) : option status := match s with Some x => x | None => None end.
Lemma act_status_est a : act_status a = flat_st (est a).
Proof. unfold act_status, est. destruct (a_end a); reflexivity. Qed.
Lemma status_run cfg r os w a : hook_quiet cfg KBegin -> exc_quiet cfg -> reach cfg w -> nth_error (w_acts w) r = Some a ->
  exists a', nth_error (w_acts (run_ops cfg os w)) r = Some a' /\ act_status a' = fold_left (fun s o => next_status r o s) os (act_status a).
Proof.
  intros HB HX HR Ha. destruct (st_run cfg r HB HX os w a Ha) as (a' & H1 & H2). exists a'. split; [exact H1|].
  rewrite !act_status_est, H2. pose proof (reach_ended cfg w HR r a Ha) as N. clear -N. revert N. generalize (est a). induction os as [|o os IH]; intros s N; [reflexivity|].
  cbn [fold_left]. assert (E : next_est r o s <> Some None /\ flat_st (next_est r o s) = next_status r o (flat_st s)).
  { destruct o; try (split; [exact N|reflexivity]); cbn [next_est next_status].
    - destruct (Nat.eqb _ _); [split; [discriminate|reflexivity]|auto].
    - destruct (Nat.eqb _ _); [split; [discriminate|reflexivity]|auto].
    - destruct cur; auto. destruct (Nat.eqb _ _); [split; [discriminate|reflexivity]|auto].
    - destruct x; destruct (Nat.eqb _ _); auto; [split; [discriminate|reflexivity]|]. destruct s as [[st|]|]; cbn; try congruence; split; try discriminate; reflexivity. }
  destruct E as [E1 E2]. rewrite IH by exact E1. rewrite E2. reflexivity.
Qed.
