(** A thread among others and the same program alone: the two run in step. *)
From Coq Require Import Cantor.
From Verif Require Import model.PyBase model.Core model.Concurrent model.ThreadPrograms spec.CoreSpec spec.ThreadProgramSpec.
Open Scope nat_scope.

Section Sim.
Variable cfg cfg2 : config.
Variable V U : nat -> Prop.
Variable t l0 : nat.
Hypothesis Hnote : forall tr m, cf_note cfg tr m = None.
Hypothesis Hnote2 : forall tr m, cf_note cfg2 tr m = None.
Hypothesis Hdesc : forall x, cf_describe cfg x = cf_describe cfg2 x.

Definition ev_sim (e1 e2 : event) : Prop :=
  e_kind e1 = e_kind e2 /\ e_act e1 = obj t (e_act e2) /\ e_msg e1 = e_msg e2 /\ e_status e1 = e_status e2 /\ e_exc e1 = e_exc e2.
Definition orel {A} (R : A -> A -> Prop) (x y : option A) : Prop :=
  match x, y with Some a, Some b => R a b | None, None => True | _, _ => False end.
Record act_sim (a1 a2 : action) : Prop := {
  as_log : a_log a1 = a_log a2;
  as_in : V (a_log a1);
  as_level : a_level a1 = a_level a2;
  as_name : a_name a1 = a_name a2;
  as_data : a_data a1 = a_data a2;
  as_reraise : a_reraise a1 = a_reraise a2;
  as_parent : U (a_log a1) -> a_parent a1 = option_map (obj t) (a_parent a2);
  as_begin : orel ev_sim (a_begin a1) (a_begin a2);
  as_end : orel ev_sim (a_end a1) (a_end a2);
  as_trans : a_trans a1 = a_trans a2;
  as_defer : a_defer a1 = a_defer a2 }.
Definition wsim (v w : world) : Prop :=
  Forall2 act_sim (w_acts v) (w_acts w) /\ (forall x, w_env v x = w_env w x) /\
  (forall l, U l -> w_active v l = option_map (obj t) (w_active w l)).
Definition frozen (a a' : action) : Prop := a_name a' = a_name a /\ a_level a' = a_level a /\ a_parent a' = a_parent a.
Definition keeps_acts (w w' : world) : Prop :=
  forall r a, nth_error (w_acts w) r = Some a -> exists a', nth_error (w_acts w') r = Some a' /\ frozen a a'.
Definition rrel {A} (RA : A -> A -> Prop) (r1 r2 : res A) : Prop :=
  match r1, r2 with Ok a, Ok b => RA a b | Raise e1, Raise e2 => e1 = e2 | _, _ => False end.

(** One step: of the thread on what it sees, [m1], and of the program alone, [m2]. *)
Definition in_step {A B} (m1 : M A) (m2 : M B) (v w : world) : Prop :=
  wsim (fst (m1 v)) (fst (m2 w)) /\ (forall l, ~ V l -> w_active (fst (m1 v)) l = w_active v l) /\
  w_logs (fst (m2 w)) = w_logs w /\ received l0 0 (w_trace (fst (m2 w))) = received l0 0 (w_trace w) /\ keeps_acts w (fst (m2 w)).
Definition call_sim (c1 c2 : call) : Prop :=
  match c1, c2 with
  | CLog k1 e1, CLog k2 e2 => k1 = k2 /\ ev_sim e1 e2
  | CFlush, CFlush => True
  | _, _ => False
  end.
Fixpoint crel {A} (RA : A -> A -> Prop) (c1 c2 : code A) : Prop :=
  match c1, c2 with
  | Return a, Return b => RA a b
  | Fail e1, Fail e2 => e1 = e2
  | Atom m1 k1, Atom m2 k2 => forall v w, wsim v w -> in_step m1 m2 v w /\ crel RA (k1 (snd (m1 v))) (k2 (snd (m2 w)))
  | Call l1 x1 k1, Call l2 x2 k2 => l1 = l2 /\ call_sim x1 x2 /\ crel RA (k1 (Ok tt)) (k2 (Ok tt))
  | _, _ => False
  end.

Lemma crel_andthen {A B} (RA : A -> A -> Prop) (RB : B -> B -> Prop) c1 : forall c2 f1 f2,
  crel RA c1 c2 -> (forall r1 r2, rrel RA r1 r2 -> crel RB (f1 r1) (f2 r2)) -> crel RB (andthen c1 f1) (andthen c2 f2).
Proof.
  induction c1 as [a|e|X m k IH|l x k IH]; intros [a2|e2|X2 m2 k2|l2 x2 k2] f1 f2 H K; cbn in H |- *; try contradiction.
  - apply K. exact H.
  - apply K. exact H.
  - intros v w S. destruct (H v w S) as (P & Q). split; [exact P|]. apply IH; assumption.
  - destruct H as (-> & P & Q). split; [reflexivity|]. split; [exact P|]. apply IH; assumption.
Qed.
Lemma crel_chain {A B} (RA : A -> A -> Prop) (RB : B -> B -> Prop) c1 c2 f1 f2 :
  crel RA c1 c2 -> (forall a b, RA a b -> crel RB (f1 a) (f2 b)) -> crel RB (chain c1 f1) (chain c2 f2).
Proof.
  intros H K. eapply crel_andthen; [exact H|]. intros [a|e1] [b|e2] R; cbn in R; try contradiction; [apply K, R|exact R].
Qed.
Lemma crel_atom {A} (RA : A -> A -> Prop) (m1 m2 : M A) :
  (forall v w, wsim v w -> in_step m1 m2 v w /\ rrel RA (snd (m1 v)) (snd (m2 w))) -> crel RA (atom m1) (atom m2).
Proof.
  intros H. cbn. intros v w S. destruct (H v w S) as (P & Q). split; [exact P|].
  destruct (snd (m1 v)) as [a|e], (snd (m2 w)) as [b|e2]; cbn in Q |- *; try contradiction; exact Q.
Qed.
Lemma crel_call l k e1 e2 : ev_sim e1 e2 -> crel eq (call_logger l (CLog k e1)) (call_logger l (CLog k e2)).
Proof. intros H. cbn. auto. Qed.
Lemma crel_weak {A} (RA RB : A -> A -> Prop) : (forall a b, RA a b -> RB a b) -> forall c1 c2, crel RA c1 c2 -> crel RB c1 c2.
Proof.
  intros K. induction c1 as [a|e|X m k IH|l x k IH]; intros [a2|e2|X2 m2 k2|l2 x2 k2] H; cbn in H |- *; try contradiction; auto.
  - intros v w S. destruct (H v w S) as (P & Q). split; [exact P|]. apply IH, Q.
  - destruct H as (-> & P & Q). split; [reflexivity|]. split; [exact P|]. apply IH, Q.
Qed.

(** ** Single steps *)
Lemma keeps_refl w w' : w_acts w' = w_acts w -> keeps_acts w w'.
Proof. intros E r a H. exists a. rewrite E. repeat split; assumption. Qed.
Definition anything {A} (_ _ : A) : Prop := True.

Ltac easy_step S := unfold in_step; cbn; repeat split; try apply S; try (apply keeps_refl; reflexivity); auto.
Lemma cr_next_id : crel anything (atom next_id) (atom next_id).
Proof. apply crel_atom. intros v w S. easy_step S. Qed.
Lemma cr_now : crel anything (atom (now cfg)) (atom (now cfg2)).
Proof. apply crel_atom. intros v w S. easy_step S. Qed.
Lemma cr_hist h1 h2 : crel eq (atom (add_hist h1)) (atom (add_hist h2)).
Proof. apply crel_atom. intros v w S. easy_step S. Qed.
Lemma cr_note s : crel eq (atom (note cfg s)) (atom (note cfg2 s)).
Proof.
  apply crel_atom. intros v w S. unfold in_step, note. rewrite Hnote, Hnote2. cbn.
  repeat split; try apply S; auto using keeps_refl. unfold received. rewrite flat_map_app. cbn. apply app_nil_r.
Qed.
Lemma cr_lookup x : crel eq (atom (lookup x)) (atom (lookup x)).
Proof.
  apply crel_atom. intros v w S. unfold in_step, lookup. rewrite <- (proj1 (proj2 S) x).
  destruct (w_env v x); cbn; auto 10 using keeps_refl.
Qed.
Lemma cr_bind x r : crel eq (atom (bind_var x r)) (atom (bind_var x r)).
Proof.
  apply crel_atom. intros v w S. unfold in_step. cbn. split; [|auto 10 using keeps_refl].
  split; [|auto using keeps_refl]. destruct S as (S1 & S2 & S3). split; [exact S1|]. split; [|exact S3].
  intros y. cbn. unfold upd. destruct (y =? x); auto.
Qed.
Lemma Forall2_nth {A B} (R : A -> B -> Prop) l1 l2 r : Forall2 R l1 l2 ->
  orel (fun _ _ => True) (option_map (fun _ => tt) (nth_error l1 r)) (option_map (fun _ => tt) (nth_error l2 r)) /\
  forall a b, nth_error l1 r = Some a -> nth_error l2 r = Some b -> R a b.
Proof.
  intros H; revert r; induction H as [|a b l1 l2 H F IH]; intros [|r]; cbn.
  - split; [exact I|discriminate].
  - split; [exact I|discriminate].
  - split; [exact I|]. intros x y [= <-] [= <-]. exact H.
  - apply IH.
Qed.
Lemma sim_at v w r : wsim v w ->
  (nth_error (w_acts v) r = None /\ nth_error (w_acts w) r = None) \/
  exists a b, nth_error (w_acts v) r = Some a /\ nth_error (w_acts w) r = Some b /\ act_sim a b.
Proof.
  intros S. destruct (Forall2_nth _ _ _ r (proj1 S)) as (P & Q).
  destruct (nth_error (w_acts v) r) as [a|], (nth_error (w_acts w) r) as [b|]; cbn in P; try contradiction; eauto 10.
Qed.
Lemma cr_get r : crel act_sim (atom (get_act r)) (atom (get_act r)).
Proof.
  apply crel_atom. intros v w S. unfold in_step, get_act.
  destruct (sim_at v w r S) as [(-> & ->)|(a & b & -> & -> & H)]; cbn; auto 10 using keeps_refl.
Qed.
Lemma Forall2_set {A B} (R : A -> B -> Prop) l1 l2 r a b : Forall2 R l1 l2 -> R a b -> Forall2 R (list_set l1 r a) (list_set l2 r b).
Proof.
  intros H K; revert r; induction H as [|x y l1 l2 H F IH]; intros [|r]; cbn; constructor; auto.
Qed.
Lemma nth_set_cases {A} (l : list A) r a r' x : nth_error (list_set l r a) r' = Some x -> (r' = r /\ x = a) \/ nth_error l r' = Some x.
Proof.
  revert r r'; induction l as [|y l IH]; intros [|r] [|r'] H; cbn in *; try discriminate; auto.
  - injection H as <-. auto.
  - destruct (IH r r' H) as [(-> & ->)|K]; auto.
Qed.
Lemma nth_set_at {A} (l : list A) r a b : nth_error l r = Some b -> nth_error (list_set l r a) r = Some a.
Proof. revert r; induction l as [|y l IH]; intros [|r] H; cbn in *; try discriminate; auto. Qed.
Lemma nth_set_off {A} (l : list A) r r' a : r' <> r -> nth_error (list_set l r a) r' = nth_error l r'.
Proof. revert r r'; induction l as [|y l IH]; intros [|r] [|r'] H; cbn; try reflexivity; try contradiction. apply IH. congruence. Qed.
Lemma cr_mod r f1 f2 : (forall a b, act_sim a b -> act_sim (f1 a) (f2 b)) -> (forall b, frozen b (f2 b)) ->
  crel eq (atom (mod_act r f1)) (atom (mod_act r f2)).
Proof.
  intros K F. apply crel_atom. intros v w S. unfold in_step, mod_act.
  destruct (sim_at v w r S) as [(-> & ->)|(a & b & -> & E & H)]; [cbn; auto 10 using keeps_refl|]. rewrite E. cbn.
  split; [|reflexivity]. split; [|split; [reflexivity|split; [reflexivity|split; [reflexivity|]]]].
  - destruct S as (S1 & S2 & S3). split; [|split; assumption]. cbn. apply Forall2_set; auto.
  - intros r' x Hx. cbn. destruct (Nat.eq_dec r' r) as [-> |N].
    + exists (f2 b). split; [eapply nth_set_at; eauto|]. assert (x = b) by congruence. subst x. apply F.
    + exists x. rewrite nth_set_off by exact N. split; [exact Hx|]. repeat split.
Qed.
Definition par_ok (l : nat) (p1 p2 : option nat) : Prop := U l -> p1 = option_map (obj t) p2.
Lemma cr_active l : crel (par_ok l) (atom (get_active_parent l)) (atom (get_active_parent l)).
Proof.
  apply crel_atom. intros v w S. unfold in_step. cbn. split; [auto 10 using keeps_refl|]. intros HU. apply S, HU.
Qed.
Lemma cr_set_active l p1 p2 : V l -> par_ok l p1 p2 -> crel eq (atom (set_active_parent l p1)) (atom (set_active_parent l p2)).
Proof.
  intros HV HP. apply crel_atom. intros v w S. unfold in_step. cbn. split; [|reflexivity].
  split; [|split; [|auto using keeps_refl]].
  - destruct S as (S1 & S2 & S3). split; [exact S1|]. split; [exact S2|]. intros l' HU. cbn. unfold upd. destruct (Nat.eqb_spec l' l) as [-> |]; auto.
  - intros l' N. unfold upd. destruct (Nat.eqb_spec l' l) as [-> |]; [contradiction|reflexivity].
Qed.
Lemma cr_alloc i1 i2 l lvl nm kw rr p1 p2 : V l -> par_ok l p1 p2 ->
  crel eq (atom (alloc i1 l lvl nm kw rr p1)) (atom (alloc i2 l lvl nm kw rr p2)).
Proof.
  intros HV HP. apply crel_atom. intros v w S. unfold in_step. cbn. split.
  - split; [|split; [reflexivity|split; [reflexivity|split; [reflexivity|]]]].
    + destruct S as (S1 & S2 & S3). split; [|split; assumption]. cbn. apply Forall2_app; [exact S1|]. constructor; [|constructor].
      constructor; cbn; auto.
    + intros r a H. exists a. cbn. split; [|repeat split]. rewrite nth_error_app1; [exact H|]. apply nth_error_Some. congruence.
  - clear - S. destruct S as (S & _). induction S; cbn; auto.
Qed.

(** ** The functions *)
Local Notation id1 := (fun r : nat => r).
Lemma cr_event k r x1 x2 m st x : crel ev_sim (new_eventC (obj t) k r x1 m st x) (new_eventC id1 k r x2 m st x).
Proof.
  unfold new_eventC. eapply crel_chain; [apply cr_next_id|]. intros i j _. eapply crel_chain; [apply cr_hist|]. intros [] [] _. cbn.
  repeat split.
Qed.
Lemma cr_new l lvl nm kw rr p : V l -> crel eq (new_actionC (obj t) l lvl nm kw rr p) (new_actionC id1 l lvl nm kw rr p).
Proof.
  intros HV. unfold new_actionC. eapply crel_chain; [apply cr_next_id|]. intros i j _. eapply crel_chain with (RA := par_ok l).
  - destruct p as [q|]; [cbn; intros _; reflexivity|apply cr_active].
  - intros p1 p2 HP. apply cr_alloc; assumption.
Qed.
Ltac asim H := destruct H; constructor; cbn; auto; fail.
Lemma as_upd kw a b : act_sim a b -> act_sim (a_set_data (dupdate String.eqb (a_data a) kw) a) (a_set_data (dupdate String.eqb (a_data b) kw) b).
Proof. intros H. destruct H. constructor; cbn; auto. congruence. Qed.
Lemma cr_data r kw : crel eq (atom (mod_act r (fun a => a_set_data (dupdate String.eqb (a_data a) kw) a)))
  (atom (mod_act r (fun a => a_set_data (dupdate String.eqb (a_data a) kw) a))).
Proof. apply cr_mod; [apply as_upd|repeat split]. Qed.
Lemma cr_begin r m kw : crel eq (beginC cfg (obj t) r m kw) (beginC cfg2 id1 r m kw).
Proof.
  unfold beginC. eapply crel_chain; [apply cr_data|]. intros _ _ _. eapply crel_chain; [apply cr_get|]. intros a b H.
  pose proof (as_begin _ _ H) as Hb. destruct (a_begin a), (a_begin b); cbn in Hb; try contradiction; [reflexivity|].
  eapply crel_chain; [apply cr_now|]. intros x1 x2 _. rewrite (as_name _ _ H). eapply crel_chain; [apply cr_event|]. intros e1 e2 He.
  eapply crel_chain; [apply cr_mod|].
  - intros x y K. destruct K; constructor; cbn; auto.
  - repeat split.
  - intros _ _ _. rewrite (as_log _ _ H). apply crel_call, He.
Qed.
Lemma cr_warn r m kw : crel eq (warnC cfg (obj t) r m kw) (warnC cfg2 id1 r m kw).
Proof.
  unfold warnC. eapply crel_chain; [apply cr_data|]. intros _ _ _. eapply crel_chain; [apply cr_get|]. intros a b H.
  eapply crel_chain; [apply cr_now|]. intros x1 x2 _. eapply crel_chain; [apply cr_event|]. intros e1 e2 He.
  eapply crel_chain; [apply cr_mod|].
  - intros x y K. destruct K; constructor; cbn; auto.
  - repeat split.
  - intros _ _ _. rewrite (as_log _ _ H). apply crel_call, He.
Qed.
Lemma cr_end r st m kw o1 o2 x : (o1 = None <-> o2 = None) -> crel eq (endC cfg (obj t) r st m kw o1 x) (endC cfg2 id1 r st m kw o2 x).
Proof.
  intros HO. unfold endC. eapply crel_chain; [apply cr_data|]. intros _ _ _. eapply crel_chain; [apply cr_get|]. intros a b H.
  eapply crel_chain with (RA := anything).
  - rewrite (as_trans _ _ H). destruct (a_trans b).
    + destruct o1 as [x1|], o2 as [x2|]; try (destruct HO as [H1 H2]; try discriminate (H1 eq_refl); discriminate (H2 eq_refl)); [|apply cr_now].
      apply crel_atom. intros v w S. destruct (x1 =? 0)%Z, (x2 =? 0)%Z; easy_step S.
    + eapply crel_chain with (RA := eq).
      * pose proof (as_begin _ _ H) as Hb. destruct (a_begin a), (a_begin b); cbn in Hb; try contradiction; [reflexivity|]. apply cr_begin.
      * intros _ _ _. eapply crel_chain; [apply cr_get|]. intros a' b' H'. pose proof (as_begin _ _ H') as Hb.
        destruct (a_begin a'), (a_begin b'); cbn in Hb; try contradiction; cbn; auto. exact I.
  - intros x1 x2 _. eapply crel_chain; [apply cr_event|]. intros e1 e2 He.
    eapply crel_chain; [apply cr_mod|].
    + intros u y K. destruct K; constructor; cbn; auto.
    + repeat split.
    + intros _ _ _. eapply crel_chain; [apply cr_get|]. intros a' b' H'. rewrite (as_defer _ _ H'), (as_log _ _ H').
      destruct (a_defer b'); [reflexivity|]. apply crel_call, He.
Qed.
Lemma sfx a b m : act_sim a b -> dm_suffix a m = dm_suffix b m.
Proof. intros H. unfold dm_suffix. rewrite (as_data _ _ H). reflexivity. Qed.
Lemma cr_success r m kw : crel eq (successC cfg (obj t) r m kw) (successC cfg2 id1 r m kw).
Proof.
  unfold successC. eapply crel_chain; [apply cr_get|]. intros a b H. rewrite (sfx a b _ H), (as_name _ _ H). apply cr_end. tauto.
Qed.
Lemma cr_failure r m kw : crel eq (failureC cfg (obj t) r m kw) (failureC cfg2 id1 r m kw).
Proof.
  unfold failureC. eapply crel_chain; [apply cr_get|]. intros a b H. rewrite (sfx a b _ H), (as_name _ _ H). apply cr_end. tauto.
Qed.
Lemma cr_exception r x m kw : crel eq (exceptionC cfg (obj t) r x m kw) (exceptionC cfg2 id1 r x m kw).
Proof.
  unfold exceptionC. eapply crel_chain; [apply cr_get|]. intros a b H. eapply crel_chain; [apply cr_now|]. intros x1 x2 _.
  destruct x as [ex|]; [|reflexivity]. eapply crel_chain with (RA := eq).
  - destruct (String.eqb (opt_msg m "") ""); [|reflexivity]. rewrite Hdesc. destruct (cf_describe cfg2 ex); [|reflexivity].
    rewrite (as_name _ _ H). apply (sfx a b _ H).
  - intros m1 m2 ->. eapply crel_chain; [apply cr_event|]. intros e1 e2 He. eapply crel_chain; [apply cr_mod|].
    + intros u y K. destruct K; constructor; cbn; auto.
    + repeat split.
    + intros _ _ _. rewrite (as_log _ _ H). eapply crel_chain; [apply crel_call, He|]. intros _ _ _. apply cr_end. split; discriminate.
Qed.
Lemma cr_enter r : crel eq (enterC cfg (obj t) r) (enterC cfg2 id1 r).
Proof.
  unfold enterC. eapply crel_chain; [apply cr_mod|].
  - intros u y K. destruct K; constructor; cbn; auto.
  - repeat split.
  - intros _ _ _. eapply crel_chain; [apply cr_get|]. intros a b H. rewrite (as_log _ _ H). eapply crel_chain; [apply cr_set_active|].
    + rewrite <- (as_log _ _ H). apply (as_in _ _ H).
    + intros _. reflexivity.
    + intros _ _ _. apply cr_begin.
Qed.
Lemma cr_exit r x : crel eq (exitC cfg (obj t) r x) (exitC cfg2 id1 r x).
Proof.
  unfold exitC. eapply crel_chain; [apply cr_mod|].
  - intros u y K. destruct K; constructor; cbn; auto.
  - repeat split.
  - intros _ _ _. eapply crel_chain with (RA := eq).
    + destruct x as [ex|].
      * eapply crel_andthen; [apply cr_exception|]. intros [u1|y1] [u2|y2] R; cbn in R; try contradiction; [exact R|]. subst y2.
        destruct (exn_ord y1); [apply cr_note|reflexivity].
      * eapply crel_chain; [apply cr_get|]. intros a b H. pose proof (as_end _ _ H) as He.
        destruct (a_end a), (a_end b); cbn in He; try contradiction; [|apply cr_success]. rewrite (as_log _ _ H). apply crel_call, He.
    + intros _ _ _. eapply crel_chain; [apply cr_get|]. intros a b H. eapply crel_chain with (RA := eq).
      * rewrite (as_log _ _ H). apply cr_set_active; [rewrite <- (as_log _ _ H); apply (as_in _ _ H)|]. intros HU. apply (as_parent _ _ H).
        rewrite (as_log _ _ H). exact HU.
      * intros _ _ _. rewrite (as_reraise _ _ H). reflexivity.
Qed.
Lemma cr_elapsed r : crel anything (get_elapsedC cfg r) (get_elapsedC cfg2 r).
Proof.
  unfold get_elapsedC. eapply crel_chain; [apply cr_get|]. intros a b H. pose proof (as_begin _ _ H) as Hb.
  destruct (a_begin a), (a_begin b); cbn in Hb; try contradiction; [|exact I]. eapply crel_chain; [apply cr_now|]. intros ? ? _. exact I.
Qed.
Lemma cr_comment l m kw p : V l -> crel eq (commentC cfg (obj t) l m kw p) (commentC cfg2 id1 l m kw p).
Proof.
  intros HV. unfold commentC. eapply crel_chain; [apply cr_new, HV|]. intros r ? <-. eapply crel_chain; [apply cr_now|]. intros x1 x2 _.
  eapply crel_chain; [apply cr_event|]. intros b1 b2 Hb. eapply crel_chain; [apply cr_mod|].
  - intros u y K. destruct K; constructor; cbn; auto.
  - repeat split.
  - intros _ _ _. eapply crel_chain; [apply cr_event|]. intros e1 e2 He. eapply crel_chain; [apply cr_mod|].
    + intros u y K. destruct K; constructor; cbn; auto.
    + repeat split.
    + intros _ _ _. eapply crel_chain; [apply cr_event|]. intros c1 c2 Hc. apply crel_call, Hc.
Qed.
Lemma cr_lookup_opt px : crel eq (lookup_optC px) (lookup_optC px).
Proof.
  destruct px as [x|]; [|reflexivity]. cbn [lookup_optC]. eapply crel_chain; [apply cr_lookup|]. intros r ? <-. reflexivity.
Qed.
Lemma cr_with r c1 c2 : crel eq c1 c2 -> crel eq (with_blockC cfg (obj t) r c1) (with_blockC cfg2 id1 r c2).
Proof.
  intros H. unfold with_blockC. eapply crel_chain; [apply cr_enter|]. intros _ _ _. eapply crel_andthen; [exact H|].
  intros [[]|e1] [[]|e2] R; cbn in R; try contradiction.
  - eapply crel_chain; [apply cr_exit|]. intros _ _ _. reflexivity.
  - subst e2. eapply crel_chain; [apply cr_exit|]. intros b ? <-. destruct b; reflexivity.
Qed.
Theorem cr_prog s : (forall l, In l (makes_on s) -> V l) -> forall cur, crel eq (prog cfg (obj t) cur s) (prog cfg2 id1 cur s).
Proof.
  induction s; intros HV cur; cbn [prog makes_on] in *;
    try (eapply crel_chain; [apply cr_lookup|]; intros r ? <-);
    eauto using cr_begin, cr_warn.
  - reflexivity.
  - eapply crel_chain; [apply IHs1; intros; apply HV, in_or_app; auto|]. intros _ _ _. apply IHs2; intros; apply HV, in_or_app; auto.
  - eapply crel_chain; [apply cr_lookup_opt|]. intros p ? <-. eapply crel_chain; [apply cr_new, HV; left; reflexivity|]. intros r ? <-. apply cr_bind.
  - apply cr_with. apply IHs, HV.
  - eapply crel_chain; [apply cr_lookup_opt|]. intros p ? <-. eapply crel_chain; [apply cr_new, HV; left; reflexivity|]. intros r ? <-.
    apply cr_with. eapply crel_chain; [apply cr_bind|]. intros _ _ _. apply IHs. intros l' H. apply HV. right. exact H.
  - eapply crel_chain; [apply cr_success|]. intros _ _ _. apply cr_hist.
  - eapply crel_chain; [apply cr_failure|]. intros _ _ _. apply cr_hist.
  - eapply crel_chain; [apply cr_exception|]. intros _ _ _. apply cr_hist.
  - unfold setitem. apply cr_mod; [|repeat split]. intros a b K. destruct K; constructor; cbn; auto. congruence.
  - eapply crel_chain; [apply cr_elapsed|]. intros _ _ _. reflexivity.
  - apply cr_comment, HV. left. reflexivity.
  - cbn. auto.
  - reflexivity.
  - destruct cur; reflexivity.
  - eapply crel_andthen; [apply IHs1; intros; apply HV, in_or_app; auto|]. intros [u1|e1] [u2|e2] R; cbn in R; try contradiction; [exact R|]. subst e2.
    destruct (all || exn_ord e1); [|reflexivity]. apply IHs2; intros; apply HV, in_or_app; auto.
Qed.
End Sim.
