(** Proofs about moments used by several threads. *)
From Coq Require Import Reals Lra Lia.
From Verif Require Import model.PyBase model.Moments model.MomentThreads spec.MomentThreadSpec.
Open Scope nat_scope.

Lemma upd_same f t p : upd_pc f t p t = p.
Proof. unfold upd_pc. rewrite Nat.eqb_refl. reflexivity. Qed.
Lemma upd_other f t p t' : t' <> t -> upd_pc f t p t' = f t'.
Proof. intros N. unfold upd_pc. destruct (Nat.eqb_spec t' t); [contradiction|reflexivity]. Qed.

Definition call_of (p : pc) : option (nat * R) :=
  match p with
  | MTest i v | MMax i v | MFirst i v | MMinFirst i v | MBelow i v | MMin i v | MCount i v | MStore i v _ | MLoadN i v | MLoad2 i v _
  | MLoad3 i v _ _ | MLoad4 i v _ _ _ | MDelta i v _ _ _ _ | MMean i v _ | MMeanSet i v _ _ | MSet4 i v _ | MSet3 i v _ | MSet2 i v _ => Some (i, v)
  | _ => None
  end.
Definition uncounted (p : pc) : bool :=
  match p with MTest _ _ | MMax _ _ | MFirst _ _ | MMinFirst _ _ | MBelow _ _ | MMin _ _ | MCount _ _ | MStore _ _ _ => true | _ => false end.
Definition counts (log : list obs) (c : nat) : Prop :=
  exists calls, NoDup calls /\ (forall i, In i calls -> In (Counted i) log) /\ length calls = c.
(** What is known of the locals and the bounds at each line. *)
Definition sound_pc (a : moments) (p : pc) : Prop :=
  match p with
  | MFirst _ _ | MMinFirst _ _ => mo_max a <> None
  | MMin _ _ => mo_max a <> None
  | MBelow _ _ => mo_max a <> None
  | MCount _ _ | MStore _ _ _ => mo_max a <> None /\ mo_min a <> None
  | MLoadN _ _ => 1 <= mo_count a
  | MLoad2 _ _ n => 1 <= n
  | MLoad3 _ _ n m2 | MLoad4 _ _ n m2 _ | MDelta _ _ n m2 _ _ => 1 <= n /\ (0 <= m2)%R
  | MMean _ _ l | MMeanSet _ _ l _ | MSet4 _ _ l | MSet3 _ _ l | MSet2 _ _ l => 1 <= lo_n l /\ (0 <= lo_m2 l)%R
  | VCount m2 => (0 <= m2)%R /\ (m2 <> 0%R -> 1 <= mo_count a)
  | _ => True
  end.
Record TI (s : mst) : Prop := mkTI {
  ti_calls : forall t i v, call_of (ms_pc s t) = Some (i, v) -> nth_error (ms_started s) i = Some v;
  ti_unique : forall t t' i v v', call_of (ms_pc s t) = Some (i, v) -> call_of (ms_pc s t') = Some (i, v') -> t = t';
  ti_counted : forall i, In (Counted i) (ms_log s) -> i < length (ms_started s);
  ti_uncounted : forall t i v, call_of (ms_pc s t) = Some (i, v) -> uncounted (ms_pc s t) = true -> ~ In (Counted i) (ms_log s);
  ti_count : counts (ms_log s) (mo_count (ms_acc s));
  ti_store : forall t i v c, ms_pc s t = MStore i v c -> counts (ms_log s) c;
  ti_min : forall x, mo_min (ms_acc s) = Some x -> In x (ms_started s);
  ti_max : forall x, mo_max (ms_acc s) = Some x -> In x (ms_started s);
  ti_bounds : 1 <= mo_count (ms_acc s) -> mo_min (ms_acc s) <> None /\ mo_max (ms_acc s) <> None;
  ti_m2 : (0 <= mo_m2 (ms_acc s))%R /\ (mo_m2 (ms_acc s) <> 0%R -> 1 <= mo_count (ms_acc s));
  ti_sound : forall t, sound_pc (ms_acc s) (ms_pc s t);
  ti_late : forall t i v, call_of (ms_pc s t) = Some (i, v) -> uncounted (ms_pc s t) = false -> 1 <= mo_count (ms_acc s);
  ti_var : forall t m x, In (Variance t m x) (ms_log s) -> (0 <= x)%R }.

Lemma counts_log log log' c : (forall i, In (Counted i) log -> In (Counted i) log') -> counts log c -> counts log' c.
Proof. intros H (C & A & B & D). exists C. auto. Qed.
Lemma term_nonneg l : 1 <= lo_n l -> (0 <= term l)%R.
Proof.
  intros H. unfold term, delta_n. apply le_INR in H. cbn in H.
  replace (lo_delta l * (lo_delta l / INR (lo_n l)) * (INR (lo_n l) - 1))%R with (lo_delta l ^ 2 * ((INR (lo_n l) - 1) / INR (lo_n l)))%R by (field; lra).
  apply Rmult_le_pos; [apply pow2_ge_0|]. unfold Rdiv. apply Rmult_le_pos; [lra|]. left. apply Rinv_0_lt_compat. lra.
Qed.
Lemma div_nonneg m2 c : (0 <= m2)%R -> (m2 <> 0%R -> 1 <= c) -> (0 <= div_or_zero m2 (INR c - 1))%R.
Proof.
  intros H K. unfold div_or_zero. destruct (Req_EM_T (INR c - 1) 0) as [E|E]; [lra|].
  destruct (Req_EM_T m2 0) as [-> |N]; [unfold Rdiv; rewrite Rmult_0_l; lra|]. specialize (K N). apply le_INR in K. cbn in K.
  unfold Rdiv. apply Rmult_le_pos; [exact H|]. left. apply Rinv_0_lt_compat. lra.
Qed.
(** What other threads know stays true while bounds stay set and the count does not fall to 0. *)
Lemma sound_keep a a' p : (mo_max a <> None -> mo_max a' <> None) -> (mo_min a <> None -> mo_min a' <> None) -> (1 <= mo_count a -> 1 <= mo_count a') -> sound_pc a p -> sound_pc a' p.
Proof. intros A B C. destruct p; cbn; tauto. Qed.
(** A step of thread [t] that does not store the count. *)
Lemma TI_move s a t p o : TI s -> mo_count a = mo_count (ms_acc s) ->
  (call_of p = None \/ call_of p = call_of (ms_pc s t)) -> (uncounted p = true -> uncounted (ms_pc s t) = true) -> (uncounted (ms_pc s t) = true -> uncounted p = false -> call_of p = None) ->
  (forall i v c, p = MStore i v c -> c = mo_count (ms_acc s)) ->
  (mo_min a = mo_min (ms_acc s) \/ exists i v, call_of (ms_pc s t) = Some (i, v) /\ mo_min a = Some v) ->
  (mo_max a = mo_max (ms_acc s) \/ exists i v, call_of (ms_pc s t) = Some (i, v) /\ mo_max a = Some v) ->
  ((0 <= mo_m2 a)%R /\ (mo_m2 a <> 0%R -> 1 <= mo_count (ms_acc s))) -> sound_pc a p ->
  (forall i, ~ In (Counted i) o) -> (forall t' m x, In (Variance t' m x) o -> (0 <= x)%R) -> TI (moved s a t p o).
Proof.
  intros HI EC HC HU HL HST HMN HMX HM2 HS NO HV. destruct HI as [H1 H2 H3 H4 H5 H6 H7 H8 H9 H10 H11 H12 H13].
  assert (CO : forall t' i v, call_of (upd_pc (ms_pc s) t p t') = Some (i, v) -> call_of (ms_pc s t') = Some (i, v)).
  { intros t' i v K. destruct (Nat.eq_dec t' t) as [-> |N]; [rewrite upd_same in K; destruct HC as [E|E]; congruence|]. rewrite upd_other in K by exact N. exact K. }
  assert (LO : forall i, In (Counted i) (o ++ ms_log s) -> In (Counted i) (ms_log s)).
  { intros i K. apply in_app_or in K as [K|K]; [destruct (NO _ K)|exact K]. }
  assert (LO' : forall i, In (Counted i) (ms_log s) -> In (Counted i) (o ++ ms_log s)) by (intros; apply in_or_app; auto).
  assert (MX : mo_max (ms_acc s) <> None -> mo_max a <> None) by (destruct HMX as [-> |(i & v & _ & ->)]; [auto|discriminate]).
  assert (MN : mo_min (ms_acc s) <> None -> mo_min a <> None) by (destruct HMN as [-> |(i & v & _ & ->)]; [auto|discriminate]).
  constructor; cbn [moved ms_acc ms_pc ms_started ms_log].
  - intros t' i v K. eapply H1, CO, K.
  - intros t1 t2 i v v' K1 K2. eapply H2; apply CO; eassumption.
  - intros i K. apply H3, LO, K.
  - intros t' i v K1 K2 K3. eapply H4; [apply CO; exact K1| |apply LO; exact K3].
    destruct (Nat.eq_dec t' t) as [-> |N]; [rewrite upd_same in K2; auto|]. rewrite upd_other in K2 by exact N. exact K2.
  - rewrite EC. eapply counts_log; eauto.
  - intros t' i v c K. destruct (Nat.eq_dec t' t) as [-> |N].
    + rewrite upd_same in K. rewrite (HST _ _ _ K). eapply counts_log; eauto.
    + rewrite upd_other in K by exact N. eapply counts_log; [exact LO'|]. eapply H6; exact K.
  - intros x K. destruct HMN as [E|(i & v & E1 & E2)]; [apply H7; congruence|]. apply H1 in E1. apply nth_error_In in E1. congruence.
  - intros x K. destruct HMX as [E|(i & v & E1 & E2)]; [apply H8; congruence|]. apply H1 in E1. apply nth_error_In in E1. congruence.
  - rewrite EC. intros K. destruct (H9 K). auto.
  - rewrite EC. exact HM2.
  - intros t'. destruct (Nat.eq_dec t' t) as [-> |N]; [rewrite upd_same; exact HS|]. rewrite upd_other by exact N. eapply sound_keep; [exact MX|exact MN|rewrite EC; auto|apply H11].
  - rewrite EC. intros t' i v K1 K2. destruct (Nat.eq_dec t' t) as [-> |N].
    + rewrite upd_same in K1, K2. destruct (uncounted (ms_pc s t)) eqn:E; [rewrite (HL eq_refl K2) in K1; discriminate|]. destruct HC as [E'|E']; [congruence|]. eapply H12; [|exact E]. rewrite <- E'. exact K1.
    + rewrite upd_other in K1, K2 by exact N. eapply H12; eauto.
  - intros t' m x K. apply in_app_or in K as [K|K]; [eapply HV; exact K|eapply H13; exact K].
Qed.
Ltac mv HI EP EAC := apply TI_move; auto; rewrite ?EP, ?EAC; cbn [call_of uncounted mo_count mo_min mo_max mo_m2 sound_pc]; auto; try discriminate; try solve [intros ? []]; try solve [intros ? ? ? []]; try (cbn; intuition discriminate).
Lemma TI_step e s s' : mstep e s = Some s' -> TI s -> TI s'.
Proof.
  intros H HI. destruct e as [t v|t|t]; cbn in H.
  - destruct (ms_pc s t) eqn:EP; try discriminate. injection H as <-. destruct HI as [H1 H2 H3 H4 H5 H6 H7 H8 H9 H10 H11 H12 H13].
    assert (LT : forall t' i w, call_of (ms_pc s t') = Some (i, w) -> i < length (ms_started s)) by (intros t' i w K; apply nth_error_Some; erewrite H1 by exact K; discriminate).
    constructor; cbn [ms_acc ms_pc ms_started ms_log]; auto.
    + intros t' i w K. destruct (Nat.eq_dec t' t) as [-> |N].
      * rewrite upd_same in K. injection K as <- <-. rewrite nth_error_app2, Nat.sub_diag by lia. reflexivity.
      * rewrite upd_other in K by exact N. rewrite nth_error_app1 by (eapply LT; exact K). eapply H1; exact K.
    + intros t1 t2 i w w' K1 K2. destruct (Nat.eq_dec t1 t) as [-> |N1], (Nat.eq_dec t2 t) as [-> |N2].
      * reflexivity.
      * rewrite upd_same in K1. rewrite upd_other in K2 by exact N2. injection K1 as <- <-. apply LT in K2. lia.
      * rewrite upd_same in K2. rewrite upd_other in K1 by exact N1. injection K2 as <- <-. apply LT in K1. lia.
      * rewrite upd_other in K1, K2 by assumption. eapply H2; eauto.
    + intros i K. rewrite app_length. apply H3 in K. cbn. lia.
    + intros t' i w K1 K2 K3. destruct (Nat.eq_dec t' t) as [-> |N].
      * rewrite upd_same in K1. injection K1 as <- <-. apply H3 in K3. lia.
      * rewrite upd_other in K1, K2 by exact N. eapply H4; eauto.
    + intros t' i w c K. destruct (Nat.eq_dec t' t) as [-> |N]; [rewrite upd_same in K; discriminate|]. rewrite upd_other in K by exact N. eapply H6; exact K.
    + intros x K. apply in_or_app. left. apply H7, K.
    + intros x K. apply in_or_app. left. apply H8, K.
    + intros t'. destruct (Nat.eq_dec t' t) as [-> |N]; [rewrite upd_same; exact I|]. rewrite upd_other by exact N. apply H11.
    + intros t' i w K1 K2. destruct (Nat.eq_dec t' t) as [-> |N]; [rewrite upd_same in K2; discriminate|]. rewrite upd_other in K1, K2 by exact N. eapply H12; eauto.
  - destruct (ms_pc s t) eqn:EP; try discriminate. injection H as <-. pose proof (ti_m2 s HI). mv HI EP EP.
  - destruct (advance t (length (ms_started s)) (ms_pc s t) (ms_acc s)) as [[[a p] o]|] eqn:EA; [|discriminate]. injection H as <-.
    pose proof (ti_m2 s HI) as HM2. pose proof (ti_sound s HI t) as HS. pose proof (ti_bounds s HI) as HB. pose proof (ti_late s HI t) as HL.
    destruct (ms_acc s) as [count mn mx mean m2 m3 m4] eqn:EAC. cbn [mo_count mo_min mo_max mo_m2] in *.
    destruct (ms_pc s t) eqn:EP; cbn [advance] in EA; try discriminate; cbn [sound_pc mo_count mo_min mo_max mo_m2] in HS; cbn [call_of uncounted] in HL.
    + injection EA as <- <- <-. destruct (above_max v mx) eqn:E; mv HI EP EAC. destruct mx; cbn in E; [discriminate|discriminate E].
    + injection EA as <- <- <-. mv HI EP EAC. right. eauto.
    + injection EA as <- <- <-. destruct (Nat.eqb_spec count 0) as [-> |N]; mv HI EP EAC. split; [exact HS|]. apply HB. lia.
    + injection EA as <- <- <-. mv HI EP EAC. right; eauto.
    + injection EA as <- <- <-. destruct (below_min v mn) eqn:E; mv HI EP EAC. split; [exact HS|]. destruct mn; [discriminate|discriminate E].
    + injection EA as <- <- <-. mv HI EP EAC. right; eauto.
    + injection EA as <- <- <-. mv HI EP EAC. intros ? ? ? K. injection K as _ _ <-. reflexivity.
    + (* the count is stored *) injection EA as <- <- <-. destruct HI as [H1 H2 H3 H4 H5 H6 H7 H8 H9 H10 H11 H12 H13]. rewrite EAC in *. cbn [mo_count mo_min mo_max mo_m2] in *.
      assert (CT : call_of (ms_pc s t) = Some (i, v)) by (rewrite EP; reflexivity).
      assert (CO : forall t' j w, call_of (upd_pc (ms_pc s) t (MLoadN i v) t') = Some (j, w) -> call_of (ms_pc s t') = Some (j, w)).
      { intros t' j w K. destruct (Nat.eq_dec t' t) as [-> |N]; [rewrite upd_same in K; cbn in K; congruence|]. rewrite upd_other in K by exact N. exact K. }
      constructor; cbn [moved ms_acc ms_pc ms_started ms_log app mo_count mo_min mo_max mo_m2]; auto.
      * intros t' j w K. eapply H1, CO, K.
      * intros t1 t2 j w w' K1 K2. eapply H2; apply CO; eassumption.
      * intros j [K|K]; [|apply H3, K]. injection K as <-. apply nth_error_Some. erewrite H1 by exact CT. discriminate.
      * intros t' j w K1 K2. destruct (Nat.eq_dec t' t) as [-> |N]; [rewrite upd_same in K2; discriminate|]. rewrite upd_other in K1, K2 by exact N.
        intros [K|K]; [|eapply H4; eauto]. injection K as <-. apply N. eapply H2; eauto.
      * destruct (H6 _ _ _ _ EP) as (C & A & B & D). exists (i :: C). split; [constructor; [|exact A]|].
        -- intros K. apply B in K. eapply H4; [exact CT| |exact K]. rewrite EP. reflexivity.
        -- split; [intros j [<- |K]; [left; reflexivity|right; apply B, K]|]. cbn. lia.
      * intros t' j w c' K. destruct (Nat.eq_dec t' t) as [-> |N]; [rewrite upd_same in K; discriminate|]. rewrite upd_other in K by exact N.
        eapply counts_log; [|eapply H6; exact K]. intros; right; assumption.
      * intros _. split; apply HS.
      * split; [apply HM2|intros _; lia].
      * intros t'. destruct (Nat.eq_dec t' t) as [-> |N]; [rewrite upd_same; cbn; lia|]. rewrite upd_other by exact N. eapply sound_keep; [| | |apply H11]; cbn; auto; lia.
      * intros; lia.
      * intros t' m x [K|K]; [discriminate|]. eapply H13; exact K.
    + injection EA as <- <- <-. mv HI EP EAC.
    + injection EA as <- <- <-. mv HI EP EAC.
    + injection EA as <- <- <-. mv HI EP EAC.
    + injection EA as <- <- <-. mv HI EP EAC.
    + injection EA as <- <- <-. mv HI EP EAC.
    + injection EA as <- <- <-. mv HI EP EAC.
    + injection EA as <- <- <-. mv HI EP EAC.
    + injection EA as <- <- <-. mv HI EP EAC.
    + injection EA as <- <- <-. mv HI EP EAC.
    + injection EA as <- <- <-. mv HI EP EAC. unfold new_m2. pose proof (term_nonneg l (proj1 HS)). split; [lra|]. intros _. eapply HL; reflexivity.
    + injection EA as <- <- <-. mv HI EP EAC.
    + injection EA as <- <- <-. mv HI EP EAC. intros ? ? ? [K|[]]. injection K as _ _ <-. apply div_nonneg; apply HS.
Qed.
Lemma TI_run evs : forall s s', mruns evs s = Some s' -> TI s -> TI s'.
Proof.
  induction evs as [|e evs IH]; intros s s' H HI; cbn in H; [injection H as <-; exact HI|].
  destruct (mstep e s) as [s1|] eqn:E; [|discriminate]. eapply IH; [exact H|]. eapply TI_step; eauto.
Qed.
Lemma TI_new : TI mst_new.
Proof.
  constructor; cbn; try discriminate; try (intros; contradiction); auto.
  - exists []. split; [constructor|]. split; [intros i []|reflexivity].
  - lia.
  - split; [lra|]. intros K. destruct K. reflexivity.
Qed.

(** The steps a thread has before it at most. *)
Definition rank (p : pc) : nat :=
  match p with
  | Idle => 0
  | MSet2 _ _ _ | VCount _ => 1 | MSet3 _ _ _ | VLoad2 => 2 | MSet4 _ _ _ => 3 | MMeanSet _ _ _ _ => 4 | MMean _ _ _ => 5 | MDelta _ _ _ _ _ _ => 6
  | MLoad4 _ _ _ _ _ => 7 | MLoad3 _ _ _ _ => 8 | MLoad2 _ _ _ => 9 | MLoadN _ _ => 10 | MStore _ _ _ => 11 | MCount _ _ => 12 | MMinFirst _ _ | MMin _ _ => 13
  | MFirst _ _ | MBelow _ _ => 14 | MMax _ _ => 15 | MTest _ _ => 16
  end.
Lemma rank_step t m p a a' p' o : advance t m p a = Some (a', p', o) -> S (rank p') <= rank p.
Proof.
  intros EA. destruct a as [count mn mx mean m2 m3 m4]. destruct p; cbn [advance] in EA; try discriminate; injection EA as <- <- <-;
  repeat match goal with |- context [if ?c then _ else _] => destruct c end; cbn; lia.
Qed.
Lemma rank_run t evs : forall s s', mruns evs s = Some s' -> begins_none t evs -> steps_of t evs + rank (ms_pc s' t) <= rank (ms_pc s t).
Proof.
  induction evs as [|e evs IH]; intros s s' H HB; cbn in H; [injection H as <-; reflexivity|].
  destruct (mstep e s) as [s1|] eqn:E; [|discriminate].
  assert (HB' : begins_none t evs) by (intros v; destruct (HB v) as (A & B); split; intros K; [apply A|apply B]; right; exact K).
  specialize (IH s1 s' H HB'). destruct e as [t1 v|t1|t1]; cbn in E; cbn [steps_of].
  - assert (N : t <> t1) by (intros <-; destruct (HB v) as (A & _); apply A; left; reflexivity).
    destruct (ms_pc s t1); try discriminate. injection E as <-. cbn in IH. rewrite upd_other in IH by exact N. exact IH.
  - assert (N : t <> t1) by (intros <-; destruct (HB 0%R) as (_ & A); apply A; left; reflexivity).
    destruct (ms_pc s t1); try discriminate. injection E as <-. cbn in IH. rewrite upd_other in IH by exact N. exact IH.
  - destruct (advance t1 (length (ms_started s)) (ms_pc s t1) (ms_acc s)) as [[[a p] o]|] eqn:EA; [|discriminate]. injection E as <-.
    apply rank_step in EA. cbn in IH. destruct (Nat.eqb_spec t1 t) as [-> |N]; [rewrite upd_same in IH|rewrite upd_other in IH by congruence]; lia.
Qed.
Lemma can_go s t : ms_pc s t <> Idle -> exists s', mstep (EvStep t) s = Some s'.
Proof.
  intros N. cbn. destruct (ms_acc s) as [count mn mx mean m2 m3 m4]. destruct (ms_pc s t); try (destruct N; reflexivity); cbn [advance]; eauto.
Qed.

(** ** Calls that do not overlap *)
Definition with_bounds (a : moments) (v : R) : moments :=
  if above_max v (mo_max a) then mkMoments (mo_count a) (if Nat.eqb (mo_count a) 0 then Some v else mo_min a) (Some v) (mo_mean a) (mo_m2 a) (mo_m3 a) (mo_m4 a)
  else if below_min v (mo_min a) then mkMoments (mo_count a) (Some v) (mo_max a) (mo_mean a) (mo_m2 a) (mo_m3 a) (mo_m4 a) else a.
Definition inc (a : moments) : moments := mkMoments (S (mo_count a)) (mo_min a) (mo_max a) (mo_mean a) (mo_m2 a) (mo_m3 a) (mo_m4 a).
Definition loc (a : moments) (v : R) : locals := mkLocals (mo_count a) (mo_m2 a) (mo_m3 a) (mo_m4 a) (v - mo_mean a).
Definition set_mean (a : moments) (x : R) := mkMoments (mo_count a) (mo_min a) (mo_max a) x (mo_m2 a) (mo_m3 a) (mo_m4 a).
Definition set_4 (a : moments) (x : R) := mkMoments (mo_count a) (mo_min a) (mo_max a) (mo_mean a) (mo_m2 a) (mo_m3 a) x.
Definition set_3 (a : moments) (x : R) := mkMoments (mo_count a) (mo_min a) (mo_max a) (mo_mean a) (mo_m2 a) x (mo_m4 a).
Definition phase (a : moments) (st : list R) (p : pc) : Prop :=
  match p with
  | Idle | VLoad2 => a = mo_adds st
  | VCount m2 => a = mo_adds st /\ m2 = mo_m2 a
  | MTest _ v => exists vs, st = vs ++ [v] /\ a = mo_adds vs
  | MMax _ v => exists vs, st = vs ++ [v] /\ a = mo_adds vs /\ above_max v (mo_max a) = true
  | MFirst _ v => exists vs a0, st = vs ++ [v] /\ a0 = mo_adds vs /\ above_max v (mo_max a0) = true /\ a = mkMoments (mo_count a0) (mo_min a0) (Some v) (mo_mean a0) (mo_m2 a0) (mo_m3 a0) (mo_m4 a0)
  | MMinFirst _ v => exists vs a0, st = vs ++ [v] /\ a0 = mo_adds vs /\ above_max v (mo_max a0) = true /\ a = mkMoments (mo_count a0) (mo_min a0) (Some v) (mo_mean a0) (mo_m2 a0) (mo_m3 a0) (mo_m4 a0) /\ mo_count a0 = 0
  | MBelow _ v => exists vs, st = vs ++ [v] /\ a = mo_adds vs /\ above_max v (mo_max a) = false
  | MMin _ v => exists vs, st = vs ++ [v] /\ a = mo_adds vs /\ above_max v (mo_max a) = false /\ below_min v (mo_min a) = true
  | MCount _ v => exists vs, st = vs ++ [v] /\ a = with_bounds (mo_adds vs) v
  | MStore _ v c => exists vs, st = vs ++ [v] /\ a = with_bounds (mo_adds vs) v /\ c = mo_count a
  | MLoadN _ v => exists vs, st = vs ++ [v] /\ a = inc (with_bounds (mo_adds vs) v)
  | MLoad2 _ v n => exists vs, st = vs ++ [v] /\ a = inc (with_bounds (mo_adds vs) v) /\ n = mo_count a
  | MLoad3 _ v n m2 => exists vs, st = vs ++ [v] /\ a = inc (with_bounds (mo_adds vs) v) /\ n = mo_count a /\ m2 = mo_m2 a
  | MLoad4 _ v n m2 m3 => exists vs, st = vs ++ [v] /\ a = inc (with_bounds (mo_adds vs) v) /\ n = mo_count a /\ m2 = mo_m2 a /\ m3 = mo_m3 a
  | MDelta _ v n m2 m3 m4 => exists vs, st = vs ++ [v] /\ a = inc (with_bounds (mo_adds vs) v) /\ n = mo_count a /\ m2 = mo_m2 a /\ m3 = mo_m3 a /\ m4 = mo_m4 a
  | MMean _ v l => exists vs, st = vs ++ [v] /\ a = inc (with_bounds (mo_adds vs) v) /\ l = loc a v
  | MMeanSet _ v l x => exists vs, st = vs ++ [v] /\ a = inc (with_bounds (mo_adds vs) v) /\ l = loc a v /\ x = (mo_mean a + delta_n l)%R
  | MSet4 _ v l => exists vs a0, st = vs ++ [v] /\ a0 = inc (with_bounds (mo_adds vs) v) /\ l = loc a0 v /\ a = set_mean a0 (mo_mean a0 + delta_n l)
  | MSet3 _ v l => exists vs a0, st = vs ++ [v] /\ a0 = inc (with_bounds (mo_adds vs) v) /\ l = loc a0 v /\ a = set_4 (set_mean a0 (mo_mean a0 + delta_n l)) (new_m4 l)
  | MSet2 _ v l => exists vs a0, st = vs ++ [v] /\ a0 = inc (with_bounds (mo_adds vs) v) /\ l = loc a0 v /\ a = set_3 (set_4 (set_mean a0 (mo_mean a0 + delta_n l)) (new_m4 l)) (new_m3 l)
  end.
Lemma adds_end vs v : mo_adds (vs ++ [v]) = mo_add (mo_adds vs) v.
Proof. unfold mo_adds. rewrite fold_left_app. reflexivity. Qed.
Lemma add_in_steps a v : let a0 := inc (with_bounds a v) in let l := loc a0 v in
  mkMoments (mo_count a0) (mo_min a0) (mo_max a0) (mo_mean a0 + delta_n l) (new_m2 l) (new_m3 l) (new_m4 l) = mo_add a v.
Proof.
  destruct a as [count mn mx mean m2 m3 m4]. unfold with_bounds, mo_add, inc, loc, new_m2, new_m3, new_m4, term, delta_n. cbn [mo_count mo_min mo_max mo_mean mo_m2 mo_m3 mo_m4].
  destruct (above_max v mx); [|destruct (below_min v mn)]; cbn [mo_count mo_min mo_max mo_mean mo_m2 mo_m3 mo_m4 lo_n lo_m2 lo_m3 lo_m4 lo_delta]; reflexivity.
Qed.
Lemma phase_step t st p a a' p' o : advance t (length st) p a = Some (a', p', o) -> phase a st p ->
  phase a' st p' /\ forall t' m x, In (Variance t' m x) o -> m = length st /\ x = mo_variance (mo_adds st).
Proof.
  intros EA HP. assert (N0 : forall t' m x, In (Variance t' m x) [] -> m = length st /\ x = mo_variance (mo_adds st)) by (intros ? ? ? []).
  destruct a as [count mn mx mean m2 m3 m4] eqn:EAC.
  destruct p; cbn [advance] in EA; try discriminate; cbn [phase] in HP; injection EA as <- <- <-.
  - destruct HP as (vs & -> & E). split; [|exact N0]. destruct (above_max v mx) eqn:EB; exists vs; rewrite <- E; auto.
  - destruct HP as (vs & -> & E & EB). split; [|exact N0]. exists vs, (mo_adds vs). rewrite <- E. auto.
  - destruct HP as (vs & a0 & -> & -> & EB & E). split; [|exact N0]. injection E as -> -> -> -> -> -> ->. destruct (Nat.eqb_spec (mo_count (mo_adds vs)) 0) as [EC|EC].
    + exists vs, (mo_adds vs). auto.
    + exists vs. split; [reflexivity|]. unfold with_bounds. rewrite EB. destruct (Nat.eqb_spec (mo_count (mo_adds vs)) 0); [contradiction|reflexivity].
  - destruct HP as (vs & a0 & -> & -> & EB & E & EC). split; [|exact N0]. injection E as -> -> -> -> -> -> ->. exists vs. split; [reflexivity|]. unfold with_bounds. rewrite EB, EC. reflexivity.
  - destruct HP as (vs & -> & E & EB). cbn [mo_max] in EB. split; [|exact N0]. destruct (below_min v mn) eqn:EM; exists vs; [rewrite <- E; auto|]. split; [reflexivity|]. unfold with_bounds. rewrite <- E. cbn [mo_max mo_min]. rewrite EB, EM. reflexivity.
  - destruct HP as (vs & -> & E & EB & EM). cbn [mo_max mo_min] in EB, EM. split; [|exact N0]. exists vs. split; [reflexivity|]. unfold with_bounds. rewrite <- E. cbn [mo_max mo_min]. rewrite EB, EM. reflexivity.
  - destruct HP as (vs & -> & E). split; [|exact N0]. exists vs. auto.
  - destruct HP as (vs & -> & E & ->). split; [|intros ? ? ? [K|[]]; discriminate]. exists vs. split; [reflexivity|]. rewrite <- E. reflexivity.
  - destruct HP as (vs & -> & E). split; [|exact N0]. exists vs. auto.
  - destruct HP as (vs & -> & E & ->). split; [|exact N0]. exists vs. auto.
  - destruct HP as (vs & -> & E & -> & ->). split; [|exact N0]. exists vs. auto.
  - destruct HP as (vs & -> & E & -> & -> & ->). split; [|exact N0]. exists vs. auto 10.
  - destruct HP as (vs & -> & E & -> & -> & -> & ->). split; [|exact N0]. exists vs. auto.
  - destruct HP as (vs & -> & E & ->). split; [|exact N0]. exists vs. auto.
  - destruct HP as (vs & -> & E & -> & ->). split; [|exact N0]. exists vs, (inc (with_bounds (mo_adds vs) v)). rewrite <- E. auto.
  - destruct HP as (vs & a0 & -> & E & -> & E2). split; [|exact N0]. exists vs, a0. split; [reflexivity|]. split; [exact E|]. split; [reflexivity|]. injection E2 as -> -> -> -> -> -> ->. reflexivity.
  - destruct HP as (vs & a0 & -> & E & -> & E2). split; [|exact N0]. exists vs, a0. split; [reflexivity|]. split; [exact E|]. split; [reflexivity|]. injection E2 as -> -> -> -> -> -> ->. reflexivity.
  - destruct HP as (vs & a0 & -> & E & -> & E2). split; [|exact N0]. cbn [phase]. rewrite adds_end, <- add_in_steps, <- E. injection E2 as -> -> -> -> -> -> ->. reflexivity.
  - split; [|exact N0]. split; [exact HP|reflexivity].
  - destruct HP as (E & ->). split; [exact E|]. intros ? ? ? [K|[]]. injection K as _ <- <-. split; [reflexivity|]. rewrite <- E. reflexivity.
Qed.
Definition told (st : list R) (log : list obs) : Prop :=
  forall t m x, In (Variance t m x) log -> m <= length st /\ x = mo_variance (mo_adds (firstn m st)).
Definition AI (s : mst) : Prop :=
  (exists t, (forall t', t' <> t -> ms_pc s t' = Idle) /\ phase (ms_acc s) (ms_started s) (ms_pc s t)) /\ told (ms_started s) (ms_log s).
Lemma AI_step e s s' : mstep e s = Some s' -> match e with EvStep _ => True | _ => forall t, ms_pc s t = Idle end -> AI s -> AI s'.
Proof.
  intros H HI ((t0 & O & P) & T). destruct e as [t v|t|t]; cbn in H.
  - rewrite HI in H, P. injection H as <-. split; cbn [ms_started ms_acc ms_pc ms_log].
    + exists t. split; [intros t' N; rewrite upd_other by exact N; apply HI|]. rewrite upd_same. exists (ms_started s). auto.
    + intros t1 m x K. destruct (T _ _ _ K) as (L & E). rewrite app_length, firstn_app. replace (m - length (ms_started s)) with 0 by lia. rewrite app_nil_r. split; [lia|exact E].
  - rewrite HI in H, P. injection H as <-. split; [|exact T]. exists t. cbn. split; [intros t' N; rewrite upd_other by exact N; apply HI|]. rewrite upd_same. exact P.
  - destruct (advance t (length (ms_started s)) (ms_pc s t) (ms_acc s)) as [[[a p] o]|] eqn:EA; [|discriminate]. injection H as <-.
    destruct (Nat.eq_dec t t0) as [-> |N]; [|rewrite (O t N) in EA; destruct (ms_acc s); discriminate].
    destruct (phase_step _ _ _ _ _ _ _ EA P) as (P' & N1). split; cbn [moved ms_started ms_acc ms_pc ms_log].
    + exists t0. split; [intros t' N; rewrite upd_other by exact N; apply O, N|]. rewrite upd_same. exact P'.
    + intros t1 m x K. apply in_app_or in K as [K|K]; [|eapply T, K]. destruct (N1 _ _ _ K) as (-> & E). rewrite firstn_all. split; [lia|exact E].
Qed.
Lemma AI_run evs : forall s s', mruns evs s = Some s' -> apart evs s -> AI s -> AI s'.
Proof.
  induction evs as [|e evs IH]; intros s s' H HA A; cbn in H; [injection H as <-; exact A|].
  cbn [apart] in HA. destruct HA as (H1 & H2). destruct (mstep e s) as [s1|] eqn:E; [|discriminate]. eapply IH; [exact H|exact H2|]. eapply AI_step; eauto.
Qed.
Lemma AI_new : AI mst_new.
Proof. split; [|intros ? ? ? []]. exists 0. split; reflexivity. Qed.
