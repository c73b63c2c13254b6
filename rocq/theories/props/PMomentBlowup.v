(** C103, continued: how wrong the mean can be (moment.py 33-56 with threads). *)
From Coq Require Import Reals Lra Lia.
From Verif Require Import model.PyBase model.Moments model.MomentThreads.
Open Scope nat_scope.

(** Steps of one thread alone: [advance] (moment.py 33-56, one load or store) [n] times. *)
Fixpoint advs (t k n : nat) (p : pc) (a : moments) : option (moments * pc) :=
  match n with
  | O => Some (a, p)
  | S n' => match advance t k p a with Some (a', p', _) => advs t k n' p' a' | None => None end
  end.
Lemma runs_app : forall e1 e2 s s1, mruns e1 s = Some s1 -> mruns (e1 ++ e2) s = mruns e2 s1.
Proof. induction e1 as [|e e1 IH]; intros e2 s s1 H; cbn in *; [congruence|]. destruct (mstep e s); [|discriminate]. apply IH, H. Qed.
Lemma run_advs t : forall n s a' p', advs t (length (ms_started s)) n (ms_pc s t) (ms_acc s) = Some (a', p') ->
  exists s', mruns (repeat (EvStep t) n) s = Some s' /\ ms_acc s' = a' /\ ms_pc s' t = p' /\ (forall t', t' <> t -> ms_pc s' t' = ms_pc s t') /\ ms_started s' = ms_started s.
Proof.
  induction n as [|n IH]; intros s a' p' H; cbn [advs] in H.
  - injection H as <- <-. exists s. auto.
  - destruct (advance t (length (ms_started s)) (ms_pc s t) (ms_acc s)) as [[[a1 p1] o]|] eqn:E; [|discriminate].
    destruct (IH (moved s a1 t p1 o) a' p') as (s' & R & A & P & O & ST).
    { cbn [moved ms_started ms_pc ms_acc]. unfold upd_pc. rewrite Nat.eqb_refl. exact H. }
    exists s'. cbn [repeat mruns mstep]. rewrite E. repeat split; auto. intros t' N. rewrite O by exact N. cbn [moved ms_pc]. unfold upd_pc. apply Nat.eqb_neq in N. rewrite N. reflexivity.
Qed.
Lemma above_self v : above_max v (Some v) = false.
Proof. unfold above_max. destruct (Rlt_dec v v); [lra|reflexivity]. Qed.
Lemma below_self v : below_min v (Some v) = false.
Proof. unfold below_min. destruct (Rlt_dec v v); [lra|reflexivity]. Qed.

Section Many.
Context (v : R).
(** What add has in its locals after moment.py 43-44 on an accumulator whose count alone is set. *)
Definition loc : locals := mkLocals 1 0 0 0 (v - 0).
(** All threads have read the count 0 and are about to store 1. *)
Lemma phase_a : forall j, exists evs s, mruns evs mst_new = Some s /\ ms_acc s = mkMoments 0 (Some v) (Some v) 0 0 0 0 /\
  (forall t, ms_pc s t = if t <? S j then MStore t v 0 else Idle) /\ ms_started s = repeat v (S j).
Proof.
  assert (LT : forall s x, mstep (EvAdd x v) s = match ms_pc s x with Idle => Some (mkMst (ms_acc s) (upd_pc (ms_pc s) x (MTest (length (ms_started s)) v)) (ms_started s ++ [v]) (ms_log s)) | _ => None end) by reflexivity.
  induction j as [|j (evs & s & R & A & P & ST)].
  - destruct (run_advs 0 5 (mkMst mo_new (upd_pc (fun _ => Idle) 0 (MTest 0 v)) [v] []) (mkMoments 0 (Some v) (Some v) 0 0 0 0) (MStore 0 v 0)) as (s' & R & A & P & O & ST); [reflexivity|].
    exists (EvAdd 0 v :: repeat (EvStep 0) 5), s'. split; [exact R|]. split; [exact A|]. split; [|exact ST]. intros [|t]; [exact P|]. rewrite O by discriminate. reflexivity.
  - set (s1 := mkMst (ms_acc s) (upd_pc (ms_pc s) (S j) (MTest (length (ms_started s)) v)) (ms_started s ++ [v]) (ms_log s)).
    destruct (run_advs (S j) 3 s1 (mkMoments 0 (Some v) (Some v) 0 0 0 0) (MStore (S j) v 0)) as (s' & R' & A' & P' & O' & ST').
    { unfold s1. cbn [ms_pc ms_acc ms_started]. unfold upd_pc. rewrite Nat.eqb_refl, A, ST, repeat_length. cbn [advs advance]. rewrite above_self. cbn [advs advance]. rewrite below_self. reflexivity. }
    exists (evs ++ EvAdd (S j) v :: repeat (EvStep (S j)) 3), s'. split; [|split; [exact A'|split]].
    + rewrite (runs_app _ _ _ s R). cbn [mruns]. rewrite LT, P. replace (S j <? S j) with false by (symmetry; apply Nat.ltb_ge; lia). exact R'.
    + intros t. destruct (Nat.eq_dec t (S j)) as [->|N].
      * rewrite P'. replace (S j <? S (S j)) with true by (symmetry; apply Nat.ltb_lt; lia). reflexivity.
      * rewrite O' by exact N. unfold s1. cbn [ms_pc]. unfold upd_pc. apply Nat.eqb_neq in N as N'. rewrite N', P.
        destruct (Nat.ltb_spec t (S j)), (Nat.ltb_spec t (S (S j))); auto; lia.
    + rewrite ST'. unfold s1. cbn [ms_started]. rewrite ST. rewrite <- (repeat_cons (S j) v). reflexivity.
Qed.
(** The first [i] have stored it and computed with it. *)
Lemma phase_b k : forall i, i <= S k -> exists evs s, mruns evs mst_new = Some s /\ ms_acc s = mkMoments (if i =? 0 then 0 else 1) (Some v) (Some v) 0 0 0 0 /\
  (forall t, ms_pc s t = if t <? i then MMean t v loc else if t <? S k then MStore t v 0 else Idle) /\ ms_started s = repeat v (S k).
Proof.
  induction i as [|i IH]; intros L.
  - destruct (phase_a k) as (evs & s & R & A & P & ST). exists evs, s. auto.
  - destruct IH as (evs & s & R & A & P & ST); [lia|].
    destruct (run_advs i 6 s (mkMoments 1 (Some v) (Some v) 0 0 0 0) (MMean i v loc)) as (s' & R' & A' & P' & O' & ST').
    { rewrite A, P. replace (i <? i) with false by (symmetry; apply Nat.ltb_ge; lia). replace (i <? S k) with true by (symmetry; apply Nat.ltb_lt; lia). reflexivity. }
    exists (evs ++ repeat (EvStep i) 6), s'. split; [rewrite (runs_app _ _ _ s R); exact R'|]. split; [exact A'|]. split; [|congruence].
    intros t. destruct (Nat.eq_dec t i) as [->|N].
    + rewrite P'. replace (i <? S i) with true by (symmetry; apply Nat.ltb_lt; lia). reflexivity.
    + rewrite O', P by exact N. destruct (Nat.ltb_spec t i), (Nat.ltb_spec t (S i)); auto; lia.
Qed.
(** The first [i] have added their share to the mean and are done. *)
Lemma phase_c k : forall i, i <= S k -> exists evs s, mruns evs mst_new = Some s /\ ms_acc s = mkMoments 1 (Some v) (Some v) (INR i * v) 0 0 0 /\
  (forall t, ms_pc s t = if t <? i then Idle else if t <? S k then MMean t v loc else Idle) /\ ms_started s = repeat v (S k).
Proof.
  induction i as [|i IH]; intros L.
  - destruct (phase_b k (S k)) as (evs & s & R & A & P & ST); [lia|]. exists evs, s. split; [exact R|]. split; [rewrite A; cbn [Nat.eqb INR]; f_equal; lra|]. split; [|exact ST].
    intros t. rewrite P. replace (t <? 0) with false by (symmetry; apply Nat.ltb_ge; lia). destruct (t <? S k); reflexivity.
  - destruct IH as (evs & s & R & A & P & ST); [lia|].
    destruct (run_advs i 5 s (mkMoments 1 (Some v) (Some v) (INR i * v + delta_n loc) (new_m2 loc) (new_m3 loc) (new_m4 loc)) Idle) as (s' & R' & A' & P' & O' & ST').
    { rewrite A, P. replace (i <? i) with false by (symmetry; apply Nat.ltb_ge; lia). replace (i <? S k) with true by (symmetry; apply Nat.ltb_lt; lia). reflexivity. }
    exists (evs ++ repeat (EvStep i) 5), s'. split; [rewrite (runs_app _ _ _ s R); exact R'|]. split; [|split; [|congruence]].
    + rewrite A'. unfold new_m2, new_m3, new_m4, term, delta_n. cbn [loc lo_n lo_m2 lo_m3 lo_m4 lo_delta]. rewrite (S_INR i). cbn [INR]. f_equal; field.
    + intros t. destruct (Nat.eq_dec t i) as [->|N].
      * rewrite P'. replace (i <? S i) with true by (symmetry; apply Nat.ltb_lt; lia). reflexivity.
      * rewrite O', P by exact N. destruct (Nat.ltb_spec t i), (Nat.ltb_spec t (S i)); auto; lia.
Qed.
End Many.

(** However many threads there are, all adding the same value once and at the same time: they can
    leave a count of 1 and the sum of all values as the mean, which so has no bound in terms of the
    minimum and the maximum. *)
Theorem C103_mean_unbounded_refuted : forall (v : R) (k : nat), exists evs s, mruns evs mst_new = Some s /\ (forall t, ms_pc s t = Idle) /\
  ms_started s = repeat v (S k) /\ mo_count (ms_acc s) = 1 /\ mo_mean (ms_acc s) = (INR (S k) * v)%R /\ mo_min (ms_acc s) = Some v /\ mo_max (ms_acc s) = Some v.
Proof.
  intros v k. destruct (phase_c v k (S k)) as (evs & s & R & A & P & ST); [lia|]. exists evs, s. split; [exact R|]. rewrite A. split; [|repeat split; exact ST].
  intros t. rewrite P. destruct (t <? S k); reflexivity.
Qed.
(** With a hundred threads that add 1, a mean of 100. *)
Example C103_mean_100 : exists evs s, mruns evs mst_new = Some s /\ ms_started s = repeat 1%R 100 /\ mo_max (ms_acc s) = Some 1%R /\ mo_mean (ms_acc s) = 100%R.
Proof.
  destruct (C103_mean_unbounded_refuted 1%R 99) as (evs & s & R & _ & ST & _ & M & _ & X). exists evs, s. repeat split; auto. rewrite M, INR_IZR_INZ, Rmult_1_r. reflexivity.
Qed.

Print Assumptions C103_mean_unbounded_refuted.
