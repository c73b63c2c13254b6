(** C103: moments used by several threads (moment.py 24-71). *)
From Coq Require Import Reals Lra Lia.
From Verif Require Import model.PyBase model.Moments model.MomentThreads spec.MomentThreadSpec proof.MomentThreadProofs.
Open Scope nat_scope.

(** Whatever the schedule: the count is the number of some of the calls of add; minimum and
    maximum are values added, and are there once something is counted. *)
Theorem C103_observed evs s : mruns evs mst_new = Some s ->
  number_of_calls (ms_started s) (mo_count (ms_acc s)) /\
  (forall x, mo_min (ms_acc s) = Some x \/ mo_max (ms_acc s) = Some x -> In x (ms_started s)) /\
  (1 <= mo_count (ms_acc s) -> exists x y, mo_min (ms_acc s) = Some x /\ mo_max (ms_acc s) = Some y).
Proof.
  intros H. pose proof (TI_run _ _ _ H TI_new) as HT. split; [|split].
  - destruct (ti_count s HT) as (C & A & B & D). exists C. split; [exact A|]. split; [|exact D]. intros i K. apply (ti_counted s HT), B, K.
  - intros x [K|K]; [apply (ti_min s HT)|apply (ti_max s HT)]; exact K.
  - intros K. destruct (ti_bounds s HT K) as (A & B). destruct (mo_min (ms_acc s)) as [x|]; [|contradiction]. destruct (mo_max (ms_acc s)) as [y|]; [|contradiction]. eauto.
Qed.
(** The variance is never negative: neither any that a thread was given while others were adding,
    nor what a call of its own would give, so that its square root exists. *)
Theorem C103_variance evs s : mruns evs mst_new = Some s ->
  (forall t m x, In (Variance t m x) (ms_log s) -> (0 <= x)%R) /\ (0 <= mo_variance (ms_acc s))%R.
Proof.
  intros H. pose proof (TI_run _ _ _ H TI_new) as HT. split; [apply (ti_var s HT)|]. unfold mo_variance. apply div_nonneg; apply (ti_m2 s HT).
Qed.
(** Nothing blocks: a thread that is in a call can go on, and the call ends after at most 16 of
    its own steps. *)
Theorem C103_ends evs s s' t : mruns evs s = Some s' -> begins_none t evs ->
  steps_of t evs <= 16 /\ (ms_pc s' t <> Idle -> exists s'', mstep (EvStep t) s' = Some s'').
Proof.
  intros H HB. pose proof (rank_run t evs s s' H HB) as K. split; [|apply can_go]. assert (rank (ms_pc s t) <= 16) by (destruct (ms_pc s t); cbn; lia). lia.
Qed.
(** If calls do not overlap, the accumulator is what one thread would have made of the values in
    the order of the calls (so all of C27 and C28 holds of it), and so is every variance. *)
Theorem C103_exact evs s : mruns evs mst_new = Some s -> apart evs mst_new ->
  ((forall t, ms_pc s t = Idle) -> ms_acc s = mo_adds (ms_started s)) /\
  forall t m x, In (Variance t m x) (ms_log s) -> m <= length (ms_started s) /\ x = mo_variance (mo_adds (firstn m (ms_started s))).
Proof.
  intros H HA. destruct (AI_run _ _ _ H HA AI_new) as ((t & _ & P) & T). split; [|exact T]. intros HI. rewrite HI in P. exact P.
Qed.

(** A thread runs [n] steps. *)
Definition go (t n : nat) : list ev := repeat (EvStep t) n.
Lemma run_cons e evs s s1 s' : mstep e s = Some s1 -> mruns evs s1 = Some s' -> mruns (e :: evs) s = Some s'.
Proof. intros H K. cbn. rewrite H. exact K. Qed.
Lemma above_no v m : (v <= m)%R -> above_max v (Some m) = false.
Proof. intros H. unfold above_max. destruct (Rlt_dec m v); [lra|reflexivity]. Qed.
Lemma above_yes v m : (m < v)%R -> above_max v (Some m) = true.
Proof. intros H. unfold above_max. destruct (Rlt_dec m v); [reflexivity|lra]. Qed.
Lemma below_no v m : (m <= v)%R -> below_min v (Some m) = false.
Proof. intros H. unfold below_min. destruct (Rlt_dec v m); [lra|reflexivity]. Qed.
Ltac settle := match goal with
  | |- context [above_max ?v (Some ?m)] => first [rewrite (above_no v m) by lra | rewrite (above_yes v m) by lra]
  | |- context [below_min ?v (Some ?m)] => rewrite (below_no v m) by lra
  end.
Ltac one := eapply run_cons; [cbn -[above_max below_min delta_n new_m2 new_m3 new_m4 div_or_zero INR IZR Rplus Rminus]; try settle; try change (above_max _ None) with true; cbn -[above_max below_min delta_n new_m2 new_m3 new_m4 div_or_zero INR IZR Rplus Rminus]; reflexivity|].
Ltac idle := let t := fresh in intros t; destruct t as [|[|[|t]]]; reflexivity.

(** Two threads that add 10 each at the same time can leave a count of 1 and a mean of 20, which
    is greater than the maximum. *)
Theorem C103_mean_refuted : exists evs s, mruns evs mst_new = Some s /\ (forall t, ms_pc s t = Idle) /\ ms_started s = [10; 10]%R /\
  mo_count (ms_acc s) = 1 /\ mo_mean (ms_acc s) = 20%R /\ mo_max (ms_acc s) = Some 10%R.
Proof.
  exists (EvAdd 0 10%R :: EvAdd 1 10%R :: go 0 5 ++ go 1 3 ++ go 0 6 ++ go 1 6 ++ go 0 5 ++ go 1 5). eexists. split.
  { cbn [go repeat app]. repeat one. reflexivity. }
  split; [idle|]. split; [reflexivity|]. split; [reflexivity|]. split; [|reflexivity].
  cbn. unfold delta_n. cbn. lra.
Qed.
(** The minimum can be wrong: 7 for 5 and 7, both counted. *)
Theorem C103_min_refuted : exists evs s, mruns evs mst_new = Some s /\ (forall t, ms_pc s t = Idle) /\ ms_started s = [5; 7]%R /\
  mo_count (ms_acc s) = 2 /\ mo_min (ms_acc s) = Some 7%R.
Proof.
  exists (EvAdd 0 5%R :: go 0 2 ++ EvAdd 1 7%R :: go 1 16 ++ go 0 13). eexists. split.
  { cbn [go repeat app]. repeat one. reflexivity. }
  split; [idle|]. repeat split.
Qed.
(** The variance can be wrong when all calls have ended: 0 for 0 and 2, both counted. *)
Theorem C103_variance_refuted : exists evs s, mruns evs mst_new = Some s /\ (forall t, ms_pc s t = Idle) /\ ms_started s = [0; 2]%R /\
  mo_count (ms_acc s) = 2 /\ mo_variance (ms_acc s) = 0%R /\ mo_variance (mo_adds [0; 2]%R) = 2%R.
Proof.
  exists (EvAdd 0 0%R :: go 0 15 ++ EvAdd 1 2%R :: go 1 15 ++ go 0 1). eexists. split.
  { cbn [go repeat app]. repeat one. reflexivity. }
  split; [idle|]. split; [reflexivity|]. split; [reflexivity|]. split.
  - unfold mo_variance, div_or_zero, new_m2, term, delta_n. cbn. destruct (Req_EM_T (1 + 1 - 1) 0); lra.
  - unfold mo_adds. cbn [fold_left]. unfold mo_add at 2. cbn [mo_new mo_count mo_min mo_max mo_mean mo_m2 mo_m3 mo_m4 above_max Nat.eqb].
    unfold mo_add. cbn [mo_count mo_min mo_max mo_mean mo_m2 mo_m3 mo_m4 Nat.eqb]. settle. unfold mo_variance. cbn [mo_count mo_m2]. unfold div_or_zero. destruct (Req_EM_T (INR 2 - 1) 0) as [E|E]; cbn in *; [lra|]. field.
Qed.

(** Two threads add at the same time, and a third is given a variance meanwhile; *)
Example C103_shared : exists evs s x, mruns evs mst_new = Some s /\ mo_count (ms_acc s) = 2 /\ In (Variance 2 2 x) (ms_log s).
Proof.
  exists (EvAdd 0 5%R :: EvAdd 1 7%R :: go 0 6 ++ go 1 2 ++ EvVariance 2 :: go 2 1 ++ go 1 4 ++ go 2 1). eexists. eexists. split.
  { cbn [go repeat app]. repeat one. reflexivity. }
  split; [reflexivity|]. left. reflexivity.
Qed.
(** calls one after another: the variance of 1 and 3 is 2. *)
Lemma apart_cons e evs s s1 s' : mstep e s = Some s1 -> match e with EvStep _ => True | _ => forall t, ms_pc s t = Idle end ->
  mruns evs s1 = Some s' /\ apart evs s1 -> mruns (e :: evs) s = Some s' /\ apart (e :: evs) s.
Proof. intros H K (A & B). cbn. rewrite H. auto. Qed.
Example C103_apart : exists evs s, (mruns evs mst_new = Some s /\ apart evs mst_new) /\ (forall t, ms_pc s t = Idle) /\ ms_started s = [1; 3]%R /\
  exists x, In (Variance 0 2 x) (ms_log s).
Proof.
  exists (EvAdd 0 1%R :: go 0 16 ++ EvAdd 1 3%R :: go 1 15 ++ EvVariance 0 :: go 0 2). eexists. split.
  { cbn [go repeat app].
    repeat (eapply apart_cons; [cbn -[above_max below_min delta_n new_m2 new_m3 new_m4 div_or_zero INR IZR Rplus Rminus]; try settle; try change (above_max _ None) with true; cbn -[above_max below_min delta_n new_m2 new_m3 new_m4 div_or_zero INR IZR Rplus Rminus]; reflexivity|first [exact I|idle]|]).
    split; [reflexivity|exact I]. }
  split; [idle|]. split; [reflexivity|]. eexists. left. reflexivity.
Qed.

Print Assumptions C103_observed.
Print Assumptions C103_variance.
Print Assumptions C103_ends.
Print Assumptions C103_exact.
Print Assumptions C103_mean_refuted.
Print Assumptions C103_min_refuted.
Print Assumptions C103_variance_refuted.
