(** C102: reservoir quantiles used by several threads (quantile.py 27-32, 105-153). *)
From Coq Require Import Lia Permutation Sorted.
From Verif Require Import model.PyBase model.ReservoirThreads spec.ReservoirThreadSpec proof.ReservoirTrace proof.ReservoirThreadProofs proof.ReservoirApart.
Open Scope nat_scope.

(** Whatever the schedule: what the reservoir holds comes from different calls of add and has
    their values; the count is the number of some of the calls; the bounds, and the items a
    quantile is computed from, are values added. *)
Theorem C102_observed cap evs s : rruns cap evs rst_new = Some s ->
  traced (rs_started s) (held s) /\ number_of_calls (rs_started s) (ac_count (rs_acc s)) /\
  (forall x, ac_min (rs_acc s) = Some x \/ ac_max (rs_acc s) = Some x -> In x (rs_started s)) /\
  forall t m q x y, In (Got t m q x y) (rs_log s) -> In x (rs_started s) /\ In y (rs_started s).
Proof.
  intros H. pose proof (TI_run _ _ _ _ H TI_new) as HT. assert (HM : MI s) by (eapply MI_run; [exact H|exact TI_new|split; discriminate]).
  split; [|split; [|split; [intros x [K|K]; [apply (proj1 HM)|apply (proj2 HM)]; exact K|apply (ti_got s HT)]]].
  - unfold held. destruct (array_in (ac_arrays (rs_acc s)) (ac_data (rs_acc s))) as [E|E]; [rewrite E; apply traced_nil|]. apply (ti_lists s HT). left. exact E.
  - destruct (ti_count s HT) as (C & A & B & D). exists C. split; [exact A|]. split; [|exact D]. intros i K. apply (ti_counted s HT), B, K.
Qed.
(** Nothing blocks: a thread that is in a call can go on, and the call ends after at most 11 of
    its own steps. *)
Theorem C102_ends cap evs s s' t : rruns cap evs s = Some s' -> begins_none t evs ->
  steps_of t evs <= 11 /\ (rs_pc s' t <> Idle -> exists e s'', (e = EvStep t \/ e = EvRand t 0) /\ rstep cap e s' = Some s'').
Proof.
  intros H HB. pose proof (rank_run cap t evs s s' H HB). pose proof (rank_bound (rs_pc s t)). split; [lia|apply can_go].
Qed.
(** If no thread asks for quantiles, add never raises an error. *)
Theorem C102_add_returns cap evs s : no_reader evs -> rruns cap evs rst_new = Some s -> forall i, ~ In (AddRaised i) (rs_log s).
Proof. intros N H. apply (nr_raised cap s). eapply NR_run; [exact N|exact H|apply TI_new|apply NR_new]. Qed.
Lemma kept_aux cap evs s : no_reader evs -> rruns cap evs rst_new = Some s -> (forall t, rs_pc s t = Idle) ->
  roomy cap (held s) (rs_started s) -> Permutation (map fst (held s)) (rs_started s).
Proof.
  intros N H HI R. pose proof (TI_run _ _ _ _ H TI_new) as HT. assert (HN : NR cap s) by (eapply NR_run; [exact N|exact H|apply TI_new|apply NR_new]).
  destruct (nr_array cap s HN) as (l & E & HB). assert (EL : held s = l) by (unfold held; rewrite E, (nr_data cap s HN); reflexivity). rewrite EL in *.
  apply traced_all; [apply (ti_lists s HT); left; rewrite E; left; reflexivity|].
  intros i K. destruct (proj1 (HB R) i K) as [Q|(t & v & Q & _)]; [exact Q|]. rewrite HI in Q. discriminate.
Qed.
(** Then, when all calls have ended, every value added is held, if there were no more calls than
    the cap; *)
Theorem C102_kept cap evs s : no_reader evs -> rruns cap evs rst_new = Some s -> (forall t, rs_pc s t = Idle) ->
  within cap (length (rs_started s)) -> Permutation (map fst (held s)) (rs_started s).
Proof. intros N H HI W. eapply kept_aux; eauto. right. exact W. Qed.
(** if there were more, at least as many as the cap are. *)
Theorem C102_full c evs s : no_reader evs -> rruns (Some c) evs rst_new = Some s -> (forall t, rs_pc s t = Idle) ->
  c <= length (rs_started s) -> c <= length (held s).
Proof.
  intros N H HI L. destruct (Nat.le_gt_cases c (length (held s))) as [K|K]; [exact K|].
  assert (P : Permutation (map fst (held s)) (rs_started s)) by (eapply kept_aux; eauto; left; cbn; apply Nat.ltb_lt; exact K).
  apply Permutation_length in P. rewrite map_length in P. unfold item in *. lia.
Qed.
(** If one thread asks for quantiles, it never gets an IndexError, once the reservoir holds
    something, whatever the others add meanwhile. *)
Theorem C102_one_reader cap t evs1 evs2 s s' : only_reader t (evs1 ++ evs2) -> rruns cap evs1 rst_new = Some s -> rs_pc s t = Idle -> held s <> [] ->
  rruns cap evs2 s = Some s' -> exists o, rs_log s' = o ++ rs_log s /\ forall t', ~ In (QRaised t') o.
Proof.
  intros HR H1 HI HN H2. eapply OR_run; [|exact H2|]; [intros t' q K; eapply HR; apply in_or_app; right; exact K|].
  constructor; [|exact HN|rewrite HI; exact I].
  eapply others_idle; [|exact H1|reflexivity]. intros t' q K. eapply HR. apply in_or_app. left. exact K.
Qed.
(** If calls do not overlap, and there were no more than the cap, the reservoir holds the values
    added, count, minimum and maximum are theirs, and quantiles are computed from the items whose
    places in their order are next to [q * (m - 1)]. *)
Theorem C102_exact cap evs s : rruns cap evs rst_new = Some s -> apart cap evs rst_new -> within cap (length (rs_started s)) ->
  (forall t m q x y, In (Got t m q x y) (rs_log s) -> m <= length (rs_started s) /\
     exists lo hi, beside q m lo hi /\ kth_in_order (firstn m (rs_started s)) lo x /\ kth_in_order (firstn m (rs_started s)) hi y) /\
  (forall i, ~ In (AddRaised i) (rs_log s)) /\
  ((forall t, rs_pc s t = Idle) -> Permutation (map fst (held s)) (rs_started s) /\ ac_count (rs_acc s) = length (rs_started s) /\
     least (rs_started s) (ac_min (rs_acc s)) /\ greatest (rs_started s) (ac_max (rs_acc s))).
Proof.
  intros H HA W. destruct (AI_run _ _ _ _ H HA (AI_new cap) W) as ((t & _ & P) & T1 & T2).
  split; [intros t0 m q x y K; destruct (T2 _ _ _ _ _ K) as (Q & L & K1 & K2); split; [exact L|]; exists (idx_floor q m), (idx_ceil q m); auto using idx_beside|]. split; [exact T1|].
  intros HI. rewrite HI in P. destruct P as ((_ & K) & (M1 & M2 & M3) & _). auto.
Qed.

(** A thread runs [n] steps. *)
Definition go (t n : nat) : list ev := repeat (EvStep t) n.
Ltac idle := let t := fresh in intros t; destruct t as [|[|[|t]]]; reflexivity.

(** Two threads that add at the same time can exceed the cap, *)
Theorem C102_cap_refuted : exists evs s, rruns (Some 1) evs rst_new = Some s /\ no_reader evs /\ (forall t, rs_pc s t = Idle) /\ length (held s) = 2.
Proof.
  exists ([EvAdd 0 5%Z; EvAdd 1 6%Z] ++ go 0 1 ++ go 1 1 ++ go 0 9 ++ go 1 8). eexists. split; [vm_compute; reflexivity|].
  split; [intros t q K; cbn in K; intuition discriminate|]. split; [idle|reflexivity].
Qed.
(** and lose counts: both values are held, and the count is 1; *)
Theorem C102_count_refuted : exists evs s, rruns None evs rst_new = Some s /\ no_reader evs /\ (forall t, rs_pc s t = Idle) /\
  length (held s) = 2 /\ ac_count (rs_acc s) = 1.
Proof.
  exists ([EvAdd 0 5%Z; EvAdd 1 6%Z] ++ go 0 5 ++ go 1 5 ++ go 0 5 ++ go 1 4). eexists. split; [vm_compute; reflexivity|].
  split; [intros t q K; cbn in K; intuition discriminate|]. split; [idle|]. split; reflexivity.
Qed.
(** and the minimum and the maximum can be wrong. *)
Theorem C102_bounds_refuted : exists evs s, rruns None evs rst_new = Some s /\ no_reader evs /\ (forall t, rs_pc s t = Idle) /\
  rs_started s = [5; 3]%Z /\ ac_min (rs_acc s) = Some 5%Z /\ ac_max (rs_acc s) = Some 3%Z.
Proof.
  exists ([EvAdd 0 5%Z; EvAdd 1 3%Z] ++ go 0 7 ++ go 1 8 ++ go 0 2 ++ go 1 1 ++ go 0 1 ++ go 1 1). eexists. split; [vm_compute; reflexivity|].
  split; [intros t q K; cbn in K; intuition discriminate|]. split; [idle|]. repeat split.
Qed.
(** A value is lost if a quantile is asked for while it is added, though add returned. *)
Theorem C102_lost_refuted : exists evs s, rruns None evs rst_new = Some s /\ only_reader 1 evs /\ (forall t, rs_pc s t = Idle) /\
  In (Added 1) (rs_log s) /\ ~ In 1 (map snd (held s)) /\ ac_count (rs_acc s) = 2.
Proof.
  exists (EvAdd 0 5%Z :: go 0 10 ++ EvAdd 0 6%Z :: EvRead 1 (1, 2)%Z :: go 1 2 ++ go 0 9 ++ go 1 5). eexists. split; [vm_compute; reflexivity|].
  split; [intros t q K; cbn in K; intuition; congruence|]. split; [idle|]. split; [right; left; reflexivity|]. split; [|reflexivity].
  intros [K|[]]. discriminate.
Qed.
(** The mark that the reservoir is in order can be wrong: then, with all calls ended and no call
    under way, the median is wrong: 7 for 5, 7, 3. *)
Theorem C102_stale_refuted : exists evs evs' s s', rruns None evs rst_new = Some s /\ only_reader 1 (evs ++ evs') /\ (forall t, rs_pc s t = Idle) /\
  rs_started s = [5; 7; 3]%Z /\ Permutation (map fst (held s)) (rs_started s) /\
  rruns None evs' s = Some s' /\ apart None evs' s /\ (exists o, rs_log s' = Got 1 3 (1, 2)%Z 7 7 :: o) /\ ~ kth_in_order (rs_started s) 1 7.
Proof.
  exists (EvAdd 0 5%Z :: go 0 10 ++ EvAdd 0 7%Z :: go 0 9 ++ EvRead 1 (1, 2)%Z :: go 1 3 ++ EvAdd 0 3%Z :: go 0 9 ++ go 1 4), (EvRead 1 (1, 2)%Z :: go 1 4). eexists. eexists. split; [vm_compute; reflexivity|].
  split; [intros t q K; cbn in K; intuition; congruence|]. split; [idle|]. split; [reflexivity|]. split; [vm_compute; reflexivity|].
  split; [vm_compute; reflexivity|]. split; [cbn [apart app go repeat]; split; [idle|]; vm_compute; auto 10|]. split; [eexists; reflexivity|].
  intros (l & P & S & _ & E). change (Z.to_nat 1) with 1 in E. cbn in P.
  destruct l as [|a [|b [|c [|]]]]; try (apply Permutation_length in P; discriminate). cbn in E. injection E as ->.
  inversion S as [|? ? S1 S2]; subst. inversion S1 as [|? ? _ S3]; subst. inversion S3 as [|? ? Hc _]; subst.
  assert (Kc : In c [5; 7; 3]%Z) by (eapply Permutation_in; [symmetry; exact P|right; right; left; reflexivity]).
  assert (c = 7%Z) as -> by (cbn in Kc; lia).
  assert (N : NoDup [a; 7; 7]%Z) by (eapply Permutation_NoDup; [exact P|repeat constructor; cbn; lia]).
  inversion N as [|? ? _ N1]; subst. inversion N1 as [|? ? N2 _]; subst. apply N2. left. reflexivity.
Qed.
(** With a cap, add can raise an IndexError after a value was lost: by one thread that adds and
    one that asks for quantiles. *)
Theorem C102_add_raises_refuted : exists evs s, rruns (Some 2) evs rst_new = Some s /\ only_reader 1 evs /\ In (AddRaised 2) (rs_log s).
Proof.
  exists (EvAdd 0 1%Z :: go 0 10 ++ EvAdd 0 2%Z :: go 0 2 ++ EvRead 1 (1, 2)%Z :: go 1 3 ++ go 0 7 ++ EvAdd 0 3%Z :: go 0 1 ++ EvRand 0 1 :: go 0 2). eexists. split; [vm_compute; reflexivity|].
  split; [intros t q K; cbn in K; intuition; congruence|]. left. reflexivity.
Qed.
(** Two threads that ask for quantiles while a third adds: one gets an IndexError, though the
    reservoir was never empty meanwhile. *)
Theorem C102_readers_refuted : exists evs1 evs2 s s', rruns None evs1 rst_new = Some s /\ (forall t, rs_pc s t = Idle) /\ held s <> [] /\
  rruns None evs2 s = Some s' /\ In (QRaised 1) (rs_log s').
Proof.
  exists (EvAdd 0 1%Z :: go 0 10), (EvRead 1 (9, 10)%Z :: go 1 5 ++ EvAdd 0 2%Z :: go 0 9 ++ EvRead 2 (1, 2)%Z :: go 2 3 ++ EvAdd 0 3%Z :: go 0 9 ++ go 1 3). eexists. eexists. split; [vm_compute; reflexivity|].
  split; [idle|]. split; [discriminate|]. split; [vm_compute; reflexivity|]. left. reflexivity.
Qed.

(** Two threads add three values, with a cap of 2, and interleave; *)
Example C102_shared : exists s, rruns (Some 2) (EvAdd 0 5%Z :: EvAdd 1 7%Z :: go 0 10 ++ go 1 9 ++ EvAdd 1 3%Z :: go 1 1 ++ EvRand 1 1 :: go 1 8) rst_new = Some s /\
  (forall t, rs_pc s t = Idle) /\ held s = [(5%Z, 0); (3%Z, 2)] /\ ac_min (rs_acc s) = Some 3%Z.
Proof. eexists. split; [vm_compute; reflexivity|]. split; [idle|]. split; reflexivity. Qed.
(** one thread reads while another adds; *)
Example C102_reading : exists s s', rruns None (EvAdd 0 5%Z :: go 0 10) rst_new = Some s /\ held s <> [] /\
  rruns None (EvRead 1 (1, 2)%Z :: EvAdd 0 8%Z :: go 1 2 ++ go 0 9 ++ go 1 5) s = Some s' /\ In (Got 1 2 (1, 2)%Z 5 5) (rs_log s').
Proof. eexists. eexists. split; [vm_compute; reflexivity|]. split; [discriminate|]. split; [vm_compute; reflexivity|]. left. reflexivity. Qed.
(** calls one after another: the 30th percentile of 9, 4, 6 lies between 4 and 6. *)
Example C102_apart : exists evs s, rruns None evs rst_new = Some s /\ apart None evs rst_new /\ (forall t, rs_pc s t = Idle) /\ rs_started s = [9; 4; 6]%Z /\
  In (Got 1 3 (3, 10)%Z 4 6) (rs_log s).
Proof.
  exists (EvAdd 0 9%Z :: go 0 10 ++ EvAdd 1 4%Z :: go 1 9 ++ EvAdd 0 6%Z :: go 0 8 ++ EvRead 1 (3, 10)%Z :: go 1 8). eexists. split; [vm_compute; reflexivity|].
  split; [repeat (cbn [apart app go repeat]; split; [first [exact I|idle]|cbn -[upd_pc]]); exact I|]. split; [idle|]. split; [reflexivity|]. left. reflexivity.
Qed.

Print Assumptions C102_observed.
Print Assumptions C102_ends.
Print Assumptions C102_add_returns.
Print Assumptions C102_kept.
Print Assumptions C102_full.
Print Assumptions C102_one_reader.
Print Assumptions C102_exact.
Print Assumptions C102_cap_refuted.
Print Assumptions C102_count_refuted.
Print Assumptions C102_bounds_refuted.
Print Assumptions C102_lost_refuted.
Print Assumptions C102_stale_refuted.
Print Assumptions C102_add_raises_refuted.
Print Assumptions C102_readers_refuted.
