(** C96: reading the totals of a RateSink while other threads deliver to it. *)
From Verif Require Import model.PyBase model.StatReads spec.StatReadsSpec proof.StatReadsProofs proof.StatReadsReader proof.StatReadsCounts.
Open Scope nat_scope.

(** A read that returns, whatever the threads and the schedule: [a] is what had happened
    when it was called, [b] what happened until it returned.  No group is reported twice,
    every group to which a delivery had returned is reported, no count exceeds the number
    of deliveries called, only groups delivered to are reported, and the aggregates add up. *)
Theorem C96_read : forall progs sc t a b out c,
  s_trace (srun sc (sstart progs)) = a ++ SReadStart t :: b ++ SReadDone t out :: c -> ~ In (SReadStart t) b ->
  NoDup (map fst (stats_of out)) /\
  (forall g, done g a > 0 -> exists n, In (g, n) (stats_of out)) /\
  (forall g n, In (g, n) (stats_of out) -> n <= called g (a ++ b) /\ called g (a ++ b) > 0) /\
  adds_up out.
Proof.
  intros progs sc t a b out c E N. destruct (read_ends _ _ _ _ _ _ _ E N) as (F1 & F2 & F3 & F4). split; [exact F1|]. split; [|split; [|exact F3]].
  - intros g D. specialize (F2 g D). apply in_map_iff in F2. destruct F2 as ([g' n] & Eg & I). cbn in Eg. subst g'. exists n. exact I.
  - intros g n I. destruct (F4 _ _ I) as (U1 & U2 & _). split; assumption.
Qed.
Print Assumptions C96_read.

(** A group only one thread delivers to is reported with a count between the deliveries
    that had returned when the read was called and those called by the time it returned. *)
Theorem C96_bounds : forall progs sc t a b out c g n t0,
  s_trace (srun sc (sstart progs)) = a ++ SReadStart t :: b ++ SReadDone t out :: c -> ~ In (SReadStart t) b ->
  delivers_alone t0 g progs -> In (g, n) (stats_of out) ->
  done g a <= n <= called g (a ++ b).
Proof.
  intros progs sc t a b out c g n t0 E N Al I. destruct (read_ends _ _ _ _ _ _ _ E N) as (_ & _ & _ & F4). destruct (F4 _ _ I) as (U1 & _ & U3). split; [|exact U1]. apply U3. exists t0. exact Al.
Qed.
Print Assumptions C96_bounds.

(** With no delivery to the group under way or started during the read, the count is exact. *)
Theorem C96_exact : forall progs sc t a b out c g t0,
  s_trace (srun sc (sstart progs)) = a ++ SReadStart t :: b ++ SReadDone t out :: c -> ~ In (SReadStart t) b ->
  delivers_alone t0 g progs -> called g (a ++ b) = done g a ->
  forall n, In (g, n) (stats_of out) <-> n = done g a /\ n > 0.
Proof.
  intros progs sc t a b out c g t0 E N Al Q n. split.
  - intros I. pose proof (C96_bounds _ _ _ _ _ _ _ _ _ _ E N Al I) as B. destruct (C96_read _ _ _ _ _ _ _ E N) as (_ & _ & U & _). destruct (U _ _ I) as [_ U2]. lia.
  - intros [-> P]. destruct (C96_read _ _ _ _ _ _ _ E N) as (_ & R & _). destruct (R g P) as [m I]. pose proof (C96_bounds _ _ _ _ _ _ _ _ _ _ E N Al I) as B. replace (done g a) with m by lia. exact I.
Qed.
Print Assumptions C96_exact.

(** A read raises only if the first delivery to some group had not returned when the read
    was called, and was called before it raised. *)
Theorem C96_fails_only_on_new_groups : forall progs sc t a b c,
  s_trace (srun sc (sstart progs)) = a ++ SReadStart t :: b ++ SReadFailed t :: c -> ~ In (SReadStart t) b ->
  exists g, called g (a ++ b) > 0 /\ done g a = 0.
Proof. exact read_fails. Qed.
Print Assumptions C96_fails_only_on_new_groups.

(** The programs and the schedule of the examples. *)
Definition ex_progs : list (list sop) := [[Deliver (0, 0, 0); Deliver (0, 0, 0); Deliver (0, 1, 0)]; [Deliver (1, 0, 0)]; [ReadTotals]].
(* thread 0 delivers once and half of a second time; thread 1 delivers; the read runs while thread 0 finishes its second delivery *)
Definition ex_sched : list nat := repeat 0 8 ++ repeat 1 8 ++ repeat 0 4 ++ repeat 2 9 ++ repeat 0 3 ++ repeat 2 12.

(** Reads do not disturb deliveries: once no thread can move, every delivery in the programs
    has been made and has returned. *)
Theorem C96_all_delivered : forall progs sc g,
  (forall t, sstep t (srun sc (sstart progs)) = None) -> done g (s_trace (srun sc (sstart progs))) = planned g progs.
Proof. exact all_delivered. Qed.
Print Assumptions C96_all_delivered.
Example C96_all_delivered_run : let w := srun (ex_sched ++ repeat 0 8) (sstart ex_progs) in (forall t, sstep t w = None) /\ planned (0, 0, 0) ex_progs = 2.
Proof. cbn zeta. split; [|vm_compute; reflexivity]. intros [|[|[|t]]]; vm_compute; try reflexivity. destruct t; reflexivity. Qed.

(** *** A concrete run *)
Definition ex_out : list sline := [LStat (0, 0, 0) 1; LName 0 0 1; LLogger 0 1; LStat (1, 0, 0) 1; LName 1 0 1; LLogger 1 1; LAll 2].
Example C96_run : exists a b, s_trace (srun ex_sched (sstart ex_progs)) = a ++ SReadStart 2 :: b ++ SReadDone 2 ex_out :: [] /\
  ~ In (SReadStart 2) b /\ done (0, 0, 0) a = 1 /\ called (0, 0, 0) (a ++ b) = 2 /\ called (1, 0, 0) (a ++ b) = done (1, 0, 0) a /\
  delivers_alone 0 (0, 0, 0) ex_progs /\ delivers_alone 1 (1, 0, 0) ex_progs.
Proof.
  exists (firstn 7 (s_trace (srun ex_sched (sstart ex_progs)))), (firstn 2 (skipn 8 (s_trace (srun ex_sched (sstart ex_progs))))).
  split; [vm_compute; reflexivity|]. split; [vm_compute; intuition discriminate|]. do 3 (split; [vm_compute; reflexivity|]).
  split; intros [|[|[|[|t']]]] p E I; cbn in E; try discriminate; try (injection E as <-; cbn in I; intuition congruence).
Qed.

(** *** What does not hold *)
(** A read does raise RuntimeError when another thread delivers the first event of a group. *)
Theorem C96_never_fails_refuted : exists progs sc t, In (SReadFailed t) (s_trace (srun sc (sstart progs))).
Proof.
  exists [[Deliver (0, 0, 0); Deliver (1, 0, 0)]; [ReadTotals]], (repeat 0 8 ++ repeat 1 3 ++ repeat 0 2 ++ repeat 1 8), 1. vm_compute. tauto.
Qed.
Print Assumptions C96_never_fails_refuted.

(** With two threads delivering to one group a later read can report a smaller count. *)
Theorem C96_monotone_refuted : exists progs sc g a b c out1 out2 n1 n2,
  s_trace (srun sc (sstart progs)) = a ++ SReadDone 2 out1 :: b ++ SReadDone 2 out2 :: c /\
  In (g, n1) (stats_of out1) /\ In (g, n2) (stats_of out2) /\ n2 < n1.
Proof.
  pose (progs := [[Deliver (0, 0, 0)]; [Deliver (0, 0, 0); Deliver (0, 0, 0)]; [ReadTotals; ReadTotals]]).
  pose (sc := [1; 1; 1; 1; 1] ++ repeat 0 5 ++ repeat 1 12 ++ repeat 2 11 ++ repeat 0 3 ++ repeat 2 13).
  pose (out := fun n => [LStat (0, 0, 0) n; LName 0 0 n; LLogger 0 n; LAll n]).
  pose (tr := s_trace (srun sc (sstart progs))).
  exists progs, sc, (0, 0, 0), (firstn 8 tr), (firstn 3 (skipn 9 tr)), (skipn 13 tr), (out 2), (out 1), 2, 1.
  split; [vm_compute; reflexivity|]. cbn. split; [left; reflexivity|]. split; [left; reflexivity|]. lia.
Qed.
Print Assumptions C96_monotone_refuted.

(** A result need not be what the counts were at any one moment: a read can count a delivery
    and miss one that returned before it was called. *)
Theorem C96_snapshot_refuted : exists progs sc out,
  (exists t0, forall g, delivers_alone t0 g progs) /\ In (SReadDone 1 out) (s_trace (srun sc (sstart progs))) /\
  forall p q, s_trace (srun sc (sstart progs)) = p ++ q -> ~ (forall g n, In (g, n) (stats_of out) -> done g p <= n <= called g p).
Proof.
  pose (progs := [[Deliver (0, 0, 0); Deliver (1, 0, 0); Deliver (0, 0, 0); Deliver (1, 0, 0)]; [ReadTotals]]).
  pose (sc := repeat 0 16 ++ repeat 1 8 ++ repeat 0 14 ++ repeat 1 20).
  exists progs, sc, [LStat (0, 0, 0) 1; LName 0 0 1; LLogger 0 1; LStat (1, 0, 0) 2; LName 1 0 2; LLogger 1 2; LAll 3].
  split; [exists 0; intros g [|[|[|t']]] p E I; cbn in E; try discriminate; try reflexivity; injection E as <-; destruct I as [I|[]]; discriminate|].
  split; [vm_compute; tauto|]. intros p q E H. pose proof (H (0, 0, 0) 1 (or_introl eq_refl)) as H1. pose proof (H (1, 0, 0) 2 (or_intror (or_introl eq_refl))) as H2. clear H.
  assert (K : forall k, done (0, 0, 0) (firstn k (s_trace (srun sc (sstart progs)))) <= 1 -> 2 <= called (1, 0, 0) (firstn k (s_trace (srun sc (sstart progs)))) -> False).
  { intros k. pose (tr := s_trace (srun sc (sstart progs))). fold tr. assert (T : tr = ltac:(let x := eval vm_compute in tr in exact x)) by (vm_compute; reflexivity). rewrite T. clear.
    do 16 (destruct k as [|k]; [vm_compute; lia|]). rewrite firstn_all2 by (cbn; lia). vm_compute. lia. }
  apply (K (length p)); rewrite E, firstn_app, Nat.sub_diag, firstn_all, app_nil_r; lia.
Qed.
Print Assumptions C96_snapshot_refuted.
