(** C80: a RateSink fed by several threads. *)
From Verif Require Import model.PyBase model.Core model.Sinks model.SinkThreads spec.SinkSpec spec.SinkThreadsSpec proof.SinkThreadsProofs.
From Verif Require proof.CoreLib proof.ConcurrentProofs.
Open Scope nat_scope.

(** C80: under every schedule a group's total count never exceeds the number of end events
    of the group handed to the sink; and once nobody is inside the sink, a group that
    got an event has a count of at least one. *)
Theorem C80_bounds :
  forall size progs sc k, let w := rrun size sc (rstart progs) in
  rcount w k <= calls k (rs_trace w) /\
  (nobody_busy w -> returned k (rs_trace w) <> [] -> 1 <= rcount w k).
Proof.
  intros size progs sc k w. pose proof (sinv_run size progs sc) as I. fold w in I. unfold rcount. split.
  - destruct (rs_map w k) as [a|] eqn:E; [|lia]. destruct (si_map _ I _ _ E) as (s & E1 & E2). rewrite E1. pose proof (si_cnt _ I _ _ E1). subst k. lia.
  - intros HQ HR. pose proof (si_def _ I _ HR) as HD. destruct (rs_map w k) as [a|] eqn:E; [|congruence]. destruct (si_map _ I _ _ E) as (s & E1 & E2). rewrite E1.
    destruct (sa_count s) eqn:E3; [|lia]. destruct (si_pos _ I _ _ _ E E1 E3) as (t & th & F1 & F2). exfalso.
    unfold nobody_busy in HQ. rewrite Forall_forall in HQ. apply (HQ th (nth_error_In _ _ F1)). unfold busy. intros X. rewrite X in F2. exact F2.
Qed.
Print Assumptions C80_bounds.

(** C80: when no two calls of on_end overlap, as when one thread delivers or when all
    deliveries are made by flush (C15_one_deliverer), the counts are exact and the sample
    is the most recent values, however many threads take turns. *)
Theorem C80_exact_without_overlap :
  forall size progs sc, no_overlap size sc (rstart progs) ->
  let w := rrun size sc (rstart progs) in nobody_busy w ->
  forall k, rcount w k = length (returned k (rs_trace w)) /\ rtimes w k = most_recent size (returned k (rs_trace w)).
Proof.
  intros size progs sc HN w HQ k. pose proof (xinv_run size progs sc HN) as I. fold w in I. split; [|apply (xi_times _ _ I)].
  rewrite (xi_cnt _ _ I). replace (written k (rs_threads w)) with (@nil nat); [rewrite app_nil_r; reflexivity|].
  unfold nobody_busy in HQ. induction HQ as [|th l H HQ IH]; [reflexivity|]. unfold written in *. cbn [flat_map]. rewrite <- IH. unfold busy in H. destruct (rt_pc th); try reflexivity; destruct H; discriminate.
Qed.
Print Assumptions C80_exact_without_overlap.

(** Two threads taking turns, two groups, a sample of two. *)
Example C80_exact_nonvacuous :
  let sc := [0; 0; 0; 0; 0; 0; 1; 1; 1; 1; 1; 0; 0; 0; 0; 0; 1; 1; 1; 1; 1; 1] in
  let w := rrun (Some 2) sc (rstart [[(7, 10); (7, 30)]; [(7, 20); (8, 40)]]) in
  no_overlap (Some 2) sc (rstart [[(7, 10); (7, 30)]; [(7, 20); (8, 40)]]) /\
  nobody_busy w /\ rcount w 7 = 3 /\ rtimes w 7 = [20; 30] /\ rcount w 8 = 1.
Proof.
  cbv zeta. split; [apply no_overlap_check; vm_compute; reflexivity|]. split; [|vm_compute; auto]. vm_compute. repeat constructor; intros X; apply X; reflexivity.
Qed.

(** C80: with overlapping calls, as when threads log in synchronous mode, exactness is
    false in two ways.  (a) Both threads read the same count. *)
Theorem C80_lost_update_refuted :
  exists progs sc k, let w := rrun (Some 128) sc (rstart progs) in
  nobody_busy w /\ length (returned k (rs_trace w)) = 3 /\ rcount w k = 2 /\ length (rtimes w k) = 3.
Proof.
  exists [[(7, 10); (7, 20)]; [(7, 30)]], [0; 0; 0; 0; 0; 0; 0; 0; 0; 1; 1; 1; 1; 1; 0; 0; 0], 7. cbv zeta.
  split; [|vm_compute; auto]. vm_compute. repeat constructor; intros X; apply X; reflexivity.
Qed.
Print Assumptions C80_lost_update_refuted.

(** (b) Both threads find the group missing: the accumulator stored first, with all it
    has counted meanwhile, is thrown away; any number of events can be lost. *)
Lemma run_many k a (m : nat -> option nat) th1 : m k = Some a -> forall n h s todo tr, nth_error h a = Some s ->
  exists h' s', nth_error h' a = Some s' /\ length h' = length h /\
  rrun (Some 128) (concat (repeat [0; 0; 0; 0; 0] n)) (mkRS m h [mkRT RIdle (repeat (k, 0) n ++ todo); th1] tr) =
  mkRS m h' [mkRT RIdle todo; th1] (tr ++ concat (repeat [RCalled 0 k 0; RReturned 0 k 0] n)).
Proof.
  intros Hm. induction n as [|n IH]; intros h s todo tr Hs.
  - exists h, s. split; [exact Hs|]. split; [reflexivity|]. cbn. rewrite app_nil_r. reflexivity.
  - pose (s1 := mkSA (sa_key s) (sa_count s + 1) (sa_times s)). pose (s2 := mkSA (sa_key s1) (sa_count s1) (dq_append (Some 128) (sa_times s1) 0)).
    assert (E1 : nth_error (list_set h a s1) a = Some s1) by (eapply ConcurrentProofs.nth_set_eq; eauto).
    assert (E2 : nth_error (list_set (list_set h a s1) a s2) a = Some s2) by (eapply ConcurrentProofs.nth_set_eq; eauto).
    destruct (IH _ _ todo (tr ++ [RCalled 0 k 0; RReturned 0 k 0]) E2) as (h' & s' & F1 & F2 & F3).
    exists h', s'. split; [exact F1|]. split; [rewrite F2, !CoreLib.list_set_length; reflexivity|].
    cbn [repeat concat]. rewrite rrun_app, app_assoc. cbn [app]. rewrite <- F3. f_equal.
    cbn [rrun rstep rs_threads rs_map rs_heap rs_trace nth_error rt_pc rt_todo rat list_set]. rewrite Hm.
    cbn [rrun rstep rs_threads rs_map rs_heap rs_trace nth_error rt_pc rt_todo rat list_set]. rewrite Hs.
    cbn [rrun rstep rs_threads rs_map rs_heap rs_trace nth_error rt_pc rt_todo rat list_set]. rewrite Hs.
    cbn [rrun rstep rs_threads rs_map rs_heap rs_trace nth_error rt_pc rt_todo rat list_set]. fold s1. rewrite E1.
    cbn [rrun rstep rs_threads rs_map rs_heap rs_trace nth_error rt_pc rt_todo rat list_set].
    unfold rat. cbn [rs_threads rs_trace list_set]. rewrite !app_nil_r, <- !app_assoc. reflexivity.
Qed.
Lemma returned_many k n : length (returned k (concat (repeat [RCalled 0 k 0; RReturned 0 k 0] n))) = n.
Proof. induction n as [|n IH]; [reflexivity|]. cbn [repeat concat app returned flat_map]. rewrite Nat.eqb_refl. cbn. f_equal. exact IH. Qed.
Theorem C80_lost_accumulator_refuted :
  forall n k, exists sc, let w := rrun (Some 128) sc (rstart [(k, 0) :: repeat (k, 0) n; [(k, 1)]]) in
  nobody_busy w /\ length (returned k (rs_trace w)) = n + 2 /\ rcount w k = 1.
Proof.
  intros n k. exists ([1; 1; 0; 0; 0; 0; 0; 0] ++ concat (repeat [0; 0; 0; 0; 0] n) ++ [1; 1; 1; 1]). cbv zeta.
  rewrite !rrun_app. pose (m := fun k' => if k' =? k then Some 0 else @None nat).
  replace (rrun _ [1; 1; 0; 0; 0; 0; 0; 0] _) with
    (mkRS m [mkSA k 1 [0]] [mkRT RIdle (repeat (k, 0) n ++ []); mkRT (RStore k 1) []] [RCalled 1 k 1; RCalled 0 k 0; RReturned 0 k 0]).
  2:{ rewrite app_nil_r. reflexivity. }
  assert (Hm : m k = Some 0) by (unfold m; rewrite Nat.eqb_refl; reflexivity).
  destruct (run_many k 0 m (mkRT (RStore k 1) []) Hm n [mkSA k 1 [0]] _ [] [RCalled 1 k 1; RCalled 0 k 0; RReturned 0 k 0] eq_refl) as (h & s & F1 & F2 & ->).
  destruct h as [|s0 [|s1 h]]; try discriminate. clear F1 F2.
  cbn [rrun rstep rs_threads rs_map rs_heap rs_trace nth_error rt_pc rt_todo rat list_set length app sa_count].
  split; [repeat constructor; unfold busy; cbn; auto|]. split.
  - match goal with |- context [returned k ?tr] => replace tr with ([RCalled 1 k 1; RCalled 0 k 0; RReturned 0 k 0] ++ concat (repeat [RCalled 0 k 0; RReturned 0 k 0] n) ++ [RReturned 1 k 1]) end.
    + rewrite !returned_app, !app_length, returned_many. cbn. rewrite Nat.eqb_refl. cbn. lia.
    + unfold rat. cbn [rs_trace]. rewrite !app_nil_r. reflexivity.
  - unfold rcount. cbn. rewrite Nat.eqb_refl. reflexivity.
Qed.
Print Assumptions C80_lost_accumulator_refuted.
