(** Properties of the background actor: C46-C48. *)
From Coq Require Import QArith Qround Lqa.
From Verif Require Import model.PyBase model.Actor spec.ActorSpec proof.ActorProofs proof.ActorLife.
Open Scope nat_scope.

(** C46.  [a] is a new actor and [os] any sequence of task outcomes. *)
Theorem C46_interval_within_bounds : forall interval max_interval daemon os,
  (0 <= interval)%Q -> (interval <= max_interval)%Q ->
  let a := actor_new (Some interval) (Some max_interval) daemon in
  (interval <= interval_after a os)%Q /\ (interval_after a os <= ac_max a)%Q /\
  (~ (max_interval == 0)%Q -> ac_max a = max_interval).
Proof.
  intros i m d os H1 H2 a.
  assert (G : good a).
  { unfold a, actor_new, good. cbn [ac_orig ac_interval ac_max]. destruct (Qeq_bool m 0) eqn:E; [apply Qeq_bool_iff in E|]; repeat split; lra. }
  destruct (run_good os a G) as (R1 & R2 & R3). destruct (run_params os a) as [P1 P2]. rewrite P1, P2 in *. unfold interval_after.
  split; [exact R2|]. split; [exact R3|]. intros N. unfold a, actor_new. cbn [ac_max]. destruct (Qeq_bool m 0) eqn:E; auto. apply Qeq_bool_iff in E. contradiction.
Qed.
Print Assumptions C46_interval_within_bounds.
(** Without [max_interval] the bound is eight times the interval. *)
Theorem C46_default_bounds : forall interval daemon os,
  (0 <= interval)%Q ->
  let a := actor_new (Some interval) None daemon in
  (interval <= interval_after a os)%Q /\ (interval_after a os <= interval * 8)%Q.
Proof.
  intros i d os H a. assert (G : good a) by (unfold a, actor_new, good; cbn [ac_orig ac_interval ac_max]; repeat split; lra).
  destruct (run_good os a G) as (R1 & R2 & R3). destruct (run_params os a) as [P1 P2]. rewrite P1, P2 in *. unfold interval_after. split; [exact R2 | exact R3].
Qed.
Print Assumptions C46_default_bounds.
Theorem C46_backoff : forall interval max_interval daemon k,
  (0 <= interval)%Q -> (interval <= max_interval)%Q -> ~ (max_interval == 0)%Q ->
  (interval_after (actor_new (Some interval) (Some max_interval) daemon) (failures k) == py_min (interval * 2 ^ Z.of_nat k) max_interval)%Q.
Proof.
  intros i m d k H1 H2 H3. rewrite failures_interval.
  - unfold actor_new. cbn [ac_interval ac_max]. destruct (Qeq_bool m 0) eqn:E; [apply Qeq_bool_iff in E; contradiction | reflexivity].
  - unfold actor_new, good. cbn [ac_orig ac_interval ac_max]. destruct (Qeq_bool m 0) eqn:E; [apply Qeq_bool_iff in E; contradiction|]. repeat split; lra.
Qed.
Print Assumptions C46_backoff.
(** After any history, as long as the loop runs, eight successes in a row bring
    the interval back. *)
Theorem C46_recovers_in_eight : forall interval max_interval daemon os,
  (0 <= interval)%Q -> (interval <= max_interval)%Q ->
  let a := actor_new (Some interval) (Some max_interval) daemon in
  still_running a os = true ->
  (interval_after a (os ++ successes 8) == interval)%Q.
Proof.
  intros i m d os H1 H2 a Hs.
  assert (G : good a).
  { unfold a, actor_new, good. cbn [ac_orig ac_interval ac_max]. destruct (Qeq_bool m 0) eqn:E; [apply Qeq_bool_iff in E|]; repeat split; lra. }
  pose proof (run_good os a G) as R. destruct (run_params os a) as [P1 _]. unfold interval_after. rewrite run_app by exact Hs.
  destruct (run_loop a os) as [[a1 n1] al]. cbn [fst] in *. pose proof (eight_successes a1 R) as E8. unfold interval_after in E8.
  destruct (run_loop a1 (successes 8)) as [[a2 n2] al2]. cbn [fst] in *. rewrite E8, P1. reflexivity.
Qed.
Print Assumptions C46_recovers_in_eight.
Example C46_example : let a := actor_new (Some 200%Q) None true in
  (interval_after a (failures 2) == 800)%Q /\ (interval_after a (failures 9) == 1600)%Q /\
  (interval_after a (failures 9 ++ successes 7) == 375)%Q /\ (interval_after a (failures 9 ++ successes 8) == 200)%Q /\
  still_running a (failures 9) = true.
Proof. vm_compute. auto. Qed.
(** A [max_interval] below [interval] inverts the recovery: the interval exceeds
    every bound after enough successes. *)
Theorem C46_inverted_bounds_refuted : exists interval max_interval,
  (0 < max_interval)%Q /\ (max_interval < interval)%Q /\
  forall bound, exists k, (bound < interval_after (actor_new (Some interval) (Some max_interval) true) (successes k))%Q.
Proof.
  exists 16%Q, 8%Q. split; [lra|]. split; [lra|]. intros b. exists (Z.to_nat (Z.max 0 (Qceiling b)) + 1).
  set (k := Z.to_nat (Z.max 0 (Qceiling b)) + 1).
  pose proof (inverted_grows k (actor_new (Some 16%Q) (Some 8%Q) true)) as H. cbn [ac_max ac_orig ac_interval actor_new] in H.
  assert (E : Qeq_bool 8 0 = false) by reflexivity. rewrite E in H. specialize (H ltac:(lra) ltac:(lra)).
  assert (K : (b <= inject_Z (Z.of_nat k))%Q).
  { pose proof (Qle_ceiling b) as C. eapply Qle_trans; [exact C|]. rewrite <- Zle_Qle. unfold k. lia. }
  eapply Qlt_le_trans; [|exact H]. lra.
Qed.
Print Assumptions C46_inverted_bounds_refuted.

(** C48 *)
Theorem C48_failures_do_not_halt : forall a os,
  (forall o, In o os -> ordinary o) -> calls a os = length os /\ still_running a os = true.
Proof. intros a os H. apply loop_continues. intros o Ho. left. auto. Qed.
Print Assumptions C48_failures_do_not_halt.
(** In a daemon thread (the default) even SystemExit and KeyboardInterrupt are
    swallowed. *)
Theorem C48_daemon_swallows_exit : forall a os,
  ac_daemon a = true -> (forall o, In o os -> ordinary o \/ o = TaskExits) -> calls a os = length os /\ still_running a os = true.
Proof. intros a os D H. apply loop_continues. intros o Ho. destruct (H o Ho); auto. Qed.
Print Assumptions C48_daemon_swallows_exit.
Example C48_example : calls (actor_new None None true) [TaskOk; TaskRaises false; TaskExits; TaskRaises false] = 4.
Proof. reflexivity. Qed.
(** A [note] callback that raises ends the worker. *)
Theorem C48_raising_note_halts_refuted : forall a os rest,
  (forall o, In o os -> ordinary o) ->
  calls a (os ++ TaskRaises true :: rest) = S (length os) /\ still_running a (os ++ TaskRaises true :: rest) = false.
Proof.
  intros a os rest H. destruct (loop_continues os a) as [H1 H2]; [intros; left; auto|]. unfold calls, still_running in *. rewrite run_app by exact H2.
  destruct (run_loop a os) as [[a1 n1] al]. cbn [fst snd run_loop loop_body] in *. split; auto. lia.
Qed.
Print Assumptions C48_raising_note_halts_refuted.

(** C47.  One controlling thread; all interleavings. *)
Theorem C47_at_most_one_worker : forall tr s, execution tr s -> alive_workers s <= 1.
Proof. intros tr s H. apply at_most_one. eapply exec_inv; eauto. Qed.
Print Assumptions C47_at_most_one_worker.
(** [join] returned False: no worker is left and no task call is made until
    [start] is called. *)
Theorem C47_joined_is_quiet : forall tr s s1 tr2 s2,
  execution tr s -> lstep s (LRet (RBool false)) s1 -> lsteps s1 tr2 s2 -> no_start tr2 ->
  task_calls tr2 = 0 /\ alive_workers s2 = 0.
Proof.
  intros tr s s1 tr2 s2 He St Ss Hn. pose proof (exec_inv tr s He) as (I1 & I2 & I3). assert (Hc : l_ctl s = CJoinRet false /\ s1 = at_c s CIdle) by (inversion St; subst; auto). destruct Hc as [Hc ->].
  destruct (quiet_steps (at_c s CIdle) tr2 s2 Ss) as [Q1 Q2]; auto.
  - intros i p Hi. apply (I3 ltac:(rewrite Hc; auto) i p Hi).
  - split; auto. apply none_alive_zero; auto.
Qed.
Print Assumptions C47_joined_is_quiet.
(** After a [stop] that returned, at most one more task call is made until
    [start] is called (the worker may just have passed its test of the flag). *)
Theorem C47_stop_takes_effect : forall tr s s1 mid s2 s3 tr2 s4,
  execution tr s -> lstep s (LCall OStop) s1 -> lsteps s1 mid s2 -> (forall r, ~ In (LRet r) mid) ->
  lstep s2 (LRet RNone) s3 -> lsteps s3 tr2 s4 -> no_start tr2 ->
  task_calls tr2 <= 1.
Proof.
  intros tr s s1 mid s2 s3 tr2 s4 He Sc Sm Hm Sr Ss Hn. pose proof (exec_inv tr s He) as I. pose proof (lstep_inv _ _ _ Sc I) as I1. pose proof (lsteps_inv _ _ _ Sm I1) as I2.
  assert (C1 : l_ctl s1 = CStop1) by (inversion Sc; subst; auto).
  assert (C : l_ctl s2 = CStop1 \/ l_ctl s2 = CStopSet \/ l_ctl s2 = CStopClear).
  { assert (G : forall x tr y, lsteps x tr y -> (forall r, ~ In (LRet r) tr) -> (l_ctl x = CStop1 \/ l_ctl x = CStopSet \/ l_ctl x = CStopClear) -> l_ctl y = CStop1 \/ l_ctl y = CStopSet \/ l_ctl y = CStopClear).
    { clear. induction 1 as [x|x l x1 tr y St Ss IH]; intros Hr Hx; auto. apply IH; [intros r Hin; apply (Hr r); right; auto|].
      destruct St; try (exfalso; eapply Hr; left; reflexivity); cbn [at_w at_c with_stop l_ctl] in *; auto;
        exfalso; rewrite H in Hx; destruct Hx as [Hx|[Hx|Hx]]; discriminate. }
    eapply G; eauto. }
  assert (C' : l_ctl s2 = CStopSet \/ l_ctl s2 = CStopClear) by (destruct C as [C|C]; auto; inversion Sr; subst; congruence).
  eapply stopped_steps; eauto; [eapply lstep_inv; eauto|]. eapply stop_returns; eauto.
Qed.
Print Assumptions C47_stop_takes_effect.
(** ... and, left alone, the worker ends: it takes at most five more steps, and as long
    as one is alive it can take a step. *)
Theorem C47_stop_terminates : forall tr s s1 mid s2 s3 tr2 s4,
  execution tr s -> lstep s (LCall OStop) s1 -> lsteps s1 mid s2 -> (forall r, ~ In (LRet r) mid) ->
  lstep s2 (LRet RNone) s3 ->
  lsteps s3 tr2 s4 -> Forall (fun l => match l with LTau | LTask _ => True | _ => False end) tr2 ->
  length tr2 <= 5 /\
  (alive_workers s4 = 0 \/ exists l s5, lstep s4 l s5 /\ match l with LTau | LTask _ => True | _ => False end).
Proof.
  intros tr s s1 mid s2 s3 tr2 s4 E St M NR R Ss F.
  assert (I2 : linv s2) by (eapply lsteps_inv; [exact M|]; eapply lstep_inv; [exact St|]; eapply exec_inv; eauto).
  assert (C : l_ctl s2 = CStop1 \/ l_ctl s2 = CStopSet \/ l_ctl s2 = CStopClear) by (eapply stop_inside; eauto; inversion St; subst; cbn; auto).
  assert (C' : l_ctl s2 = CStopSet \/ l_ctl s2 = CStopClear) by (destruct C as [C|C]; auto; exfalso; inversion R; subst; congruence).
  destruct (stop_winding _ _ _ I2 C' R) as (n & Hn & W).
  destruct (winding_steps _ _ _ Ss n (lstep_inv _ _ _ R I2) W F) as (m & Hm & W4). split; [lia|].
  destruct m as [|m]; [|right; apply (winding_progress s4 (S m) W4); lia].
  left. destruct W4 as [_ [[NA _]|(i & p & _ & _ & Ha & Hl & _)]]; [apply none_alive_count, NA|destruct p; discriminate].
Qed.
Print Assumptions C47_stop_terminates.
(** Without a timeout, [join] does not return True. *)
Theorem C47_join_without_timeout : forall tr s s1 mid s2 r s3,
  execution tr s -> lstep s (LCall (OJoin false)) s1 -> lsteps s1 mid s2 -> (forall r', ~ In (LRet r') mid) -> lstep s2 (LRet r) s3 ->
  (r = RBool false /\ alive_workers s3 = 0) \/ (r = RRuntimeError /\ l_thread s2 = None).
Proof.
  intros tr s s1 mid s2 r s3 E St M NR R.
  assert (I1 : linv s1) by (eapply lstep_inv; [exact St|]; eapply exec_inv; eauto).
  assert (I2 : linv s2) by (eapply lsteps_inv; eauto).
  assert (C : l_ctl s1 = CJoin1 false) by (inversion St; subst; reflexivity).
  pose proof (join_inside _ _ _ M NR I1 (or_introl C)) as H. inversion R; subst; destruct H as [H|[H|[[H NA]|[H|H]]]]; try congruence.
  - right. auto.
  - left. match goal with X : l_ctl s2 = CJoinRet b |- _ => rewrite H in X; injection X as <- end. split; auto. apply none_alive_count. intros i p Hi. destruct I2 as (_ & _ & I3). apply (I3 ltac:(rewrite H; reflexivity) i p Hi).
Qed.
Print Assumptions C47_join_without_timeout.
(** [join] returned False and the actor is then started: the call returns normally, a
    single worker is alive and it is not told to stop; the call does not get stuck. *)
Theorem C47_start_after_join : forall tr s s1 s2 mid s3,
  execution tr s -> lstep s (LRet (RBool false)) s1 -> lstep s1 (LCall OStart) s2 -> lsteps s2 mid s3 -> (forall r, ~ In (LRet r) mid) ->
  (exists l s4, lstep s3 l s4) /\
  forall r s4, lstep s3 (LRet r) s4 -> r = RNone /\ alive_workers s4 = 1 /\ l_stopping s4 = false.
Proof.
  intros tr s s1 s2 mid s3 E J St M NR.
  assert (I : linv s) by (eapply exec_inv; eauto).
  assert (S2 : starting s2).
  { inversion J; subst. assert (C : l_ctl s = CJoinRet false) by assumption. inversion St; subst. destruct I as (_ & _ & I3). split; [apply I3; rewrite C; reflexivity|]. cbn. right. exact (join_flag _ _ E C). }
  pose proof (starting_steps _ _ _ M S2 NR) as S3. split; [apply starting_progress, S3|].
  intros r s4 R. pose proof (starting_step _ _ _ S3 R) as H. cbn beta iota in H. tauto.
Qed.
Print Assumptions C47_start_after_join.
(** A worker still in its loop, whether or not it has been told to stop, that then comes to
    its end (it saw the flag, or its task ended it): without a join, start returns
    normally and a single worker is alive that is not told to stop. *)
Theorem C47_start_after_end : forall tr s w tr2 s1 s2 mid s3,
  execution tr s -> l_ctl s = CIdle -> nth_error (l_workers s) w = Some WTest \/ nth_error (l_workers s) w = Some WTask \/ nth_error (l_workers s) w = Some WWait ->
  lsteps s tr2 s1 -> Forall (fun l => l = LTau \/ exists i, l = LTask i) tr2 -> alive_workers s1 = 0 ->
  lstep s1 (LCall OStart) s2 -> lsteps s2 mid s3 -> (forall r, ~ In (LRet r) mid) ->
  (exists l s4, lstep s3 l s4) /\
  forall r s4, lstep s3 (LRet r) s4 -> r = RNone /\ alive_workers s4 = 1 /\ l_stopping s4 = false.
Proof.
  intros tr s w tr2 s1 s2 mid s3 E C W T F A St M NR.
  assert (O : ending_ok s) by (split; [exact C|]; right; destruct W as [W|[W|W]]; eauto).
  assert (O1 : ending_ok s1). { eapply ending_steps; eauto. eapply Forall_impl; [|exact F]. intros l [->|[i ->]]; exact I. }
  assert (S2 : starting s2).
  { inversion St; subst. split; [exact (count_none_alive s1 A)|]. cbn. right. exact (ending_startable s1 O1 A). }
  pose proof (starting_steps _ _ _ M S2 NR) as S3. split; [apply starting_progress, S3|].
  intros r s4 R. pose proof (starting_step _ _ _ S3 R) as H. cbn beta iota in H. tauto.
Qed.
Print Assumptions C47_start_after_end.
(** So does a start after a stop that found no worker alive; in particular this is the way
    out of a refused start. *)
Theorem C47_start_after_idle_stop : forall tr s s1 mid1 s2 r1 s3 s4 mid2 s5,
  execution tr s -> alive_workers s = 0 -> lstep s (LCall OStop) s1 -> lsteps s1 mid1 s2 -> (forall r, ~ In (LRet r) mid1) ->
  lstep s2 (LRet r1) s3 -> lstep s3 (LCall OStart) s4 -> lsteps s4 mid2 s5 -> (forall r, ~ In (LRet r) mid2) ->
  r1 = RNone /\ (exists l s6, lstep s5 l s6) /\
  forall r s6, lstep s5 (LRet r) s6 -> r = RNone /\ alive_workers s6 = 1 /\ l_stopping s6 = false.
Proof.
  intros tr s s1 mid1 s2 r1 s3 s4 mid2 s5 E A Sp M1 N1 R1 St M2 N2.
  assert (NA : none_alive s1 /\ l_ctl s1 = CStop1) by (inversion Sp; subst; split; [exact (count_none_alive s A)|reflexivity]).
  destruct NA as [NA C1]. destruct (stop_dead_inside _ _ _ M1 N1 NA (or_introl C1)) as [NA2 C2].
  assert (K : r1 = RNone /\ none_alive s3 /\ l_stopping s3 = false).
  { inversion R1; subst; try (destruct C2 as [C2|C2]; congruence). auto. }
  destruct K as (-> & NA3 & F3). split; [reflexivity|].
  assert (S4 : starting s4) by (inversion St; subst; split; [exact NA3|right; exact F3]).
  pose proof (starting_steps _ _ _ M2 S4 N2) as S5. split; [apply starting_progress, S5|].
  intros r s6 R. pose proof (starting_step _ _ _ S5 R) as H. cbn beta iota in H. tauto.
Qed.
Print Assumptions C47_start_after_idle_stop.
(** The same in a forked child, unless the system gave it the process id of the process
    that last started the actor. *)
Theorem C47_start_after_fork : forall tr s s1 s2 mid s3,
  execution tr s -> lstep s LFork s1 -> l_apid s1 <> Some (l_pid s1) -> lstep s1 (LCall OStart) s2 -> lsteps s2 mid s3 -> (forall r, ~ In (LRet r) mid) ->
  (exists l s4, lstep s3 l s4) /\
  forall r s4, lstep s3 (LRet r) s4 -> r = RNone /\ alive_workers s4 = 1 /\ l_stopping s4 = false.
Proof.
  intros tr s s1 s2 mid s3 E J P St M NR.
  assert (S2 : starting s2).
  { inversion J; subst. inversion St; subst. split; [|left; exact P].
    intros i p Hi. cbn in Hi. rewrite nth_error_map in Hi. destruct (nth_error (l_workers s) i); inversion Hi. reflexivity. }
  pose proof (starting_steps _ _ _ M S2 NR) as S3. split; [apply starting_progress, S3|].
  intros r s4 R. pose proof (starting_step _ _ _ S3 R) as H1. cbn beta iota in H1. tauto.
Qed.
Print Assumptions C47_start_after_fork.
Tactic Notation "lgo" uconstr(c) := eapply L_cons; [eapply c; try reflexivity; try discriminate; auto|]; cbn.
(** A run: start, two task calls, stop, join returning False; hypotheses met. *)
Example C47_example : exists tr s s1, execution tr s /\ lstep s (LRet (RBool false)) s1 /\ task_calls tr = 2 /\ l_thread s = Some 0.
Proof.
  do 3 eexists. split.
  - exists 7. unfold l_init. lgo C_start. lgo C_start_dead. lgo C_start_ok. lgo C_start_clear. lgo C_start_spawn.
    lgo (W_go _ 0). lgo (W_task _ 0). lgo (W_wake _ 0). lgo (W_go _ 0). lgo C_stop. lgo C_stop_alive. lgo C_stop_set. lgo (W_task _ 0).
    lgo (C_join _ true). lgo C_join_wait. lgo (W_wake _ 0). lgo (W_stop _ 0). lgo (W_finally _ 0). lgo (W_dead _ 0). lgo C_join_dead. lgo C_join_gone. lgo C_join_clear. apply L_nil.
  - split; [apply C_join_ret; reflexivity|]. split; reflexivity.
Qed.
(** Told to stop while it waits; it ends; the actor is started again.  And: a stop before
    any start. *)
Example C47_end_example : exists tr s tr2 s1 s2, execution tr s /\ l_ctl s = CIdle /\ nth_error (l_workers s) 0 = Some WWait /\ l_stopping s = true /\
  lsteps s tr2 s1 /\ Forall (fun l => l = LTau \/ exists i, l = LTask i) tr2 /\ alive_workers s1 = 0 /\ lstep s1 (LCall OStart) s2.
Proof.
  do 5 eexists. split.
  { exists 7. unfold l_init. lgo C_start. lgo C_start_dead. lgo C_start_ok. lgo C_start_clear. lgo C_start_spawn.
    lgo (W_go _ 0). lgo (W_task _ 0). lgo C_stop. lgo C_stop_alive. lgo C_stop_set. apply L_nil. }
  split; [reflexivity|]. split; [reflexivity|]. split; [reflexivity|]. split.
  { lgo (W_wake _ 0). lgo (W_stop _ 0). lgo (W_finally _ 0). lgo (W_dead _ 0). apply L_nil. }
  split; [repeat constructor|]. split; [reflexivity|]. apply C_start. reflexivity.
Qed.
Example C47_idle_stop_example : exists s s1 mid s2 s3 s4, execution [] s /\ alive_workers s = 0 /\ lstep s (LCall OStop) s1 /\
  lsteps s1 mid s2 /\ (forall r, ~ In (LRet r) mid) /\ lstep s2 (LRet RNone) s3 /\ lstep s3 (LCall OStart) s4.
Proof.
  do 6 eexists. split; [exists 7; apply L_nil|]. split; [reflexivity|]. split; [apply C_stop; reflexivity|]. split; [lgo C_stop_dead; apply L_nil|].
  split; [intros r [H|[]]; discriminate|]. split; [apply C_stop_clear; reflexivity|]. apply C_start. reflexivity.
Qed.
(** Started, told to stop, forked before the worker saw it; the child starts it. *)
Example C47_fork_example : exists tr s s1 s2, execution tr s /\ lstep s LFork s1 /\ l_apid s1 <> Some (l_pid s1) /\ lstep s1 (LCall OStart) s2 /\ l_stopping s1 = true.
Proof.
  do 4 eexists. split.
  - exists 7. lgo C_start. lgo C_start_dead. lgo C_start_ok. lgo C_start_clear. lgo C_start_spawn.
    lgo (W_go _ 0). lgo (W_task _ 0). lgo C_stop. lgo C_stop_alive. lgo C_stop_set. apply L_nil.
  - split; [apply C_fork with (pid := 8); [reflexivity|discriminate]|]. cbn. split; [discriminate|]. split; [apply C_start; reflexivity|reflexivity].
Qed.
(** Starting again without waiting for the old worker is silently lost: both calls
    return normally and the actor ends up dead. *)
Theorem C47_restart_without_join_refuted : exists tr s,
  execution tr s /\ filter (fun l => match l with LCall _ | LRet _ => true | _ => false end) tr =
    [LCall OStart; LRet RNone; LCall OStop; LRet RNone; LCall OStart; LRet RNone] /\
  l_ctl s = CIdle /\ alive_workers s = 0.
Proof.
  do 2 eexists. split.
  - exists 7. unfold l_init. lgo C_start. lgo C_start_dead. lgo C_start_ok. lgo C_start_clear. lgo C_start_spawn.
    lgo (W_go _ 0). lgo (W_task _ 0). lgo C_stop. lgo C_stop_alive. lgo C_stop_set. lgo C_start. lgo C_start_alive.
    lgo (W_wake _ 0). lgo (W_stop _ 0). lgo (W_finally _ 0). lgo (W_dead _ 0). apply L_nil.
  - repeat split; reflexivity.
Qed.
Print Assumptions C47_restart_without_join_refuted.
(** If the worker dies of a fatal exception just as [stop] is called, the flag
    stays set and the next [start] raises, although no worker is left. *)
Theorem C47_start_with_dead_worker_refuted : exists tr s s1,
  execution tr s /\ lstep s (LRet RRuntimeError) s1 /\ alive_workers s = 0 /\
  filter (fun l => match l with LCall _ | LRet _ => true | _ => false end) tr =
    [LCall OStart; LRet RNone; LCall OStop; LRet RNone; LCall OStart].
Proof.
  do 3 eexists. split.
  - exists 7. unfold l_init. lgo C_start. lgo C_start_dead. lgo C_start_ok. lgo C_start_clear. lgo C_start_spawn.
    lgo (W_go _ 0). lgo (W_task_fatal _ 0). lgo C_stop. lgo C_stop_alive. lgo (W_finally _ 0). lgo C_stop_set. lgo (W_dead _ 0).
    lgo C_start. lgo C_start_dead. apply L_nil.
  - split; [apply C_start_err; reflexivity|]. split; reflexivity.
Qed.
Print Assumptions C47_start_with_dead_worker_refuted.

(** C75: the statistics, over any number of workers one after the other. *)
Lemma loop_body_go a o : snd (loop_body a o) = negb (ends_worker (ac_daemon a) o) /\ ac_daemon (fst (loop_body a o)) = ac_daemon a.
Proof. destruct o as [|[]|]; cbn; rewrite ?negb_involutive; auto. Qed.
Lemma run_stats_spec cs : forall a st, let r := run_stats a st cs in
  ac_daemon (fst r) = ac_daemon a /\ as_run_start (snd r) = as_run_start st /\
  as_count (snd r) = as_count st + length (made (ac_daemon a) cs) /\
  (as_time (snd r) == as_time st + time_spent (ac_daemon a) (made (ac_daemon a) cs))%Q.
Proof.
  induction cs as [|c cs IH]; intros a st; cbn [run_stats made].
  - repeat split; cbn; [lia|unfold time_spent; cbn; ring].
  - destruct (loop_body_go a (tc_outcome c)) as [H1 H2]. destruct (loop_body a (tc_outcome c)) as [a1 go]. cbn [fst snd] in *. subst go.
    unfold time_spent at 1. cbn [filter]. destruct (ends_worker (ac_daemon a) (tc_outcome c)); cbn [negb].
    + repeat split; auto; cbn; [lia|ring].
    + specialize (IH a1 (mkStats (as_run_start st) (as_time st + (tc_after c - tc_before c))%Q (S (as_count st)))). cbv zeta in IH. cbn [as_run_start as_time as_count] in *.
      rewrite H2 in IH. destruct IH as (E1 & E2 & E3 & E4). split; [exact E1|]. split; [exact E2|]. split; [cbn [length]; lia|].
      rewrite E4. unfold time_spent. cbn [fold_right]. ring.
Qed.
Lemma time_spent_app d a b : (time_spent d (a ++ b) == time_spent d a + time_spent d b)%Q.
Proof. unfold time_spent. rewrite filter_app, fold_right_app. induction (filter (fun c => negb (ends_worker d (tc_outcome c))) a) as [|c l IH]; cbn [fold_right]; [ring|]. rewrite IH. ring. Qed.
Theorem C75_statistics : forall interval max_interval daemon ws,
  let '(start, time, count) := get_stats (snd (run_workers (actor_new interval max_interval daemon) stats_init ws)) in
  count = length (all_made daemon ws) /\ (time == time_spent daemon (all_made daemon ws))%Q /\
  start = last (map fst ws) 0%Q.
Proof.
  intros interval max_interval daemon ws. unfold get_stats.
  assert (H : forall a st, let r := run_workers a st ws in
    as_count (snd r) = as_count st + length (all_made (ac_daemon a) ws) /\ (as_time (snd r) == as_time st + time_spent (ac_daemon a) (all_made (ac_daemon a) ws))%Q /\
    as_run_start (snd r) = last (map fst ws) (as_run_start st)).
  { induction ws as [|[t0 cs] ws IH]; intros a st; cbn [run_workers].
    - repeat split; cbn; [lia|unfold time_spent; cbn; ring].
    - pose proof (run_stats_spec cs a (mkStats t0 (as_time st) (as_count st))) as R. cbv zeta in R. destruct (run_stats a _ cs) as [a1 st1]. cbn [fst snd as_run_start as_time as_count] in *.
      destruct R as (R1 & R2 & R3 & R4). specialize (IH a1 st1). cbv zeta in IH. rewrite R1 in IH. destruct IH as (E1 & E2 & E3).
      unfold all_made. cbn [flat_map snd]. fold (all_made (ac_daemon a) ws). rewrite app_length, time_spent_app. split; [lia|]. split; [rewrite E2, R4; ring|].
      rewrite E3, R2. cbn [map fst]. clear. revert t0. induction (map fst ws) as [|q l IH]; intros t0; [reflexivity|]. cbn [last]. destruct l; [reflexivity|]. exact (IH t0). }
  specialize (H (actor_new interval max_interval daemon) stats_init). cbv zeta in H. destruct H as (H1 & H2 & H3). change (ac_daemon (actor_new interval max_interval daemon)) with daemon in *.
  cbn [stats_init as_count as_time as_run_start] in *. split; [lia|]. split; [rewrite H2; ring|exact H3].
Qed.
Print Assumptions C75_statistics.
(** With a clock that does not go backwards the time is not negative. *)
Theorem C75_time_not_negative : forall interval max_interval daemon ws,
  (forall w c, In w ws -> In c (snd w) -> (tc_before c <= tc_after c)%Q) ->
  (0 <= snd (fst (get_stats (snd (run_workers (actor_new interval max_interval daemon) stats_init ws)))))%Q.
Proof.
  intros interval max_interval daemon ws H. pose proof (C75_statistics interval max_interval daemon ws) as S. destruct (get_stats _) as [[s t] c]. cbn [fst snd]. destruct S as (_ & -> & _).
  assert (M : forall cs c, In c (made daemon cs) -> In c cs).
  { induction cs as [|c0 cs IH]; intros c0' Hc; [destruct Hc|]. cbn [made] in Hc. destruct Hc as [->|Hc]; [left; auto|right]. destruct (ends_worker daemon (tc_outcome c0)); [destruct Hc|auto]. }
  assert (A : forall c, In c (all_made daemon ws) -> (tc_before c <= tc_after c)%Q) by (intros c0 Hc; apply in_flat_map in Hc as (w & Hw & Hc); eauto).
  unfold time_spent. induction (all_made daemon ws) as [|c0 l IH]; cbn [filter fold_right]; [lra|].
  assert (L : (0 <= fold_right (fun c t => tc_after c - tc_before c + t) 0 (filter (fun c => negb (ends_worker daemon (tc_outcome c))) l))%Q) by (apply IH; intros; apply A; right; auto).
  destruct (negb (ends_worker daemon (tc_outcome c0))); [|exact L]. cbn [fold_right]. specialize (A c0 (or_introl eq_refl)). lra.
Qed.
Print Assumptions C75_time_not_negative.
Example C75_example :
  let ws := [(1%Q, [mkCall TaskOk 1 2; mkCall TaskExits 3 5; mkCall TaskOk 6 7]); (9%Q, [mkCall (TaskRaises false) 9 10])] in
  snd (get_stats (snd (run_workers (actor_new None None false) stats_init ws))) = 3 /\
  (snd (fst (get_stats (snd (run_workers (actor_new None None false) stats_init ws)))) == 2)%Q /\
  length (all_made false ws) = 3.
Proof. vm_compute. auto. Qed.
