(** C98: interval actors, and the actor of a context, controlled by several threads. *)
From Verif Require Import model.PyBase model.Core model.ActorThreads spec.ActorThreadsSpec proof.ActorThreadsProofs proof.ActorThreadsStop proof.ActorThreadsContext proof.ActorThreadsSwitch proof.ActorThreadsLive.
Open Scope nat_scope.

(** *** An actor of the application *)
(** As long as calls of start do not overlap, an actor has at most one running worker, whatever
    else any number of threads do with it. *)
Theorem C98_one_worker n progs sc a w v : a < n -> let s := crun sc (cstart n progs) in
  starts_apart a (cs_trace s) -> works s a w -> works s a v -> w = v.
Proof.
  intros La s Ap. apply one_worker. apply (gI a n). apply good_run; [exact La|constructor; [apply wf_start|apply inv_start|apply le_n]|exact Ap].
Qed.
(** ... and start never raises if nobody stops the actor. *)
Theorem C98_start_works n progs sc a t ok : a < n -> let s := crun sc (cstart n progs) in
  starts_apart a (cs_trace s) -> no_stop_of a (cs_trace s) -> In (EStartRet t a ok) (cs_trace s) -> ok = true.
Proof. exact (never_stopped n progs sc a t ok). Qed.
(** A join made while nobody starts the actor and returning False: no worker runs and no task
    call is made any more, until somebody calls start. *)
Theorem C98_joined_is_quiet n progs sc a x t m y : a < n -> let s := crun sc (cstart n progs) in
  starts_apart a (cs_trace s) -> cs_trace s = x ++ EJoin t a :: m ++ EJoinRet t a (Some false) :: y -> starting a x = [] -> no_start_of a (m ++ y) ->
  task_calls (Nat.eqb a) y = 0 /\ forall w, ~ works s a w.
Proof. exact (joined_quiet n progs sc a x t m y). Qed.
(** ... and after a join called while no stop is in progress, start does not raise until somebody
    calls stop again. *)
Theorem C98_start_after_join n progs sc a x t m y u ok : a < n -> let s := crun sc (cstart n progs) in
  starts_apart a (cs_trace s) -> cs_trace s = x ++ EJoin t a :: m ++ EJoinRet t a (Some false) :: y -> stopping a x = [] -> no_stop_of a (m ++ y) ->
  In (EStartRet u a ok) y -> ok = true.
Proof. exact (start_after_join n progs sc a x t m y u ok). Qed.
(** Several threads may call stop, and join, at the same time: once one of the stop calls has
    returned, at most one more task call is made before somebody calls start, and the worker
    ends within five of its own steps.  (No start is in progress while they do it, and no stop
    or join remains from before the last start.) *)
Theorem C98_stop_takes_effect n progs sc1 sc2 a x y t z : a < n ->
  let s1 := crun sc1 (cstart n progs) in let s2 := crun sc2 s1 in
  starts_apart a (cs_trace s1) -> cs_trace s1 = x ++ y ++ [EStopRet t a] -> calling a x = [] ->
  cs_trace s2 = cs_trace s1 ++ z -> no_start_of a (y ++ z) ->
  task_calls (Nat.eqb a) z <= 1 /\ forall w, works s1 a w -> 5 <= picks w sc2 -> ~ works s2 a w.
Proof.
  intros La s1 s2 Ap Etr Cx E2 Ns. apply no_start_app in Ns. destruct Ns as [Ny Nz]. destruct (ats_stopped n progs sc1 a x y t La Ap Etr Cx Ny) as (G & Q & K & Td). fold s1 in G, Q, K, Td.
  split; [exact (ats_told_run a n _ sc2 s1 z La G Q Ap K Td eq_refl E2 Nz)|]. intros w (Ea & Nn & Nd) Pk (_ & Nn2 & Nd2).
  assert (Lw : w < cs_nw s1) by (destruct (le_lt_dec (cs_nw s1) w) as [L|L]; [destruct (Nd (wH _ (gW _ _ _ G) w L))|exact L]).
  destruct (ends_run a n sc2 w La s1 z G Q Ap K Td Ea Lw E2 Nz) as [Le _]. fold s2 in Le.
  assert (L5 : steps_left (wk_pc (cs_workers s1 w)) <= 5) by (destruct (wk_pc (cs_workers s1 w)); cbn; lia). destruct (wk_pc (cs_workers s2 w)); cbn in Le; try lia; congruence.
Qed.

(** *** The actor of a context *)
(** As long as calls of enable_async do not overlap, the context has at most one actor and the
    actor at most one running worker.  The context's actors are those numbered from [n] on. *)
Theorem C98_one_context_worker n progs sc a w b v : own_actors n progs -> let s := crun sc (cstart n progs) in
  enables_apart (cs_trace s) -> n <= a -> n <= b -> works s a w -> works s b v -> a = b /\ w = v.
Proof.
  intros O s Ap La Lb Wa Wb. pose proof (cp_run n progs sc O Ap) as P. fold s in P.
  assert (a = n) by (destruct Wa as (E & _); pose proof (c6 n s (pC n s P) w); lia). assert (b = n) by (destruct Wb as (E & _); pose proof (c6 n s (pC n s P) v); lia). subst a b.
  split; [reflexivity|exact (one_worker n s w v (pI n s P) Wa Wb)].
Qed.
(** If besides enable_async does not overlap disable_async (which is always given no timeout),
    then neither ever raises.  After disable_async, no worker of the context runs and no task
    call is made until the next enable_async ... *)
Theorem C98_disable_async n progs sc x t ok y : own_actors n progs -> patient progs -> let s := crun sc (cstart n progs) in
  switches_apart (cs_trace s) -> cs_trace s = x ++ EDisableRet t ok :: y -> no_enable y ->
  ok = true /\ task_calls (Nat.leb n) y = 0 /\ forall a w, n <= a -> ~ works s a w.
Proof. exact (disabled n progs sc x t ok y). Qed.
(** ... and after enable_async, the context's actor has a running worker until the next
    disable_async, unless a task call ends it. *)
Theorem C98_enable_async n progs sc x t ok y : own_actors n progs -> patient progs -> let s := crun sc (cstart n progs) in
  switches_apart (cs_trace s) -> cs_trace s = x ++ EEnableRet t ok :: y ->
  ok = true /\ exists a, cs_ctx s = Some a /\ (no_fatal (cs_trace s) -> no_disable y -> exists w, works s a w).
Proof. intros O P s Ap E. destruct (enabled n progs sc x t ok y O P Ap E) as (A & B & C). split; [exact A|]. exists n. split; [exact B|exact C]. Qed.

(** Before disable_async returns it flushes, after the last task call. *)
Theorem C98_disable_flushes n progs sc x t ok y : own_actors n progs -> patient progs -> let s := crun sc (cstart n progs) in
  switches_apart (cs_trace s) -> cs_trace s = x ++ EDisableRet t ok :: y ->
  exists x1 x2, x = x1 ++ EFlush t :: x2 /\ task_calls (Nat.leb n) x2 = 0 /\ ~ In (EDisable t) x2.
Proof. exact (disable_flushes n progs sc x t ok y). Qed.
(** disable_async returns: it is enough that the calling thread gets eight steps, then the worker
    of the context (if one runs) five, then the calling thread eight, whatever steps other threads
    and workers make in between. *)
Theorem C98_disable_returns n progs sc t sc1 sc2 sc3 z : own_actors n progs -> patient progs ->
  let s := crun sc (cstart n progs) in let s' := crun (sc1 ++ sc2 ++ sc3) s in
  switches_apart (cs_trace s') -> cs_trace s' = cs_trace s ++ z -> In t (disabling (cs_trace s)) ->
  8 <= turns t sc1 -> (forall a w, n <= a -> works s a w -> 5 <= picks w sc2) -> 8 <= turns t sc3 -> In (EDisableRet t true) z.
Proof. exact (disable_returns n progs sc t sc1 sc2 sc3 z). Qed.

(** *** Without the restrictions *)
Definition T (t k : nat) : list pick := repeat (PT t false) k.
Definition V (w k : nat) : list pick := repeat (PW w false) k.
(** Two calls of start at the same time: two workers; stop and join end one of them, and the
    other goes on calling the task after join has returned False. *)
Definition overlap_progs : list (list cop) := [[OpStart 0; OpStop 0; OpJoin 0 false]; [OpStart 0]].
Definition overlap_sched : list pick := T 1 3 ++ T 0 8 ++ T 1 5 ++ T 0 4 ++ V 1 4 ++ T 0 9 ++ V 0 4.
Theorem C98_one_worker_refuted : exists progs sc, let s := crun sc (cstart 1 progs) in works s 0 0 /\ works s 0 1.
Proof. exists overlap_progs, (T 1 3 ++ T 0 8 ++ T 1 5). vm_compute. repeat split; discriminate. Qed.
Theorem C98_joined_is_quiet_refuted : exists progs sc x t m y, let s := crun sc (cstart 1 progs) in
  cs_trace s = x ++ EJoin t 0 :: m ++ EJoinRet t 0 (Some false) :: y /\ starting 0 x = [] /\ no_start_of 0 (m ++ y) /\ task_calls (Nat.eqb 0) y = 1 /\ works s 0 0.
Proof.
  exists overlap_progs, overlap_sched, [EStart 1 0; EStart 0 0; EStartRet 0 0 true; EStartRet 1 0 true; EStop 0 0; EStopRet 0 0], 0, [], [ETask 0 0 false]. split; [vm_compute; reflexivity|]. split; [reflexivity|].
  split; [intros t [X|[]]; discriminate X|]. split; [reflexivity|]. vm_compute. repeat split; discriminate.
Qed.
(** Two calls of start at the same time: one raises, although nobody stops the actor. *)
Theorem C98_start_works_refuted : exists progs sc, cs_trace (crun sc (cstart 1 progs)) = [EStart 0 0; EStart 1 0; EStartRet 0 0 true; EStartRet 1 0 false].
Proof. exists [[OpStart 0]; [OpStart 0]], (T 0 5 ++ T 1 6 ++ T 0 1 ++ T 1 1 ++ T 0 2 ++ T 1 3). vm_compute. reflexivity. Qed.
(** A stop that is in progress when join is called sets the flag after join has returned False:
    then start raises. *)
Theorem C98_start_after_join_refuted : exists progs sc, cs_trace (crun sc (cstart 1 progs)) =
  [EStart 0 0; EStartRet 0 0 true; EStop 2 0; EStop 0 0; EStopRet 0 0; EStop 1 0; EStopRet 1 0; EJoin 1 0; EJoinRet 1 0 (Some false); EStopRet 2 0; EStart 0 0; EStartRet 0 0 false].
Proof. exists [[OpStart 0; OpStop 0; OpStart 0]; [OpStop 0; OpJoin 0 false]; [OpStop 0]], (T 0 8 ++ T 2 3 ++ T 0 4 ++ V 0 4 ++ T 1 20 ++ T 2 1 ++ T 0 10). vm_compute. reflexivity. Qed.
(** A join that remains from before the last start clears the stop flag: the stop is lost. *)
Theorem C98_stop_takes_effect_refuted : exists progs sc, let s := crun sc (cstart 1 progs) in
  starts_apart 0 (cs_trace s) /\ cs_trace s = [EStart 0 0; EStartRet 0 0 true; EStop 0 0; EStopRet 0 0; EJoin 1 0; EStart 0 0; EStartRet 0 0 true; EStop 0 0; EStopRet 0 0; EJoinRet 1 0 (Some false); ETask 0 1 false; ETask 0 1 false].
Proof.
  exists [[OpStart 0; OpStop 0; OpStart 0; OpStop 0]; [OpJoin 0 false]], (T 0 8 ++ T 0 4 ++ V 0 4 ++ T 1 6 ++ T 0 10 ++ T 0 4 ++ T 1 3 ++ V 1 7). cbv zeta.
  match goal with |- starts_apart 0 ?tr /\ _ => assert (E : tr = [EStart 0 0; EStartRet 0 0 true; EStop 0 0; EStopRet 0 0; EJoin 1 0; EStart 0 0; EStartRet 0 0 true; EStop 0 0; EStopRet 0 0; EJoinRet 1 0 (Some false); ETask 0 1 false; ETask 0 1 false]) by (vm_compute; reflexivity); rewrite E end.
  split; [|reflexivity]. intros x t y Ex. repeat (destruct x as [|? x]; [first [discriminate Ex|reflexivity]|injection Ex as <- Ex]). destruct x; discriminate Ex.
Qed.
(** Two calls of enable_async at the same time: two actors; one of them, forgotten by the
    context, goes on calling the task after every disable_async has returned. *)
Theorem C98_one_context_worker_refuted : exists progs sc, let s := crun sc (cstart 0 progs) in
  (exists x y, cs_trace s = x ++ EDisableRet 1 true :: y /\ In (EDisableRet 0 true) x /\ no_enable y /\ task_calls (Nat.leb 0) y = 1) /\ cs_na s = 2 /\ works s 0 0 /\ cs_ctx s = Some 1.
Proof.
  exists [[OpEnable; OpDisable false]; [OpEnable; OpDisable false]], (T 0 2 ++ T 1 2 ++ T 0 10 ++ T 1 10 ++ T 0 7 ++ V 1 4 ++ T 0 9 ++ T 1 20 ++ V 0 4). cbv zeta. split.
  - exists [EEnable 0; EEnable 1; EStart 0 0; EStartRet 0 0 true; EEnableRet 0 true; EStart 1 1; EStartRet 1 1 true; EEnableRet 1 true; EDisable 0; EStop 0 1; EStopRet 0 1; EJoin 0 1; EJoinRet 0 1 (Some false); EFlush 0; EDisableRet 0 true; EDisable 1; EStop 1 1; EStopRet 1 1; EJoin 1 1; EJoinRet 1 1 (Some false); EFlush 1], [ETask 0 0 false].
    split; [vm_compute; reflexivity|]. split; [cbn; tauto|]. split; [intros t [X|[]]; discriminate X|reflexivity].
  - vm_compute. repeat split; discriminate.
Qed.
(** enable_async while disable_async is in progress: it raises. *)
Theorem C98_enable_async_refuted : exists progs sc, let s := crun sc (cstart 0 progs) in In (EEnableRet 0 false) (cs_trace s) /\ patient progs /\ no_fatal (cs_trace s).
Proof.
  exists [[OpEnable; OpEnable]; [OpDisable false]; [OpDisable false]], (T 0 12 ++ T 1 5 ++ T 2 5 ++ T 1 1 ++ V 0 4 ++ T 1 9 ++ T 2 1 ++ T 0 8). cbv zeta.
  split; [vm_compute; tauto|]. split; [intros p [<-|[<-|[<-|[]]]] I; repeat (destruct I as [I|I]; try discriminate I); exact I|].
  intros a w I. vm_compute in I. repeat (destruct I as [I|I]; [discriminate I|]). exact I.
Qed.

(** *** Examples *)
Ltac check_apart := let X := fresh in intros x t y X; repeat (destruct x as [|? x]; [first [discriminate X|reflexivity|split; reflexivity]|injection X as <- X]); destruct x; discriminate X.
(** Two threads stop one actor at the same time; one of them joins it. *)
Definition stop_trace : list cevent := [EStart 0 0; EStartRet 0 0 true; EStop 1 0; EStop 0 0; EStopRet 0 0; EStopRet 1 0; EJoin 1 0; ETask 0 0 false; EJoinRet 1 0 (Some false); EJoin 1 0].
Definition stop_progs : list (list cop) := [[OpStart 0; OpStop 0; OpStart 0]; [OpStop 0; OpJoin 0 false; OpJoin 0 true]].
Definition stop_sched : list pick := T 0 8 ++ V 0 1 ++ T 1 3 ++ T 0 4.
Definition join_sched : list pick := T 1 2 ++ V 0 1 ++ T 1 3 ++ V 0 5 ++ T 1 6.
Example C98_stop_example : let s1 := crun stop_sched (cstart 1 stop_progs) in let s2 := crun join_sched s1 in
  cs_trace s2 = stop_trace /\ starts_apart 0 (cs_trace s2) /\ works s1 0 0 /\ picks 0 join_sched = 6 /\
  cs_trace s1 = [EStart 0 0; EStartRet 0 0 true] ++ [EStop 1 0; EStop 0 0] ++ [EStopRet 0 0] /\ calling 0 [EStart 0 0; EStartRet 0 0 true] = [] /\
  starting 0 [EStart 0 0; EStartRet 0 0 true; EStop 1 0; EStop 0 0; EStopRet 0 0; EStopRet 1 0] = [].
Proof.
  cbv zeta. assert (E : cs_trace (crun join_sched (crun stop_sched (cstart 1 stop_progs))) = stop_trace) by (vm_compute; reflexivity). rewrite E. split; [reflexivity|]. split; [unfold stop_trace; check_apart|].
  split; [vm_compute; repeat split; discriminate|]. split; [reflexivity|]. split; [vm_compute; reflexivity|]. split; reflexivity.
Qed.
(** Two threads disable a context at the same time; one of them enables it again, and starts an
    actor of its own. *)
Definition switch_trace : list cevent := [EEnable 0; EStart 0 1; EStartRet 0 1 true; EEnableRet 0 true; ETask 1 0 false; EDisable 0; EStop 0 1; EDisable 1; EStop 1 1; EStopRet 0 1; EJoin 0 1; EStopRet 1 1; EJoin 1 1; EJoinRet 1 1 (Some false); EFlush 1; EDisableRet 1 true; EJoinRet 0 1 (Some false); EFlush 0; EDisableRet 0 true; EEnable 1; EStart 1 1; EStartRet 1 1 true; EEnableRet 1 true; EStart 1 0; EStartRet 1 0 true; ETask 1 1 false].
Definition switch_progs : list (list cop) := [[OpEnable; OpDisable false]; [OpDisable false; OpEnable; OpStart 0]].
Definition switch_sched : list pick := T 0 12 ++ V 0 2 ++ T 0 3 ++ T 1 4 ++ T 0 5 ++ T 1 3 ++ V 0 6 ++ T 1 9 ++ T 0 9 ++ V 0 1 ++ T 1 30 ++ V 1 4.
Example C98_switch_example : let s := crun switch_sched (cstart 1 switch_progs) in
  cs_trace s = switch_trace /\ own_actors 1 switch_progs /\ patient switch_progs /\ enables_apart (cs_trace s) /\ switches_apart (cs_trace s) /\ no_fatal (cs_trace s) /\ works s 1 1 /\ works s 0 2.
Proof.
  cbv zeta. assert (E : cs_trace (crun switch_sched (cstart 1 switch_progs)) = switch_trace) by (vm_compute; reflexivity). rewrite E. split; [reflexivity|].
  split; [intros p [<-|[<-|[]]] a I; destruct I as [I|[I|[b I]]]; cbn in I; repeat (destruct I as [I|I]; [first [discriminate I|injection I as <-; lia]|]); destruct I|].
  split; [intros p [<-|[<-|[]]] I; repeat (destruct I as [I|I]; try discriminate I); exact I|].
  split; [unfold switch_trace; check_apart|]. split; [split; unfold switch_trace; check_apart|]. split; [intros a w I; repeat (destruct I as [I|I]; [discriminate I|]); exact I|].
  vm_compute. repeat split; discriminate.
Qed.

Example C98_join_example : let s := crun (T 0 12 ++ T 1 3 ++ V 0 3 ++ T 1 9 ++ V 0 1 ++ T 1 9 ++ T 0 10) (cstart 1 [[OpStart 0; OpStop 0; OpStart 0]; [OpJoin 0 false]]) in
  cs_trace s = [EStart 0 0; EStartRet 0 0 true; EStop 0 0; EStopRet 0 0] ++ EJoin 1 0 :: [] ++ EJoinRet 1 0 (Some false) :: [EStart 0 0; EStartRet 0 0 true] /\
  starts_apart 0 (cs_trace s) /\ stopping 0 [EStart 0 0; EStartRet 0 0 true; EStop 0 0; EStopRet 0 0] = [] /\ no_stop_of 0 [EStart 0 0; EStartRet 0 0 true].
Proof.
  cbv zeta. match goal with |- ?tr = ?l /\ _ => assert (E : tr = l) by (vm_compute; reflexivity); rewrite E end. split; [reflexivity|]. cbn [app]. split; [check_apart|]. split; [reflexivity|]. intros t [X|[X|[]]]; discriminate X.
Qed.
(** Two threads are in disable_async, before they have told_stop the worker to stop. *)
Definition pending_sched : list pick := T 0 12 ++ V 0 2 ++ T 0 3 ++ T 1 4.
Example C98_pending_example : let s := crun pending_sched (cstart 1 switch_progs) in let s' := crun (T 0 10 ++ V 0 5 ++ T 0 8) s in
  switches_apart (cs_trace s') /\ disabling (cs_trace s) = [1; 0] /\ works s 1 0 /\ turns 0 (T 0 10) = 10 /\ picks 0 (V 0 5) = 5 /\ turns 0 (T 0 8) = 8 /\ cs_nw s = 1.
Proof.
  cbv zeta. match goal with |- switches_apart ?tr /\ _ => assert (E : tr = [EEnable 0; EStart 0 1; EStartRet 0 1 true; EEnableRet 0 true; ETask 1 0 false; EDisable 0; EStop 0 1; EDisable 1; EStop 1 1; EStopRet 0 1; EJoin 0 1; EJoinRet 0 1 (Some false); EFlush 0; EDisableRet 0 true]) by (vm_compute; reflexivity); rewrite E end.
  split; [split; check_apart|]. split; [vm_compute; reflexivity|]. split; [vm_compute; repeat split; discriminate|]. repeat split.
Qed.

Print Assumptions C98_start_after_join.
Print Assumptions C98_disable_flushes.
Print Assumptions C98_disable_returns.
Print Assumptions C98_start_after_join_refuted.
Print Assumptions C98_one_worker.
Print Assumptions C98_start_works.
Print Assumptions C98_joined_is_quiet.
Print Assumptions C98_stop_takes_effect.
Print Assumptions C98_one_context_worker.
Print Assumptions C98_disable_async.
Print Assumptions C98_enable_async.
Print Assumptions C98_one_worker_refuted.
Print Assumptions C98_start_works_refuted.
Print Assumptions C98_joined_is_quiet_refuted.
Print Assumptions C98_stop_takes_effect_refuted.
Print Assumptions C98_one_context_worker_refuted.
Print Assumptions C98_enable_async_refuted.
