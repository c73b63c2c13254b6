(** Model of /repo/lithoxyl/actors.py, IntervalThreadActor.  Intervals are
    rationals (milliseconds); float rounding is not modelled. *)
From Coq Require Import QArith.
From Verif Require Import model.PyBase.
Open Scope nat_scope.

(** ** The worker loop and its waiting time *)
Record actor := mkActor { ac_interval : Q; ac_orig : Q; ac_max : Q; ac_daemon : bool }.
(** [DEFAULT_INTERVAL], 8 *)
Definition default_interval : Q := 200.
(** __init__, 31-35: [float(max_interval or interval * 8)]; [None] and zero are
    falsy.  The argument checks are not modelled. *)
Definition actor_new (interval max_interval : option Q) (daemon : bool) : actor :=
  let i := match interval with Some i => i | None => default_interval end in
  let m := match max_interval with Some m => if Qeq_bool m 0 then i * 8 else m | None => i * 8 end%Q in
  mkActor i i m daemon.
(** Python's two-argument [min] and [max] (CPython built-ins). *)
Definition py_min (a b : Q) : Q := if Qle_bool a b then a else b.
(** [max(a, b)] (CPython built-in): the first argument unless the second is larger. *)
Definition py_max (a b : Q) : Q := if Qle_bool b a then a else b.

(** What a call of the task does: return, raise an ordinary exception, or raise
    SystemExit or KeyboardInterrupt.  For an ordinary exception the [note]
    callback is called; the boolean says whether it raises. *)
Inductive outcome := TaskOk | TaskRaises (note_raises : bool) | TaskExits.
(** One pass through the loop body, 103-121; the boolean says whether the loop goes
    on.  [ac_interval] afterwards is the time waited (in milliseconds). *)
Definition loop_body (a : actor) (o : outcome) : actor * bool :=
  match o with
  | TaskOk =>
    let decrement := ((ac_max a - ac_orig a) / 8)%Q in
    (mkActor (py_max (ac_interval a - decrement) (ac_orig a))%Q (ac_orig a) (ac_max a) (ac_daemon a), true)
  | TaskRaises false => (mkActor (py_min (ac_interval a * 2) (ac_max a))%Q (ac_orig a) (ac_max a) (ac_daemon a), true)
  | TaskRaises true => (a, false)
  | TaskExits => (a, ac_daemon a)
  end.
(** _run, 98-124, until the given outcomes are used up: number of task calls
    and whether the loop is still running.  The stop flag is the subject of the
    lifecycle model below. *)
Fixpoint run_loop (a : actor) (os : list outcome) : actor * nat * bool :=
  match os with
  | [] => (a, 0, true)
  | o :: os' =>
    let '(a1, go) := loop_body a o in
    if go then let '(a2, n, alive) := run_loop a1 os' in (a2, S n, alive) else (a1, 1, false)
  end.

(** ** Statistics: __init__ 43-45, _run 99, 103-104, 118-119, get_stats 47-51 *)
Record astats := mkStats { as_run_start : Q; as_time : Q; as_count : nat }.
(** __init__, actors.py 43-45. *)
Definition stats_init : astats := mkStats 0 0 0.
(** One task call: its outcome and the clock before (104) and after it (118). *)
Record tcall := mkCall { tc_outcome : outcome; tc_before : Q; tc_after : Q }.
(** The loop, 102-121, over the given calls.  An exception leaving the loop skips 118-119. *)
Fixpoint run_stats (a : actor) (st : astats) (cs : list tcall) : actor * astats :=
  match cs with
  | [] => (a, st)
  | c :: cs' =>
    let st1 := mkStats (as_run_start st) (as_time st) (S (as_count st)) in
    let '(a1, go) := loop_body a (tc_outcome c) in
    if go then run_stats a1 (mkStats (as_run_start st1) (as_time st1 + (tc_after c - tc_before c))%Q (as_count st1)) cs'
    else (a1, st1)
  end.
(** Workers one after the other: the clock when each starts (99) and its calls. *)
Fixpoint run_workers (a : actor) (st : astats) (ws : list (Q * list tcall)) : actor * astats :=
  match ws with
  | [] => (a, st)
  | (t0, cs) :: ws' => let '(a1, st1) := run_stats a (mkStats t0 (as_time st) (as_count st)) cs in run_workers a1 st1 ws'
  end.
(** get_stats, actors.py 47-51. *)
Definition get_stats (st : astats) : Q * Q * nat := (as_run_start st, as_time st, as_count st).

(** ** Lifecycle: one controlling thread and the workers it starts, every
    interleaving.  Each step is one read or write of shared state. *)
(** Program counter of a worker, _run 98-124. *)
Inductive wpc :=
| WTest      (** about to evaluate [self._stopping.is_set()], 102 *)
| WTask      (** test passed, about to call the task, 106 *)
| WWait      (** task returned; in [self._stopping.wait(...)], 121 *)
| WFinally   (** leaving the loop, about to run [self._stopping.clear()], 123 *)
| WExit      (** cleared, not yet seen dead by [is_alive] *)
| WDead.
(** The calls of the controlling thread: start 56-69, stop 71-81, join 83-90. *)
Inductive op := OStart | OStop | OJoin (timeout : bool).
(** Program counter of the controlling thread. *)
Inductive cpc :=
| CIdle
| CStart1    (** start, 57: about to ask [is_alive] *)
| CStart2    (** 60: not alive; about to test pid and stop flag *)
| CStart3    (** 64-65: about to record the pid and clear the flag *)
| CStart4    (** 66-68: about to create and start a thread *)
| CStop1     (** stop, 77 *)
| CStopSet   (** 78 *)
| CStopClear (** 80 *)
| CJoin1 (timeout : bool) (** join, 84: about to check for a thread *)
| CJoin2 (timeout : bool) (** 86: in [self._thread.join] *)
| CJoin3     (** 87: about to ask [is_alive] *)
| CJoinClear (** 89, not alive *)
| CJoinRet (alive : bool).
(** What such a call returns or raises. *)
Inductive result := RNone | RBool (b : bool) | RRuntimeError.
(** What is visible of one step: call, return, the task running on worker [w], fork. *)
Inductive label := LCall (o : op) | LRet (r : result) | LTask (w : nat) | LFork | LTau.
(** The fields [_thread], [_stopping], [_pid] (actors.py 27-29) with every worker thread ever started, the process id and where the controlling thread stands. *)
Record lstate := mkL { l_workers : list wpc; l_thread : option nat; l_stopping : bool; l_pid : nat; l_apid : option nat; l_ctl : cpc }.
(** __init__, 27-29 *)
Definition l_init (pid : nat) : lstate := mkL [] None false pid None CIdle.
(** Thread.is_alive of CPython. *)
Definition pc_alive (p : wpc) : bool := match p with WDead => false | _ => true end.
(** is_alive, 53-54 *)
Definition l_alive (s : lstate) : bool :=
  match l_thread s with Some i => match nth_error (l_workers s) i with Some p => pc_alive p | None => false end | None => false end.
(** bookkeeping, no counterpart in /repo *)
Fixpoint set_nth {A} (i : nat) (x : A) (l : list A) : list A :=
  match l, i with [], _ => [] | _ :: l', 0 => x :: l' | y :: l', S i' => y :: set_nth i' x l' end.
(** State updates (bookkeeping). *)
Definition at_w (s : lstate) (i : nat) (p : wpc) : lstate := mkL (set_nth i p (l_workers s)) (l_thread s) (l_stopping s) (l_pid s) (l_apid s) (l_ctl s).
(** bookkeeping, no counterpart in /repo *)
Definition at_c (s : lstate) (c : cpc) : lstate := mkL (l_workers s) (l_thread s) (l_stopping s) (l_pid s) (l_apid s) c.
(** bookkeeping, no counterpart in /repo *)
Definition with_stop (s : lstate) (b : bool) : lstate := mkL (l_workers s) (l_thread s) b (l_pid s) (l_apid s) (l_ctl s).

(** One atomic step of the controlling thread or of a worker, actors.py 53-124; the lines are cited at the constructors. *)
Inductive lstep : lstate -> label -> lstate -> Prop :=
(** worker: 102 *)
| W_stop s i : nth_error (l_workers s) i = Some WTest -> l_stopping s = true -> lstep s LTau (at_w s i WFinally)
| W_go s i : nth_error (l_workers s) i = Some WTest -> l_stopping s = false -> lstep s LTau (at_w s i WTask)
(** 106: the task is called; it returns (or its exception is handled), or the
    exception leaves the loop (107-114) *)
| W_task s i : nth_error (l_workers s) i = Some WTask -> lstep s (LTask i) (at_w s i WWait)
| W_task_fatal s i : nth_error (l_workers s) i = Some WTask -> lstep s (LTask i) (at_w s i WFinally)
(** 121: the wait ends, by timeout or because the flag is set *)
| W_wake s i : nth_error (l_workers s) i = Some WWait -> lstep s LTau (at_w s i WTest)
(** 123, and the end of the thread *)
| W_finally s i : nth_error (l_workers s) i = Some WFinally -> lstep s LTau (with_stop (at_w s i WExit) false)
| W_dead s i : nth_error (l_workers s) i = Some WExit -> lstep s LTau (at_w s i WDead)
(** controlling thread: calls *)
| C_start s : l_ctl s = CIdle -> lstep s (LCall OStart) (at_c s CStart1)
| C_stop s : l_ctl s = CIdle -> lstep s (LCall OStop) (at_c s CStop1)
| C_join s t : l_ctl s = CIdle -> lstep s (LCall (OJoin t)) (at_c s (CJoin1 t))
(** start, 56-69 *)
| C_start_alive s : l_ctl s = CStart1 -> l_alive s = true -> lstep s (LRet RNone) (at_c s CIdle)
| C_start_dead s : l_ctl s = CStart1 -> l_alive s = false -> lstep s LTau (at_c s CStart2)
| C_start_err s : l_ctl s = CStart2 -> l_apid s = Some (l_pid s) -> l_stopping s = true -> lstep s (LRet RRuntimeError) (at_c s CIdle)
| C_start_ok s : l_ctl s = CStart2 -> (l_apid s <> Some (l_pid s) \/ l_stopping s = false) -> lstep s LTau (at_c s CStart3)
| C_start_clear s : l_ctl s = CStart3 -> lstep s LTau (mkL (l_workers s) (l_thread s) false (l_pid s) (Some (l_pid s)) CStart4)
| C_start_spawn s : l_ctl s = CStart4 ->
    lstep s (LRet RNone) (mkL (l_workers s ++ [WTest]) (Some (length (l_workers s))) (l_stopping s) (l_pid s) (l_apid s) CIdle)
(** stop, 71-81 *)
| C_stop_alive s : l_ctl s = CStop1 -> l_alive s = true -> lstep s LTau (at_c s CStopSet)
| C_stop_dead s : l_ctl s = CStop1 -> l_alive s = false -> lstep s LTau (at_c s CStopClear)
| C_stop_set s : l_ctl s = CStopSet -> lstep s (LRet RNone) (at_c (with_stop s true) CIdle)
| C_stop_clear s : l_ctl s = CStopClear -> lstep s (LRet RNone) (at_c (with_stop s false) CIdle)
(** join, 83-90 *)
| C_join_err s t : l_ctl s = CJoin1 t -> l_thread s = None -> lstep s (LRet RRuntimeError) (at_c s CIdle)
| C_join_wait s t i : l_ctl s = CJoin1 t -> l_thread s = Some i -> lstep s LTau (at_c s (CJoin2 t))
| C_join_dead s t : l_ctl s = CJoin2 t -> l_alive s = false -> lstep s LTau (at_c s CJoin3)
| C_join_timeout s : l_ctl s = CJoin2 true -> lstep s LTau (at_c s CJoin3)
| C_join_alive s : l_ctl s = CJoin3 -> l_alive s = true -> lstep s LTau (at_c s (CJoinRet true))
| C_join_gone s : l_ctl s = CJoin3 -> l_alive s = false -> lstep s LTau (at_c s CJoinClear)
| C_join_clear s : l_ctl s = CJoinClear -> lstep s LTau (at_c (with_stop s false) (CJoinRet false))
| C_join_ret s b : l_ctl s = CJoinRet b -> lstep s (LRet (RBool b)) (at_c s CIdle)
(** [os.fork] by the controlling thread, seen in the child: a new pid, no other
    threads, the same flag. *)
| C_fork s pid : l_ctl s = CIdle -> pid <> l_pid s ->
    lstep s LFork (mkL (map (fun _ => WDead) (l_workers s)) (l_thread s) (l_stopping s) pid (l_apid s) CIdle).

(** Executions with their labels. *)
Inductive lsteps : lstate -> list label -> lstate -> Prop :=
| L_nil s : lsteps s [] s
| L_cons s l s1 tr s2 : lstep s l s1 -> lsteps s1 tr s2 -> lsteps s (l :: tr) s2.
