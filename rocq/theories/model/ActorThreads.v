(** Interval actors controlled by several threads: IntervalThreadActor (actors.py 53-124) and
    the actor of a context (context.py 91-146).

    One step is one read or write of shared state: a field of the actor or of the context, the
    stop flag (threading.Event), or one call of a method of a Thread.  In lines 67 and 68 of
    start, reading self._thread and using it is one step.

    Simplifications: no forks (they are in Actor.v), so that self._pid is either None or the
    process id; update_actor=True; what enable_async and disable_async do to the loggers and the
    SIGTERM handler is in Context.v; the task is one step. *)
From Verif Require Import model.PyBase model.Core.
Open Scope nat_scope.

(** A worker thread, _run 98-124.  [WNew]: created, not started yet. *)
Inductive wstate := WNew | WTest | WTask | WWait | WFinally | WExit | WDead.
(** A thread object: whose _run it runs, and where it is. *)
Record worker := mkWk { wk_actor : nat; wk_pc : wstate }.
(** The fields _thread, _stopping and _pid (set or not) of an actor, 27-29. *)
Record afields := mkAF { af_thread : option nat; af_stopping : bool; af_pid : bool }.
(** Operations of the application: on an actor of its own, and on the context.  [timed]: join
    is given a timeout (disable_async passes its join_timeout). *)
Inductive cop := OpStart (a : nat) | OpStop (a : nat) | OpJoin (a : nat) (timed : bool) | OpEnable | OpDisable (timed : bool).
(** What is done after a call of start, stop or join: return to the application, or go on in
    enable_async (112), or in disable_async after stop (137) or join (138). *)
Inductive kont := KApp | KEnable | KStopped (timed : bool) | KJoined.
(** Where a controlling thread is. *)
Inductive tpc :=
| TIdle
| TStart1 (a : nat) (k : kont)                    (* before reading self._thread, 57 / 54 *)
| TStart2 (a w : nat) (k : kont)                  (* before w.is_alive(), 54 *)
| TStart3 (a : nat) (k : kont)                    (* before reading self._pid, 60 *)
| TStart4 (a : nat) (k : kont)                    (* same pid; before is_set(), 60 *)
| TStart5 (a : nat) (k : kont)                    (* before 64 *)
| TStart6 (a : nat) (k : kont)                    (* before 65 *)
| TStart7 (a : nat) (k : kont)                    (* before 66 *)
| TStart8 (a : nat) (k : kont)                    (* before 67 *)
| TStart9 (a : nat) (k : kont)                    (* before 68 *)
| TStop1 (a : nat) (k : kont)                     (* before reading self._thread, 77 / 54 *)
| TStop2 (a w : nat) (k : kont)                   (* before w.is_alive(), 54 *)
| TStop3 (a : nat) (alive : bool) (k : kont)      (* before set() 78 or clear() 80 *)
| TJoin1 (a : nat) (timed : bool) (k : kont)      (* before 84 *)
| TJoin2 (a : nat) (timed : bool) (k : kont)      (* before reading self._thread, 86 *)
| TJoin3 (a w : nat) (timed : bool) (k : kont)    (* in w.join(timeout), 86 *)
| TJoin4 (a : nat) (k : kont)                     (* before reading self._thread, 87 / 54 *)
| TJoin5 (a w : nat) (k : kont)                   (* before w.is_alive(), 54 *)
| TJoin6 (a : nat) (k : kont)                     (* before clear(), 89 *)
| TJoin7 (a : nat) (r : bool) (k : kont)          (* before returning r, 90 *)
| TEnable1                                        (* before context.py 110 *)
| TEnable2                                        (* before 111 *)
| TEnable3                                        (* before reading self.async_actor, 112 *)
| TEnable4 (ok : bool)                            (* before returning or raising *)
| TDisable1 (timed : bool)                        (* before 136 *)
| TDisable2 (timed : bool)                        (* before reading self.async_actor, 137 *)
| TDisable3 (timed : bool)                        (* before reading self.async_actor, 138 *)
| TDisable4                                       (* before flush(), 145 *)
| TDisable5 (ok : bool).                          (* before returning or raising *)
(** What happened.  [ok]: returned, did not raise. *)
Inductive cevent :=
| EStart (t a : nat) | EStartRet (t a : nat) (ok : bool)
| EStop (t a : nat) | EStopRet (t a : nat)
| EJoin (t a : nat) | EJoinRet (t a : nat) (r : option bool)
| ETask (a w : nat) (fatal : bool)
| EEnable (t : nat) | EEnableRet (t : nat) (ok : bool)
| EDisable (t : nat) | EFlush (t : nat) | EDisableRet (t : nat) (ok : bool).
(** A controlling thread: where it is and what it has still to do. *)
Record cthread := mkCT { ct_pc : tpc; ct_todo : list cop }.
(** The actors, the thread objects created so far (the others count as dead), the context's
    async_actor, the number of actors and of thread objects created, the controlling threads. *)
Record cstate := mkCS {
  cs_actors : nat -> afields; cs_workers : nat -> worker; cs_ctx : option nat;
  cs_na : nat; cs_nw : nat; cs_threads : nat -> cthread; cs_trace : list cevent }.

(** bookkeeping, no counterpart in /repo: thread [t] moves on *)
Definition cat (t : nat) (p : tpc) (todo : list cop) (new : list cevent) (s : cstate) : cstate :=
  mkCS (cs_actors s) (cs_workers s) (cs_ctx s) (cs_na s) (cs_nw s) (upd (cs_threads s) t (mkCT p todo)) (cs_trace s ++ new).
(** bookkeeping, no counterpart in /repo *)
Definition set_actor (a : nat) (f : afields) (s : cstate) : cstate :=
  mkCS (upd (cs_actors s) a f) (cs_workers s) (cs_ctx s) (cs_na s) (cs_nw s) (cs_threads s) (cs_trace s).
(** bookkeeping, no counterpart in /repo *)
Definition set_flag (a : nat) (b : bool) (s : cstate) : cstate :=
  set_actor a (mkAF (af_thread (cs_actors s a)) b (af_pid (cs_actors s a))) s.
(** bookkeeping, no counterpart in /repo *)
Definition set_worker (w : nat) (p : wstate) (s : cstate) : cstate :=
  mkCS (cs_actors s) (upd (cs_workers s) w (mkWk (wk_actor (cs_workers s w)) p)) (cs_ctx s) (cs_na s) (cs_nw s) (cs_threads s) (cs_trace s).
(** bookkeeping, no counterpart in /repo *)
Definition add_event (e : cevent) (s : cstate) : cstate :=
  mkCS (cs_actors s) (cs_workers s) (cs_ctx s) (cs_na s) (cs_nw s) (cs_threads s) (cs_trace s ++ [e]).
(** Thread.is_alive of CPython: started and not ended *)
Definition started_alive (p : wstate) : bool := match p with WNew | WDead => false | _ => true end.
(** The pid and the flag are set and cleared: start, 64 *)
Definition set_pid (a : nat) (s : cstate) : cstate := set_actor a (mkAF (af_thread (cs_actors s a)) (af_stopping (cs_actors s a)) true) s.
(** start, 66: a new thread object, not started yet *)
Definition new_worker (a : nat) (s : cstate) : cstate :=
  let w := cs_nw s in
  mkCS (upd (cs_actors s) a (mkAF (Some w) (af_stopping (cs_actors s a)) (af_pid (cs_actors s a))))
       (upd (cs_workers s) w (mkWk a WNew)) (cs_ctx s) (cs_na s) (S w) (cs_threads s) (cs_trace s).
(** IntervalThreadActor.__init__, 22-45, and context.py 111 *)
Definition new_actor (s : cstate) : cstate :=
  let a := cs_na s in
  mkCS (upd (cs_actors s) a (mkAF None false false)) (cs_workers s) (Some a) (S a) (cs_nw s) (cs_threads s) (cs_trace s).

(** Where a call of start goes on after returning or raising. *)
Definition after_start (k : kont) (ok : bool) : tpc := match k with KEnable => TEnable4 ok | _ => TIdle end.
(** ... of stop *)
Definition after_stop (k : kont) : tpc := match k with KStopped timed => TDisable3 timed | _ => TIdle end.
(** ... of join: its result is not used by disable_async *)
Definition after_join (k : kont) (ok : bool) : tpc :=
  match k with KJoined => if ok then TDisable4 else TDisable5 false | _ => TIdle end.

(** One operation of the controlling thread [t]; None: it has nothing to do, or waits.
    [timeout]: if it waits in join with a timeout, the time is over. *)
Definition cmove (t : nat) (timeout : bool) (s : cstate) : option cstate :=
  let th := cs_threads s t in
  let todo := ct_todo th in
  let go p s := Some (cat t p todo [] s) in
  match ct_pc th with
  | TIdle =>
    match todo with
    | [] => None
    | OpStart a :: todo' => Some (cat t (TStart1 a KApp) todo' [EStart t a] s)
    | OpStop a :: todo' => Some (cat t (TStop1 a KApp) todo' [EStop t a] s)
    | OpJoin a timed :: todo' => Some (cat t (TJoin1 a timed KApp) todo' [EJoin t a] s)
    | OpEnable :: todo' => Some (cat t TEnable1 todo' [EEnable t] s)
    | OpDisable timed :: todo' => Some (cat t (TDisable1 timed) todo' [EDisable t] s)
    end
  (* start *)
  | TStart1 a k => go (match af_thread (cs_actors s a) with Some w => TStart2 a w k | None => TStart3 a k end) s
  | TStart2 a w k =>
    if started_alive (wk_pc (cs_workers s w)) then Some (cat t (after_start k true) todo [EStartRet t a true] s) else go (TStart3 a k) s
  | TStart3 a k => go (if af_pid (cs_actors s a) then TStart4 a k else TStart5 a k) s
  | TStart4 a k =>
    if af_stopping (cs_actors s a) then Some (cat t (after_start k false) todo [EStartRet t a false] s) else go (TStart5 a k) s
  | TStart5 a k => go (TStart6 a k) (set_pid a s)
  | TStart6 a k => go (TStart7 a k) (set_flag a false s)
  | TStart7 a k => go (TStart8 a k) (new_worker a s)
  | TStart8 a k =>
    match af_thread (cs_actors s a) with
    | Some w => match wk_pc (cs_workers s w) with
                | WNew => go (TStart9 a k) s
                | _ => Some (cat t (after_start k false) todo [EStartRet t a false] s)   (* cannot set daemon status of active thread *)
                end
    | None => None
    end
  | TStart9 a k =>
    match af_thread (cs_actors s a) with
    | Some w => match wk_pc (cs_workers s w) with
                | WNew => Some (cat t (after_start k true) todo [EStartRet t a true] (set_worker w WTest s))
                | _ => Some (cat t (after_start k false) todo [EStartRet t a false] s)   (* threads can only be started once *)
                end
    | None => None
    end
  (* stop *)
  | TStop1 a k => go (match af_thread (cs_actors s a) with Some w => TStop2 a w k | None => TStop3 a false k end) s
  | TStop2 a w k => go (TStop3 a (started_alive (wk_pc (cs_workers s w))) k) s
  | TStop3 a alive k => Some (cat t (after_stop k) todo [EStopRet t a] (set_flag a alive s))
  (* join *)
  | TJoin1 a timed k =>
    match af_thread (cs_actors s a) with
    | Some _ => go (TJoin2 a timed k) s
    | None => Some (cat t (after_join k false) todo [EJoinRet t a None] s)
    end
  | TJoin2 a timed k => match af_thread (cs_actors s a) with Some w => go (TJoin3 a w timed k) s | None => None end
  | TJoin3 a w timed k =>
    match wk_pc (cs_workers s w) with
    | WNew => Some (cat t (after_join k false) todo [EJoinRet t a None] s)               (* cannot join thread before it is started *)
    | WDead => go (TJoin4 a k) s
    | _ => if timed && timeout then go (TJoin4 a k) s else None
    end
  | TJoin4 a k => go (match af_thread (cs_actors s a) with Some w => TJoin5 a w k | None => TJoin6 a k end) s
  | TJoin5 a w k => go (if started_alive (wk_pc (cs_workers s w)) then TJoin7 a true k else TJoin6 a k) s
  | TJoin6 a k => go (TJoin7 a false k) (set_flag a false s)
  | TJoin7 a r k => Some (cat t (after_join k true) todo [EJoinRet t a (Some r)] s)
  (* enable_async *)
  | TEnable1 => go (match cs_ctx s with Some _ => TEnable3 | None => TEnable2 end) s
  | TEnable2 => go TEnable3 (new_actor s)
  | TEnable3 => match cs_ctx s with Some a => Some (cat t (TStart1 a KEnable) todo [EStart t a] s) | None => None end
  | TEnable4 ok => Some (cat t TIdle todo [EEnableRet t ok] s)
  (* disable_async *)
  | TDisable1 timed => go (match cs_ctx s with Some _ => TDisable2 timed | None => TDisable4 end) s
  | TDisable2 timed => match cs_ctx s with Some a => Some (cat t (TStop1 a (KStopped timed)) todo [EStop t a] s) | None => None end
  | TDisable3 timed => match cs_ctx s with Some a => Some (cat t (TJoin1 a timed KJoined) todo [EJoin t a] s) | None => None end
  | TDisable4 => Some (cat t (TDisable5 true) todo [EFlush t] s)
  | TDisable5 ok => Some (cat t TIdle todo [EDisableRet t ok] s)
  end.
(** One operation of a worker, _run 98-124.  [fatal]: the task ends in an exception that leaves
    the loop (107-114). *)
Definition wmove (w : nat) (fatal : bool) (s : cstate) : option cstate :=
  let a := wk_actor (cs_workers s w) in
  match wk_pc (cs_workers s w) with
  | WTest => Some (set_worker w (if af_stopping (cs_actors s a) then WFinally else WTask) s)                 (* 102 *)
  | WTask => Some (add_event (ETask a w fatal) (set_worker w (if fatal then WFinally else WWait) s))         (* 106 *)
  | WWait => Some (set_worker w WTest s)                                                                     (* 121 *)
  | WFinally => Some (set_flag a false (set_worker w WExit s))                                               (* 123 *)
  | WExit => Some (set_worker w WDead s)
  | WNew | WDead => None
  end.
(** What the scheduler chooses. *)
Inductive pick := PT (t : nat) (timeout : bool) | PW (w : nat) (fatal : bool).
(** One step. *)
Definition cstep (p : pick) (s : cstate) : option cstate :=
  match p with PT t b => cmove t b s | PW w b => wmove w b s end.
(** Running a schedule; picks of threads that cannot move are skipped. *)
Fixpoint crun (sc : list pick) (s : cstate) : cstate :=
  match sc with
  | [] => s
  | p :: sc' => crun sc' (match cstep p s with Some s' => s' | None => s end)
  end.
(** [n] new actors of the application, a new context (context.py 58-63) and threads about to do
    the given operations. *)
Definition cstart (n : nat) (progs : list (list cop)) : cstate :=
  mkCS (fun _ => mkAF None false false) (fun _ => mkWk 0 WDead) None n 0 (fun t => mkCT TIdle (nth t progs [])) [].
