(** Small-step model of one logger used by any number of threads: logger.py 104-136
    (set_async, flush under async_lock), 186-218 and 240-245 (the on_... methods),
    context.py 127-146 (disable_async as set_async(False) then flush).

    One step is one operation that CPython executes atomically: reading async_mode,
    deque.append, the truth test of the deque, deque.popleft, RLock.acquire/release,
    starting a hook, a hook returning or raising.  The schedule picks the thread.

    Simplifications: the sinks do not change while the threads run; preflush hooks
    (modelled in Core.v) are left out; hooks do not call back into the logger, so the
    RLock is never taken twice by one thread. *)
From Verif Require Import model.PyBase model.Core.

(** An entry of event_queue, logger.py 189, 198, 207, 242. *)
Definition item := (kind * event)%type.

(** The calls a thread makes. *)
Inductive call :=
| CLog (k : kind) (e : event)        (* the Logger.on_... method, or the end of comment *)
| CFlush                             (* Logger.flush *)
| CSetAsync (b : bool).              (* Logger.set_async *)
(** disable_async for one logger, context.py 140-145 *)
Definition disable : list call := [CSetAsync false; CFlush].

(** Where a thread is. *)
Inductive pc :=
| Idle                                             (* between calls *)
| Logging (k : kind) (e : event)                   (* before [if self.async_mode], 188, 197, 206, 241 *)
| Appending (k : kind) (e : event)                 (* before event_queue.append, 189, 198, 207, 242 *)
| Inline (k : kind) (e : event) (hs : list nat)    (* in [for hook in hooks], 191, 200, 209, 216, 244 *)
| InHook (k : kind) (e : event) (s : nat) (hs : list nat)    (* inside hook of sink s, called inline *)
| Setting (b : bool)                               (* before [self.async_mode = enabled], 105 *)
| Acquiring                                        (* before [with self.async_lock], 110 *)
| Checking                                         (* before [while queue], 118 *)
| Popping                                          (* before queue.popleft(), 119 *)
| Dispatching (k : kind) (e : event) (hs : list nat)         (* in the hook loops, 120-131 *)
| Delivering (k : kind) (e : event) (s : nat) (hs : list nat).  (* inside hook of sink s, called by flush *)
(** A thread: where it stands and the calls it has still to make. *)
Record thread := mkThread { th_pc : pc; th_todo : list call }.

(** What happened, in order. *)
Inductive tobs :=
| TLog (t : nat) (x : item)                        (* a logging call started *)
| TAppend (t : nat) (x : item)                     (* the event was queued *)
| TDrop (x : item)                                 (* the full deque dropped its oldest event *)
| TPop (t : nat) (x : item)
| TCall (t s : nat) (x : item) (queued : bool)     (* hook of sink s called, inline or by flush *)
| TFlushed (t : nat)                               (* flush returned *)
| TFlushRaised (t : nat).                          (* a hook raised out of flush *)

(** The shared state: async_mode, event_queue, async_lock (logger.py 87-89), the threads and the observations made. *)
Record gstate := mkG {
  g_async : bool;
  g_queue : list item;
  g_lock : option nat;
  g_threads : list thread;
  g_trace : list tobs }.

(** bookkeeping, no counterpart in /repo: thread [t] is at [p] with [todo] left *)
Definition at_ (t : nat) (p : pc) (todo : list call) (new : list tobs) (g : gstate) : gstate :=
  mkG (g_async g) (g_queue g) (g_lock g) (list_set (g_threads g) t (mkThread p todo)) (g_trace g ++ new).
(** bookkeeping, no counterpart in /repo *)
Definition g_set_async v g := mkG v (g_queue g) (g_lock g) (g_threads g) (g_trace g).
(** bookkeeping, no counterpart in /repo *)
Definition g_set_queue v g := mkG (g_async g) v (g_lock g) (g_threads g) (g_trace g).
(** bookkeeping, no counterpart in /repo *)
Definition g_set_lock v g := mkG (g_async g) (g_queue g) v (g_threads g) (g_trace g).

(** One step of thread [t]; [raises]: a hook that is running raises.  [None]: the thread
    cannot run (finished, or waiting for the lock).  [lis k]: the hooks for kind [k]. *)
Definition tstep (lis : kind -> list nat) (t : nat) (raises : bool) (g : gstate) : option gstate :=
  match nth_error (g_threads g) t with
  | None => None
  | Some th =>
    let todo := th_todo th in
    match th_pc th with
    | Idle =>
      match todo with
      | [] => None
      | CLog KExc e :: todo' => Some (at_ t (Inline KExc e (lis KExc)) todo' [TLog t (KExc, e)] g)   (* 213-218 *)
      | CLog k e :: todo' => Some (at_ t (Logging k e) todo' [TLog t (k, e)] g)
      | CFlush :: todo' => Some (at_ t Acquiring todo' [] g)
      | CSetAsync b :: todo' => Some (at_ t (Setting b) todo' [] g)
      end
    | Logging k e => Some (at_ t (if g_async g then Appending k e else Inline k e (lis k)) todo [] g)
    | Appending k e =>
      let (q, dropped) := bounded_append QUEUE_LIMIT (g_queue g) (k, e) in
      Some (at_ t Idle todo
              ((if dropped then match g_queue g with x :: _ => [TDrop x] | [] => [] end else []) ++ [TAppend t (k, e)])
              (g_set_queue q g))
    | Inline k e [] => Some (at_ t Idle todo [] g)
    | Inline k e (s :: hs) => Some (at_ t (InHook k e s hs) todo [TCall t s (k, e) false] g)
    | InHook k e s hs => Some (at_ t (if raises then Idle else Inline k e hs) todo [] g)
    | Setting b => Some (at_ t Idle todo [] (g_set_async b g))
    | Acquiring =>
      match g_lock g with
      | None => Some (at_ t Checking todo [] (g_set_lock (Some t) g))
      | Some _ => None
      end
    | Checking =>
      match g_queue g with
      | [] => Some (at_ t Idle todo [TFlushed t] (g_set_lock None g))
      | _ :: _ => Some (at_ t Popping todo [] g)
      end
    | Popping =>
      match g_queue g with
      | [] => Some (at_ t Idle todo [TFlushRaised t] (g_set_lock None g))      (* IndexError *)
      | (k, e) :: q => Some (at_ t (Dispatching k e (match k with KExc => [] | _ => lis k end)) todo [TPop t (k, e)] (g_set_queue q g))
      end
    | Dispatching k e [] => Some (at_ t Checking todo [] g)
    | Dispatching k e (s :: hs) => Some (at_ t (Delivering k e s hs) todo [TCall t s (k, e) true] g)
    | Delivering k e s hs =>
      if raises then Some (at_ t Idle todo [TFlushRaised t] (g_set_lock None g))
      else Some (at_ t (Dispatching k e hs) todo [] g)
    end
  end.

(** A schedule: which thread runs next, and whether its hook raises.  A thread that
    cannot run is skipped. *)
Definition sched := list (nat * bool).
(** Running a schedule. *)
Fixpoint trun (lis : kind -> list nat) (sc : sched) (g : gstate) : gstate :=
  match sc with
  | [] => g
  | (t, b) :: sc' => trun lis sc' (match tstep lis t b g with Some g' => g' | None => g end)
  end.

(** Threads about to run the given programs on a fresh logger. *)
Definition start (async : bool) (progs : list (list call)) : gstate :=
  mkG async [] None (map (mkThread Idle) progs) [].
