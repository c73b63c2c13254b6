(** Loggers used by any number of threads, with sinks and preflush hooks that call back
    into the loggers: logger.py 104-136 (set_async, flush), 186-218 and 240-245 (the on_...
    methods), with async_lock a threading.RLock (89).

    As in Concurrent.v, one step is one operation that CPython executes atomically and the
    schedule picks the thread.  A thread is a stack of activations; a hook is a list of
    calls on loggers, which may depend on everything that happened before.

    Simplifications: the hooks do not change while the threads run; exceptions are
    ordinary ones (subclasses of Exception); the stack is not limited (CPython raises
    RecursionError at some depth). *)
From Verif Require Import model.PyBase model.Core model.Concurrent.

(** A call on a logger. *)
Definition rcall := (nat * call)%type.
(** An activation: code with the calls it has still to make (the thread's program or the
    body of a hook), or a position inside a method of logger [l]. *)
Inductive frame :=
| FBody (cs : list rcall)
| FLogging (l : nat) (x : item)                      (* before [if self.async_mode], 188, 197, 206, 241 *)
| FAppending (l : nat) (x : item)                    (* before event_queue.append, 189, 198, 207, 242 *)
| FInline (l : nat) (x : item) (hs : list nat)       (* in [for hook in hooks], 191, 200, 209, 216, 244 *)
| FSetting (l : nat) (b : bool)                      (* before [self.async_mode = enabled], 105 *)
| FAcquire (l : nat)                                 (* before [with self.async_lock], 110 *)
| FPre (l : nat) (hs : list nat)                     (* in [for preflush_hook], 111 *)
| FCheck (l : nat)                                   (* before [while queue], 118 *)
| FPop (l : nat)                                     (* before queue.popleft(), 119 *)
| FDispatch (l : nat) (x : item) (hs : list nat).    (* in the hook loops, 120-131 *)
(** A thread: what is running first, the thread's own program last. *)
Definition rthread := list frame.

(** What happened, in order. *)
Inductive robs :=
| RLog (t l : nat) (x : item)                      (* a logging call started *)
| RAppend (t l : nat) (x : item)                   (* the event was queued *)
| RDrop (l : nat) (x : item)                       (* the full deque dropped its oldest event *)
| RPre (t l h : nat)                               (* preflush hook h called *)
| RPop (t l : nat) (x : item)
| RCall (t l s : nat) (x : item) (queued : bool)   (* hook of sink s called, inline or by flush *)
| RFlushed (t l : nat) (outer : bool)              (* flush returned; outer: and released the lock *)
| RFlushRaised (t l : nat).                        (* a hook raised out of flush *)

(** A logger: async_mode, event_queue, async_lock with its owner and the number of times
    the owner took it (87-89). *)
Record rlog := mkRL { rl_async : bool; rl_queue : list item; rl_lock : option (nat * nat) }.
(** The loggers, the threads and the observations made. *)
Record rstate := mkR { r_logs : nat -> rlog; r_threads : list rthread; r_trace : list robs }.

(** The hooks of each logger and what they do when they are called: the hook of sink [s]
    for event [x] of logger [l] in thread [t], and preflush hook [h] of [l]; [tr] is what
    happened before. *)
Record hookset := mkHooks {
  h_lis : nat -> kind -> list nat;                                (* the hooks for each kind, 173-181 *)
  h_react : list robs -> nat -> nat -> nat -> item -> list rcall; (* tr t l s x *)
  h_pre : nat -> list nat;                                        (* preflush_hooks, 90 *)
  h_prereact : list robs -> nat -> nat -> nat -> list rcall }.    (* tr t l h *)

(** RLock.acquire by [t]: None if it has to wait. *)
Definition acquire (t : nat) (k : option (nat * nat)) : option (option (nat * nat)) :=
  match k with
  | None => Some (Some (t, 1))
  | Some (o, n) => if Nat.eqb o t then Some (Some (o, S n)) else None
  end.
(** RLock.release by its owner. *)
Definition release (k : option (nat * nat)) : option (nat * nat) :=
  match k with
  | Some (o, S (S n)) => Some (o, S n)
  | _ => None
  end.
(** Is this the last release? *)
Definition last_hold (k : option (nat * nat)) : bool :=
  match k with Some (_, S (S _)) => false | _ => true end.

(** bookkeeping, no counterpart in /repo: the stack of thread [t] is now [st] *)
Definition rat (t : nat) (st : rthread) (new : list robs) (g : rstate) : rstate :=
  mkR (r_logs g) (list_set (r_threads g) t st) (r_trace g ++ new).
(** bookkeeping, no counterpart in /repo: logger [l] is now [v] *)
Definition r_set (l : nat) (v : rlog) (g : rstate) : rstate :=
  mkR (fun l' => if Nat.eqb l' l then v else r_logs g l') (r_threads g) (r_trace g).
(** bookkeeping, no counterpart in /repo *)
Definition r_set_async l v g := r_set l (mkRL v (rl_queue (r_logs g l)) (rl_lock (r_logs g l))) g.
(** bookkeeping, no counterpart in /repo *)
Definition r_set_queue l v g := r_set l (mkRL (rl_async (r_logs g l)) v (rl_lock (r_logs g l))) g.
(** bookkeeping, no counterpart in /repo *)
Definition r_set_lock l v g := r_set l (mkRL (rl_async (r_logs g l)) (rl_queue (r_logs g l)) v) g.
(** bookkeeping, no counterpart in /repo: the lock of [l] released once *)
Definition r_release l g := r_set_lock l (release (rl_lock (r_logs g l))) g.

(** One step of thread [t]; [raises]: the hook that is running raises.  The exception
    leaves the logging call or the flush that called the hook (releasing the lock); code
    further out may go on or raise in turn at its next step.  Exceptions of preflush hooks
    are noted and dropped (112-116).  [None]: the thread cannot run. *)
Definition rstep (H : hookset) (t : nat) (raises : bool) (g : rstate) : option rstate :=
  match nth_error (r_threads g) t with
  | Some (FBody cs :: rest) =>
    if raises then
      match rest with
      | FInline _ _ _ :: out => Some (rat t out [] g)
      | FDispatch l _ _ :: out => Some (rat t out [RFlushRaised t l] (r_release l g))
      | FPre l hs :: out => Some (rat t (FPre l hs :: out) [] g)
      | _ => None
      end
    else
      match cs with
      | [] => match rest with [] => None | _ => Some (rat t rest [] g) end
      | (l, CLog k e) :: cs' =>
        let f := match k with KExc => FInline l (k, e) (h_lis H l k) | _ => FLogging l (k, e) end in   (* 213-218: never queued *)
        Some (rat t (f :: FBody cs' :: rest) [RLog t l (k, e)] g)
      | (l, CFlush) :: cs' => Some (rat t (FAcquire l :: FBody cs' :: rest) [] g)
      | (l, CSetAsync b) :: cs' => Some (rat t (FSetting l b :: FBody cs' :: rest) [] g)
      end
  | Some (FLogging l x :: rest) =>
    Some (rat t ((if rl_async (r_logs g l) then FAppending l x else FInline l x (h_lis H l (fst x))) :: rest) [] g)
  | Some (FAppending l x :: rest) =>
    let (q, dropped) := bounded_append QUEUE_LIMIT (rl_queue (r_logs g l)) x in
    Some (rat t rest
            ((if dropped then match rl_queue (r_logs g l) with y :: _ => [RDrop l y] | [] => [] end else []) ++ [RAppend t l x])
            (r_set_queue l q g))
  | Some (FInline l x [] :: rest) => Some (rat t rest [] g)
  | Some (FInline l x (s :: hs) :: rest) =>
    Some (rat t (FBody (h_react H (r_trace g) t l s x) :: FInline l x hs :: rest) [RCall t l s x false] g)
  | Some (FSetting l b :: rest) => Some (rat t rest [] (r_set_async l b g))
  | Some (FAcquire l :: rest) =>
    match acquire t (rl_lock (r_logs g l)) with
    | Some k => Some (rat t (FPre l (h_pre H l) :: rest) [] (r_set_lock l k g))
    | None => None
    end
  | Some (FPre l [] :: rest) => Some (rat t (FCheck l :: rest) [] g)
  | Some (FPre l (h :: hs) :: rest) => Some (rat t (FBody (h_prereact H (r_trace g) t l h) :: FPre l hs :: rest) [RPre t l h] g)
  | Some (FCheck l :: rest) =>
    match rl_queue (r_logs g l) with
    | [] => Some (rat t rest [RFlushed t l (last_hold (rl_lock (r_logs g l)))] (r_release l g))
    | _ :: _ => Some (rat t (FPop l :: rest) [] g)
    end
  | Some (FPop l :: rest) =>
    match rl_queue (r_logs g l) with
    | [] => Some (rat t rest [RFlushRaised t l] (r_release l g))      (* IndexError *)
    | x :: q =>
      Some (rat t (FDispatch l x (match fst x with KExc => [] | k => h_lis H l k end) :: rest) [RPop t l x] (r_set_queue l q g))
    end
  | Some (FDispatch l x [] :: rest) => Some (rat t (FCheck l :: rest) [] g)
  | Some (FDispatch l x (s :: hs) :: rest) =>
    Some (rat t (FBody (h_react H (r_trace g) t l s x) :: FDispatch l x hs :: rest) [RCall t l s x true] g)
  | Some [] | None => None
  end.

(** Running a schedule: which thread runs next, and whether its hook raises.  A thread that
    cannot run is skipped. *)
Fixpoint rrun (H : hookset) (sc : list (nat * bool)) (g : rstate) : rstate :=
  match sc with
  | [] => g
  | (t, b) :: sc' => rrun H sc' (match rstep H t b g with Some g' => g' | None => g end)
  end.

(** Threads about to run the given programs on fresh loggers, [async l] being the mode of
    logger [l]. *)
Definition rstart (async : nat -> bool) (progs : list (list rcall)) : rstate :=
  mkR (fun l => mkRL (async l) [] None) (map (fun p => [FBody p]) progs) [].
