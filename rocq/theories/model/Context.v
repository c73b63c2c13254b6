(** Model of /repo/lithoxyl/context.py 55-168 and 171-231: the context that knows the
    loggers, switches modes, flushes and installs the SIGTERM handler.

    Simplifications: one context (other contexts only use up numbers of the shared
    logger counter); the pool of logger objects exists from the start and creating a
    logger is its first use; a logger disappearing from the WeakKeyDictionary because it
    was garbage collected is a removal at an arbitrary moment; the background actor is
    only its running flag here (its thread: Actor.v; its concurrency: Concurrent.v). *)
From Verif Require Import model.PyBase model.Core.

(** What signal.getsignal(SIGTERM) can return: SIG_DFL, SIG_IGN, lithoxyl's
    signal_sysexit, or another handler (also one not installed from Python). *)
Inductive handler := SigDfl | SigIgn | SigLithoxyl | SigApp (n : nat).

(** Functions given to atexit.register: disable_async of this context (122),
    atexit_reissue_sigterm (174), the application's own. *)
Inductive hook := HDisable | HReissue | HApp (n : nat).

(** The context, context.py 55-72, and the loggers. *)
Record cstate := mkC {
  c_async : bool;                  (* async_mode *)
  c_loggers : list (nat * nat);    (* loggers: logger, number; insertion order *)
  c_count : nat;                   (* _ctx_logger_count *)
  c_actor : option bool;           (* async_actor: none, or running? *)
  c_atexit : bool;                 (* _async_atexit_registered *)
  c_exits : list hook;             (* atexit's functions, in order of registration *)
  c_sig : handler;                 (* the process's SIGTERM handler *)
  c_w : world }.
(** bookkeeping, no counterpart in /repo *)
Definition c_set_async v c := mkC v (c_loggers c) (c_count c) (c_actor c) (c_atexit c) (c_exits c) (c_sig c) (c_w c).
(** bookkeeping, no counterpart in /repo *)
Definition c_set_loggers v n c := mkC (c_async c) v n (c_actor c) (c_atexit c) (c_exits c) (c_sig c) (c_w c).
(** bookkeeping, no counterpart in /repo *)
Definition c_set_actor v c := mkC (c_async c) (c_loggers c) (c_count c) v (c_atexit c) (c_exits c) (c_sig c) (c_w c).
(** bookkeeping, no counterpart in /repo *)
Definition c_set_atexit v n c := mkC (c_async c) (c_loggers c) (c_count c) (c_actor c) v n (c_sig c) (c_w c).
(** bookkeeping, no counterpart in /repo *)
Definition c_set_sig v c := mkC (c_async c) (c_loggers c) (c_count c) (c_actor c) (c_atexit c) (c_exits c) v (c_w c).
(** bookkeeping, no counterpart in /repo *)
Definition c_set_w v c := mkC (c_async c) (c_loggers c) (c_count c) (c_actor c) (c_atexit c) (c_exits c) (c_sig c) v.
(** LithoxylContext.__init__, 59-72 *)
Definition c_init (sig : handler) (count : nat) (w : world) : cstate := mkC false [] count None false [] sig w.

(** [sorted(list(self.loggers.items()), key=lambda x: x[1])], 115, 142, 149:
    insertion sort on the number. *)
Fixpoint insert_by_number (x : nat * nat) (l : list (nat * nat)) : list (nat * nat) :=
  match l with
  | [] => [x]
  | y :: l' => if snd x <=? snd y then x :: l else y :: insert_by_number x l'
  end.
(** context.py 149: the loggers by number. *)
Definition sorted_loggers (c : cstate) : list nat := map fst (fold_right insert_by_number [] (c_loggers c)).
(** add_logger, 158-161 *)
Definition add_logger (l : nat) (c : cstate) : cstate :=
  if existsb (fun p => fst p =? l) (c_loggers c) then c
  else c_set_loggers (c_loggers c ++ [(l, c_count c)]) (S (c_count c)) c.
(** remove_logger, 163-168 (and garbage collection) *)
Definition remove_logger (l : nat) (c : cstate) : cstate :=
  c_set_loggers (filter (fun p => negb (fst p =? l)) (c_loggers c)) (c_count c) c.
(** Logger.__init__, logger.py 84-88: [async_] is the keyword argument, if given *)
Definition create_logger (l : nat) (async_ : option bool) (c : cstate) : cstate :=
  let c1 := add_logger l c in
  c_set_w (fst (set_async l (match async_ with Some b => b | None => c_async c end) (c_w c1))) c1.

(** flush, 148-156 *)
Fixpoint flush_list (cfg : config) (ls : list nat) : M unit :=
  match ls with
  | [] => ret tt
  | l :: ls' => fun w =>
    match flush cfg l w with
    | (w', Ok _) => flush_list cfg ls' w'
    | (w', Raise e) =>
      if exn_ord e then (note cfg "context_flush" ;;; flush_list cfg ls') w' else (w', Raise e)
    end
  end.
(** flush, context.py 148-156. *)
Definition ctx_flush (cfg : config) (c : cstate) : cstate * res unit :=
  let (w, r) := flush_list cfg (sorted_loggers c) (c_w c) in (c_set_w w c, r).
(** [for logger, _ in loggers: logger.set_async(b)], 116-117, 143-144 *)
Fixpoint set_async_list (ls : list nat) (b : bool) (w : world) : world :=
  match ls with
  | [] => w
  | l :: ls' => set_async_list ls' b (fst (set_async l b w))
  end.

(** install_sigterm_handler, 214-223.  signal.signal raises ValueError outside the main
    thread ([main] = false). *)
Definition exn_not_main := mkExn 3 true.
(** install_sigterm_handler, context.py 214-223. *)
Definition install_sigterm (main : bool) (c : cstate) : cstate * res bool :=
  match c_sig c with
  | SigDfl => if main then (c_set_sig SigLithoxyl c, Ok true) else (c, Raise exn_not_main)
  | _ => (c, Ok false)
  end.
(** uninstall_sigterm_handler, 226-231 *)
Definition uninstall_sigterm (main force : bool) (c : cstate) : cstate * res bool :=
  if force || match c_sig c with SigLithoxyl => true | _ => false end then
    if main then (c_set_sig SigDfl c, Ok true) else (c, Raise exn_not_main)
  else (c, Ok false).

(** Keyword arguments of enable_async and disable_async. *)
Record copts := mkOpts { o_loggers : bool; o_sigterm : bool; o_actor : bool }.
(** The defaults of enable_async and disable_async: all True, context.py 91-146. *)
Definition all_opts := mkOpts true true true.
(** [if not self._async_atexit_registered: atexit.register(self.disable_async); ...],
    120-123 *)
Definition register_exit (c : cstate) : cstate := if c_atexit c then c else c_set_atexit true (c_exits c ++ [HDisable]) c.
(** enable_async, 91-125 (unexpected keyword arguments aside).  Line 117 passes False. *)
Definition enable_async (main : bool) (o : copts) (c : cstate) : cstate * res unit :=
  let c1 := c_set_async true c in
  match (if o_sigterm o then install_sigterm main c1 else (c1, Ok false)) with
  | (c2, Raise e) => (c2, Raise e)
  | (c2, Ok _) =>
    let c3 := if o_actor o then c_set_actor (Some true) c2 else c2 in
    let c4 := if o_loggers o then c_set_w (set_async_list (sorted_loggers c3) false (c_w c3)) c3 else c3 in
    (register_exit c4, Ok tt)
  end.
(** disable_async, 127-146 *)
Definition disable_async (cfg : config) (main : bool) (o : copts) (c : cstate) : cstate * res unit :=
  match (if o_sigterm o then uninstall_sigterm main false c else (c, Ok false)) with
  | (c1, Raise e) => (c1, Raise e)
  | (c1, Ok _) =>
    let c2 := if o_actor o then match c_actor c1 with Some _ => c_set_actor (Some false) c1 | None => c1 end else c1 in
    let c3 := if o_loggers o then c_set_w (set_async_list (sorted_loggers c2) false (c_w c2)) c2 else c2 in
    match ctx_flush cfg c3 with
    | (c4, Raise e) => (c4, Raise e)
    | (c4, Ok _) => (c_set_async false c4, Ok tt)
    end
  end.

(** Everything that can happen to a context and its loggers. *)
Inductive cop :=
| CoCreate (l : nat) (async_ : option bool)     (* Logger(...) *)
| CoAdd (l : nat)
| CoRemove (l : nat)
| CoOther                                        (* another context registers a logger *)
| CoEnable (main : bool) (o : copts)
| CoDisable (main : bool) (o : copts)
| CoFlush
| CoSignal (h : handler)                         (* the application calls signal.signal *)
| CoAtexit (n : nat)                             (* the application calls atexit.register *)
| CoSigterm                                      (* SIGTERM arrives, SystemExit is caught by the application *)
| CoCall (o : op)                                (* any call of the logging API *)
| CoRun (s : stmt).                              (* any program fragment *)
(** What each call does; the application survives raised exceptions. *)
Definition cstep (cfg : config) (o : cop) (c : cstate) : cstate * res unit :=
  match o with
  | CoCreate l a => (create_logger l a c, Ok tt)
  | CoAdd l => (add_logger l c, Ok tt)
  | CoRemove l => (remove_logger l c, Ok tt)
  | CoOther => (c_set_loggers (c_loggers c) (S (c_count c)) c, Ok tt)
  | CoEnable m o => enable_async m o c
  | CoDisable m o => disable_async cfg m o c
  | CoFlush => ctx_flush cfg c
  | CoSignal h => (c_set_sig h c, Ok tt)
  | CoAtexit n => (c_set_atexit (c_atexit c) (c_exits c ++ [HApp n]) c, Ok tt)
  | CoSigterm => (match c_sig c with SigLithoxyl => c_set_atexit (c_atexit c) (c_exits c ++ [HReissue]) c | _ => c end, Ok tt)
  | CoCall x => let (w, r) := step cfg x (c_w c) in (c_set_w w c, r)
  | CoRun s => let (w, r) := eval cfg None s (c_w c) in (c_set_w w c, r)
  end.
(** A sequence of calls. *)
Fixpoint crun (cfg : config) (os : list cop) (c : cstate) : cstate :=
  match os with [] => c | o :: os' => crun cfg os' (fst (cstep cfg o c)) end.

(** ** What happens when SIGTERM arrives: signal_sysexit 171-175 and
    atexit_reissue_sigterm 178-208 *)
(** How the process ends: by the signal itself, or by exiting with a code. *)
Inductive death := Killed (signal : nat) | Exited (code : nat).
(** Running the exit functions, last registered first (the argument has the last one
    first), with atexit_reissue_sigterm, 178-208.  [py2]: the interpreter has
    atexit._exithandlers, the list of the functions not yet called; without it (every
    Python 3) AttributeError makes atexit_reissue_sigterm return at 204.  With it: if the
    list is empty the signal is reissued and the process is gone; if its first element is
    another function, and _ASYNC_ATEXIT_ATTEMPT_LAST still holds, atexit_reissue_sigterm
    puts itself in front, to run last; else the signal is reissued at once.  The result:
    the other functions that were called, in order, and whether the signal was reissued.
    Exceptions out of an exit function are printed and the next one is called. *)
Fixpoint run_hooks_again (s : list hook) : list hook * bool :=
  match s with
  | [] => ([], false)
  | HReissue :: _ => ([], true)
  | h :: s' => let (r, k) := run_hooks_again s' in (h :: r, k)
  end.
(** Running the registered exit functions, last registered first (atexit of CPython), with atexit_reissue_sigterm, context.py 178-208. *)
Fixpoint run_hooks (py2 : bool) (s : list hook) : list hook * bool :=
  match s with
  | [] => ([], false)
  | HReissue :: s' =>
    if py2 then
      match rev s' with
      | [] | HReissue :: _ => ([], true)
      | _ => run_hooks_again (s' ++ [HReissue])
      end
    else run_hooks py2 s'
  | h :: s' => let (r, k) := run_hooks py2 s' in (h :: r, k)
  end.
(** The process ends by itself with an exit code: the exit functions called, and how it
    ends. *)
Definition on_exit (py2 : bool) (code : nat) (hs : list hook) : list hook * death :=
  let (ran, k) := run_hooks py2 (rev hs) in (ran, if k then Killed 15 else Exited code).
(** The process receives SIGTERM with the given handler, nothing intercepts SystemExit.
    With SIG_DFL it is killed by signal 15; signal_sysexit, 171-175, registers
    atexit_reissue_sigterm and raises SystemExit(143). *)
Definition on_sigterm (py2 : bool) (h : handler) (hs : list hook) : option (list hook * death) :=
  match h with
  | SigDfl => Some ([], Killed 15)
  | SigLithoxyl => Some (on_exit py2 143 (hs ++ [HReissue]))
  | SigIgn | SigApp _ => None
  end.
(** What the exit functions that were called do to the context: disable_async runs on the
    main thread; the application's functions do not use lithoxyl. *)
Fixpoint hooks_effect (cfg : config) (ran : list hook) (c : cstate) : cstate :=
  match ran with
  | [] => c
  | HDisable :: r => hooks_effect cfg r (fst (disable_async cfg true all_opts c))
  | _ :: r => hooks_effect cfg r c
  end.
