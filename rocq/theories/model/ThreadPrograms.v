(** Whole programs on several threads: the code of action.py 64-286 and logger.py 220-274
    cut into the steps that CPython executes atomically, and threads that take such steps in
    turns.

    [code] is the text of a computation: what it does next and how it goes on.  The
    functions below follow Core.v line by line (the same lines of /repo); run without
    interruption they are the functions of Core.v ([seq], C99_alone).  In [mstep] a scheduler
    picks the thread for each step.

    An atomic step is one access to an object of the thread itself (its actions and
    variables are used by no other thread), one next(_ACT_ID_ITER), one time.time(), one
    access to the map of active actions, or one step of a logger call, which are those of
    Concurrent.v.

    Simplifications: those of Core.v and Concurrent.v; hooks do not raise; an action is used
    by the thread that made it only; sinks and mode do not change while the threads run. *)
From Coq Require Import Cantor.
From Verif Require Import model.PyBase model.Core model.Concurrent.
Open Scope nat_scope.

(** ** Computations as texts *)

(** Done, raised, an atomic step, or a call of a Logger method. *)
Inductive code (A : Type) : Type :=
| Return (a : A)
| Fail (e : exn)
| Atom (B : Type) (m : M B) (k : res B -> code A)
| Call (l : nat) (c : call) (k : res unit -> code A).
Arguments Return {A} a.
Arguments Fail {A} e.
Arguments Atom {A B} m k.
Arguments Call {A} l c k.

(** What follows when the computation has returned or raised. *)
Fixpoint andthen {A B} (c : code A) (f : res A -> code B) : code B :=
  match c with
  | Return a => f (Ok a)
  | Fail e => f (Raise e)
  | Atom m k => Atom m (fun r => andthen (k r) f)
  | Call l x k => Call l x (fun r => andthen (k r) f)
  end.
(** bookkeeping, no counterpart in /repo *)
Definition finish {A} (r : res A) : code A := match r with Ok a => Return a | Raise e => Fail e end.
(** Sequencing: what follows a raise is not executed. *)
Definition chain {A B} (c : code A) (f : A -> code B) : code B :=
  andthen c (fun r => match r with Ok a => f a | Raise e => Fail e end).
(** One atomic step. *)
Definition atom {A} (m : M A) : code A := Atom m finish.
(** One call of a Logger method. *)
Definition call_logger (l : nat) (c : call) : code unit := Call l c finish.
Notation "x <~ c ;; k" := (chain c (fun x => k)) (at level 61, c at next level, right associativity).
Notation "c ;~ k" := (chain c (fun _ => k)) (at level 61, right associativity).

Section Text.
Variable cfg : config.
(** How the actions of this thread are known to the rest of the program. *)
Variable me : nat -> nat.

(** Event constructors: action.py 332-394. *)
Definition new_eventC (k : kind) (r : nat) (t : Z) (msg : string) (st : option status) (x : option exn) : code event :=
  i <~ atom next_id ;;
  let e := mkEvent k (me r) i t msg st x in
  atom (add_hist (HEvent e)) ;~
  Return e.

(** The rest of Action.__init__, action.py 70-91: a new object. *)
Definition alloc (i l : nat) (lvl : Z) (name : string) (kw : data) (reraise : option bool) (p : option nat) : M nat :=
  fun w =>
    let a := mkAction i l lvl name kw reraise p None None [] [] false false in
    let r := length (w_acts w) in
    (set_hist (w_hist w ++ [HAction r i]) (set_acts (w_acts w ++ [a]) w), Ok r).

(** action.py 67-91; logger.py 248-274. *)
Definition new_actionC (l : nat) (lvl : Z) (name : string) (kw : data)
                       (reraise : option bool) (parent : option nat) : code nat :=
  i <~ atom next_id ;;
  p <~ match parent with
       | Some q => Return (Some (me q))
       | None => atom (get_active_parent l)
       end ;;
  atom (alloc i l lvl name kw reraise p).

(** action.py 140-148 *)
Definition beginC (r : nat) (msg : option string) (kw : data) : code unit :=
  atom (mod_act r (fun a => a_set_data (dupdate String.eqb (a_data a) kw) a)) ;~
  a <~ atom (get_act r) ;;
  match a_begin a with
  | Some _ => Return tt
  | None =>
    t <~ atom (now cfg) ;;
    e <~ new_eventC KBegin r t (opt_msg msg (a_name a +s " beginning")) None None ;;
    atom (mod_act r (a_set_begin (Some e))) ;~
    call_logger (a_log a) (CLog KBegin e)
  end.

(** action.py 150-155 *)
Definition warnC (r : nat) (msg : string) (kw : data) : code unit :=
  atom (mod_act r (fun a => a_set_data (dupdate String.eqb (a_data a) kw) a)) ;~
  a <~ atom (get_act r) ;;
  t <~ atom (now cfg) ;;
  e <~ new_eventC KWarn r t msg None None ;;
  atom (mod_act r (fun a => a_set_warns (a_warns a ++ [e]) a)) ;~
  call_logger (a_log a) (CLog KWarn e).

(** action.py 227-243. *)
Definition endC (r : nat) (st : status) (msg : string) (kw : data)
                (end_time : option Z) (x : option exn) : code unit :=
  atom (mod_act r (fun a => a_set_data (dupdate String.eqb (a_data a) kw) a)) ;~
  a <~ atom (get_act r) ;;
  t <~ (if a_trans a then
          match end_time with
          | Some t0 => atom (if Z.eqb t0 0 then now cfg else ret t0)   (* a step also when there is nothing to do *)
          | None => atom (now cfg)
          end
        else
          (match a_begin a with
           | Some _ => Return tt
           | None => beginC r None []
           end) ;~
          a' <~ atom (get_act r) ;;
          match a_begin a' with
          | Some b => Return (e_time b)
          | None => Fail exn_name_error   (* unreachable: begin() sets it *)
          end) ;;
  e <~ new_eventC KEnd r t msg (Some st) x ;;
  atom (mod_act r (a_set_end (Some e))) ;~
  a <~ atom (get_act r) ;;
  if a_defer a then Return tt else call_logger (a_log a) (CLog KEnd e).

(** action.py 157-168 *)
Definition successC (r : nat) (msg : option string) (kw : data) : code unit :=
  a <~ atom (get_act r) ;;
  endC r Success (opt_msg msg (dm_suffix a (a_name a +s " succeeded"))) kw None None.

(** action.py 170-182 *)
Definition failureC (r : nat) (msg : option string) (kw : data) : code unit :=
  a <~ atom (get_act r) ;;
  endC r Failure (opt_msg msg (dm_suffix a (a_name a +s " failed"))) kw None None.

(** action.py 198-225. *)
Definition exceptionC (r : nat) (x : option exn) (msg : option string) (kw : data) : code unit :=
  a <~ atom (get_act r) ;;
  t <~ atom (now cfg) ;;
  match x with
  | None => Fail exn_no_traceback
  | Some ex =>
    m <~ (if String.eqb (opt_msg msg "") "" then
            match cf_describe cfg ex with
            | Ok d => Return (dm_suffix a (a_name a +s " raised exception: " +s d))
            | Raise y => Fail y
            end
          else Return (opt_msg msg "")) ;;
    e <~ new_eventC KExc r t m None (Some ex) ;;
    atom (mod_act r (fun a => a_set_excs (a_excs a ++ [e]) a)) ;~
    call_logger (a_log a) (CLog KExc e) ;~
    endC r Exception_ m kw (Some t) (Some ex)
  end.

(** action.py 245-248 *)
Definition enterC (r : nat) : code unit :=
  atom (mod_act r (fun a => a_set_defer true (a_set_trans true a))) ;~
  a <~ atom (get_act r) ;;
  atom (set_active_parent (a_log a) (Some (me r))) ;~
  beginC r None [].

(** action.py 250-271; the result is "suppress the exception". *)
Definition exitC (r : nat) (x : option exn) : code bool :=
  atom (mod_act r (a_set_defer false)) ;~
  match x with
  | Some ex =>
    andthen (exceptionC r (Some ex) None [])
      (fun o => match o with
                | Raise e => if exn_ord e then atom (note cfg "action_exit") else Fail e
                | Ok u => Return u
                end)
  | None =>
    a <~ atom (get_act r) ;;
    match a_end a with
    | Some e => call_logger (a_log a) (CLog KEnd e)
    | None => successC r None []
    end
  end ;~
  a <~ atom (get_act r) ;;
  atom (set_active_parent (a_log a) (a_parent a)) ;~
  Return (match a_reraise a with Some false => true | _ => false end).

(** action.py 279-286 *)
Definition get_elapsedC (r : nat) : code Z :=
  a <~ atom (get_act r) ;;
  match a_begin a with
  | Some b => t <~ atom (now cfg) ;; Return (t - e_time b)%Z
  | None => Return 0%Z
  end.

(** logger.py 220-246 *)
Definition commentC (l : nat) (msg : string) (kw : data) (parent : option nat) : code unit :=
  r <~ new_actionC l 90 "_comment" kw (Some true) parent ;;
  t <~ atom (now cfg) ;;
  b <~ new_eventC KBegin r t (msg +s " (begin comment)") None None ;;
  atom (mod_act r (a_set_begin (Some b))) ;~
  e <~ new_eventC KEnd r t (msg +s " (end comment)") (Some Success) None ;;
  atom (mod_act r (a_set_end (Some e))) ;~
  c <~ new_eventC KComment r t msg None None ;;
  call_logger l (CLog KComment c).

(** bookkeeping, no counterpart in /repo *)
Definition lookup_optC (px : option nat) : code (option nat) :=
  match px with
  | None => Return None
  | Some x => r <~ atom (lookup x) ;; Return (Some r)
  end.

(** The [with] statement of the language reference. *)
Definition with_blockC (r : nat) (body : code unit) : code unit :=
  enterC r ;~
  andthen body
    (fun o => match o with
              | Ok _ => exitC r None ;~ Return tt
              | Raise e => swallow <~ exitC r (Some e) ;; if (swallow : bool) then Return tt else Fail e
              end).

(** The text of a program (the statements of Core.v); [cur] is the exception being handled. *)
Fixpoint prog (cur : option exn) (s : stmt) : code unit :=
  match s with
  | SSkip => Return tt
  | SSeq s1 s2 => prog cur s1 ;~ prog cur s2
  | SNew x l lvl name kw rr px =>
    p <~ lookup_optC px ;;
    r <~ new_actionC l lvl name kw rr p ;;
    atom (bind_var x r)
  | SWith x body =>
    r <~ atom (lookup x) ;;
    with_blockC r (prog cur body)
  | SWithNew x l lvl name kw rr px body =>
    p <~ lookup_optC px ;;
    r <~ new_actionC l lvl name kw rr p ;;
    with_blockC r (atom (bind_var x r) ;~ prog cur body)
  | SBegin x m kw => r <~ atom (lookup x) ;; beginC r m kw
  | SWarn x m kw => r <~ atom (lookup x) ;; warnC r m kw
  | SSuccess x m kw => r <~ atom (lookup x) ;; successC r m kw ;~ atom (add_hist (HCall r Success))
  | SFailure x m kw => r <~ atom (lookup x) ;; failureC r m kw ;~ atom (add_hist (HCall r Failure))
  | SException x m kw => r <~ atom (lookup x) ;; exceptionC r cur m kw ;~ atom (add_hist (HCall r Exception_))
  | SSet x k v => r <~ atom (lookup x) ;; atom (setitem r k v)
  | SElapsed x => r <~ atom (lookup x) ;; get_elapsedC r ;~ Return tt
  | SComment l m kw => commentC l m kw None
  | SFlush l => call_logger l CFlush
  | SRaise e => Fail e
  | SReraise => match cur with Some e => Fail e | None => Fail exn_no_active end
  | STry all body handler =>
    andthen (prog cur body)
      (fun o => match o with
                | Raise e => if all || exn_ord e then prog (Some e) handler else Fail e
                | Ok u => Return u
                end)
  end.

(** ** One thread alone: the Logger methods as in Core.v, nothing in between *)
Definition do_call (l : nat) (c : call) : M unit :=
  match c with
  | CLog KBegin e => on_begin cfg l e
  | CLog KWarn e => on_warn cfg l e
  | CLog KEnd e => on_end cfg l e
  | CLog KExc e => on_exception cfg l e
  | CLog KComment e => on_comment cfg l e
  | CFlush => flush cfg l
  | CSetAsync b => set_async l b
  end.
(** Running a text to its end without interruption. *)
Fixpoint seq {A} (c : code A) : M A :=
  match c with
  | Return a => ret a
  | Fail e => raise e
  | Atom m k => fun w => let (w', r) := m w in seq (k r) w'
  | Call l x k => fun w => let (w', r) := do_call l x w in seq (k r) w'
  end.
End Text.

(** ** Threads *)

(** The name of action number [k] of thread [t]. *)
Definition obj (t k : nat) : nat := to_nat (t, k).
(** A thread: its actions and variables, what it has still to do, and the logger inside one
    of whose methods it is. *)
Record tprog := mkTP {
  tp_acts : list action;
  tp_env : nat -> option nat;
  tp_code : code unit;
  tp_busy : option nat }.
(** The process: its threads, its loggers, the map of active actions, _ACT_ID_ITER and the
    number of clock readings.  A logger is a state of Concurrent.v.  The map of active
    actions has a part for every [slot] and there an entry for every logger. *)
Record mstate := mkMS {
  ms_threads : list tprog;
  ms_logs : nat -> gstate;
  ms_active : nat -> nat -> option nat;
  ms_ctr : nat;
  ms_clk : nat }.

(** The part of the map used by the hooks get/set_active_parent on a thread: the default
    hooks use one for all threads (context.py 34-53), ... *)
Definition one_slot (t : nat) : nat := 0.
(** ... hooks that tell threads apart (69-72) one for each. *)
Definition own_slot (t : nat) : nat := t.

(** What an atomic step of thread [t] can see: its own objects, the active actions, the counter, the clock. *)
Definition view (slot : nat -> nat) (t : nat) (th : tprog) (s : mstate) : world :=
  mkWorld (tp_acts th) (fun _ => empty_logger false) (ms_active s (slot t)) (ms_ctr s) (ms_clk s) [] (tp_env th) [].
(** bookkeeping, no counterpart in /repo *)
Definition set_thread (t : nat) (th : tprog) (s : mstate) : mstate :=
  mkMS (list_set (ms_threads s) t th) (ms_logs s) (ms_active s) (ms_ctr s) (ms_clk s).
(** bookkeeping, no counterpart in /repo *)
Definition set_glog (l : nat) (g : gstate) (s : mstate) : mstate :=
  mkMS (ms_threads s) (upd (ms_logs s) l g) (ms_active s) (ms_ctr s) (ms_clk s).
(** bookkeeping, no counterpart in /repo: thread [t] calls a method of the logger *)
Definition hand (t : nat) (c : call) (g : gstate) : gstate :=
  mkG (g_async g) (g_queue g) (g_lock g) (list_set (g_threads g) t (mkThread Idle [c])) (g_trace g).
(** bookkeeping, no counterpart in /repo: the method has returned *)
Definition returned_from (t : nat) (g : gstate) : bool :=
  match nth_error (g_threads g) t with
  | Some th => match th_pc th, th_todo th with Idle, [] => true | _, _ => false end
  | None => false
  end.
(** bookkeeping, no counterpart in /repo *)
Definition after_call (c : code unit) : code unit := match c with Call _ _ k => k (Ok tt) | _ => c end.

(** One step of thread [t]; None: it is done, or waits for a lock.  [lis l k]: the hooks of
    logger [l] for events of kind [k]. *)
Definition mstep (lis : nat -> kind -> list nat) (slot : nat -> nat) (t : nat) (s : mstate) : option mstate :=
  match nth_error (ms_threads s) t with
  | None => None
  | Some th =>
    match tp_busy th with
    | Some l =>
      match tstep (lis l) t false (ms_logs s l) with
      | None => None
      | Some g =>
        Some (set_glog l g
          (set_thread t (if returned_from t g then mkTP (tp_acts th) (tp_env th) (after_call (tp_code th)) None else th) s))
      end
    | None =>
      match tp_code th with
      | Return _ | Fail _ => None
      | Atom m k =>
        let (w, r) := m (view slot t th s) in
        Some (mkMS (list_set (ms_threads s) t (mkTP (w_acts w) (w_env w) (k r) None)) (ms_logs s)
                (upd (ms_active s) (slot t) (w_active w)) (w_ctr w) (w_clk w))
      | Call l c k =>
        match tstep (lis l) t false (hand t c (ms_logs s l)) with
        | None => None
        | Some g => Some (set_glog l g (set_thread t (mkTP (tp_acts th) (tp_env th) (tp_code th) (Some l)) s))
        end
      end
    end
  end.
(** Running a schedule: a thread that cannot run is skipped. *)
Fixpoint mrun (lis : nat -> kind -> list nat) (slot : nat -> nat) (sc : list nat) (s : mstate) : mstate :=
  match sc with
  | [] => s
  | t :: sc' => mrun lis slot sc' (match mstep lis slot t s with Some s' => s' | None => s end)
  end.
(** bookkeeping, no counterpart in /repo *)
Definition boot (cfg : config) (p : nat * stmt) : tprog :=
  mkTP [] (fun _ => None) (prog cfg (obj (fst p)) None (snd p)) None.
(** Threads about to run their programs, thread [t] the [t]-th, on loggers in the given mode. *)
Definition mstart (cfg : config) (async : nat -> bool) (progs : list stmt) : mstate :=
  mkMS (map (boot cfg) (combine (List.seq 0 (length progs)) progs))
       (fun l => start (async l) (map (fun _ => []) progs)) (fun _ _ => None) 0 0.
