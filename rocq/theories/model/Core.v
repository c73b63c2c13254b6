(** Model of /repo/lithoxyl/action.py, /repo/lithoxyl/logger.py and the active
    parent map of /repo/lithoxyl/context.py.

    Simplifications common to the whole file:
    - names, messages and keys are [string]s, user values in data maps are
      opaque integers; positional format arguments ([fargs]) are dropped since
      formatting happens lazily in sinks (modelled in Format.v);
    - callpoints and guids are not stored (guids: Guid.v);
    - sinks, preflush hooks and note handlers are oracles that may raise, but
      do not call back into lithoxyl;
    - a level is its resolved numeric value (levels: Levels.v). *)
From Verif Require Import model.PyBase.

(** ** Exceptions and computations *)

(** An exception object: identity and whether it is an instance of [Exception]
    (as opposed to a bare [BaseException] such as [KeyboardInterrupt]). *)
Record exn := mkExn { exn_tag : nat; exn_ord : bool }.

(** Exceptions raised by the modelled code itself. *)
Definition exn_name_error := mkExn 0 true.      (* unbound Python variable *)
Definition exn_no_traceback := mkExn 1 true.    (* ExceptionInfo.from_exc_info without a traceback: ValueError *)
Definition exn_no_active := mkExn 2 true.       (* bare [raise] without an active exception: RuntimeError *)

(** A Python computation returns or raises. *)
Inductive res (A : Type) := Ok (a : A) | Raise (e : exn).
Arguments Ok {A} a.
Arguments Raise {A} e.

(** ** Events: action.py 298-394 *)

(** The hook an event is passed to / the ['begin'...] tag in the queue. *)
Inductive kind := KBegin | KWarn | KEnd | KExc | KComment.

(** [==] on the tags in the queue, logger.py 120-129. *)
Definition kind_eqb (a b : kind) : bool :=
  match a, b with
  | KBegin, KBegin | KWarn, KWarn | KEnd, KEnd | KExc, KExc | KComment, KComment => true
  | _, _ => false
  end.

(** [status] of an EndEvent: action.py 168, 182, 224; logger.py 239. *)
Inductive status := Success | Failure | Exception_.

(** Event objects: action.py 328-394.  [e_kind] is the Python class of the
    event ([BeginEvent], [WarningEvent], [EndEvent], [ExceptionEvent],
    [CommentEvent]); [e_status] is only meaningful for EndEvent; [e_exc] stands
    for [exc_info]. *)
Record event := mkEvent {
  e_kind : kind;
  e_act : nat;               (* the action, by reference *)
  e_id : nat;                (* event_id *)
  e_time : Z;                (* etime *)
  e_msg : string;            (* raw_message *)
  e_status : option status;
  e_exc : option exn }.

(** ** Actions: action.py 64-91 *)
Definition data := list (string * Z).

(** The fields of an Action object, action.py 64-91. *)
Record action := mkAction {
  a_id : nat;                (* action_id *)
  a_log : nat;               (* logger *)
  a_level : Z;
  a_name : string;
  a_data : data;             (* data_map *)
  a_reraise : option bool;   (* _reraise: None / True / False *)
  a_parent : option nat;     (* parent_action *)
  a_begin : option event;    (* begin_event *)
  a_end : option event;      (* end_event *)
  a_warns : list event;      (* warn_events *)
  a_excs : list event;       (* exc_events *)
  a_trans : bool;            (* _is_trans, None counts as false *)
  a_defer : bool }.          (* _defer_publish *)

(** ** Loggers: logger.py 81-102 *)
Definition QUEUE_LIMIT : N := 10000.  (* logger.py 19 *)

(** The fields of a Logger object, logger.py 81-102. *)
Record logger := mkLogger {
  lg_async : bool;                     (* async_mode *)
  lg_queue : list (kind * event);      (* event_queue, oldest first *)
  lg_sinks : list nat;                 (* _all_sinks *)
  lg_bh : list nat;                    (* _begin_hooks *)
  lg_wh : list nat;                    (* _warn_hooks *)
  lg_eh : list nat;                    (* _end_hooks *)
  lg_xh : list nat;                    (* _exc_hooks *)
  lg_ch : list nat;                    (* _comment_hooks *)
  lg_pre : list nat;                   (* preflush_hooks *)
  lg_last : Z;                         (* last_flush *)
  lg_dropped : nat }.                  (* ghost: events discarded by the full deque *)

(** What the outside world can observe, in chronological order. *)
Inductive obs :=
| ODeliver (l : nat) (k : kind) (s : nat) (e : event)  (* hook [k] of sink [s] called by logger [l] *)
| OPre (l h : nat)                                      (* preflush hook called *)
| ONote (what : string).                                (* context.note called *)

(** Ghost history, read by no code: every object created and every explicit
    [success]/[failure]/[exception] call of a program that returned, in order. *)
Inductive hist :=
| HAction (r i : nat)               (* action object [r] created with action_id [i] *)
| HEvent (e : event)                (* event object created *)
| HCall (r : nat) (st : status).    (* the program's call ending action [r] returned *)

(** Everything the modelled code reads and writes. *)
Record world := mkWorld {
  w_acts : list action;            (* every Action object, by creation *)
  w_logs : nat -> logger;
  w_active : nat -> option nat;    (* _CONSEC_ACTIVE_ACT_MAP: context.py 34 *)
  w_ctr : nat;                     (* _ACT_ID_ITER: action.py 14 *)
  w_clk : nat;                     (* number of clock readings so far *)
  w_trace : list obs;
  w_env : nat -> option nat;       (* Python variables holding actions *)
  w_hist : list hist }.            (* ghost history, oldest first *)

(** The environment: everything the library does not control. *)
Record config := mkConfig {
  cf_clock : nat -> Z;                                     (* i-th time.time() *)
  cf_has : nat -> kind -> bool;                            (* callable(getattr(sink, 'on_...', None)) *)
  cf_sink : list obs -> nat -> kind -> nat -> event -> option exn;  (* does the hook raise? *)
  cf_pre : list obs -> nat -> nat -> option exn;           (* does the preflush hook raise? *)
  cf_note : list obs -> string -> option exn;              (* does some note handler raise? *)
  cf_describe : exn -> res string }.                       (* text after "raised exception: ": action.py 205-218 *)

(** A computation with state and exceptions; changes made before a raise persist. *)
Definition M (A : Type) := world -> world * res A.
(** bookkeeping, no counterpart in /repo *)
Definition ret {A} (a : A) : M A := fun w => (w, Ok a).
(** The [raise] statement. *)
Definition raise {A} (e : exn) : M A := fun w => (w, Raise e).
(** Sequencing: what follows a raise is not executed. *)
Definition bind {A B} (m : M A) (f : A -> M B) : M B :=
  fun w => match m w with
           | (w', Ok a) => f a w'
           | (w', Raise e) => (w', Raise e)
           end.
Notation "x <- m ;; k" := (bind m (fun x => k)) (at level 61, m at next level, right associativity).
Notation "m ;;; k" := (bind m (fun _ => k)) (at level 61, right associativity).

(** ** State updates *)
Definition upd {A} (f : nat -> A) (i : nat) (a : A) : nat -> A :=
  fun j => if Nat.eqb j i then a else f j.

(** bookkeeping, no counterpart in /repo *)
Fixpoint list_set {A} (l : list A) (i : nat) (a : A) : list A :=
  match l, i with
  | [], _ => []
  | _ :: l', 0 => a :: l'
  | x :: l', S i' => x :: list_set l' i' a
  end.

(** bookkeeping, no counterpart in /repo *)
Definition set_acts v w := mkWorld v (w_logs w) (w_active w) (w_ctr w) (w_clk w) (w_trace w) (w_env w) (w_hist w).
(** bookkeeping, no counterpart in /repo *)
Definition set_logs v w := mkWorld (w_acts w) v (w_active w) (w_ctr w) (w_clk w) (w_trace w) (w_env w) (w_hist w).
(** bookkeeping, no counterpart in /repo *)
Definition set_active v w := mkWorld (w_acts w) (w_logs w) v (w_ctr w) (w_clk w) (w_trace w) (w_env w) (w_hist w).
(** bookkeeping, no counterpart in /repo *)
Definition set_ctr v w := mkWorld (w_acts w) (w_logs w) (w_active w) v (w_clk w) (w_trace w) (w_env w) (w_hist w).
(** bookkeeping, no counterpart in /repo *)
Definition set_clk v w := mkWorld (w_acts w) (w_logs w) (w_active w) (w_ctr w) v (w_trace w) (w_env w) (w_hist w).
(** bookkeeping, no counterpart in /repo *)
Definition set_trace v w := mkWorld (w_acts w) (w_logs w) (w_active w) (w_ctr w) (w_clk w) v (w_env w) (w_hist w).
(** bookkeeping, no counterpart in /repo *)
Definition set_env v w := mkWorld (w_acts w) (w_logs w) (w_active w) (w_ctr w) (w_clk w) (w_trace w) v (w_hist w).
(** bookkeeping, no counterpart in /repo *)
Definition set_hist v w := mkWorld (w_acts w) (w_logs w) (w_active w) (w_ctr w) (w_clk w) (w_trace w) (w_env w) v.

(** bookkeeping, no counterpart in /repo *)
Definition a_set_data v a := mkAction (a_id a) (a_log a) (a_level a) (a_name a) v (a_reraise a) (a_parent a) (a_begin a) (a_end a) (a_warns a) (a_excs a) (a_trans a) (a_defer a).
(** bookkeeping, no counterpart in /repo *)
Definition a_set_begin v a := mkAction (a_id a) (a_log a) (a_level a) (a_name a) (a_data a) (a_reraise a) (a_parent a) v (a_end a) (a_warns a) (a_excs a) (a_trans a) (a_defer a).
(** bookkeeping, no counterpart in /repo *)
Definition a_set_end v a := mkAction (a_id a) (a_log a) (a_level a) (a_name a) (a_data a) (a_reraise a) (a_parent a) (a_begin a) v (a_warns a) (a_excs a) (a_trans a) (a_defer a).
(** bookkeeping, no counterpart in /repo *)
Definition a_set_warns v a := mkAction (a_id a) (a_log a) (a_level a) (a_name a) (a_data a) (a_reraise a) (a_parent a) (a_begin a) (a_end a) v (a_excs a) (a_trans a) (a_defer a).
(** bookkeeping, no counterpart in /repo *)
Definition a_set_excs v a := mkAction (a_id a) (a_log a) (a_level a) (a_name a) (a_data a) (a_reraise a) (a_parent a) (a_begin a) (a_end a) (a_warns a) v (a_trans a) (a_defer a).
(** bookkeeping, no counterpart in /repo *)
Definition a_set_trans v a := mkAction (a_id a) (a_log a) (a_level a) (a_name a) (a_data a) (a_reraise a) (a_parent a) (a_begin a) (a_end a) (a_warns a) (a_excs a) v (a_defer a).
(** bookkeeping, no counterpart in /repo *)
Definition a_set_defer v a := mkAction (a_id a) (a_log a) (a_level a) (a_name a) (a_data a) (a_reraise a) (a_parent a) (a_begin a) (a_end a) (a_warns a) (a_excs a) (a_trans a) v.

(** bookkeeping, no counterpart in /repo *)
Definition lg_set_async v g := mkLogger v (lg_queue g) (lg_sinks g) (lg_bh g) (lg_wh g) (lg_eh g) (lg_xh g) (lg_ch g) (lg_pre g) (lg_last g) (lg_dropped g).
(** bookkeeping, no counterpart in /repo *)
Definition lg_set_queue v g := mkLogger (lg_async g) v (lg_sinks g) (lg_bh g) (lg_wh g) (lg_eh g) (lg_xh g) (lg_ch g) (lg_pre g) (lg_last g) (lg_dropped g).
(** bookkeeping, no counterpart in /repo *)
Definition lg_set_last v g := mkLogger (lg_async g) (lg_queue g) (lg_sinks g) (lg_bh g) (lg_wh g) (lg_eh g) (lg_xh g) (lg_ch g) (lg_pre g) v (lg_dropped g).
(** bookkeeping, no counterpart in /repo *)
Definition lg_set_dropped v g := mkLogger (lg_async g) (lg_queue g) (lg_sinks g) (lg_bh g) (lg_wh g) (lg_eh g) (lg_xh g) (lg_ch g) (lg_pre g) (lg_last g) v.
(** bookkeeping, no counterpart in /repo *)
Definition lg_set_hooks ss bh wh eh xh ch g := mkLogger (lg_async g) (lg_queue g) ss bh wh eh xh ch (lg_pre g) (lg_last g) (lg_dropped g).
(** bookkeeping, no counterpart in /repo *)
Definition lg_set_pre v g := mkLogger (lg_async g) (lg_queue g) (lg_sinks g) (lg_bh g) (lg_wh g) (lg_eh g) (lg_xh g) (lg_ch g) v (lg_last g) (lg_dropped g).

(** bookkeeping, no counterpart in /repo *)
Definition get_log (l : nat) : M logger := fun w => (w, Ok (w_logs w l)).
(** bookkeeping, no counterpart in /repo *)
Definition mod_log (l : nat) (f : logger -> logger) : M unit :=
  fun w => (set_logs (upd (w_logs w) l (f (w_logs w l))) w, Ok tt).

(** Dereferencing an action; every reference a program can hold is valid, an
    invalid one behaves like an unbound variable. *)
Definition get_act (r : nat) : M action :=
  fun w => match nth_error (w_acts w) r with
           | Some a => (w, Ok a)
           | None => (w, Raise exn_name_error)
           end.
(** bookkeeping, no counterpart in /repo *)
Definition mod_act (r : nat) (f : action -> action) : M unit :=
  fun w => match nth_error (w_acts w) r with
           | Some a => (set_acts (list_set (w_acts w) r (f a)) w, Ok tt)
           | None => (w, Raise exn_name_error)
           end.

(** [next(_ACT_ID_ITER)]: action.py 14 *)
Definition next_id : M nat := fun w => (set_ctr (S (w_ctr w)) w, Ok (w_ctr w)).

(** [time.time()] *)
Definition now (cfg : config) : M Z :=
  fun w => (set_clk (S (w_clk w)) w, Ok (cf_clock cfg (w_clk w))).

(** [context.note(name, ...)]: context.py 30-31, 74-89.  All handlers are one
    oracle; without handlers it never raises. *)
Definition note (cfg : config) (what : string) : M unit :=
  fun w =>
    let w1 := set_trace (w_trace w ++ [ONote what]) w in
    match cf_note cfg (w_trace w) what with
    | None => (w1, Ok tt)
    | Some e => (w1, Raise e)
    end.

(** ** Logger *)

(** The hook list for an event kind: logger.py 148-153. *)
Definition lg_hooks (g : logger) (k : kind) : list nat :=
  match k with
  | KBegin => lg_bh g
  | KWarn => lg_wh g
  | KEnd => lg_eh g
  | KExc => lg_xh g
  | KComment => lg_ch g
  end.

(** One hook call, e.g. logger.py 192 [end_hook(end_event)]. *)
Definition call_hook (cfg : config) (l : nat) (k : kind) (e : event) (s : nat) : M unit :=
  fun w =>
    let w1 := set_trace (w_trace w ++ [ODeliver l k s e]) w in
    match cf_sink cfg (w_trace w) l k s e with
    | None => (w1, Ok tt)
    | Some x => (w1, Raise x)
    end.

(** [for hook in hooks: hook(event)]: logger.py 191-192, 200-201, 209-210,
    216-217, 244-245 and 121-131. *)
Fixpoint call_hooks (cfg : config) (l : nat) (k : kind) (e : event) (hs : list nat) : M unit :=
  match hs with
  | [] => ret tt
  | s :: hs' => call_hook cfg l k e s ;;; call_hooks cfg l k e hs'
  end.

(** [self.event_queue.append((tag, event))]: logger.py 189, 198, 207, 242. *)
Definition enqueue (l : nat) (k : kind) (e : event) : M unit :=
  mod_log l (fun g =>
    let (q, dropped) := bounded_append QUEUE_LIMIT (lg_queue g) (k, e) in
    lg_set_dropped (if dropped then S (lg_dropped g) else lg_dropped g) (lg_set_queue q g)).

(** logger.py 195-202 *)
Definition on_begin (cfg : config) (l : nat) (e : event) : M unit :=
  g <- get_log l ;;
  if lg_async g then enqueue l KBegin e else call_hooks cfg l KBegin e (lg_bh g).

(** logger.py 204-211 *)
Definition on_warn (cfg : config) (l : nat) (e : event) : M unit :=
  g <- get_log l ;;
  if lg_async g then enqueue l KWarn e else call_hooks cfg l KWarn e (lg_wh g).

(** logger.py 186-193 *)
Definition on_end (cfg : config) (l : nat) (e : event) : M unit :=
  g <- get_log l ;;
  if lg_async g then enqueue l KEnd e else call_hooks cfg l KEnd e (lg_eh g).

(** logger.py 213-218: never queued. *)
Definition on_exception (cfg : config) (l : nat) (e : event) : M unit :=
  g <- get_log l ;;
  call_hooks cfg l KExc e (lg_xh g).

(** logger.py 111-116: preflush hooks; ordinary exceptions are noted. *)
Fixpoint run_preflush (cfg : config) (l : nat) (hs : list nat) : M unit :=
  match hs with
  | [] => ret tt
  | h :: hs' =>
    fun w =>
      let w1 := set_trace (w_trace w ++ [OPre l h]) w in
      match cf_pre cfg (w_trace w) l h with
      | None => run_preflush cfg l hs' w1
      | Some x =>
        if exn_ord x then (note cfg "preflush" ;;; run_preflush cfg l hs') w1
        else (w1, Raise x)
      end
  end.

(** logger.py 118-134: [while queue: popleft; dispatch on the tag].  The queue
    cannot grow while it is flushed (sinks do not call back), so the loop is
    recursion over the queue; the queue field is updated before each dispatch,
    as popleft does.  The [KExc] case is the [else] branch (unknown type). *)
Fixpoint flush_queue (cfg : config) (l : nat) (q : list (kind * event)) : M unit :=
  match q with
  | [] => ret tt
  | (k, e) :: q' =>
    mod_log l (lg_set_queue q') ;;;
    g <- get_log l ;;
    match k with
    | KBegin => call_hooks cfg l KBegin e (lg_bh g)
    | KEnd => call_hooks cfg l KEnd e (lg_eh g)
    | KWarn => call_hooks cfg l KWarn e (lg_wh g)
    | KComment => call_hooks cfg l KComment e (lg_ch g)
    | KExc => note cfg "flush"
    end ;;;
    flush_queue cfg l q'
  end.

(** logger.py 107-136 (lock: see Concurrent.v) *)
Definition flush (cfg : config) (l : nat) : M unit :=
  g <- get_log l ;;
  run_preflush cfg l (lg_pre g) ;;;
  g <- get_log l ;;
  flush_queue cfg l (lg_queue g) ;;;
  t <- now cfg ;;
  mod_log l (lg_set_last t).

(** logger.py 104-105 *)
Definition set_async (l : nat) (b : bool) : M unit := mod_log l (lg_set_async b).

(** logger.py 161-184, on the logger record *)
Definition lg_add_sink (cfg : config) (s : nat) (g : logger) : logger :=
  if existsb (Nat.eqb s) (lg_sinks g) then g
  else
    let add k hs := if cf_has cfg s k then hs ++ [s] else hs in
    lg_set_hooks (lg_sinks g ++ [s])
      (add KBegin (lg_bh g)) (add KWarn (lg_wh g)) (add KEnd (lg_eh g))
      (add KExc (lg_xh g)) (add KComment (lg_ch g)) g.

(** logger.py 145-155 *)
Definition lg_set_sinks (cfg : config) (ss : list nat) (g : logger) : logger :=
  fold_left (fun g s => lg_add_sink cfg s g) ss (lg_set_hooks [] [] [] [] [] [] g).

(** add_sink, logger.py 161-184. *)
Definition add_sink (cfg : config) (l s : nat) : M unit := mod_log l (lg_add_sink cfg s).
(** set_sinks, logger.py 145-155. *)
Definition set_sinks (cfg : config) (l : nat) (ss : list nat) : M unit := mod_log l (lg_set_sinks cfg ss).
(** logger.py 157-159 *)
Definition clear_sinks (cfg : config) (l : nat) : M unit := set_sinks cfg l [].

(** Ghost. *)
Definition add_hist (h : hist) : M unit := fun w => (set_hist (w_hist w ++ [h]) w, Ok tt).

(** ** Active parent: context.py 43-53 *)
Definition get_active_parent (l : nat) : M (option nat) := fun w => (w, Ok (w_active w l)).
(** set_active_parent, context.py 49-53. *)
Definition set_active_parent (l : nat) (a : option nat) : M unit :=
  fun w => (set_active (upd (w_active w) l a) w, Ok tt).

(** ** Action *)

(** Event constructors: action.py 332-337, 344-350, 354-362, 377-382, 389-394:
    each takes the next id of the shared counter. *)
Definition new_event (k : kind) (r : nat) (t : Z) (msg : string) (st : option status) (x : option exn) : M event :=
  i <- next_id ;;
  let e := mkEvent k r i t msg st x in
  add_hist (HEvent e) ;;;
  ret e.

(** action.py 67-91; logger.py 248-274 (the Logger methods pass the caller's
    keyword data with [reraise] and [parent_action] removed). *)
Definition new_action (l : nat) (lvl : Z) (name : string) (kw : data)
                      (reraise : option bool) (parent : option nat) : M nat :=
  i <- next_id ;;
  p <- match parent with
       | Some q => ret (Some q)
       | None => get_active_parent l
       end ;;
  fun w =>
    let a := mkAction i l lvl name kw reraise p None None [] [] false false in
    let r := length (w_acts w) in
    (set_hist (w_hist w ++ [HAction r i]) (set_acts (w_acts w ++ [a]) w), Ok r).

(** [if not message: message = ...], action.py 143-144, 163, 176. *)
Definition opt_msg (m : option string) (dflt : string) : string :=
  match m with
  | Some s => if String.eqb s "" then dflt else s   (* [if not message] *)
  | None => dflt
  end.

(** action.py 140-148 *)
Definition begin (cfg : config) (r : nat) (msg : option string) (kw : data) : M unit :=
  mod_act r (fun a => a_set_data (dupdate String.eqb (a_data a) kw) a) ;;;
  a <- get_act r ;;
  match a_begin a with
  | Some _ => ret tt
  | None =>
    t <- now cfg ;;
    e <- new_event KBegin r t (opt_msg msg (a_name a +s " beginning")) None None ;;
    mod_act r (a_set_begin (Some e)) ;;;
    on_begin cfg (a_log a) e
  end.

(** action.py 150-155 *)
Definition warn (cfg : config) (r : nat) (msg : string) (kw : data) : M unit :=
  mod_act r (fun a => a_set_data (dupdate String.eqb (a_data a) kw) a) ;;;
  a <- get_act r ;;
  t <- now cfg ;;
  e <- new_event KWarn r t msg None None ;;
  mod_act r (fun a => a_set_warns (a_warns a ++ [e]) a) ;;;
  on_warn cfg (a_log a) e.

(** action.py 227-243.  [end_time or time.time()]: an end time equal to 0 is
    falsy and read again.  [self.logger] is always truthy. *)
Definition end_ (cfg : config) (r : nat) (st : status) (msg : string) (kw : data)
                (end_time : option Z) (x : option exn) : M unit :=
  mod_act r (fun a => a_set_data (dupdate String.eqb (a_data a) kw) a) ;;;
  a <- get_act r ;;
  t <- (if a_trans a then
          match end_time with
          | Some t0 => if Z.eqb t0 0 then now cfg else ret t0
          | None => now cfg
          end
        else
          (match a_begin a with
           | Some _ => ret tt
           | None => begin cfg r None []
           end) ;;;
          a' <- get_act r ;;
          match a_begin a' with
          | Some b => ret (e_time b)
          | None => raise exn_name_error   (* unreachable: begin() sets it *)
          end) ;;
  e <- new_event KEnd r t msg (Some st) x ;;
  mod_act r (a_set_end (Some e)) ;;;
  a <- get_act r ;;
  if a_defer a then ret tt else on_end cfg (a_log a) e.

(** action.py 164-167, 177-180: the default message mentions the data map if it is not empty. *)
Definition dm_suffix (a : action) (base : string) : string :=
  match a_data a with
  | [] => base
  | _ => base +s " - ({data_map_repr})"
  end.

(** action.py 157-168 *)
Definition success (cfg : config) (r : nat) (msg : option string) (kw : data) : M unit :=
  a <- get_act r ;;
  end_ cfg r Success (opt_msg msg (dm_suffix a (a_name a +s " succeeded"))) kw None None.

(** action.py 170-182 *)
Definition failure (cfg : config) (r : nat) (msg : option string) (kw : data) : M unit :=
  a <- get_act r ;;
  end_ cfg r Failure (opt_msg msg (dm_suffix a (a_name a +s " failed"))) kw None None.

(** action.py 198-225.  [x = None] is "no active exception": from_exc_info
    without a traceback raises ValueError (boltons). *)
Definition exception_ (cfg : config) (r : nat) (x : option exn) (msg : option string) (kw : data) : M unit :=
  a <- get_act r ;;
  t <- now cfg ;;
  match x with
  | None => raise exn_no_traceback
  | Some ex =>
    m <- (if String.eqb (opt_msg msg "") "" then
            match cf_describe cfg ex with
            | Ok d => ret (dm_suffix a (a_name a +s " raised exception: " +s d))
            | Raise y => raise y
            end
          else ret (opt_msg msg "")) ;;
    e <- new_event KExc r t m None (Some ex) ;;
    mod_act r (fun a => a_set_excs (a_excs a ++ [e]) a) ;;;
    on_exception cfg (a_log a) e ;;;
    end_ cfg r Exception_ m kw (Some t) (Some ex)
  end.

(** action.py 245-248 *)
Definition enter (cfg : config) (r : nat) : M unit :=
  mod_act r (fun a => a_set_defer true (a_set_trans true a)) ;;;
  a <- get_act r ;;
  set_active_parent (a_log a) (Some r) ;;;
  begin cfg r None [].

(** action.py 250-271; the result is "suppress the exception". *)
Definition exit_ (cfg : config) (r : nat) (x : option exn) : M bool :=
  mod_act r (a_set_defer false) ;;;
  match x with
  | Some ex =>
    (fun w => match exception_ cfg r (Some ex) None [] w with
              | (w', Raise e) =>
                if exn_ord e then note cfg "action_exit" w' else (w', Raise e)
              | p => p
              end)
  | None =>
    a <- get_act r ;;
    match a_end a with
    | Some e => on_end cfg (a_log a) e
    | None => success cfg r None []
    end
  end ;;;
  a <- get_act r ;;
  set_active_parent (a_log a) (a_parent a) ;;;
  ret (match a_reraise a with Some false => true | _ => false end).

(** action.py 276-277 *)
Definition setitem (r : nat) (k : string) (v : Z) : M unit :=
  mod_act r (fun a => a_set_data (dset String.eqb k v (a_data a)) a).

(** action.py 273-274 ([None] is KeyError) and action.py 301-302 for events *)
Definition getitem (w : world) (r : nat) (k : string) : option Z :=
  match nth_error (w_acts w) r with
  | Some a => dget String.eqb k (a_data a)
  | None => None
  end.

(** action.py 279-286 *)
Definition get_elapsed_time (cfg : config) (r : nat) : M Z :=
  a <- get_act r ;;
  match a_begin a with
  | Some b => t <- now cfg ;; ret (t - e_time b)%Z
  | None => ret 0%Z
  end.

(** action.py 118-123 ([None] is 'begin') *)
Definition act_status (a : action) : option status :=
  match a_end a with Some e => e_status e | None => None end.

(** action.py 125-130 *)
Definition duration (a : action) : Z :=
  match a_begin a, a_end a with
  | Some b, Some e => (e_time e - e_time b)%Z
  | _, _ => 0%Z
  end.

(** action.py 132-138; [fuel] is 500, the loop bound in the code. *)
Fixpoint parent_depth_loop (fuel : nat) (acts : list action) (r : nat) : nat :=
  match fuel with
  | 0 => 0
  | S f =>
    match nth_error acts r with
    | Some a => match a_parent a with
                | Some p => S (parent_depth_loop f acts p)
                | None => 0
                end
    | None => 0
    end
  end.
(** The property parent_depth, action.py 132-138. *)
Definition parent_depth (w : world) (r : nat) : nat := parent_depth_loop 500 (w_acts w) r.

(** logger.py 240-245: the dispatch at the end of [comment]. *)
Definition on_comment (cfg : config) (l : nat) (e : event) : M unit :=
  g <- get_log l ;;
  if lg_async g then enqueue l KComment e else call_hooks cfg l KComment e (lg_ch g).

(** logger.py 220-246: the comment's action gets begin and end events directly;
    CRITICAL = 90. *)
Definition comment (cfg : config) (l : nat) (msg : string) (kw : data) (parent : option nat) : M unit :=
  r <- new_action l 90 "_comment" kw (Some true) parent ;;
  t <- now cfg ;;
  b <- new_event KBegin r t (msg +s " (begin comment)") None None ;;
  mod_act r (a_set_begin (Some b)) ;;;
  e <- new_event KEnd r t (msg +s " (end comment)") (Some Success) None ;;
  mod_act r (a_set_end (Some e)) ;;;
  c <- new_event KComment r t msg None None ;;
  on_comment cfg l c.

(** ** Arbitrary API calls *)
Inductive op :=
| OpNew (l : nat) (lvl : Z) (name : string) (kw : data) (reraise : option bool) (parent : option nat)
| OpBegin (r : nat) (msg : option string) (kw : data)
| OpWarn (r : nat) (msg : string) (kw : data)
| OpSuccess (r : nat) (msg : option string) (kw : data)
| OpFailure (r : nat) (msg : option string) (kw : data)
| OpException (r : nat) (cur : option exn) (msg : option string) (kw : data)
| OpEnter (r : nat)
| OpExit (r : nat) (x : option exn)
| OpSet (r : nat) (k : string) (v : Z)
| OpElapsed (r : nat)
| OpComment (l : nat) (msg : string) (kw : data) (parent : option nat)
| OpFlush (l : nat)
| OpSetAsync (l : nat) (b : bool)
| OpAddSink (l s : nat)
| OpSetSinks (l : nat) (ss : list nat)
| OpAddPreflush (l h : nat).

(** bookkeeping, no counterpart in /repo *)
Definition discard {A} (m : M A) : M unit := m ;;; ret tt.

(** One API call.  A call naming a non-existing parent cannot be written in
    Python; it behaves like an unbound variable. *)
Definition step (cfg : config) (o : op) : M unit :=
  match o with
  | OpNew l lvl name kw rr p =>
    match p with
    | Some q => get_act q ;;; discard (new_action l lvl name kw rr p)
    | None => discard (new_action l lvl name kw rr p)
    end
  | OpBegin r m kw => begin cfg r m kw
  | OpWarn r m kw => warn cfg r m kw
  | OpSuccess r m kw => success cfg r m kw
  | OpFailure r m kw => failure cfg r m kw
  | OpException r x m kw => exception_ cfg r x m kw
  | OpEnter r => enter cfg r
  | OpExit r x => discard (exit_ cfg r x)
  | OpSet r k v => setitem r k v
  | OpElapsed r => discard (get_elapsed_time cfg r)
  | OpComment l m kw p =>
    match p with
    | Some q => get_act q ;;; comment cfg l m kw p
    | None => comment cfg l m kw p
    end
  | OpFlush l => flush cfg l
  | OpSetAsync l b => set_async l b
  | OpAddSink l s => add_sink cfg l s
  | OpSetSinks l ss => set_sinks cfg l ss
  | OpAddPreflush l h => mod_log l (fun g => lg_set_pre (lg_pre g ++ [h]) g)
  end.

(** A sequence of calls; the application survives raised exceptions. *)
Fixpoint run_ops (cfg : config) (os : list op) (w : world) : world :=
  match os with
  | [] => w
  | o :: os' => run_ops cfg os' (fst (step cfg o w))
  end.

(** ** Programs with with-blocks

    A finite execution of a Python program, loops unrolled and branches
    resolved: statements, [with], [try/except], [raise]. *)
Inductive stmt :=
| SSkip
| SSeq (s1 s2 : stmt)
| SNew (x l : nat) (lvl : Z) (name : string) (kw : data) (rr : option bool) (px : option nat)
    (* x = logger_l.action(lvl, name, reraise=rr, parent_action=px) *)
| SWith (x : nat) (body : stmt)                        (* with x: body *)
| SWithNew (x l : nat) (lvl : Z) (name : string) (kw : data) (rr : option bool) (px : option nat) (body : stmt)
    (* with logger_l.action(...) as x: body *)
| SBegin (x : nat) (m : option string) (kw : data)
| SWarn (x : nat) (m : string) (kw : data)
| SSuccess (x : nat) (m : option string) (kw : data)
| SFailure (x : nat) (m : option string) (kw : data)
| SException (x : nat) (m : option string) (kw : data)
| SSet (x : nat) (k : string) (v : Z)
| SElapsed (x : nat)
| SComment (l : nat) (m : string) (kw : data)
| SFlush (l : nat)
| SRaise (e : exn)
| SReraise                                              (* bare raise *)
| STry (all : bool) (body handler : stmt).              (* except BaseException / except Exception *)

(** Reading a Python variable (NameError if unbound). *)
Definition lookup (x : nat) : M nat :=
  fun w => match w_env w x with
           | Some r => (w, Ok r)
           | None => (w, Raise exn_name_error)
           end.
(** Assigning a Python variable. *)
Definition bind_var (x r : nat) : M unit := fun w => (set_env (upd (w_env w) x (Some r)) w, Ok tt).

(** bookkeeping, no counterpart in /repo *)
Definition lookup_opt (px : option nat) : M (option nat) :=
  match px with
  | None => ret None
  | Some x => r <- lookup x ;; ret (Some r)
  end.

(** The [with] statement of the language reference. *)
Definition with_block (cfg : config) (r : nat) (body : M unit) : M unit :=
  fun w =>
    match enter cfg r w with
    | (w1, Raise e) => (w1, Raise e)
    | (w1, Ok _) =>
      match body w1 with
      | (w2, Ok _) => discard (exit_ cfg r None) w2
      | (w2, Raise e) =>
        match exit_ cfg r (Some e) w2 with
        | (w3, Ok true) => (w3, Ok tt)
        | (w3, Ok false) => (w3, Raise e)
        | (w3, Raise e') => (w3, Raise e')
        end
      end
    end.

(** [cur] is the exception being handled ([sys.exc_info()]). *)
Fixpoint eval (cfg : config) (cur : option exn) (s : stmt) : M unit :=
  match s with
  | SSkip => ret tt
  | SSeq s1 s2 => eval cfg cur s1 ;;; eval cfg cur s2
  | SNew x l lvl name kw rr px =>
    p <- lookup_opt px ;;
    r <- new_action l lvl name kw rr p ;;
    bind_var x r
  | SWith x body =>
    r <- lookup x ;;
    with_block cfg r (eval cfg cur body)
  | SWithNew x l lvl name kw rr px body =>
    p <- lookup_opt px ;;
    r <- new_action l lvl name kw rr p ;;
    with_block cfg r (bind_var x r ;;; eval cfg cur body)
  | SBegin x m kw => r <- lookup x ;; begin cfg r m kw
  | SWarn x m kw => r <- lookup x ;; warn cfg r m kw
  | SSuccess x m kw => r <- lookup x ;; success cfg r m kw ;;; add_hist (HCall r Success)
  | SFailure x m kw => r <- lookup x ;; failure cfg r m kw ;;; add_hist (HCall r Failure)
  | SException x m kw => r <- lookup x ;; exception_ cfg r cur m kw ;;; add_hist (HCall r Exception_)
  | SSet x k v => r <- lookup x ;; setitem r k v
  | SElapsed x => r <- lookup x ;; discard (get_elapsed_time cfg r)
  | SComment l m kw => comment cfg l m kw None
  | SFlush l => flush cfg l
  | SRaise e => raise e
  | SReraise => match cur with Some e => raise e | None => raise exn_no_active end
  | STry all body handler =>
    fun w => match eval cfg cur body w with
             | (w', Raise e) =>
               if all || exn_ord e then eval cfg (Some e) handler w' else (w', Raise e)
             | p => p
             end
  end.

(** ** Initial state: import time, no action yet, loggers without sinks. *)
Definition empty_logger (async : bool) : logger :=
  mkLogger async [] [] [] [] [] [] [] [] 0 0.
(** The world before any call. *)
Definition init (async : nat -> bool) : world :=
  mkWorld [] (fun l => empty_logger (async l)) (fun _ => None) 0 0 [] (fun _ => None) [].
