(** Small-step model of one action used by several threads: Action.begin (action.py 140-148),
    warn (150-155), success/failure (157-182), _end (227-243), __enter__ (245-248) and __exit__
    without an exception (250-271).

    One step is one operation on the shared action: reading or assigning an attribute, an
    append, the call of the logger with an event.  Each is atomic in CPython.  Left out: the
    data map, messages, the active parent (model/ParentThreads.v) and what the logger does with
    the event (model/Concurrent.v, model/HookThreads.v); hooks return without raising. *)
From Coq Require Import ZArith.
From Verif Require Import model.PyBase model.Core.
Open Scope nat_scope.

(** An event object: number (action.py 335), outcome of an end event, etime. *)
Record sev := mkSev { sv_id : nat; sv_out : option status; sv_time : Z }.
(** Calls on the action: begin(), success()/failure(), warn(), __enter__(), __exit__(None, None, None). *)
Inductive sop := SBegin | SEnd (o : status) | SWarn | SEnter | SExit.
(** What is left of a call.  The number is the line of action.py. *)
Inductive micro :=
| ICheckBegin                                (* 142: if not self.begin_event *)
| INewBegin                                  (* 146: self.begin_event = BeginEvent(...) *)
| IReadBegin                                 (* 147: read self.begin_event ... *)
| IPubBegin (e : sev)                        (* 147: ... and call on_begin with it *)
| IEndTrans (o : status)                     (* 230: if self._is_trans *)
| IEndBegun (o : status)                     (* 233: if not self.begin_event *)
| IEndTime (o : status)                      (* 235: end_time = self.begin_event.etime *)
| INewEnd (o : status) (t : Z)               (* 237: self.end_event = EndEvent(...) *)
| IEndDefer                                  (* 240: if not self._defer_publish *)
| IReadEnd                                   (* 241 or 262: read self.end_event ... *)
| IPubEnd (e : sev)                          (* ... and call on_end with it *)
| INewWarn                                   (* 152 *)
| IWarnList (e : sev)                        (* 153: is there a list of warnings? *)
| IWarnStore (e : sev)                       (* 106-108, boltons cachedproperty: store a new list *)
| IWarnAppend (e : sev) (l : nat)            (* 153: append *)
| IPubWarn (e : sev)                         (* 154 *)
| ISetTrans                                  (* 246 *)
| ISetDefer (b : bool)                       (* 246, 251 *)
| IExitCheck                                 (* 261: if self.end_event *)
| IRet (op : sop).                           (* the call returns *)
(** A thread: the rest of its current call, the calls still to be made. *)
Record sthread := mkST { st_code : list micro; st_todo : list sop }.
(** What happened: call, return, publication of a begin, end or warning event. *)
Inductive sobs := SCall (t : nat) (op : sop) | SRet (t : nat) (op : sop)
| SPubB (t : nat) (e : sev) | SPubE (t : nat) (e : sev) | SPubW (t : nat) (e : sev).
(** begin_event, end_event, _is_trans, _defer_publish, warn_events (a list object), the list
    objects, the event counter, steps done so far, threads, observations. *)
Record sstate := mkSS {
  ss_begin : option sev; ss_end : option sev; ss_trans : bool; ss_defer : bool;
  ss_warn : option nat; ss_lists : list (list sev); ss_next : nat; ss_clock : nat;
  ss_threads : list sthread; ss_trace : list sobs }.

(** bookkeeping, no counterpart in /repo: thread [t] moves on, the clock ticks *)
Definition smove (t : nat) (c : list micro) (todo : list sop) (o : list sobs) (w : sstate) : sstate :=
  mkSS (ss_begin w) (ss_end w) (ss_trans w) (ss_defer w) (ss_warn w) (ss_lists w) (ss_next w) (S (ss_clock w))
    (list_set (ss_threads w) t (mkST c todo)) (ss_trace w ++ o).
(** [self.begin_event = e], [self.end_event = e] with a new event object *)
Definition set_begin (e : sev) (w : sstate) : sstate :=
  mkSS (Some e) (ss_end w) (ss_trans w) (ss_defer w) (ss_warn w) (ss_lists w) (S (ss_next w)) (ss_clock w) (ss_threads w) (ss_trace w).
Definition set_end (e : sev) (w : sstate) : sstate :=   (* as above *)
  mkSS (ss_begin w) (Some e) (ss_trans w) (ss_defer w) (ss_warn w) (ss_lists w) (S (ss_next w)) (ss_clock w) (ss_threads w) (ss_trace w).
(** A new warning event. *)
Definition count_event (w : sstate) : sstate :=
  mkSS (ss_begin w) (ss_end w) (ss_trans w) (ss_defer w) (ss_warn w) (ss_lists w) (S (ss_next w)) (ss_clock w) (ss_threads w) (ss_trace w).
(** [self._is_trans = True], [self._defer_publish = b] *)
Definition set_trans (w : sstate) : sstate :=
  mkSS (ss_begin w) (ss_end w) true (ss_defer w) (ss_warn w) (ss_lists w) (ss_next w) (ss_clock w) (ss_threads w) (ss_trace w).
Definition set_defer (b : bool) (w : sstate) : sstate :=  (* as above *)
  mkSS (ss_begin w) (ss_end w) (ss_trans w) b (ss_warn w) (ss_lists w) (ss_next w) (ss_clock w) (ss_threads w) (ss_trace w).
(** warn_events becomes a new empty list; an event is appended to a list object. *)
Definition store_warns (w : sstate) : sstate :=
  mkSS (ss_begin w) (ss_end w) (ss_trans w) (ss_defer w) (Some (length (ss_lists w))) (ss_lists w ++ [[]]) (ss_next w) (ss_clock w) (ss_threads w) (ss_trace w).
Definition append_warn (e : sev) (l : nat) (w : sstate) : sstate :=  (* as above *)
  mkSS (ss_begin w) (ss_end w) (ss_trans w) (ss_defer w) (ss_warn w) (list_set (ss_lists w) l (nth l (ss_lists w) [] ++ [e])) (ss_next w) (ss_clock w) (ss_threads w) (ss_trace w).

(** The body of each method. *)
Definition code_of (op : sop) : list micro :=
  match op with
  | SBegin => [ICheckBegin]                                  (* 140-148 *)
  | SEnd o => [IEndTrans o]                                  (* 157-182, 227-243 *)
  | SWarn => [INewWarn]                                      (* 150-155 *)
  | SEnter => [ISetTrans; ISetDefer true; ICheckBegin]       (* 245-248 *)
  | SExit => [ISetDefer false; IExitCheck]                   (* 250-271 *)
  end.

(** One step of thread [t]; None: it has nothing left to do, or an attribute of None was asked
    for (C94_never_stuck: never).  [time n] is the time at step [n]. *)
Definition sstep (time : nat -> Z) (t : nat) (w : sstate) : option sstate :=
  match nth_error (ss_threads w) t with
  | None => None
  | Some th =>
    let todo := st_todo th in
    match st_code th with
    | [] => match todo with
            | [] => None
            | op :: todo' => Some (smove t (code_of op ++ [IRet op]) todo' [SCall t op] w)
            end
    | i :: c =>
      match i with
      | ICheckBegin => match ss_begin w with
                       | Some _ => Some (smove t c todo [] w)
                       | None => Some (smove t (INewBegin :: IReadBegin :: c) todo [] w)
                       end
      | INewBegin => Some (smove t c todo [] (set_begin (mkSev (ss_next w) None (time (ss_clock w))) w))
      | IReadBegin => match ss_begin w with Some e => Some (smove t (IPubBegin e :: c) todo [] w) | None => None end
      | IPubBegin e => Some (smove t c todo [SPubB t e] w)
      | IEndTrans o => if ss_trans w then Some (smove t (INewEnd o (time (ss_clock w)) :: c) todo [] w)        (* 231 *)
                       else Some (smove t (IEndBegun o :: c) todo [] w)
      | IEndBegun o => match ss_begin w with
                       | Some _ => Some (smove t (IEndTime o :: c) todo [] w)
                       | None => Some (smove t (ICheckBegin :: IEndTime o :: c) todo [] w)                     (* 234 *)
                       end
      | IEndTime o => match ss_begin w with Some e => Some (smove t (INewEnd o (sv_time e) :: c) todo [] w) | None => None end
      | INewEnd o tm => Some (smove t (IEndDefer :: c) todo [] (set_end (mkSev (ss_next w) (Some o) tm) w))
      | IEndDefer => if ss_defer w then Some (smove t c todo [] w) else Some (smove t (IReadEnd :: c) todo [] w)
      | IReadEnd => match ss_end w with Some e => Some (smove t (IPubEnd e :: c) todo [] w) | None => None end
      | IPubEnd e => Some (smove t c todo [SPubE t e] w)
      | INewWarn => Some (smove t (IWarnList (mkSev (ss_next w) None (time (ss_clock w))) :: c) todo [] (count_event w))
      | IWarnList e => match ss_warn w with
                       | Some l => Some (smove t (IWarnAppend e l :: c) todo [] w)
                       | None => Some (smove t (IWarnStore e :: c) todo [] w)
                       end
      | IWarnStore e => Some (smove t (IWarnAppend e (length (ss_lists w)) :: c) todo [] (store_warns w))
      | IWarnAppend e l => Some (smove t (IPubWarn e :: c) todo [] (append_warn e l w))
      | IPubWarn e => Some (smove t c todo [SPubW t e] w)
      | ISetTrans => Some (smove t c todo [] (set_trans w))
      | ISetDefer b => Some (smove t c todo [] (set_defer b w))
      | IExitCheck => match ss_end w with
                      | Some _ => Some (smove t (IReadEnd :: c) todo [] w)                                     (* 262 *)
                      | None => Some (smove t (IEndTrans Success :: c) todo [] w)                              (* 265 *)
                      end
      | IRet op => Some (smove t c todo [SRet t op] w)
      end
    end
  end.
(** Running a schedule: a thread with nothing to do is skipped. *)
Fixpoint srun (time : nat -> Z) (sc : list nat) (w : sstate) : sstate :=
  match sc with
  | [] => w
  | t :: sc' => srun time sc' (match sstep time t w with Some w' => w' | None => w end)
  end.
(** A new action (67-91; 64-65: neither entered nor deferring) and threads about to use it. *)
Definition sstart (progs : list (list sop)) : sstate :=
  mkSS None None false false None [] 0 0 (map (mkST []) progs) [].
