(** Vocabulary for the statements about actions, loggers and with-blocks.
    Only the API model (model/Core.v) is used, none of the proof machinery. *)
From Verif Require Import model.PyBase model.Core.

(** ** Reachable states: any sequence of API calls (including calls that
    raised) and program fragments, starting from freshly created loggers. *)
Inductive reach (cfg : config) : world -> Prop :=
| reach_init async : reach cfg (init async)
| reach_call o w : reach cfg w -> reach cfg (fst (step cfg o w))
| reach_run cur s w : reach cfg w -> reach cfg (fst (eval cfg cur s w))
| reach_assign x r w : reach cfg w -> r < length (w_acts w) -> reach cfg (fst (bind_var x r w)).

(** ** Environment assumptions *)

(** No hook of kind [k] ever raises. *)
Definition hook_quiet (cfg : config) (k : kind) : Prop :=
  forall t l s e, cf_sink cfg t l k s e = None.

(** Begin and end hooks never raise, note handlers never raise, and exception
    hooks (and the rendering of an exception's text) raise at most ordinary
    exceptions.  Warning, comment and preflush hooks are unrestricted. *)
Record calm (cfg : config) : Prop := {
  calm_begin : hook_quiet cfg KBegin;
  calm_end : hook_quiet cfg KEnd;
  calm_exc : forall t l s e x, cf_sink cfg t l KExc s e = Some x -> exn_ord x = true;
  calm_note : forall t m, cf_note cfg t m = None;
  calm_text : forall x y, cf_describe cfg x = Raise y -> exn_ord y = true }.

(** Exception hooks and the rendering of exceptions never raise either. *)
Definition exc_quiet (cfg : config) : Prop :=
  hook_quiet cfg KExc /\ forall x, exists d, cf_describe cfg x = Ok d.

Definition all_quiet (cfg : config) : Prop :=
  (forall k, hook_quiet cfg k) /\
  (forall t l h, cf_pre cfg t l h = None) /\ (forall t m, cf_note cfg t m = None) /\
  (forall x, exists d, cf_describe cfg x = Ok d).

(** The sinks of logger [l] that implement the hook [k], in registration order. *)
Definition listeners (cfg : config) (w : world) (l : nat) (k : kind) : list nat :=
  filter (fun s => cf_has cfg s k) (lg_sinks (w_logs w l)).

(** ** Observations *)

(** End-hook calls for action [r], in order: logger, sink, event. *)
Definition end_calls (r : nat) (t : list obs) : list (nat * nat * event) :=
  flat_map (fun o => match o with
                     | ODeliver l KEnd s e => if Nat.eqb (e_act e) r then [(l, s, e)] else []
                     | _ => []
                     end) t.

(** End events of action [r] waiting in a queue. *)
Definition end_waiting (r : nat) (q : list (kind * event)) : list event :=
  flat_map (fun p => match p with
                     | (KEnd, e) => if Nat.eqb (e_act e) r then [e] else []
                     | _ => []
                     end) q.

(** ** Programs *)

(** The body does not run [with x:] again. *)
Fixpoint never_enters (x : nat) (s : stmt) : Prop :=
  match s with
  | SSeq a b => never_enters x a /\ never_enters x b
  | SWith y b => y <> x /\ never_enters x b
  | SWithNew _ _ _ _ _ _ _ b => never_enters x b
  | STry _ a b => never_enters x a /\ never_enters x b
  | _ => True
  end.

(** Every with-statement creates its action in the with-header, without an
    explicit parent. *)
Fixpoint plain_withs (s : stmt) : Prop :=
  match s with
  | SSeq a b => plain_withs a /\ plain_withs b
  | SWith _ _ => False
  | SWithNew _ _ _ _ _ _ px b => px = None /\ plain_withs b
  | STry _ a b => plain_withs a /\ plain_withs b
  | _ => True
  end.

(** The explicit parent, if any, is a bound variable. *)
Definition parent_bound (w : world) (px : option nat) : Prop :=
  match px with None => True | Some y => w_env w y <> None end.

(** The last success/failure/exception call on action [r] in a history. *)
Fixpoint last_call (r : nat) (h : list hist) : option status :=
  match h with
  | [] => None
  | HCall r' st :: h' =>
    match last_call r h' with
    | Some st' => Some st'
    | None => if Nat.eqb r' r then Some st else None
    end
  | _ :: h' => last_call r h'
  end.

(** What leaves a with-block whose body ended with [rb]. *)
Definition propagate (reraise : option bool) (rb : res unit) : res unit :=
  match rb with
  | Ok _ => Ok tt
  | Raise e => match reraise with Some false => Ok tt | _ => Raise e end
  end.

(** The state in which the body of
    [with logger_l.action(lvl, nm, reraise=rr, parent_action=px, ...) as x:]
    starts, when the block is reached in state [w]. *)
Definition block_start (cfg : config) (x l : nat) (lvl : Z) (nm : string) (kw : data)
                       (rr : option bool) (px : option nat) (w : world) : world :=
  let r := length (w_acts w) in
  let w0 := fst (new_action l lvl nm kw rr (match px with None => None | Some y => w_env w y end) w) in
  fst (bind_var x r (fst (enter cfg r w0))).

(** End events of action [r] published by the end of a block of logger [l] on
    which the sinks [ss] listen, when [e] is the block's only end event: each
    sink got it once, or it waits once in the queue. *)
Definition one_end (async : bool) (l r : nat) (ss : list nat) (e : event) (w : world) : Prop :=
  end_calls r (w_trace w) = (if async then [] else map (fun s => (l, s, e)) ss) /\
  forall l', end_waiting r (lg_queue (w_logs w l')) = (if async && Nat.eqb l' l then [e] else []).

Definition block_status (rb : res unit) (explicit : option status) : status :=
  match rb, explicit with
  | Raise _, _ => Exception_
  | Ok _, Some st => st
  | Ok _, None => Success
  end.

(** Action [r] has exactly [n] proper ancestors. *)
Inductive ancestors (w : world) : nat -> nat -> Prop :=
| anc_root r a : nth_error (w_acts w) r = Some a -> a_parent a = None -> ancestors w r 0
| anc_child r a p n : nth_error (w_acts w) r = Some a -> a_parent a = Some p -> ancestors w p n ->
    ancestors w r (S n).

(** The data written to action [r] by one API call. *)
Definition writes (r : nat) (o : op) : data :=
  let to q kw := if Nat.eqb q r then kw else [] in
  match o with
  | OpBegin q _ kw | OpWarn q _ kw | OpSuccess q _ kw | OpFailure q _ kw | OpException q (Some _) _ kw => to q kw
  | OpSet q k v => to q [(k, v)]
  | _ => []
  end.

(** What one API call makes of the status of action [r] ([None]: 'begin', not ended):
    success, failure and exception calls set it; leaving a with-block sets it to
    exception, or to success if nothing set it before; nothing else changes it. *)
Definition next_status (r : nat) (o : op) (s : option status) : option status :=
  match o with
  | OpSuccess q _ _ => if Nat.eqb q r then Some Success else s
  | OpFailure q _ _ => if Nat.eqb q r then Some Failure else s
  | OpException q (Some _) _ _ => if Nat.eqb q r then Some Exception_ else s
  | OpExit q (Some _) => if Nat.eqb q r then Some Exception_ else s
  | OpExit q None => if Nat.eqb q r then match s with None => Some Success | Some st => Some st end else s
  | _ => s
  end.

Fixpoint last_write (k : string) (ws : data) : option Z :=
  match ws with
  | [] => None
  | (k', v) :: ws' => match last_write k ws' with
                      | Some v' => Some v'
                      | None => if String.eqb k k' then Some v else None
                      end
  end.

(** ** Dispatch *)

(** The events of new observations [n] handed to hooks. *)
Definition handed (n : list obs) : list obs :=
  filter (fun o => match o with ODeliver _ _ _ _ => true | _ => false end) n.

(** Event [e] was passed to the listeners in order, up to and including the
    first one that raised; nothing else changed. *)
Definition dispatched (cfg : config) (l : nat) (k : kind) (e : event) (w w' : world) (res : res unit) : Prop :=
  exists called rest,
    listeners cfg w l k = called ++ rest /\
    w' = set_trace (w_trace w ++ map (fun s => ODeliver l k s e) called) w /\
    (forall before s after, called = before ++ s :: after ->
       cf_sink cfg (w_trace w ++ map (fun s => ODeliver l k s e) before) l k s e =
       match after, res with [], Raise x => Some x | _, _ => None end) /\
    match res with Ok _ => rest = [] | Raise _ => called <> [] end.

(** What a logger does with a new event of kind [k]. *)
Definition log_event (cfg : config) (l : nat) (k : kind) (e : event) : M unit :=
  match k with
  | KBegin => on_begin cfg l e
  | KWarn => on_warn cfg l e
  | KEnd => on_end cfg l e
  | KExc => on_exception cfg l e
  | KComment => on_comment cfg l e
  end.

(** ** Sink registration *)
Inductive regop := RAdd (s : nat) | RSet (ss : list nat) | RClear.
Definition do_reg (cfg : config) (l : nat) (o : regop) : M unit :=
  match o with
  | RAdd s => add_sink cfg l s
  | RSet ss => set_sinks cfg l ss
  | RClear => clear_sinks cfg l
  end.
Fixpoint run_reg (cfg : config) (l : nat) (os : list regop) (w : world) : world :=
  match os with [] => w | o :: os' => run_reg cfg l os' (fst (do_reg cfg l o w)) end.
(** Sinks passed to the registration calls since the last reset, given those
    passed before. *)
Fixpoint since_reset (old : list nat) (os : list regop) : list nat :=
  match os with
  | [] => old
  | RAdd s :: os' => since_reset (old ++ [s]) os'
  | RSet ss :: os' => since_reset ss os'
  | RClear :: os' => since_reset [] os'
  end.
(** Each element once, at its first position. *)
Fixpoint first_occurrences (seen l : list nat) : list nat :=
  match l with
  | [] => []
  | x :: l' => if existsb (Nat.eqb x) seen then first_occurrences seen l'
               else x :: first_occurrences (x :: seen) l'
  end.

(** ** The event queue *)
Inductive qop := QPush (k : kind) (e : event) | QFlush.
Definition do_qop (cfg : config) (l : nat) (o : qop) : M unit :=
  match o with QPush k e => log_event cfg l k e | QFlush => flush cfg l end.
Fixpoint run_q (cfg : config) (l : nat) (os : list qop) (w : world) : world :=
  match os with [] => w | o :: os' => run_q cfg l os' (fst (do_qop cfg l o w)) end.
Definition pushed (os : list qop) : list (kind * event) :=
  flat_map (fun o => match o with QPush k e => [(k, e)] | QFlush => [] end) os.
(** Only kinds that are queued: exceptions never are. *)
Definition queueable (os : list qop) : Prop := forall e, ~ In (QPush KExc e) os.

(** The last [n] elements. *)
Definition lastn {A} (n : N) (l : list A) : list A := skipn (length l - N.to_nat n) l.

(** [subseq a b]: [a] arises from [b] by deleting elements. *)
Inductive subseq {A} : list A -> list A -> Prop :=
| sub_nil : subseq [] []
| sub_skip x a b : subseq a b -> subseq a (x :: b)
| sub_take x a b : subseq a b -> subseq (x :: a) (x :: b).

(** The events handed to sink [s] of logger [l], in order. *)
Definition received (l s : nat) (t : list obs) : list (kind * event) :=
  flat_map (fun o => match o with
                     | ODeliver l' k s' e => if Nat.eqb l' l && Nat.eqb s' s then [(k, e)] else []
                     | _ => []
                     end) t.

(** Every listener of every event of [q], in order. *)
Definition everyone (cfg : config) (w : world) (l : nat) (q : list (kind * event)) : list obs :=
  flat_map (fun p => map (fun s => ODeliver l (fst p) s (snd p)) (listeners cfg w l (fst p))) q.

(** The possible outcomes of a flush, with [n] the new observations. *)
Inductive flush_outcome (cfg : config) (l : nat) (w w' : world) (n : list obs) : res unit -> Prop :=
| flushed_all :
    lg_queue (w_logs w' l) = [] ->
    handed n = everyone cfg w l (lg_queue (w_logs w l)) ->
    flush_outcome cfg l w w' n (Ok tt)
| flush_hook_raised done k e left called s missed t x :
    lg_queue (w_logs w l) = done ++ (k, e) :: left ->
    lg_queue (w_logs w' l) = left ->
    listeners cfg w l k = called ++ s :: missed ->
    handed n = everyone cfg w l done ++ map (fun s => ODeliver l k s e) (called ++ [s]) ->
    cf_sink cfg t l k s e = Some x ->
    flush_outcome cfg l w w' n (Raise x)
| flush_never_started x :
    (exists t h, cf_pre cfg t l h = Some x /\ exn_ord x = false) \/ (exists t m, cf_note cfg t m = Some x) ->
    lg_queue (w_logs w' l) = lg_queue (w_logs w l) ->
    handed n = [] ->
    flush_outcome cfg l w w' n (Raise x).

(** ** Scripts: API calls and programs *)
Inductive cmd := CCall (o : op) | CRun (s : stmt).
Definition do_cmd (cfg : config) (c : cmd) : M unit :=
  match c with CCall o => step cfg o | CRun s => eval cfg None s end.
Fixpoint run_cmds (cfg : config) (cs : list cmd) (w : world) : world :=
  match cs with [] => w | c :: cs' => run_cmds cfg cs' (fst (do_cmd cfg c w)) end.

(** The call does not change modes or sinks. *)
Definition keeps_config (c : cmd) : Prop :=
  match c with
  | CCall (OpSetAsync _ _) | CCall (OpAddSink _ _) | CCall (OpSetSinks _ _) => False
  | _ => True
  end.
(** The call only registers sinks and preflush hooks. *)
Definition is_setup (o : op) : Prop :=
  match o with OpAddSink _ _ | OpSetSinks _ _ | OpAddPreflush _ _ => True | _ => False end.

Definition is_exc (p : kind * event) : bool := match fst p with KExc => true | _ => false end.
(** Begin, warn, end and comment events. *)
Definition plain (p : kind * event) : bool := negb (is_exc p).

(** ** Whole histories *)

(** The ids handed out so far, in creation order. *)
Definition created (w : world) : list nat :=
  flat_map (fun h => match h with HAction _ i => [i] | HEvent e => [e_id e] | HCall _ _ => [] end) (w_hist w).
Fixpoint increasing (l : list nat) : Prop :=
  match l with
  | [] => True
  | x :: l' => (forall y, In y l' -> x < y) /\ increasing l'
  end.

(** Event [e] is visible: attached to its action, waiting in a queue or
    delivered to some sink. *)
Definition visible (w : world) (e : event) : Prop :=
  (exists r a, nth_error (w_acts w) r = Some a /\ (a_begin a = Some e \/ a_end a = Some e \/ In e (a_warns a) \/ In e (a_excs a))) \/
  (exists l k, In (k, e) (lg_queue (w_logs w l))) \/
  (exists l k s, In (ODeliver l k s e) (w_trace w)).

(** Calls of the begin hook of sink [s] for action [r]. *)
Definition begin_calls (r s : nat) (t : list obs) : list (nat * event) :=
  flat_map (fun o => match o with
                     | ODeliver l KBegin s' e => if Nat.eqb s' s && Nat.eqb (e_act e) r then [(l, e)] else []
                     | _ => []
                     end) t.

(** [time.time()] never goes backwards. *)
Definition monotone_clock (cfg : config) : Prop :=
  forall i j, i <= j -> (cf_clock cfg i <= cf_clock cfg j)%Z.

Definition get_duration (w : world) (r : nat) : Z :=
  match nth_error (w_acts w) r with Some a => duration a | None => 0%Z end.
