(** Vocabulary for single API calls: C70-C73. *)
From Verif Require Import model.PyBase model.Core spec.CoreSpec.

(** Between [w] and [w'] logger [l] published exactly the events [evs]: in synchronous mode
    every listener got each of them at once, in order; in asynchronous mode that is so for
    exception events only, and the others wait in the queue (which keeps the newest
    QUEUE_LIMIT).  Other queues, modes and sinks are as before. *)
Definition published (cfg : config) (l : nat) (evs : list (kind * event)) (w w' : world) : Prop :=
  let async := lg_async (w_logs w l) in
  w_trace w' = w_trace w ++ everyone cfg w l (if async then filter is_exc evs else evs) /\
  lg_queue (w_logs w' l) = lastn QUEUE_LIMIT (lg_queue (w_logs w l) ++ (if async then filter plain evs else [])) /\
  (forall l', l' <> l -> lg_queue (w_logs w' l') = lg_queue (w_logs w l')) /\
  (forall l', lg_async (w_logs w' l') = lg_async (w_logs w l') /\ lg_sinks (w_logs w' l') = lg_sinks (w_logs w l')).

(** No action but [r] changed. *)
Definition only_changes (r : nat) (w w' : world) : Prop :=
  length (w_acts w') = length (w_acts w) /\
  forall r', r' <> r -> nth_error (w_acts w') r' = nth_error (w_acts w) r'.

(** The caller's message, unless there is none or it is empty. *)
Definition text (given : option string) (default : string) : string :=
  match given with
  | Some (String c s) => String c s
  | _ => default
  end.
(** Default messages show the data map if there is data. *)
Definition with_data (a : action) (s : string) : string :=
  match a_data a with [] => s | _ :: _ => s +s " - ({data_map_repr})" end.

(** [b] is the begin event of [a]; if [a] had none it is a new one with the default text. *)
Definition begun (cfg : config) (r : nat) (a : action) (t : Z) (b : event) : Prop :=
  match a_begin a with
  | Some b0 => b = b0
  | None => e_kind b = KBegin /\ e_act b = r /\ e_time b = t /\
            e_msg b = a_name a +s " beginning"
  end.
Definition first_begin (a : action) (b : event) : list (kind * event) :=
  match a_begin a with Some _ => [] | None => [(KBegin, b)] end.

(** success() and failure() *)
Definition conclude (cfg : config) (ok : bool) (r : nat) (m : option string) (kw : data) : M unit :=
  if ok then success cfg r m kw else failure cfg r m kw.

(** The events of kind [k] created for action [r], in order. *)
Definition events_of (r : nat) (k : kind) (h : list hist) : list event :=
  flat_map (fun x => match x with
                     | HEvent e => if Nat.eqb (e_act e) r && kind_eqb (e_kind e) k then [e] else []
                     | _ => []
                     end) h.
Fixpoint last_of {A} (l : list A) : option A :=
  match l with [] => None | [x] => Some x | _ :: l' => last_of l' end.

(** Calls of preflush hooks. *)
Definition preflush_calls (t : list obs) : list (nat * nat) :=
  flat_map (fun o => match o with OPre l h => [(l, h)] | _ => [] end) t.
