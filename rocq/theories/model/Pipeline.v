(** The usual set-up put together: a logger (Core.v) with a SensibleSink (Sensible.v) that
    writes through a FileEmitter (Emitters.v).

    Simplifications: the sink's filters answer and its formatter returns a text for every
    event, so that the hooks do not raise. *)
From Verif Require Import model.PyBase model.Core model.Sensible.
From Verif Require model.Emitters.

Notation text := Emitters.text.

(** What filters and formatters see: the event, [event.action] (action.py 298-305) and
    [event.action.parent_depth] (action.py 132-138: the one thing that is read from other
    actions). *)
Definition shown := (event * option action * nat)%type.
(** The event as a sink sees it. *)
Definition show (w : world) (e : event) : shown := (e, nth_error (w_acts w) (e_act e), parent_depth w (e_act e)).
(** The event as a sink sees it during an API call that leads from [w] to [w'].  Of what the
    action shows only its end event can change between the delivery and the return of the
    call: _end begins the action first if it has not begun (action.py 227-243), so that the
    begin event is delivered before the end event is there. *)
Definition seen (w w' : world) (e : event) : shown :=
  match show w' e with
  | (e, Some a, d) =>
    (e, Some (match a_end a with
              | Some x => if Nat.ltb (e_id e) (e_id x) && Nat.leb (w_ctr w) (e_id x) then a_set_end None a else a
              | None => a
              end), d)
  | x => x
  end.
(** A SensibleSink (sensible.py 34-57). *)
Record appender := mkApp {
  ap_on : list string;
  ap_filters : list (kind -> shown -> bool);
  ap_render : kind -> shown -> text }.
(** As a sink of Sensible.v: filters, formatter and emitter do not raise. *)
Definition sink_of (ap : appender) : ssink shown text :=
  mkSink (ap_on ap) (map (fun f k x => Some (f k x)) (ap_filters ap)) (fun k x => Some (ap_render ap k x)) (fun _ _ _ => true).

(** The calls of hooks of sink [s] made by logger [l] among observations
    (logger.py 186-218: the hook is called with the event). *)
Fixpoint to_sink (l s : nat) (t : list obs) : list (kind * event) :=
  match t with
  | [] => []
  | ODeliver l' k s' e :: t' => if Nat.eqb l' l && Nat.eqb s' s then (k, e) :: to_sink l s t' else to_sink l s t'
  | _ :: t' => to_sink l s t'
  end.
(** The entries handed to the emitter by one API call (sensible.py 59-82). *)
Definition entries (ap : appender) (l s : nat) (w w' : world) : list text :=
  map snd (ss_run (sink_of ap)
    (map (fun p => (fst p, seen w w' (snd p)))
       (to_sink l s (skipn (length (w_trace w)) (w_trace w'))))).
(** A sequence of API calls, and all the entries. *)
Fixpoint run_logged (cfg : config) (ap : appender) (l s : nat) (os : list op) (w : world) : world * list text :=
  match os with
  | [] => (w, [])
  | o :: os' =>
    let w1 := fst (step cfg o w) in
    let '(w2, es) := run_logged cfg ap l s os' w1 in (w2, entries ap l s w w1 ++ es)
  end.
(** The content of the file after these entries (emitters.py 94-98, 136-140); [cap] is the
    size of the stream's buffer. *)
Definition file_after (cap : nat) (name : string) (sep : Emitters.bytes) (enc : text -> option Emitters.bytes) (es : list text) : Emitters.bytes :=
  Emitters.fs_data (fst (fst (Emitters.fs_run cap (Emitters.file_emitter name sep enc) (map Emitters.FEmit es) Emitters.fs_new))).
