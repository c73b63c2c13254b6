(** Event.message keeps what it rendered first (action.py 307-321, the attribute _message): the
    sink of Fields.v with that cache.

    Simplifications: which of the messages that a line reads are stored is left open (a message
    that data of the action hides is not rendered); what a line stores is stored at its end,
    which is the same, because nothing that a message shows changes while a line is
    rendered.  Several sinks see the same event objects: their lines may store messages, too;
    they are given by their templates and get the same kinds of events. *)
From Verif Require Import model.PyBase model.Core model.Levels model.Sensible model.Pipeline model.Format model.Fields.
Open Scope nat_scope.

(** The attribute _message of every event; empty: nothing yet (action.py 309: [if self._message]). *)
Definition mcache := event -> text.
(** Nothing is stored. *)
Definition no_messages : mcache := fun _ => [].

Section Cached.
Variable env : fenv.
Variable fmt_named : ftoken -> fval -> option text.
Variable fmt_nested : ftoken -> list fval -> option text.

(** The getters, as in Fields.v, with the message from the cache: sensible.py 431-525, action.py
    307-321. *)
Fixpoint cgetter (c : mcache) (fuel : nat) : string -> shown -> gres fval :=
  let msg := match fuel with
    | O => fun _ _ _ => GOther
    | S f => fun e a d =>
      match fst (event_message VNone fmt_named fmt_nested data_of (field_map (builtin_fields (cgetter c f)) []) (e, Some a, d) (lit (e_msg e)) [] (c e)) with
      | Some t => gtext t
      | None => GOther
      end
    end in
  from_table (getters env msg).
(** The message an event stores when it is read: action.py 311-321. *)
Definition stored (c : mcache) (fuel : nat) (x : event) (a : action) (d : nat) : text :=
  match fuel with
  | O => c x
  | S f => snd (event_message VNone fmt_named fmt_nested data_of (field_map (builtin_fields (cgetter c f)) []) (x, Some a, d) (lit (e_msg x)) [] (c x))
  end.
(** sensible.py 34-82, 164-190: see sensible_sink. *)
Definition cached_sink (c : mcache) (fuel : nat) (on : list string) (fs : list sfilter) (q : quoter_fn) (tpl : kind -> text) : appender :=
  let table := field_map (builtin_fields (cgetter c fuel)) [] in
  mkApp on (map (fun f k x => f_on f k (filter_view env k x)) fs)
    (fun k x =>
      match make_formatter table q default_defaulter (tpl k) with
      | Some cs => match render VNone fmt_named fmt_nested data_of table x [] [] cs with Some t => t | None => [] end
      | None => []
      end).

(** The names of the fields of a template (sensible.py 240-265). *)
Definition field_names (t : text) : list text :=
  match tokenize t with Some is => map (fun k => base_name (tk_fname k)) (flat_map (fun i => match i with Fld k => [k] | Lit _ => [] end) is) | None => [] end.
(** A line with template [t] for event [e] of action [a] reads the message of this event;
    messages are templates, so that they read messages, too (sensible.py 446-449, 458-459). *)
Inductive reads_message (a : action) : text -> event -> event -> Prop :=
| rm_event t e : In (lit "event_message") (field_names t) \/ In (lit "event_message_raw") (field_names t) -> reads_message a t e e
| rm_begin t e b : In (lit "begin_message") (field_names t) -> a_begin a = Some b -> reads_message a t e b
| rm_end t e b : In (lit "end_message") (field_names t) -> a_end a = Some b -> reads_message a t e b
| rm_nested t e x y : reads_message a t e x -> reads_message a (lit (e_msg x)) x y -> reads_message a t e y.
(** What lines with these templates do to the cache. *)
Definition stores (fuel : nat) (ts : list text) (v : shown) (c c' : mcache) : Prop :=
  forall x, c' x = c x \/
  exists t e a d, v = (e, Some a, d) /\ In t ts /\ reads_message a t e x /\ c' x = stored c fuel x a d.

Variable fuel : nat.
Variable on : list string.
Variable fs : list sfilter.
Variable q : quoter_fn.
Variable tpl : kind -> text.
(** The templates of the other sinks. *)
Variable others : kind -> list text.
(** The lines for a list of events: other sinks may come before and after this one (logger.py
    186-218). *)
Inductive cached_lines : mcache -> list (kind * shown) -> list text -> mcache -> Prop :=
| cl_nil c : cached_lines c [] [] c
| cl_skip c k v evs ts c' : ss_has (sink_of (cached_sink c fuel on fs q tpl)) k = false ->
    cached_lines c evs ts c' -> cached_lines c ((k, v) :: evs) ts c'
| cl_line c c1 c2 k v evs ts c' : ss_has (sink_of (cached_sink c fuel on fs q tpl)) k = true ->
    stores fuel (others k) v c c1 -> stores fuel (tpl k :: others k) v c1 c2 ->
    cached_lines c2 evs ts c' ->
    cached_lines c ((k, v) :: evs) (map snd (ss_run (sink_of (cached_sink c1 fuel on fs q tpl)) [(k, v)]) ++ ts) c'.
(** A sequence of API calls, all the entries, and the cache before and after: as run_logged. *)
Inductive cached_run (cfg : config) (l s : nat) : list op -> world -> mcache -> list text -> mcache -> Prop :=
| cr_nil w c : cached_run cfg l s [] w c [] c
| cr_cons o os w c c1 c2 ts ts' :
    cached_lines c (map (fun p => (fst p, seen w (fst (step cfg o w)) (snd p)))
       (to_sink l s (skipn (length (w_trace w)) (w_trace (fst (step cfg o w)))))) ts c1 ->
    cached_run cfg l s os (fst (step cfg o w)) c1 ts' c2 ->
    cached_run cfg l s (o :: os) w c (ts ++ ts') c2.
End Cached.
