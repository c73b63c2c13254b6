(** Vocabulary for C83: which fields a template shows, and which lines do not depend on the
    moment they are formatted. *)
From Verif Require Import model.PyBase model.Core model.Levels model.Sensible model.Pipeline model.Format model.Fields
  spec.CoreSpec spec.FormatSpec.
From Coq Require Import Ascii.
Open Scope nat_scope.

(** The names of the fields of a template. *)
Definition names_in (t : text) : list text :=
  match tokenize t with Some is => map (fun k => base_name (tk_fname k)) (fields is) | None => [] end.
(** Fields that read the begin event of the action, its end event, its last exception, its
    whole data map, ... *)
Definition begin_fields : list string :=
  ["begin_message"; "begin_message_raw"; "begin_timestamp"; "duration_s"; "duration_ms"; "duration_us"; "duration_auto";
   "iso_begin"; "iso_begin_notz"; "iso_begin_local"; "iso_begin_local_notz"; "iso_begin_local_noms"; "iso_begin_local_noms_notz"]%string.
Definition end_fields : list string :=
  ["end_message"; "end_message_raw"; "end_timestamp"; "duration_s"; "duration_ms"; "duration_us"; "duration_auto";
   "iso_end"; "iso_end_notz"; "iso_end_local"; "iso_end_local_notz"; "iso_end_local_noms"; "iso_end_local_noms_notz"]%string.
Definition exc_fields : list string := ["exc_type"; "exc_message"; "exc_tb_str"; "exc_tb_list"]%string.
Definition data_fields : list string := ["data_map"; "data_map_repr"]%string.
Definition message_fields : list string := ["event_message"; "event_message_raw"; "begin_message"; "end_message"]%string.

(** The line for event [e] of action [a] with template [t] shows the message of this event
    (the field event_message_raw shows the same as event_message). *)
Inductive msg_shown (t : text) (e : event) (a : action) : event -> Prop :=
| ms_event : In (lit "event_message") (names_in t) \/ In (lit "event_message_raw") (names_in t) -> msg_shown t e a e
| ms_begin b : In (lit "begin_message") (names_in t) -> a_begin a = Some b -> msg_shown t e a b
| ms_end b : In (lit "end_message") (names_in t) -> a_end a = Some b -> msg_shown t e a b.
(** The line shows this field: in the template, or in a message, because messages are
    templates, too. *)
Inductive in_line (t : text) (e : event) (a : action) : text -> Prop :=
| il_template n : In n (names_in t) -> in_line t e a n
| il_message x n : msg_shown t e a x -> In n (names_in (lit (e_msg x))) -> in_line t e a n.
(** It shows one of these fields. *)
Definition shows_any (t : text) (e : event) (a : action) (ns : list string) : Prop := exists n, In n ns /\ in_line t e a (lit n).

(** [o], if there, is not newer than [e]. *)
Definition not_after (o : option event) (e : event) : Prop := forall b, o = Some b -> e_id b <= e_id e.
(** Call [o] among the calls [os] is made after the one that created event [e]. *)
Definition later (cfg : config) (w : world) (os : list op) (e : event) (o : op) : Prop :=
  exists os1 os2, os = os1 ++ os2 /\ In (HEvent e) (w_hist (run_ops cfg os1 w)) /\ In o os2.

(** The line for event [e] of action [a] (as it is in the end) does not show anything that
    came later: if it shows the begin event, the end event or an exception of the action,
    that event is [e] or an older one; calls made later do not store data under a name the
    line shows, or store nothing at all in the action if it shows the whole map; if it shows
    the letter of an end event, the action is not entered later (the letter becomes a capital
    then).  And messages it shows do not show messages. *)
Record line_ok (cfg : config) (w : world) (os : list op) (t : text) (e : event) (a : action) : Prop := {
  lo_begin : shows_any t e a begin_fields -> not_after (a_begin a) e;
  lo_end : shows_any t e a end_fields -> not_after (a_end a) e;
  lo_exc : shows_any t e a exc_fields -> forall x, In x (a_excs a) -> e_id x <= e_id e;
  lo_data : shows_any t e a data_fields -> forall o, later cfg w os e o -> writes (e_act e) o = [];
  lo_keys : forall o name v, later cfg w os e o -> In (name, v) (writes (e_act e) o) -> ~ in_line t e a (lit name);
  lo_char : shows_any t e a ["status_char"]%string -> e_kind e = KEnd \/ In (lit "end_message") (names_in t) -> ~ later cfg w os e (OpEnter (e_act e));
  lo_nested : forall x m, msg_shown t e a x -> In m message_fields -> ~ In (lit m) (names_in (lit (e_msg x))) }.

(** A SensibleFilter with the default check for verbose actions, on this flag. *)
Definition flag_filter (f : sfilter) (flag : string) : Prop := exists rg a, f = make_filter rg a /\
  fa_verbose_check a = None /\ flag = match fa_verbose_flag a with Some s => s | None => "verbose"%string end.

(** Action [r] is entered (it exists, and is used as a context manager) by one of the calls [os]. *)
Definition entered (cfg : config) (w : world) (os : list op) (r : nat) : Prop :=
  exists os1 os2, os = os1 ++ OpEnter r :: os2 /\ r < length (w_acts (run_ops cfg os1 w)).
(** The letter that stands for an event; capital for the end of a transaction. *)
Inductive letter (transaction : Prop) : kind -> option status -> string -> Prop :=
| le_begin s : letter transaction KBegin s "b"
| le_warn s : letter transaction KWarn s "W"
| le_exc s : letter transaction KExc s "!"
| le_comment s : letter transaction KComment s "#"
| le_success : transaction -> letter transaction KEnd (Some Success) "S"
| le_failure : transaction -> letter transaction KEnd (Some Failure) "F"
| le_exception : transaction -> letter transaction KEnd (Some Exception_) "E"
| le_success' : ~ transaction -> letter transaction KEnd (Some Success) "s"
| le_failure' : ~ transaction -> letter transaction KEnd (Some Failure) "f"
| le_exception' : ~ transaction -> letter transaction KEnd (Some Exception_) "e".

(** The template {name}. *)
Definition alone (n : string) : kind -> text := fun _ => lit ("{" +s n +s "}").
(** No data of the action has the name of this field (it would be shown instead). *)
Definition unshadowed (a : action) (n : string) : Prop := dget String.eqb n (a_data a) = None.
(** What an unquoted built-in field shows in the line for event [e] of action [a], which is [d] deep. *)
Definition field_line (env : fenv) (fmt_nested : ftoken -> list fval -> option text) (fuel : nat) (n : string) (e : event) (a : action) (d : nat) : text :=
  ap_render (sensible_sink env builtin_format fmt_nested fuel [] [] no_quoter (alone n)) (e_kind e) (e, Some a, d).
