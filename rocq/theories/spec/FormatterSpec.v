(** Vocabulary for C66: which template an event is rendered with. *)
From Verif Require Import model.PyBase model.Json model.Format.

(** The kinds of events a formatter takes templates for. *)
Definition event_kind (kind : string) : Prop := In kind ["begin"; "warn"; "end"; "exception"; "comment"]%string.
(** The template for events of a kind, by the arguments of SensibleFormatter: its own if
    given, where None and the empty text both stand for the empty line, else the base. *)
Inductive template_for (base : text) (kw : list (string * option text)) (kind : string) : text -> Prop :=
| TfOwn t : dget String.eqb kind kw = Some (Some t) -> template_for base kw kind t
| TfNone : dget String.eqb kind kw = Some None -> template_for base kw kind []
| TfBase : dget String.eqb kind kw = None -> template_for base kw kind base.
