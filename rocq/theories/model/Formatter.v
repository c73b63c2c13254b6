(** SensibleFormatter (sensible.py 164-190): one template per kind of event. *)
From Verif Require Import model.PyBase model.Json model.Format model.Sensible.

(** SensibleFormatter.__init__, 166: [base] after [to_unicode] ([None] becomes the text None). *)
Definition base_template (base : option text) : text := match base with Some b => b | None => lit "None" end.
(** 172-174: the template used for one kind of event; [own] is the keyword argument, if given
    (None and an empty text are false). *)
Definition event_template (base : option text) (own : option (option text)) : text :=
  match own with
  | None => base_template base
  | Some (Some t) => t
  | Some None => []
  end.
Section Formatter.
Context {V E : Type} (vnone : V) (fmt_named : ftoken -> V -> option text) (fmt_nested : ftoken -> list V -> option text)
        (data_of : E -> list (text * V)).
(** The loop of __init__, 171-177: one formatter per kind of event; None if the constructor
    raises.  [kw] are the keyword arguments (unknown ones are ignored), [fm] the fields
    including the extra ones. *)
Fixpoint make_formatters (fm : list (text * sfield V E)) (q : quoter_fn) (d : defaulter_fn) (base : option text)
    (kw : list (string * option text)) (events : list string) : option (list (string * list citem)) :=
  match events with
  | [] => Some []
  | e :: events' =>
    match make_formatter fm q d (event_template base (dget String.eqb e kw)) with
    | None => None
    | Some cs => match make_formatters fm q d base kw events' with None => None | Some fs => Some ((e, cs) :: fs) end
    end
  end.
(** SensibleFormatter.__init__, 165-178 *)
Definition sensible_formatter (fm : list (text * sfield V E)) (q : quoter_fn) (d : defaulter_fn) (base : option text)
    (kw : list (string * option text)) : option (list (string * list citem)) := make_formatters fm q d base kw EVENTS.
(** on_begin, on_warn, on_end, on_comment, 180-190: None if it raises; there is no on_exception. *)
Definition formatter_on (fm : list (text * sfield V E)) (f : list (string * list citem)) (kind : string) (ev : E) : option text :=
  if existsb (String.eqb kind) ["begin"; "warn"; "end"; "comment"]%string
  then match dget String.eqb kind f with
       | Some cs => render vnone fmt_named fmt_nested data_of fm ev [] [] cs
       | None => None
       end
  else None.
End Formatter.
