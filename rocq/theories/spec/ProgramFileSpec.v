(** Log files of whole programs: C91. *)
From Verif Require Import model.PyBase model.Core model.Sensible model.Pipeline spec.PipelineSpec spec.ProgramSpec.

(** The line an event of an action makes. *)
Definition line_made (e : event) (a : action) : line :=
  Line (a_log a) (e_kind e) (e_act e) (a_name a) (a_level a) (a_parent a) (e_status e) (e_msg e) (e_exc e).
(** The sink's filters and template use only what is in the line, for the actions of [w]:
    the filters let the lines with [keep] through and the template shows [text_of]. *)
Definition line_based (ap : appender) (w : world) (keep : line -> bool) (text_of : line -> text) : Prop :=
  forall e a, nth_error (w_acts w) (e_act e) = Some a ->
  let x := (e, Some a, parent_depth w (e_act e)) in
  ((forall f, In f (ap_filters ap) -> f (e_kind e) x = true) <-> keep (line_made e a) = true) /\
  ap_render ap (e_kind e) x = text_of (line_made e a).
