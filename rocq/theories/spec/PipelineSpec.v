(** Vocabulary for C78. *)
From Verif Require Import model.PyBase model.Core model.Sensible model.Pipeline spec.CoreSpec.

(** The sink subscribes to events of this kind. *)
Definition subscribed (ap : appender) (k : kind) : Prop :=
  match k with
  | KBegin => In "begin" (ap_on ap) | KWarn => In "warn" (ap_on ap) | KEnd => In "end" (ap_on ap)
  | KComment => In "comment" (ap_on ap) | KExc => False
  end%string.
(** It writes the event. *)
Definition writes_it (ap : appender) (k : kind) (x : shown) : Prop :=
  subscribed ap k /\ forall f, In f (ap_filters ap) -> f k x = true.
(** The lines for a sequence of events: one for each event the sink writes, in order; [v] is
    how the events look. *)
Inductive log_lines (ap : appender) (v : event -> shown) : list (kind * event) -> list text -> Prop :=
| ll_nil : log_lines ap v [] []
| ll_written k e es ts : writes_it ap k (v e) -> log_lines ap v es ts ->
    log_lines ap v ((k, e) :: es) (ap_render ap k (v e) :: ts)
| ll_not k e es ts : ~ writes_it ap k (v e) -> log_lines ap v es ts ->
    log_lines ap v ((k, e) :: es) ts.

(** Filters and template use only what never changes about an event and its action: the
    event itself (kind, time, message, status, exception), and of the action its guid number,
    logger, level, name, reraise setting, parent and depth.  (Fields of the data map, the duration
    or the status of the action would not do.) *)
Definition unchanging (ap : appender) : Prop :=
  forall k e a b d, a_id a = a_id b -> a_log a = a_log b -> a_level a = a_level b -> a_name a = a_name b ->
  a_reraise a = a_reraise b -> a_parent a = a_parent b ->
  (forall f, In f (ap_filters ap) -> f k (e, Some a, d) = f k (e, Some b, d)) /\
  ap_render ap k (e, Some a, d) = ap_render ap k (e, Some b, d).

(** The sink with number [s] is this one. *)
Definition is_sink (cfg : config) (s : nat) (ap : appender) : Prop := forall k, cf_has cfg s k = true <-> subscribed ap k.
