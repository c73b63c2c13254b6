(** Vocabulary for C52-C54. *)
From Verif Require Import model.PyBase model.Levels model.Sensible spec.LevelSpec.
Open Scope nat_scope.

(** A level setting of a filter: absent, false (None, 0, ''), or a key. *)
Inductive setting := Absent | Off | At (k : lkey).
Definition true_key (k : lkey) : Prop := k <> KStr "" /\ k <> KNum 0.
Definition arg (s : setting) : option (option lkey) :=
  match s with Absent => None | Off => Some None | At k => Some (Some k) end.
Definition valid (s : setting) : Prop := match s with At k => true_key k | _ => True end.
(** The levels known to the process: built-in ones, then those registered. *)
Definition known (custom : list level) : list level := [MIN_LEVEL; MAX_LEVEL] ++ BUILTIN_LEVELS ++ custom.
(** What a key means: the level registered last under it, or DEBUG. *)
Definition means (custom : list level) (k : lkey) : level :=
  match last_registered k (known custom) with Some l => l | None => DEBUG end.
Definition base_threshold (custom : list level) (s : setting) : level :=
  match s with At k => means custom k | _ => means custom (KLev "_max") end.
Definition threshold (custom : list level) (base s : setting) : level :=
  match s with
  | At k => means custom k
  | Off => means custom (KLev "_max")
  | Absent => means custom (KLev (lv_name (base_threshold custom base)))
  end.
(** The process-wide registry after registering [custom]. *)
Definition registry_of (so : list level -> list level) (custom : list level) : registry :=
  register_all so custom (import_registry so).

Record settings := mkSettings { st_base : setting; st_begin : setting; st_warn : setting;
  st_success : setting; st_failure : setting; st_exception : setting }.
Definition all_valid (s : settings) : Prop :=
  valid (st_base s) /\ valid (st_begin s) /\ valid (st_warn s) /\ valid (st_success s) /\ valid (st_failure s) /\ valid (st_exception s).
Definition args_of (s : settings) (block : bool) (check : option (sevent -> bool)) (flag : option string) : filter_args :=
  mkFArgs (match st_base s with At k => Some k | _ => None end) (arg (st_begin s)) (arg (st_success s)) (arg (st_failure s))
    (arg (st_exception s)) (arg (st_warn s)) block check flag.
(** The setting that applies to an event. *)
Definition applies (s : settings) (ev : sevent) : option setting :=
  match sv_kind ev, sv_status ev with
  | KBegin, _ => Some (st_begin s)
  | KWarn, _ => Some (st_warn s)
  | KEnd, Some Success => Some (st_success s)
  | KEnd, Some Failure => Some (st_failure s)
  | KEnd, Some Exception_ => Some (st_exception s)
  | _, _ => None
  end.
(** The event is marked verbose: by the given check, else by the flag (default
    'verbose') being set in the action's data to something true. *)
Definition verbose (check : option (sevent -> bool)) (flag : option string) (ev : sevent) : Prop :=
  match check with
  | Some c => c ev = true
  | None => exists v, dget String.eqb (match flag with Some f => f | None => "verbose"%string end) (sv_data ev) = Some v /\ v <> 0%Z
  end.

(** An event is subscribed to / accepted by all filters. *)
Definition kind_name (k : kind) : string :=
  match k with KBegin => "begin" | KWarn => "warn" | KEnd => "end" | KExc => "exception" | KComment => "comment" end%string.

(** No application level takes the name of a built-in one. *)
Definition builtins_untouched (custom : list level) : Prop := forall l, In l custom -> ~ In (lv_name l) ["debug"; "info"; "critical"]%string.
(** How bad an outcome is; only begin, warn and end events have a grade. *)
Definition severity (o : kind * option status) : option nat :=
  match o with
  | (KBegin, _) | (KEnd, Some Success) => Some 0
  | (KWarn, _) | (KEnd, Some Failure) => Some 1
  | (KEnd, Some Exception_) => Some 2
  | _ => None
  end.
