(** Vocabulary for statistics over the lines of a program: C90. *)
From Verif Require Import model.PyBase model.Quantile model.Sinks spec.SinkSpec model.Core spec.ProgramSpec.
Open Scope nat_scope.

(** The end lines of the loggers on which sink [s] is registered. *)
Definition ended (w : world) (s : nat) (ls : list line) : list line :=
  filter (fun n => kind_eqb (n_kind n) KEnd && existsb (Nat.eqb s) (lg_sinks (w_logs w (n_log n)))) ls.

Definition same_logger (m n : line) : bool := Nat.eqb (n_log m) (n_log n).
Definition same_name (m n : line) : bool := same_logger m n && String.eqb (n_name m) (n_name n).
Definition same_status (m n : line) : bool :=
  same_name m n &&
  match n_status m, n_status n with
  | Some Success, Some Success | Some Failure, Some Failure | Some Exception_, Some Exception_ => true
  | _, _ => false
  end.
(** How an outcome is called in the reports. *)
Definition outcome_text (n : line) : string :=
  match n_status n with
  | Some Success => "success" | Some Failure => "failure" | Some Exception_ => "exception" | None => ""
  end.

(** Logger names identify loggers and are not '__all__'. *)
Definition proper_names (names : nat -> string) : Prop :=
  (forall l l', names l = names l' -> l = l') /\ forall l, names l <> "__all__".

(** The hook calls made by logger [l]. *)
Definition calls_of (l : nat) (t : list obs) : list obs :=
  filter (fun o => match o with ODeliver l' _ _ _ => Nat.eqb l' l | _ => false end) t.
