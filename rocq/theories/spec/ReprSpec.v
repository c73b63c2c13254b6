(** Vocabulary for the statements about [repr]. *)
From Coq Require Import QArith.
From Verif Require Import model.PyBase model.Json model.Format model.Sinks model.Reprs spec.SinkSpec.
Open Scope nat_scope.

(** Texts joined by a separator. *)
Fixpoint joined (sep : text) (l : list text) : text :=
  match l with [] => [] | [t] => t | t :: l' => t ++ sep ++ joined sep l' end.
(** The sink prints as the text. *)
Definition prints (now : Q) (s : psink) (t : text) : Prop := sink_repr now s = SText t.
(** Nothing but an Exception comes out of printing the sink. *)
Definition uninterrupted (now : Q) (s : psink) : Prop := sink_repr now s <> SInterrupt.
(** The kept number of [n] events with a limit. *)
Definition kept (limit : option nat) (n : nat) : nat := match limit with Some m => Nat.min m n | None => n end.
(** The number of events of a kind. *)
Definition same_kind (a b : ev_kind) : bool :=
  match a, b with KBegin, KBegin | KWarn, KWarn | KEnd, KEnd | KComment, KComment => true | _, _ => false end.
Definition of_this_kind {A} (k : ev_kind) (evs : list (ev_kind * A)) : nat := count_if (fun p => same_kind k (fst p)) evs.
(** No clock reading of a history is before the sink was made. *)
Definition not_before {A} (created : Q) (evs : list (Q * A)) : Prop := forall t e, In (t, e) evs -> (created <= t)%Q.
