(** Vocabulary for a RateAccumulator used by several threads. *)
From Verif Require Import model.PyBase model.Quantile model.RateThreads spec.QuantileSpec spec.SinkSpec.
Open Scope nat_scope.

(** The times retained when [m] of the times [l] have been appended. *)
Definition retained (size : option nat) (l : list Q) (m : nat) : list Q := most_recent size (firstn m l).
(** How many of the first [m] appended times are at or after [st]. *)
Definition since_start (st : Q) (l : list Q) (m : nat) : nat := count_if (fun x => Qle_bool st x) (firstn m l).
(** Only thread [w] calls add. *)
Definition one_adder (w : nat) (evs : list tev) : Prop := forall t v, In (EvAdd t v) evs -> t = w.
(** The values of the calls of add. *)
Definition added (evs : list tev) : list Q := flat_map (fun e => match e with EvAdd _ v => [v] | _ => [] end) evs.
(** The steps of thread [t] in a schedule that begin no call. *)
Fixpoint steps_of (t : nat) (evs : list tev) : nat :=
  match evs with
  | [] => 0
  | EvStep t' :: evs' => (if t' =? t then 1 else 0) + steps_of t evs'
  | _ :: evs' => steps_of t evs'
  end.
Definition begins_none (t : nat) (evs : list tev) : Prop := forall v st en, ~ In (EvAdd t v) evs /\ ~ In (EvRate t st en) evs /\ ~ In (EvNorm t) evs.
