(** Vocabulary for a moving average used by several threads. *)
From Verif Require Import model.PyBase model.Ewma model.EwmaThreads spec.EwmaSpec.
Open Scope R_scope.

(** [u] is the sum of the values of different calls of add that have returned. *)
Definition sum_of_returned (started : list R) (log : list obs) (u : R) : Prop :=
  exists calls, NoDup calls /\ (forall i, In i calls -> In (Added i) log) /\ u = total (map (fun i => nth i started 0) calls).
(** Every reading of the clock is later than the one before; the first is later than [last]. *)
Fixpoint rising (last : R) (evs : list ev) : Prop :=
  match evs with
  | [] => True
  | EvRead _ now :: evs' | EvClock _ now :: evs' => last < now /\ rising now evs'
  | _ :: evs' => rising last evs'
  end.
(** Only thread [t] calls get_rates. *)
Definition only_reader (t : nat) (evs : list ev) : Prop := forall t' now, In (EvRead t' now) evs -> t' = t.
(** No negative value is added. *)
Definition nonnegative (evs : list ev) : Prop := forall t v, In (EvAdd t v) evs -> 0 <= v.
(** The rates are all there and between 0 and [b]. *)
Definition rates_within (b : R) (r : list (R * option R)) : Prop :=
  Forall (fun e => exists x, snd e = Some x /\ 0 <= x <= b) r.
(** What the updates counted for the k-th period. *)
Fixpoint counted (k : nat) (log : list obs) : R :=
  match log with
  | [] => 0
  | Sample _ k' _ u :: log' => (if Nat.eqb k' k then u else 0) + counted k log'
  | _ :: log' => counted k log'
  end.
(** Calls do not overlap: a call of add or get_rates begins only when no thread is in one. *)
Fixpoint apart (evs : list ev) (s : est) : Prop :=
  match evs with
  | [] => True
  | e :: evs' =>
    match e with EvAdd _ _ | EvRead _ _ => forall t, es_pc s t = Idle | _ => True end /\
    match estep e s with Some s' => apart evs' s' | None => True end
  end.
(** The steps of thread [t] alone, with the clock at [t2]. *)
Definition own_steps (t : nat) (t2 : R) (evs : list ev) : Prop := Forall (fun e => e = EvStep t \/ e = EvClock t t2) evs.
