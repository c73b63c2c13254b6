(** Vocabulary for moments used by several threads. *)
From Coq Require Import Reals.
From Verif Require Import model.PyBase model.MomentThreads.
Open Scope nat_scope.

(** [c] is the number of some of the calls of add, each at most once. *)
Definition number_of_calls (started : list R) (c : nat) : Prop :=
  exists calls, NoDup calls /\ (forall i, In i calls -> i < length started) /\ length calls = c.
(** Calls do not overlap: one begins only when no thread is in one. *)
Fixpoint apart (evs : list ev) (s : mst) : Prop :=
  match evs with
  | [] => True
  | e :: evs' =>
    match e with EvStep _ => True | _ => forall t, ms_pc s t = Idle end /\
    match mstep e s with Some s' => apart evs' s' | None => True end
  end.
(** The steps of thread [t] in a schedule that begin no call. *)
Fixpoint steps_of (t : nat) (evs : list ev) : nat :=
  match evs with
  | [] => 0
  | EvStep t' :: evs' => (if Nat.eqb t' t then 1 else 0) + steps_of t evs'
  | _ :: evs' => steps_of t evs'
  end.
Definition begins_none (t : nat) (evs : list ev) : Prop := forall v, ~ In (EvAdd t v) evs /\ ~ In (EvVariance t) evs.
