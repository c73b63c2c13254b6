(** Vocabulary for a reservoir used by several threads. *)
From Coq Require Import Permutation Sorted.
From Verif Require Import model.PyBase model.ReservoirThreads.
Open Scope nat_scope.

(** The items come from different calls of add and have the values of these calls. *)
Definition traced (started : list Z) (l : list item) : Prop :=
  NoDup (map snd l) /\ forall v i, In (v, i) l -> nth_error started i = Some v.
(** [c] is the number of some of the calls of add, each at most once. *)
Definition number_of_calls (started : list Z) (c : nat) : Prop :=
  exists calls, NoDup calls /\ (forall i, In i calls -> i < length started) /\ length calls = c.
(** No thread asks for quantiles; only thread [t] does. *)
Definition no_reader (evs : list ev) : Prop := forall t q, ~ In (EvRead t q) evs.
Definition only_reader (t : nat) (evs : list ev) : Prop := forall t' q, In (EvRead t' q) evs -> t' = t.
(** Calls do not overlap: one begins only when no thread is in one. *)
Fixpoint apart (cap : option nat) (evs : list ev) (s : rst) : Prop :=
  match evs with
  | [] => True
  | e :: evs' =>
    match e with EvAdd _ _ | EvRead _ _ => forall t, rs_pc s t = Idle | _ => True end /\
    match rstep cap e s with Some s' => apart cap evs' s' | None => True end
  end.
(** No more than the cap. *)
Definition within (cap : option nat) (n : nat) : Prop := match cap with None => True | Some c => n <= c end.
(** The least and the greatest of a list; None if it is empty. *)
Definition least (l : list Z) (o : option Z) : Prop :=
  match o with None => l = [] | Some x => In x l /\ forall y, In y l -> (x <= y)%Z end.
Definition greatest (l : list Z) (o : option Z) : Prop :=
  match o with None => l = [] | Some x => In x l /\ forall y, In y l -> (y <= x)%Z end.
(** [x] is the k-th of [l] in order, counted from 0. *)
Definition kth_in_order (l : list Z) (k : Z) (x : Z) : Prop :=
  exists l', Permutation l l' /\ StronglySorted Z.le l' /\ (0 <= k)%Z /\ nth_error l' (Z.to_nat k) = Some x.
(** [lo] and [hi] are [q * (m - 1)] rounded down and up, for q = num/den. *)
Definition beside (q : Z * Z) (m : nat) (lo hi : Z) : Prop :=
  let '(num, den) := q in let x := (num * (Z.of_nat m - 1))%Z in
  (lo * den <= x < (lo + 1) * den /\ (hi - 1) * den < x <= hi * den)%Z.
(** The steps of thread [t] in a schedule that begin no call. *)
Fixpoint steps_of (t : nat) (evs : list ev) : nat :=
  match evs with
  | [] => 0
  | EvRand t' _ :: evs' | EvStep t' :: evs' => (if Nat.eqb t' t then 1 else 0) + steps_of t evs'
  | _ :: evs' => steps_of t evs'
  end.
Definition begins_none (t : nat) (evs : list ev) : Prop := forall v q, ~ In (EvAdd t v) evs /\ ~ In (EvRead t q) evs.
