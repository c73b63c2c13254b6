(** Vocabulary for the accumulator statements. *)
From Verif Require Import model.PyBase model.Accumulators.
From Coq Require Import Permutation.

Definition in_range (v : flt) (r : flt * flt) : bool := flt_le (fst r) v && flt_lt v (snd r).
Definition sum (l : list nat) : nat := fold_right plus 0 l.

Fixpoint ascending (l : list Z) : Prop :=
  match l with
  | [] => True
  | x :: l' => (forall y, In y l' -> (x <= y)%Z) /\ ascending l'
  end.
Fixpoint strictly_ascending (l : list Z) : Prop :=
  match l with
  | [] => True
  | x :: l' => (forall y, In y l' -> (x < y)%Z) /\ strictly_ascending l'
  end.

(** [l] is the ascending list of the [n] largest members of [vs]. *)
Definition largest (n : nat) (vs l : list Z) : Prop :=
  ascending l /\ length l = Nat.min n (length vs) /\
  exists rest, Permutation vs (l ++ rest) /\ forall x y, In x rest -> In y l -> (x <= y)%Z.
Definition smallest (n : nat) (vs l : list Z) : Prop :=
  ascending l /\ length l = Nat.min n (length vs) /\
  exists rest, Permutation vs (l ++ rest) /\ forall x y, In x rest -> In y l -> (y <= x)%Z.
Definition is_max (vs : list Z) (m : Z) : Prop := In m vs /\ forall v, In v vs -> (v <= m)%Z.
Definition is_min (vs : list Z) (m : Z) : Prop := In m vs /\ forall v, In v vs -> (m <= v)%Z.
(** Some of the added values, with multiplicity. *)
Definition drawn_from (l vs : list Z) : Prop := exists rest, Permutation vs (l ++ rest).
