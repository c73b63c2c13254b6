(** Batch definitions of the statistics. *)
From Coq Require Export Reals.
From Verif Require Import model.PyBase.
Open Scope R_scope.

Definition total (vs : list R) : R := fold_right Rplus 0 vs.
Definition size (vs : list R) : R := INR (length vs).
Definition mean (vs : list R) : R := total vs / size vs.
(** [central k vs] is the sum of the k-th powers of the deviations from the mean. *)
Definition central (k : nat) (vs : list R) : R := total (map (fun x => (x - mean vs) ^ k) vs).
(** Sample variance, and population skewness and kurtosis. *)
Definition variance (vs : list R) : R := central 2 vs / (size vs - 1).
Definition skewness (vs : list R) : R := (central 3 vs / size vs) / (sqrt (central 2 vs / size vs)) ^ 3.
Definition kurtosis (vs : list R) : R := (central 4 vs / size vs) / (central 2 vs / size vs) ^ 2.
(** All observations equal. *)
Definition constant (vs : list R) : Prop := forall x y, In x vs -> In y vs -> x = y.
Definition least (vs : list R) (m : R) : Prop := In m vs /\ forall x, In x vs -> m <= x.
Definition greatest (vs : list R) (m : R) : Prop := In m vs /\ forall x, In x vs -> x <= m.
