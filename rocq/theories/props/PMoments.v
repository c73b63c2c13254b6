(** C27-C28: MomentAccumulator in exact arithmetic. *)
From Coq Require Import Reals Lra Permutation.
From Verif Require Import model.PyBase model.Moments spec.MomentSpec proof.MomentProofs.
Open Scope R_scope.

Theorem C27_count_and_mean : forall vs,
  mo_count (mo_adds vs) = length vs /\ (vs <> [] -> mo_mean (mo_adds vs) = mean vs).
Proof.
  intros vs. split; [exact (proj1 (mo_adds_inv vs))|]. intros H. exact (proj1 (proj2 (moments_exact vs H))).
Qed.
Print Assumptions C27_count_and_mean.

Theorem C27_variance : forall vs, (2 <= length vs)%nat -> mo_variance (mo_adds vs) = variance vs.
Proof. exact variance_eq. Qed.
Print Assumptions C27_variance.
Theorem C27_std_dev : forall vs, mo_std_dev (mo_adds vs) = sqrt (mo_variance (mo_adds vs)).
Proof. exact std_dev_spec. Qed.
Print Assumptions C27_std_dev.

(** Skewness and kurtosis exist when the observations are not all equal. *)
Theorem C27_skewness : forall vs, ~ constant vs -> mo_skewness (mo_adds vs) = skewness vs.
Proof.
  intros vs H. assert (Hne : vs <> []) by (intros ->; apply H; intros x y []). exact (skewness_eq vs Hne H).
Qed.
Print Assumptions C27_skewness.
Theorem C27_kurtosis : forall vs, ~ constant vs -> mo_kurtosis (mo_adds vs) = kurtosis vs.
Proof.
  intros vs H. assert (Hne : vs <> []) by (intros ->; apply H; intros x y []). exact (kurtosis_eq vs Hne H).
Qed.
Print Assumptions C27_kurtosis.

(** Otherwise everything uncomputable is zero. *)
Theorem C27_degenerate : forall vs, vs <> [] -> constant vs ->
  mo_variance (mo_adds vs) = 0 /\ mo_skewness (mo_adds vs) = 0 /\ mo_kurtosis (mo_adds vs) = 0.
Proof. exact degenerate. Qed.
Print Assumptions C27_degenerate.
Example C27_degenerate_ex : constant [5; 5; 5] /\ [5; 5; 5] <> [].
Proof. split; [intros x y Hx Hy; simpl in *; lra | discriminate]. Qed.
Theorem C27_empty : mo_mean (mo_adds []) = 0 /\ mo_variance (mo_adds []) = 0 /\
  mo_skewness (mo_adds []) = 0 /\ mo_kurtosis (mo_adds []) = 0 /\ mo_std_dev (mo_adds []) = 0.
Proof. exact empty_moments. Qed.
Print Assumptions C27_empty.
Example C27_ex : ~ constant [1; 2; 3; 6] /\ mo_mean (mo_adds [1; 2; 3; 6]) = 3 /\ mo_m2 (mo_adds [1; 2; 3; 6]) = 14 /\ mo_m3 (mo_adds [1; 2; 3; 6]) = 18.
Proof.
  split; [intros H; specialize (H 1 2); simpl in H; lra|].
  destruct (moments_exact [1; 2; 3; 6] ltac:(discriminate)) as (_ & -> & -> & -> & _).
  unfold central, mean, total, size; simpl. repeat split; field_simplify; lra.
Qed.

(** C28. *)
Theorem C28_order_independent : forall vs ws, Permutation vs ws -> mo_adds vs = mo_adds ws.
Proof. exact moments_perm. Qed.
Print Assumptions C28_order_independent.
Example C28_order_independent_ex : Permutation [1; 2; 3] [3; 1; 2] /\ [1; 2; 3] <> [3; 1; 2].
Proof.
  split.
  - apply Permutation_trans with [1; 3; 2]; [apply perm_skip, perm_swap | apply perm_swap].
  - intros H. inversion H. lra.
Qed.

Theorem C28_shift : forall c vs, vs <> [] ->
  mo_mean (mo_adds (map (fun x => x + c) vs)) = mo_mean (mo_adds vs) + c /\
  mo_variance (mo_adds (map (fun x => x + c) vs)) = mo_variance (mo_adds vs) /\
  mo_skewness (mo_adds (map (fun x => x + c) vs)) = mo_skewness (mo_adds vs) /\
  mo_kurtosis (mo_adds (map (fun x => x + c) vs)) = mo_kurtosis (mo_adds vs).
Proof. exact moments_shift. Qed.
Print Assumptions C28_shift.
Theorem C28_variance_nonneg : forall vs, 0 <= mo_variance (mo_adds vs).
Proof. exact variance_nonneg. Qed.
Print Assumptions C28_variance_nonneg.

(** The tracked extremes are the least and greatest observations. *)
Theorem C28_min_max : forall vs, vs <> [] ->
  exists lo hi, mo_min (mo_adds vs) = Some lo /\ mo_max (mo_adds vs) = Some hi /\ least vs lo /\ greatest vs hi.
Proof. intros vs H. destruct (minmax_inv vs) as [[E _]|E]; [contradiction|exact E]. Qed.
Print Assumptions C28_min_max.
