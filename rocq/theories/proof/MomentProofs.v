From Coq Require Import Reals Lra Permutation.
From Verif Require Import model.PyBase model.Moments spec.MomentSpec.
Open Scope R_scope.

Definition csum (k : nat) (c : R) (vs : list R) : R := total (map (fun x => (x - c) ^ k) vs).
Lemma total_app a b : total (a ++ b) = total a + total b.
Proof. induction a; simpl; [lra|]. rewrite IHa. unfold total. lra. Qed.
Lemma csum_cons k c x vs : csum k c (x :: vs) = (x - c) ^ k + csum k c vs.
Proof. reflexivity. Qed.
Lemma csum_snoc k c x vs : csum k c (vs ++ [x]) = csum k c vs + (x - c) ^ k.
Proof. unfold csum. rewrite map_app, total_app. change (total (map (fun x0 => (x0 - c) ^ k) [x])) with ((x - c) ^ k + 0). ring. Qed.
Lemma csum_nil k c : csum k c [] = 0.
Proof. reflexivity. Qed.
Lemma size_cons x vs : size (x :: vs) = size vs + 1.
Proof. unfold size. simpl length. apply S_INR. Qed.

Lemma csum1 c vs : csum 1 c vs = total vs - size vs * c.
Proof.
  induction vs as [|x vs IH]; [unfold csum, size; simpl; lra|].
  rewrite csum_cons, IH, size_cons. change (total (x :: vs)) with (x + total vs). ring.
Qed.
Lemma csum2_shift c d vs : csum 2 (c + d) vs = csum 2 c vs - 2 * d * csum 1 c vs + size vs * d ^ 2.
Proof.
  induction vs as [|x vs IH]; [rewrite !csum_nil; unfold size; simpl; ring|].
  rewrite !csum_cons, IH, size_cons. ring.
Qed.
Lemma csum3_shift c d vs : csum 3 (c + d) vs = csum 3 c vs - 3 * d * csum 2 c vs + 3 * d ^ 2 * csum 1 c vs - size vs * d ^ 3.
Proof.
  induction vs as [|x vs IH]; [rewrite !csum_nil; unfold size; simpl; ring|].
  rewrite !csum_cons, IH, size_cons. ring.
Qed.
Lemma csum4_shift c d vs : csum 4 (c + d) vs =
  csum 4 c vs - 4 * d * csum 3 c vs + 6 * d ^ 2 * csum 2 c vs - 4 * d ^ 3 * csum 1 c vs + size vs * d ^ 4.
Proof.
  induction vs as [|x vs IH]; [rewrite !csum_nil; unfold size; simpl; ring|].
  rewrite !csum_cons, IH, size_cons. ring.
Qed.

Definition mo_inv (vs : list R) (s : moments) : Prop :=
  mo_count s = length vs /\ csum 1 (mo_mean s) vs = 0 /\ mo_m2 s = csum 2 (mo_mean s) vs /\
  mo_m3 s = csum 3 (mo_mean s) vs /\ mo_m4 s = csum 4 (mo_mean s) vs.

Lemma mo_add_fields s v : 
  let n := INR (S (mo_count s)) in
  let delta := v - mo_mean s in
  let delta_n := delta / n in
  let term := delta * delta_n * (n - 1) in
  mo_count (mo_add s v) = S (mo_count s) /\
  mo_mean (mo_add s v) = mo_mean s + delta_n /\
  mo_m2 (mo_add s v) = mo_m2 s + term /\
  mo_m3 (mo_add s v) = mo_m3 s + term * delta_n * (n - 2) - 3 * delta_n * mo_m2 s /\
  mo_m4 (mo_add s v) = mo_m4 s + term * delta_n ^ 2 * (n ^ 2 - 3 * n + 3) + 6 * delta_n ^ 2 * mo_m2 s - 4 * delta_n * mo_m3 s.
Proof.
  cbv zeta. unfold mo_add. destruct (if above_max v (mo_max s) then _ else _) as [mn mx].
  cbn [mo_count mo_mean mo_m2 mo_m3 mo_m4]. auto.
Qed.

Lemma mo_add_inv vs s v : mo_inv vs s -> mo_inv (vs ++ [v]) (mo_add s v).
Proof.
  intros (Hc & H1 & H2 & H3 & H4). destruct (mo_add_fields s v) as (F0 & F1 & F2 & F3 & F4).
  unfold mo_inv. rewrite F0, F1, F2, F3, F4. clear F0 F1 F2 F3 F4.
  rewrite !csum_snoc, csum2_shift, csum3_shift, csum4_shift.
  assert (Hn : INR (S (mo_count s)) = size vs + 1) by (rewrite S_INR, Hc; reflexivity). rewrite Hn.
  assert (Hpos : size vs + 1 <> 0) by (pose proof (pos_INR (length vs)); unfold size; lra).
  rewrite <- H2, <- H3, <- H4, H1. set (n := size vs) in *. set (mu := mo_mean s) in *.
  assert (H1' : csum 1 (mu + (v - mu) / (n + 1)) vs = - n * ((v - mu) / (n + 1))).
  { rewrite csum1 in H1. fold n in H1. rewrite csum1. fold n. assert (E : total vs = n * mu) by lra. rewrite E. ring. }
  rewrite H1'. split; [rewrite app_length; simpl; lia|].
  split; [field; auto|]. split; [field; auto|]. split; field; auto.
Qed.
Lemma mo_adds_inv vs : mo_inv vs (mo_adds vs).
Proof.
  induction vs as [|v vs IH] using rev_ind.
  - unfold mo_inv, mo_adds. simpl. rewrite !csum_nil. auto 10.
  - unfold mo_adds in *. rewrite fold_left_app. apply mo_add_inv; auto.
Qed.
Lemma size_pos vs : vs <> [] -> 0 < size vs.
Proof. destruct vs; [congruence|]. intros _. rewrite size_cons. pose proof (pos_INR (length vs)). unfold size. lra. Qed.
Lemma mean_unique vs c : vs <> [] -> csum 1 c vs = 0 -> c = mean vs.
Proof.
  intros Hne H. rewrite csum1 in H. unfold mean. pose proof (size_pos vs Hne).
  assert (E : total vs = size vs * c) by lra. rewrite E. field. lra.
Qed.

Theorem moments_exact vs : vs <> [] ->
  mo_count (mo_adds vs) = length vs /\ mo_mean (mo_adds vs) = mean vs /\
  mo_m2 (mo_adds vs) = central 2 vs /\ mo_m3 (mo_adds vs) = central 3 vs /\ mo_m4 (mo_adds vs) = central 4 vs.
Proof.
  intros Hne. destruct (mo_adds_inv vs) as (H0 & H1 & H2 & H3 & H4).
  pose proof (mean_unique vs _ Hne H1) as E. rewrite E in *. split; auto.
Qed.

Lemma csum2_nonneg c vs : 0 <= csum 2 c vs.
Proof.
  induction vs as [|x vs IH]; [rewrite csum_nil; lra|]. rewrite csum_cons. pose proof (pow2_ge_0 (x - c)). lra.
Qed.
Lemma csum2_zero c vs : csum 2 c vs = 0 -> forall x, In x vs -> x = c.
Proof.
  induction vs as [|y vs IH]; intros H x Hx; [destruct Hx|]. rewrite csum_cons in H.
  pose proof (pow2_ge_0 (y - c)). pose proof (csum2_nonneg c vs). destruct Hx as [<-|Hx]; [|apply IH; auto; lra].
  assert (E : (y - c) ^ 2 = 0) by lra. simpl in E. rewrite Rmult_1_r in E. apply Rmult_integral in E. lra.
Qed.
Lemma csum2_const c vs : (forall x, In x vs -> x = c) -> csum 2 c vs = 0.
Proof.
  induction vs as [|y vs IH]; intros H; [reflexivity|]. rewrite csum_cons, IH by (intros; apply H; right; auto).
  rewrite (H y) by (left; auto). ring.
Qed.
Lemma total_const c vs : (forall x, In x vs -> x = c) -> total vs = size vs * c.
Proof.
  induction vs as [|y vs IH]; intros H; [unfold size; simpl; lra|].
  rewrite size_cons. change (total (y :: vs)) with (y + total vs). rewrite IH by (intros; apply H; right; auto).
  rewrite (H y) by (left; auto). ring.
Qed.
Lemma central2_constant vs : vs <> [] -> (central 2 vs = 0 <-> constant vs).
Proof.
  intros Hne. split.
  - intros H x y Hx Hy. rewrite (csum2_zero (mean vs) vs H x Hx), (csum2_zero (mean vs) vs H y Hy). auto.
  - intros H. destruct vs as [|c vs]; [congruence|].
    assert (Hc : forall x, In x (c :: vs) -> x = c) by (intros x Hx; apply H; [auto | left; auto]).
    assert (E : mean (c :: vs) = c).
    { unfold mean. rewrite (total_const c); auto. pose proof (size_pos (c :: vs) Hne). field. lra. }
    unfold central. rewrite E. apply csum2_const; auto.
Qed.

Lemma variance_eq vs : (2 <= length vs)%nat -> mo_variance (mo_adds vs) = variance vs.
Proof.
  intros H. assert (Hne : vs <> []) by (intros ->; simpl in H; lia).
  destruct (moments_exact vs Hne) as (H0 & H1 & H2 & _). unfold mo_variance, variance. rewrite H0, H2. fold (size vs).
  unfold div_or_zero. destruct (Req_EM_T (size vs - 1) 0) as [E|]; auto.
  exfalso. apply le_INR in H. unfold size in E. simpl in H. lra.
Qed.
Lemma variance_one x : mo_variance (mo_adds [x]) = 0.
Proof.
  destruct (moments_exact [x] ltac:(discriminate)) as (H0 & _). unfold mo_variance. rewrite H0. unfold div_or_zero. simpl.
  destruct (Req_EM_T (1 - 1) 0); auto. lra.
Qed.
Lemma sqrt_pow3 x : 0 < x -> sqrt x ^ 3 = Rpower x (3 / 2).
Proof.
  intros H. rewrite <- Rpower_sqrt by auto. rewrite <- Rpower_pow by (apply exp_pos). rewrite Rpower_mult.
  f_equal. simpl. lra.
Qed.
Lemma skewness_eq vs : vs <> [] -> ~ constant vs -> mo_skewness (mo_adds vs) = skewness vs.
Proof.
  intros Hne Hc. destruct (moments_exact vs Hne) as (H0 & H1 & H2 & H3 & H4).
  unfold mo_skewness, skewness. rewrite H0, H2, H3. fold (size vs).
  assert (P2 : 0 < central 2 vs).
  { pose proof (csum2_nonneg (mean vs) vs) as P. change (0 <= central 2 vs) in P.
    destruct (Req_dec (central 2 vs) 0) as [E|E]; [exfalso; apply Hc, central2_constant; auto | lra]. }
  pose proof (size_pos vs Hne) as Pn. set (m2 := central 2 vs) in *. set (m3 := central 3 vs). set (n := size vs) in *.
  assert (Pq : 0 < m2 / n) by (apply Rdiv_lt_0_compat; auto).
  unfold py_pow. destruct (Req_EM_T n 0) as [E|_]; [lra|]. destruct (Req_EM_T m2 0) as [E|_]; [lra|].
  unfold div_or_zero. pose proof (exp_pos (3 / 2 * ln m2)) as Pm. fold (Rpower m2 (3 / 2)) in Pm.
  destruct (Req_EM_T (Rpower m2 (3 / 2)) 0) as [E|_]; [lra|].
  assert (Eq : sqrt (m2 / n) ^ 3 = sqrt m2 ^ 3 / sqrt n ^ 3).
  { rewrite sqrt_div_alt by auto. unfold Rdiv. rewrite Rpow_mult_distr, <- pow_inv. reflexivity. }
  rewrite Eq. rewrite sqrt_pow3 by auto. replace (1 / 2) with (/ 2) by lra. rewrite Rpower_sqrt by auto.
  pose proof (sqrt_lt_R0 n Pn) as Ps. assert (En : n = sqrt n * sqrt n) by (rewrite sqrt_sqrt; lra).
  set (q := sqrt n) in *. rewrite En. field. split; lra.
Qed.
Lemma skewness_constant vs : vs <> [] -> constant vs -> mo_skewness (mo_adds vs) = 0.
Proof.
  intros Hne Hc. destruct (moments_exact vs Hne) as (H0 & H1 & H2 & H3 & H4).
  unfold mo_skewness. rewrite H2, (proj2 (central2_constant vs Hne)) by auto.
  unfold py_pow at 2. destruct (Req_EM_T 0 0); [|lra]. unfold div_or_zero. destruct (Req_EM_T 0 0); lra.
Qed.
Lemma kurtosis_eq vs : vs <> [] -> ~ constant vs -> mo_kurtosis (mo_adds vs) = kurtosis vs.
Proof.
  intros Hne Hc. destruct (moments_exact vs Hne) as (H0 & H1 & H2 & H3 & H4).
  unfold mo_kurtosis, kurtosis. rewrite H0, H2, H4. fold (size vs).
  assert (P2 : central 2 vs <> 0) by (intros E; apply Hc, central2_constant; auto).
  pose proof (size_pos vs Hne) as Pn. unfold div_or_zero. destruct (Req_EM_T (central 2 vs ^ 2) 0) as [E|_].
  - exfalso. apply pow_nonzero in E; auto.
  - field. split; auto. lra.
Qed.
Lemma kurtosis_constant vs : vs <> [] -> constant vs -> mo_kurtosis (mo_adds vs) = 0.
Proof.
  intros Hne Hc. destruct (moments_exact vs Hne) as (H0 & H1 & H2 & H3 & H4).
  unfold mo_kurtosis. rewrite H2, (proj2 (central2_constant vs Hne)) by auto.
  unfold div_or_zero. destruct (Req_EM_T (0 ^ 2) 0); auto. exfalso. apply n. ring.
Qed.

(** ** min and max *)
Lemma minmax_inv vs : 
  (vs = [] /\ mo_min (mo_adds vs) = None /\ mo_max (mo_adds vs) = None) \/
  (exists lo hi, mo_min (mo_adds vs) = Some lo /\ mo_max (mo_adds vs) = Some hi /\ least vs lo /\ greatest vs hi).
Proof.
  induction vs as [|v vs IH] using rev_ind; [left; auto|]. right.
  pose proof (proj1 (mo_adds_inv vs)) as Hc.
  unfold mo_adds in *. rewrite fold_left_app. cbn [fold_left]. set (s := fold_left mo_add vs mo_new) in *.
  destruct IH as [(-> & E1 & E2)|(lo & hi & E1 & E2 & [L1 L2] & [G1 G2])].
  - exists v, v. unfold mo_add. rewrite E1, E2, Hc. simpl. split; auto. split; auto.
    split; (split; [left; auto | intros x [<-|[]]; lra]).
  - assert (Hc0 : Nat.eqb (mo_count s) 0 = false).
    { apply Nat.eqb_neq. rewrite Hc. destruct vs; [destruct L1 | discriminate]. }
    unfold mo_add. rewrite E1, E2, Hc0. unfold above_max, below_min.
    pose proof (L2 hi G1) as Hlh. 
    destruct (Rlt_dec hi v); [|destruct (Rlt_dec v lo)]; cbn [mo_min mo_max].
    + exists lo, v. split; auto. split; auto. split; split; try (apply in_or_app; simpl; tauto); intros x Hx;
      apply in_app_or in Hx; destruct Hx as [Hx|[<-|[]]]; try (specialize (L2 x Hx)); try (specialize (G2 x Hx)); lra.
    + exists v, hi. split; auto. split; auto. split; split; try (apply in_or_app; simpl; tauto); intros x Hx;
      apply in_app_or in Hx; destruct Hx as [Hx|[<-|[]]]; try (specialize (L2 x Hx)); try (specialize (G2 x Hx)); lra.
    + exists lo, hi. split; auto. split; auto. split; split; try (apply in_or_app; simpl; tauto); intros x Hx;
      apply in_app_or in Hx; destruct Hx as [Hx|[<-|[]]]; try (specialize (L2 x Hx)); try (specialize (G2 x Hx)); lra.
Qed.

(** ** permutations, shifts *)
Lemma total_perm a b : Permutation a b -> total a = total b.
Proof.
  induction 1; simpl; unfold total in *; simpl; auto; lra.
Qed.
Lemma mean_perm a b : Permutation a b -> mean a = mean b.
Proof. intros H. unfold mean, size. rewrite (total_perm a b H), (Permutation_length H). auto. Qed.
Lemma central_perm k a b : Permutation a b -> central k a = central k b.
Proof. intros H. unfold central. rewrite (mean_perm a b H). apply total_perm, Permutation_map, H. Qed.
Lemma least_unique vs a b : least vs a -> least vs b -> a = b.
Proof. intros [A1 A2] [B1 B2]. apply Rle_antisym; auto. Qed.
Lemma greatest_unique vs a b : greatest vs a -> greatest vs b -> a = b.
Proof. intros [A1 A2] [B1 B2]. apply Rle_antisym; auto. Qed.

Lemma moments_eq a b : mo_count a = mo_count b -> mo_min a = mo_min b -> mo_max a = mo_max b -> mo_mean a = mo_mean b ->
  mo_m2 a = mo_m2 b -> mo_m3 a = mo_m3 b -> mo_m4 a = mo_m4 b -> a = b.
Proof. destruct a, b; simpl; intros; subst; auto. Qed.
Theorem moments_perm a b : Permutation a b -> mo_adds a = mo_adds b.
Proof.
  intros H. destruct a as [|x a]; [apply Permutation_nil in H; subst; auto|].
  assert (Hb : b <> []) by (intros ->; apply Permutation_sym, Permutation_nil in H; discriminate).
  destruct (moments_exact (x :: a) ltac:(discriminate)) as (A0 & A1 & A2 & A3 & A4).
  destruct (moments_exact b Hb) as (B0 & B1 & B2 & B3 & B4).
  destruct (minmax_inv (x :: a)) as [(? & _)|(lo & hi & E1 & E2 & L & G)]; [discriminate|].
  destruct (minmax_inv b) as [(? & _)|(lo' & hi' & E1' & E2' & L' & G')]; [congruence|].
  assert (least b lo) by (destruct L as [L1 L2]; split; [eapply Permutation_in; eauto | intros y Hy; apply L2; eapply Permutation_in; [apply Permutation_sym; eauto|auto]]).
  assert (greatest b hi) by (destruct G as [G1 G2]; split; [eapply Permutation_in; eauto | intros y Hy; apply G2; eapply Permutation_in; [apply Permutation_sym; eauto|auto]]).
  apply moments_eq; try congruence.
  - rewrite A0, B0. apply Permutation_length; auto.
  - rewrite E1, E1'. f_equal. eapply least_unique; eauto.
  - rewrite E2, E2'. f_equal. eapply greatest_unique; eauto.
  - rewrite A1, B1. apply mean_perm; auto.
  - rewrite A2, B2. apply central_perm; auto.
  - rewrite A3, B3. apply central_perm; auto.
  - rewrite A4, B4. apply central_perm; auto.
Qed.

Lemma total_shift c vs : total (map (fun x => x + c) vs) = total vs + size vs * c.
Proof.
  induction vs as [|x vs IH]; [unfold size; simpl; lra|]. rewrite size_cons. simpl map.
  change (total ((x + c) :: map (fun x => x + c) vs)) with (x + c + total (map (fun x => x + c) vs)).
  change (total (x :: vs)) with (x + total vs). rewrite IH. ring.
Qed.
Lemma size_map f vs : size (map f vs) = size vs.
Proof. unfold size. rewrite map_length. auto. Qed.
Lemma mean_shift c vs : vs <> [] -> mean (map (fun x => x + c) vs) = mean vs + c.
Proof. intros H. unfold mean. rewrite total_shift, size_map. pose proof (size_pos vs H). field. lra. Qed.
Lemma central_shift c k vs : vs <> [] -> central k (map (fun x => x + c) vs) = central k vs.
Proof.
  intros H. unfold central. rewrite mean_shift, map_map by auto. f_equal. apply map_ext. intros x. f_equal. ring.
Qed.
Theorem moments_shift c vs : vs <> [] ->
  let s := mo_adds vs in let s' := mo_adds (map (fun x => x + c) vs) in
  mo_mean s' = mo_mean s + c /\ mo_variance s' = mo_variance s /\ mo_skewness s' = mo_skewness s /\ mo_kurtosis s' = mo_kurtosis s.
Proof.
  intros H. assert (H' : map (fun x => x + c) vs <> []) by (destruct vs; [congruence | discriminate]).
  destruct (moments_exact vs H) as (A0 & A1 & A2 & A3 & A4). destruct (moments_exact _ H') as (B0 & B1 & B2 & B3 & B4).
  cbv zeta. unfold mo_variance, mo_skewness, mo_kurtosis.
  rewrite A0, A1, A2, A3, A4, B0, B1, B2, B3, B4, mean_shift, !central_shift, map_length by auto. auto.
Qed.
Lemma variance_nonneg vs : 0 <= mo_variance (mo_adds vs).
Proof.
  unfold mo_variance, div_or_zero. destruct (Req_EM_T (INR (mo_count (mo_adds vs)) - 1) 0); [lra|].
  destruct (mo_adds_inv vs) as (H0 & H1 & H2 & _). rewrite H2, H0 in *. destruct vs as [|x vs].
  - rewrite csum_nil. simpl. lra.
  - apply Rmult_le_pos; [apply csum2_nonneg|]. simpl length in *. rewrite S_INR in *. pose proof (pos_INR (length vs)).
    apply Rlt_le, Rinv_0_lt_compat. lra.
Qed.
Lemma std_dev_spec vs : mo_std_dev (mo_adds vs) = sqrt (mo_variance (mo_adds vs)).
Proof.
  unfold mo_std_dev, py_pow. pose proof (variance_nonneg vs). destruct (Req_EM_T (mo_variance (mo_adds vs)) 0) as [E|E].
  - rewrite E, sqrt_0. auto.
  - replace (1 / 2) with (/ 2) by lra. apply Rpower_sqrt. lra.
Qed.
Lemma degenerate vs : vs <> [] -> constant vs ->
  mo_variance (mo_adds vs) = 0 /\ mo_skewness (mo_adds vs) = 0 /\ mo_kurtosis (mo_adds vs) = 0.
Proof.
  intros H Hc. split; [|split; [apply skewness_constant | apply kurtosis_constant]; auto].
  destruct (moments_exact vs H) as (H0 & H1 & H2 & _). unfold mo_variance, div_or_zero.
  destruct (Req_EM_T _ 0); auto. rewrite H2, (proj2 (central2_constant vs H) Hc). unfold Rdiv. ring.
Qed.
Lemma empty_moments : mo_mean (mo_adds []) = 0 /\ mo_variance (mo_adds []) = 0 /\
  mo_skewness (mo_adds []) = 0 /\ mo_kurtosis (mo_adds []) = 0 /\ mo_std_dev (mo_adds []) = 0.
Proof.
  assert (V : mo_variance (mo_adds []) = 0).
  { unfold mo_variance, div_or_zero. simpl. destruct (Req_EM_T (0 - 1) 0); auto. field. }
  split; [reflexivity|]. split; auto. split; [|split].
  - unfold mo_skewness, div_or_zero, py_pow. simpl. destruct (Req_EM_T 0 0); [|lra]. destruct (Req_EM_T 0 0); lra.
  - unfold mo_kurtosis, div_or_zero. simpl. destruct (Req_EM_T (0 * (0 * 1)) 0) as [|Hx]; auto. exfalso. apply Hx. ring.
  - unfold mo_std_dev, py_pow. rewrite V. destruct (Req_EM_T 0 0); lra.
Qed.
