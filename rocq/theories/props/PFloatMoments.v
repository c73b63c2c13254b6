(** C88: moments and moving averages in floating point arithmetic. *)
From Coq Require Import QArith Qabs Lqa Lia Rdefinitions.
From Verif Require Import model.PyBase model.Bisect model.Levels model.Quantile model.FloatStats model.FloatMoments
  spec.QuantileSpec spec.FloatSpec spec.FloatEwmaSpec proof.QuantileProofs proof.FloatProofs proof.FloatEwma proof.FloatMean proof.FloatExact.
From Verif Require model.Moments.
Open Scope Q_scope.

(** Without rounding the model is the one of C27 and C28. *)
Theorem C88_exact_arithmetic : forall vs,
  let s := fm_adds (fun x => x) vs in
  Moments.mo_adds (map Q2R vs) =
    Moments.mkMoments (Z.to_nat (fm_count s)) (option_map Q2R (fm_min s)) (option_map Q2R (fm_max s))
      (Q2R (fm_mean s)) (Q2R (fm_m2 s)) (Q2R (fm_m3 s)) (Q2R (fm_m4 s)).
Proof. exact exact_moments. Qed.
Print Assumptions C88_exact_arithmetic.

(** The mean of floats stays between the smallest and the largest of them, however rounding
    errors accumulate. *)
Theorem C88_mean_between : forall rnd vs, to_nearest rnd -> Forall double vs -> (Z.of_nat (length vs) <= 2 ^ 53)%Z ->
  let s := fm_adds rnd vs in
  fm_count s = Z.of_nat (length vs) /\ least_of vs (fm_min s) /\ greatest_of vs (fm_max s) /\ double (fm_mean s) /\
  forall lo hi, fm_min s = Some lo -> fm_max s = Some hi -> lo <= fm_mean s <= hi.
Proof.
  intros rnd vs HR F L s. destruct (fm_adds_ok rnd HR vs F L) as (H1 & H2 & H3 & H4 & _ & _ & _ & H8). fold s in H1, H2, H3, H4, H8.
  split; [auto|]. split; [auto|]. split; [auto|]. split; [auto|]. intros lo hi E1 E2. rewrite E1 in H2. rewrite E2 in H3. destruct H2 as [L1 L2], H3 as [G1 G2].
  apply H8; [intros ->; contradiction|]. intros v Hv. split; auto.
Qed.
Print Assumptions C88_mean_between.
(** The error of the mean of n values grows with n, not faster. *)
Theorem C88_mean_error : forall rnd vs m, to_nearest rnd -> Forall double vs -> vs <> [] -> (Z.of_nat (length vs) <= 2 ^ 53)%Z ->
  (forall v, In v vs -> Qabs v <= m) ->
  let n := inject_Z (Z.of_nat (length vs)) in
  Qabs (fm_mean (fm_adds rnd vs) - qsum vs / n) <= (n / 2 + 6) * (2 # 1) ^ (-53) * m + 3 * n * (2 # 1) ^ (-1075).
Proof.
  intros rnd vs m HR F Hne L B n. pose proof (mean_error rnd HR vs m F L B) as H. cbv zeta in H. fold n in H.
  assert (N1 : 1 <= n). { change 1 with (inject_Z 1). unfold n. rewrite <- Zle_Qle. destruct vs; [congruence|]. cbn [length]. lia. }
  set (x := fm_mean _) in *. assert (E : n * x - qsum vs == n * (x - qsum vs / n)) by (field; lra). rewrite E, Qabs_Qmult, (Qabs_pos n) in H by lra.
  apply Qmult_lt_0_le_reg_r with n; [lra|]. rewrite !(Qmult_comm _ n). apply Qle_trans with (1 := H). apply Qle_lteq. right. ring.
Qed.
Print Assumptions C88_mean_error.
(** The variance of floats is never negative, so that the standard deviation exists. *)
Theorem C88_variance : forall rnd vs, to_nearest rnd -> Forall double vs -> (Z.of_nat (length vs) <= 2 ^ 53)%Z ->
  0 <= fm_variance rnd (fm_adds rnd vs).
Proof.
  intros rnd vs HR F L. destruct (fm_adds_ok rnd HR vs F L) as (H1 & _ & _ & _ & _ & H6 & _ & _). set (s := fm_adds rnd vs) in *.
  destruct vs as [|v vs].
  { unfold s, fm_variance, fdiv_or_zero, fdiv, qdiv. destruct (Qeq_bool _ 0); cbn [rbind]; [lra|].
    rewrite (rnd_comp rnd HR _ 0); [rewrite (rnd_zero rnd HR); lra|]. cbn. unfold Qdiv. ring. }
  cbn [length] in *.
  unfold fm_variance, fdiv_or_zero, fdiv, qdiv. destruct (Qeq_bool _ 0) eqn:E; cbn [rbind]; [lra|].
  apply (rnd_ge rnd HR); [apply double_zero|]. assert (N : of_int rnd (fm_count s - 1) == inject_Z (fm_count s - 1)) by (apply of_int_eq; auto; lia).
  assert (P : ~ inject_Z (fm_count s - 1) == 0) by (rewrite <- N; intros X; apply Qeq_bool_iff in X; congruence).
  assert (P0 : 0 <= inject_Z (fm_count s - 1)) by (change 0 with (inject_Z 0); rewrite <- Zle_Qle; lia).
  apply Qle_shift_div_l; [rewrite N; apply Qnot_le_lt; intros G; apply P; lra|]. lra.
Qed.
Print Assumptions C88_variance.
(** Equal values have exactly this mean and zero variance, skewness and kurtosis. *)
Theorem C88_equal_values : forall rnd root three_halves v vs, to_nearest rnd -> double v -> vs <> [] -> (forall x, In x vs -> x == v) ->
  (Z.of_nat (length vs) <= 2 ^ 53)%Z ->
  let s := fm_adds rnd vs in
  fm_mean s == v /\ fm_variance rnd s == 0 /\ fm_skewness rnd root three_halves s == 0 /\ fm_kurtosis rnd s == 0.
Proof.
  intros rnd root th v vs HR D Hne H L s. destruct (constant_ok rnd HR v vs D H L) as (I1 & I2 & I3 & I4). fold s in I1, I2, I3, I4.
  assert (Z0 : rnd 0 == 0) by apply (rnd_zero rnd HR).
  assert (Z : forall a b, a == 0 -> fdiv_or_zero rnd a b == 0).
  { intros a b E. unfold fdiv_or_zero, fdiv, qdiv. destruct (Qeq_bool b 0); cbn [rbind]; [reflexivity|].
    rewrite (rnd_comp rnd HR (a / b) 0); [exact Z0|]. rewrite E. unfold Qdiv. ring. }
  split; [auto|]. split; [apply Z, I2|]. split; apply Z.
  - rewrite (rnd_comp rnd HR _ 0); [exact Z0|]. rewrite I3. ring.
  - rewrite (rnd_comp rnd HR _ 0); [exact Z0|]. rewrite I4. ring.
Qed.
Print Assumptions C88_equal_values.
Definition some_tenths : list Q := map rn64 [1#10; 2#10; 3#10; 7#10].
Example C88_moments_ex : Forall double some_tenths /\ some_tenths <> [] /\
  Qfloor (1000 * fm_mean (fm_adds rn64 some_tenths)) = 325%Z /\ Qfloor (10000 * fm_variance rn64 (fm_adds rn64 some_tenths)) = 691%Z.
Proof.
  split; [unfold some_tenths; apply Forall_forall; intros x Hx; apply in_map_iff in Hx as (y & <- & _); apply rn64_nearest|].
  split; [discriminate|]. split; vm_compute; reflexivity.
Qed.
(** Two laws of C28 do not survive rounding: the mean depends on the order of the values, and
    the kurtosis may be less than 1. *)
Theorem C88_order_refuted : exists vs ws, Permutation vs ws /\ Forall double vs /\
  fm_mean (fm_adds rn64 vs) < fm_mean (fm_adds rn64 ws).
Proof.
  exists (map rn64 [7#10; 1#10; 2#10]), (map rn64 [1#10; 2#10; 7#10]). split; [|split].
  - cbn [map]. eapply perm_trans; [apply perm_swap|]. apply perm_skip, perm_swap.
  - apply Forall_forall. intros x Hx. apply in_map_iff in Hx as (y & <- & _). apply rn64_nearest.
  - vm_compute. reflexivity.
Qed.
Print Assumptions C88_order_refuted.
Theorem C88_kurtosis_refuted : exists vs, Forall double vs /\
  0 < fm_variance rn64 (fm_adds rn64 vs) /\ fm_kurtosis rn64 (fm_adds rn64 vs) < 1.
Proof.
  exists (map rn64 [10; 10; 3#10; 3#10]). split; [apply Forall_forall; intros x Hx; apply in_map_iff in Hx as (y & <- & _); apply rn64_nearest|].
  split; vm_compute; reflexivity.
Qed.
Print Assumptions C88_kurtosis_refuted.

(** Moving averages of floats: reads succeed while the clock advances, and no rate is ever
    negative if no value added is. *)
Theorem C88_ewma_reads : forall rnd fexp periods interval start ops,
  to_nearest rnd -> (forall x, x <= 0 -> 0 <= fexp x <= 1) -> (forall p, In p periods -> 0 < p) ->
  double start -> fadvancing double start ops -> adds_nonneg ops ->
  exists s, fw_run rnd fexp (fw_new periods interval start) ops = Ok s /\
    Forall (fun m => 0 <= m) (measured rnd interval true 0 start ops) /\ map fst (fw_rates s) = periods /\
    (forall p r, In (p, Some r) (fw_rates s) -> 0 <= r /\ double r) /\
    (measured rnd interval true 0 start ops <> [] -> forall p, ~ In (p, None) (fw_rates s)).
Proof.
  intros rnd fexp periods interval start ops HR HE HP HS HA HN.
  destruct (run_sane rnd HR fexp HE ops (fw_new periods interval start)) as (s & ms & R1 & R2 & R3 & (R4 & _) & R5); auto.
  { split; [|split; [apply double_zero|split; [cbn; lra|exact HS]]]. cbn. intros p r Hp. apply in_map_iff in Hp as (q & E & Hq). injection E as <- <-. auto. }
  apply trace_measured in R1 as [R1 Em]. cbn [fw_interval fw_force fw_uncounted fw_last fw_new] in Em. rewrite <- Em.
  exists s. split; [auto|]. split; [auto|]. split; [rewrite R3; cbn; rewrite map_map; apply map_id|]. split.
  - intros p r Hp. destruct (R4 p _ Hp) as [_ [? ?]]. auto.
  - intros Hm p Hp. exact (R5 (or_introl Hm) p None Hp eq_refl).
Qed.
Print Assumptions C88_ewma_reads.
(** Each rate is between the smallest and the largest rate measured, up to a few rounding
    errors, which do not accumulate. *)
Theorem C88_ewma_between : forall rnd fexp periods interval start ops s lo hi,
  to_nearest rnd -> (forall x, x <= 0 -> 0 <= fexp x <= 1) -> (forall p, In p periods -> 0 < p) ->
  double start -> fadvancing double start ops -> adds_nonneg ops ->
  fw_run rnd fexp (fw_new periods interval start) ops = Ok s ->
  0 <= lo <= hi -> Forall (fun m => lo <= m <= hi) (measured rnd interval true 0 start ops) ->
  forall p r, In (p, Some r) (fw_rates s) ->
    lo - 2 * (2 # 1) ^ (-53) * hi - 3 * (2 # 1) ^ (-1075) <= r <= (1 + 3 * (2 # 1) ^ (-53)) * hi + 3 * (2 # 1) ^ (-1075).
Proof.
  intros rnd fexp periods interval start ops s lo hi HR HE HP HS HA HN E [L0 L1] F p r Hp.
  assert (W0 : forall ok, well ok (fw_new periods interval start)).
  { intros ok. split; [|split; [apply double_zero|split; [cbn; lra|exact HS]]]. cbn. intros q x Hq. apply in_map_iff in Hq as (y & X & Hy). injection X as <- <-. auto. }
  destruct (run_sane rnd HR fexp HE ops (fw_new periods interval start) (W0 _) HA HN) as (s1 & ms & R1 & _).
  pose proof (trace_measured _ _ _ _ _ _ R1) as [R2 Em]. cbn [fw_interval fw_force fw_uncounted fw_last fw_new] in Em. rewrite <- Em in F.
  rewrite E in R2. injection R2 as <-.
  destruct (run_between rnd HR fexp HE lo hi L0 L1 ops _ _ _ (W0 _) HA HN R1 F) as (W & _).
  destruct (W p _ Hp) as [_ (_ & _ & B)]. exact B.
Qed.
Print Assumptions C88_ewma_between.
(** Not exactly between: after an idle time so long that 1 - exp(-t/period) is 1. *)
Definition steep (x : Q) : Q := if Qle_bool x (-746) then 0 else 1.
Definition bursts : list fop := [FAdd (3 * 65536); FRead 65536 65536; FAdd ((2 ^ 53 + 6) * 65536); FRead 131072 131072].
Theorem C88_ewma_between_refuted : exists s r, fadvancing double 0 bursts /\ adds_nonneg bursts /\
  fw_run rn64 steep (fw_new [60] 5 0) bursts = Ok s /\ measured rn64 5 true 0 0 bursts = [3; 2 ^ 53 + 6] /\ In (60, Some r) (fw_rates s) /\ 2 ^ 53 + 6 < r.
Proof.
  eexists. eexists. split; [|split; [|split; [vm_compute; reflexivity|split; [vm_compute; reflexivity|split; [left; reflexivity|vm_compute; reflexivity]]]]].
  - cbn [fadvancing bursts]. repeat (split; [first [apply (double_int 65536); lia|apply (double_int 131072); lia|lra]|]). exact I.
  - intros v [E|[E|[E|[E|[]]]]]; try discriminate E; injection E as <-; vm_compute; discriminate.
Qed.
Print Assumptions C88_ewma_between_refuted.
Example C88_ewma_ex : (forall x, x <= 0 -> 0 <= steep x <= 1) /\ 
  let ops := [FAdd (1#10); FRead 1 1; FAdd 3; FRead 3 3; FRead 9 9] in measured rn64 5 true 0 0 ops = [rn64 (1#10); 3#8] /\
  exists s, fw_run rn64 steep (fw_new [60; 300] 5 0) ops = Ok s /\ length (fw_rates s) = 2%nat.
Proof.
  split; [intros x _; unfold steep; destruct (Qle_bool x (-746)); lra|]. split; [vm_compute; reflexivity|]. eexists. split; vm_compute; reflexivity.
Qed.
