(** Floats as rationals: nearest rounding. *)
From Coq Require Import Lqa.
From Verif Require Import model.PyBase model.Quantile spec.FloatSpec.
Open Scope nat_scope.
Notation two := (2 # 1)%Q.

(** ** powers of two *)
Lemma eq_q (a b : Q) : a = b -> (a == b)%Q. Proof. intros ->. reflexivity. Qed.
Lemma two_nz : ~ (two == 0)%Q. Proof. discriminate. Qed.
Lemma pw_pos e : (0 < two ^ e)%Q.
Proof. apply Qpower_0_lt. reflexivity. Qed.
Lemma pw_nz e : ~ (two ^ e == 0)%Q.
Proof. pose proof (pw_pos e). lra. Qed.
Lemma pw_plus a b : (two ^ (a + b) == two ^ a * two ^ b)%Q.
Proof. apply Qpower_plus, two_nz. Qed.
Lemma pw_S a : (two ^ (a + 1) == 2 * two ^ a)%Q.
Proof. rewrite pw_plus. change (two ^ 1)%Q with 2%Q. ring. Qed.
Lemma pw_Z e : (0 <= e)%Z -> (two ^ e == inject_Z (2 ^ e))%Q.
Proof. intros H. change two with (inject_Z 2). symmetry. apply Zpower_Qpower, H. Qed.
Lemma pw_le a b : (a <= b)%Z -> (two ^ a <= two ^ b)%Q.
Proof.
  intros H. replace b with (a + (b - a))%Z by lia. rewrite pw_plus, (pw_Z (b - a)) by lia.
  assert (1 <= inject_Z (2 ^ (b - a)))%Q.
  { change 1%Q with (inject_Z 1). rewrite <- Zle_Qle. apply (Z.pow_le_mono_r 2 0 (b - a)); lia. }
  pose proof (pw_pos a). nra.
Qed.
Lemma pw_lt_inv a b : (two ^ a < two ^ b)%Q -> (a < b)%Z.
Proof. intros H. destruct (Z.lt_ge_cases a b) as [|G]; auto. apply pw_le in G. lra. Qed.

(** ** the exponent of a number *)
Lemma qabs_num x : (Qabs x == inject_Z (Z.abs (Qnum x)) / inject_Z (Zpos (Qden x)))%Q.
Proof. destruct x as [n d]. cbn [Qabs Qnum Qden]. unfold Qeq, Qdiv, Qmult, Qinv, inject_Z. cbn. lia. Qed.
Lemma exponent_ok x : ~ (x == 0)%Q -> (two ^ exponent x <= Qabs x)%Q /\ (Qabs x < two ^ (exponent x + 1))%Q.
Proof.
  intros H. unfold exponent. set (n := Z.abs (Qnum x)). set (d := Zpos (Qden x)).
  assert (Hn : (0 < n)%Z). { unfold n. destruct x as [a b]. unfold Qeq in H. cbn in *. lia. }
  assert (Hd : (0 < d)%Z) by reflexivity.
  pose proof (Z.log2_spec n Hn) as [N1 N2]. pose proof (Z.log2_spec d Hd) as [D1 D2].
  pose proof (Z.log2_nonneg n) as Ln. pose proof (Z.log2_nonneg d) as Ld.
  assert (E : (Qabs x * inject_Z d == inject_Z n)%Q).
  { rewrite qabs_num. fold n d. field. change 0%Q with (inject_Z 0). rewrite inject_Z_injective. lia. }
  assert (Q1 : (two ^ Z.log2 n <= inject_Z n)%Q) by (rewrite pw_Z by lia; rewrite <- Zle_Qle; auto).
  assert (Q2 : (inject_Z n < two ^ (Z.log2 n + 1))%Q) by (rewrite pw_Z by lia; rewrite <- Zlt_Qlt; auto).
  assert (Q3 : (two ^ Z.log2 d <= inject_Z d)%Q) by (rewrite pw_Z by lia; rewrite <- Zle_Qle; auto).
  assert (Q4 : (inject_Z d < two ^ (Z.log2 d + 1))%Q) by (rewrite pw_Z by lia; rewrite <- Zlt_Qlt; auto).
  set (e := (Z.log2 n - Z.log2 d)%Z).
  assert (En : (two ^ Z.log2 n == two ^ e * two ^ Z.log2 d)%Q) by (rewrite <- pw_plus; apply eq_q; f_equal; unfold e; lia).
  rewrite pw_S in Q2, Q4. pose proof (pw_pos e) as Pe. pose proof (pw_pos (Z.log2 d)) as Pd. pose proof (Qabs_nonneg x) as Px.
  destruct (Qle_bool (two ^ e) (Qabs x)) eqn:B.
  - apply Qle_bool_iff in B. split; auto. rewrite pw_S.
    apply Qnot_le_lt. intros G. assert (2 * two ^ e * inject_Z d <= Qabs x * inject_Z d)%Q by (apply Qmult_le_compat_r; lra).
    nra.
  - assert (B' : (Qabs x < two ^ e)%Q). { apply Qnot_le_lt. intros G. apply Qle_bool_iff in G. congruence. }
    replace (e - 1 + 1)%Z with e by lia. split; auto.
    assert (Ee : (two ^ e == 2 * two ^ (e - 1))%Q) by (rewrite <- pw_S; apply eq_q; f_equal; lia).
    apply Qnot_lt_le. intros G. pose proof (pw_pos (e - 1)).
    assert (Qabs x * inject_Z d < two ^ (e - 1) * (2 * two ^ Z.log2 d))%Q; [|nra].
    apply Qle_lt_trans with (Qabs x * (2 * two ^ Z.log2 d))%Q; [|apply Qmult_lt_compat_r; lra].
    rewrite !(Qmult_comm (Qabs x)). apply Qmult_le_compat_r; lra.
Qed.

(** ** nearest integers *)
Lemma half_even_near x : (Qabs (x - inject_Z (half_even x)) <= 1 # 2)%Q.
Proof.
  unfold half_even. pose proof (Qfloor_le x) as F1. pose proof (Qlt_floor x) as F2. rewrite inject_Z_plus in F2. change (inject_Z 1) with 1%Q in F2.
  assert (U : forall z, z = Qfloor x \/ z = (Qfloor x + 1)%Z -> (z = Qfloor x -> (x - inject_Z (Qfloor x) <= 1 # 2)%Q) ->
    (z = (Qfloor x + 1)%Z -> (1 # 2 <= x - inject_Z (Qfloor x))%Q) -> (Qabs (x - inject_Z z) <= 1 # 2)%Q).
  { intros z [->| ->] A B; apply Qabs_Qle_condition; [specialize (A eq_refl)|specialize (B eq_refl)]; rewrite ?inject_Z_plus; change (inject_Z 1) with 1%Q; split; lra. }
  destruct (qlt (x - inject_Z (Qfloor x)) (1 # 2)) eqn:E1.
  - apply U; auto; try lia. intros _. unfold qlt in E1. apply negb_true_iff in E1. apply Qlt_le_weak, Qnot_le_lt. intros G. apply Qle_bool_iff in G. congruence.
  - unfold qlt in E1. apply negb_false_iff, Qle_bool_iff in E1. destruct (qlt (1 # 2) (x - inject_Z (Qfloor x))) eqn:E2.
    + apply U; auto; try lia.
    + unfold qlt in E2. apply negb_false_iff, Qle_bool_iff in E2. destruct (Z.even (Qfloor x)); apply U; auto; try lia.
Qed.
Lemma half_even_nearest x z : (Qabs (x - inject_Z (half_even x)) <= Qabs (x - inject_Z z))%Q.
Proof.
  pose proof (half_even_near x) as H. destruct (Z.eq_dec z (half_even x)) as [->|N]; [lra|].
  apply Qabs_Qle_condition in H.
  assert (D : (inject_Z z <= inject_Z (half_even x) - 1)%Q \/ (inject_Z (half_even x) + 1 <= inject_Z z)%Q).
  { change 1%Q with (inject_Z 1). unfold Qminus. rewrite <- inject_Z_opp, <- !inject_Z_plus, <- !Zle_Qle. lia. }
  apply Qle_trans with (1 # 2)%Q; [apply Qabs_Qle_condition; auto|].
  destruct D as [D|D]; [rewrite Qabs_pos by lra; lra | rewrite Qabs_neg by lra; lra].
Qed.
Lemma half_even_bound x b : (Qabs x <= inject_Z b)%Q -> (Z.abs (half_even x) <= b)%Z.
Proof.
  intros H. pose proof (half_even_near x) as N. apply Qabs_Qle_condition in N. apply Qabs_Qle_condition in H.
  assert (A : (inject_Z (half_even x) < inject_Z (b + 1))%Q) by (rewrite inject_Z_plus; change (inject_Z 1) with 1%Q; lra).
  assert (B : (inject_Z (- b - 1) < inject_Z (half_even x))%Q) by (unfold Z.sub; rewrite inject_Z_plus, inject_Z_opp; change (inject_Z (-(1))) with (-(1))%Q; lra).
  rewrite <- Zlt_Qlt in A, B. lia.
Qed.
Lemma half_even_comp x y : (x == y)%Q -> half_even x = half_even y.
Proof.
  intros H. unfold half_even. assert (F : Qfloor x = Qfloor y) by (apply Qfloor_comp, H). rewrite F.
  assert (Q1 : qlt (x - inject_Z (Qfloor y)) (1 # 2) = qlt (y - inject_Z (Qfloor y)) (1 # 2)) by (unfold qlt; rewrite H; reflexivity).
  assert (Q2 : qlt (1 # 2) (x - inject_Z (Qfloor y)) = qlt (1 # 2) (y - inject_Z (Qfloor y))) by (unfold qlt; rewrite H; reflexivity).
  rewrite Q1, Q2. reflexivity.
Qed.

(** ** round_even is a nearest rounding *)
Section Round.
Variables p emin : Z.
Hypothesis Hp : (1 <= p)%Z.
Lemma float_le m e x : (Z.abs m <= 2 ^ p)%Z -> (emin <= e)%Z -> (x == inject_Z m * two ^ e)%Q -> is_float p emin x.
Proof.
  intros Hm He Hx. destruct (Z.eq_dec (Z.abs m) (2 ^ p)) as [E|E]; [|exists m, e; split; [lia|auto]].
  assert (T : (2 ^ p = 2 * 2 ^ (p - 1))%Z) by (rewrite <- Z.pow_succ_r by lia; f_equal; lia).
  assert (P : (0 < 2 ^ (p - 1))%Z) by (apply Z.pow_pos_nonneg; lia).
  assert (D : exists m', m = (m' * 2)%Z) by (destruct (Z.abs_eq_or_opp m) as [A|A]; [exists (2 ^ (p - 1))%Z|exists (- 2 ^ (p - 1))%Z]; lia).
  destruct D as (m' & ->). exists m', (e + 1)%Z. split; [lia|]. split; [lia|].
  rewrite Hx, pw_S, inject_Z_mult. change (inject_Z 2) with 2%Q. ring.
Qed.
Definition unit_of (x : Q) : Z := Z.max emin (exponent x - (p - 1)).
Lemma scaled x e : (Qabs (x / two ^ e) * two ^ e == Qabs x)%Q.
Proof. unfold Qdiv. rewrite Qabs_Qmult, Qabs_Qinv, (Qabs_pos (two ^ e)) by (apply Qlt_le_weak, pw_pos). field. apply pw_nz. Qed.
Lemma scaled_diff x e z : (Qabs (x - inject_Z z * two ^ e) == Qabs (x / two ^ e - inject_Z z) * two ^ e)%Q.
Proof.
  rewrite <- (Qabs_pos (two ^ e)) at 3 by (apply Qlt_le_weak, pw_pos). rewrite <- Qabs_Qmult.
  apply Qabs_wd. field. apply pw_nz.
Qed.
Lemma round_def x : ~ (x == 0)%Q -> (round_even p emin x == inject_Z (half_even (x / two ^ unit_of x)) * two ^ unit_of x)%Q.
Proof.
  intros H. unfold round_even. destruct (Qeq_bool x 0) eqn:E; [apply Qeq_bool_iff in E; contradiction|].
  apply Qred_correct.
Qed.
Lemma round_zero x : (x == 0)%Q -> round_even p emin x = 0%Q.
Proof. intros H. unfold round_even. apply Qeq_bool_iff in H. rewrite H. reflexivity. Qed.
Lemma scaled_bound x : ~ (x == 0)%Q -> (Qabs (x / two ^ unit_of x) < inject_Z (2 ^ p))%Q.
Proof.
  intros H. destruct (exponent_ok x H) as [_ E].
  assert (L : (two ^ (exponent x + 1) <= two ^ (p + unit_of x))%Q) by (apply pw_le; unfold unit_of; lia).
  rewrite (pw_plus p), (pw_Z p) in L by lia. pose proof (scaled x (unit_of x)) as S. pose proof (pw_pos (unit_of x)).
  apply Qnot_le_lt. intros G. nra.
Qed.
Lemma round_float x : is_float p emin (round_even p emin x).
Proof.
  destruct (Qeq_dec x 0) as [Z|N].
  - rewrite (round_zero x Z). exists 0%Z, emin. split; [apply Z.pow_pos_nonneg; lia|]. split; [lia|]. ring.
  - eapply float_le; [|unfold unit_of; apply Z.le_max_l|apply (round_def x N)].
    apply half_even_bound. apply Qlt_le_weak, scaled_bound, N.
Qed.
Lemma round_error x : (Qabs (x - round_even p emin x) <= (1 # 2) * two ^ unit_of x)%Q.
Proof.
  destruct (Qeq_dec x 0) as [Z|N].
  - rewrite (round_zero x Z). assert (E : (x - 0 == 0)%Q) by lra. rewrite E. pose proof (pw_pos (unit_of x)). change (Qabs 0) with 0%Q. lra.
  - rewrite (round_def x N), scaled_diff. apply Qmult_le_compat_r; [apply half_even_near|apply Qlt_le_weak, pw_pos].
Qed.
Lemma round_nearest x y : is_float p emin y -> (Qabs (x - round_even p emin x) <= Qabs (x - y))%Q.
Proof.
  intros (m & e & Hm & He & Hy). destruct (Qeq_dec x 0) as [Z|N].
  { rewrite (round_zero x Z). assert (E : (x - 0 == 0)%Q) by lra. rewrite E. change (Qabs 0) with 0%Q. apply Qabs_nonneg. }
  rewrite (round_def x N), scaled_diff. set (u := unit_of x).
  assert (G : forall z, (Qabs (x / two ^ u - inject_Z (half_even (x / two ^ u))) * two ^ u <= Qabs (x - inject_Z z * two ^ u))%Q).
  { intros z. rewrite scaled_diff. apply Qmult_le_compat_r; [apply half_even_nearest|apply Qlt_le_weak, pw_pos]. }
  destruct (Z.le_gt_cases u e) as [L|L].
  - specialize (G (m * 2 ^ (e - u))%Z). assert (E : (inject_Z (m * 2 ^ (e - u)) * two ^ u == y)%Q).
    { rewrite Hy, inject_Z_mult, <- pw_Z by lia. rewrite <- Qmult_assoc, <- pw_plus. apply eq_q. f_equal. f_equal. lia. }
    rewrite E in G. exact G.
  - assert (Eu : u = (exponent x - (p - 1))%Z) by (unfold u, unit_of in *; lia).
    destruct (exponent_ok x N) as [X1 _].
    assert (B : (inject_Z (2 ^ (p - 1)) * two ^ u == two ^ exponent x)%Q) by (rewrite <- pw_Z, <- pw_plus by lia; apply eq_q; f_equal; lia).
    assert (Y : (Qabs y <= two ^ exponent x)%Q).
    { rewrite Hy, Qabs_Qmult, (Qabs_pos (two ^ e)) by (apply Qlt_le_weak, pw_pos).
      apply Qle_trans with (two ^ p * two ^ e)%Q.
      - apply Qmult_le_compat_r; [|apply Qlt_le_weak, pw_pos]. rewrite pw_Z by lia. change (Qabs (inject_Z m)) with (inject_Z (Z.abs m)). rewrite <- Zle_Qle. lia.
      - rewrite <- pw_plus. apply pw_le. lia. }
    apply Qabs_Qle_condition in Y. pose proof (pw_pos (exponent x)) as Pp.
    destruct (Qlt_le_dec x 0) as [S|S].
    + rewrite (Qabs_neg x) in X1 by lra. apply Qle_trans with (1 := G (- 2 ^ (p - 1))%Z). rewrite inject_Z_opp.
      assert (E : (x - - inject_Z (2 ^ (p - 1)) * two ^ u == x + two ^ exponent x)%Q) by (rewrite <- B; ring). rewrite E.
      rewrite !Qabs_neg by lra. lra.
    + rewrite (Qabs_pos x) in X1 by lra. apply Qle_trans with (1 := G (2 ^ (p - 1))%Z). rewrite B.
      rewrite !Qabs_pos by lra. lra.
Qed.
Lemma round_comp x y : (x == y)%Q -> (round_even p emin x == round_even p emin y)%Q.
Proof.
  intros H. destruct (Qeq_dec x 0) as [Z|N].
  - rewrite (round_zero x Z), (round_zero y) by (rewrite <- H; auto). reflexivity.
  - assert (N' : ~ (y == 0)%Q) by (rewrite <- H; auto). rewrite (round_def x N), (round_def y N').
    assert (E : exponent x = exponent y).
    { destruct (exponent_ok x N) as [X1 X2]. destruct (exponent_ok y N') as [Y1 Y2]. assert (Hab : (Qabs x == Qabs y)%Q) by (apply Qabs_wd, H).
      assert (A : (two ^ exponent x < two ^ (exponent y + 1))%Q) by lra. assert (B : (two ^ exponent y < two ^ (exponent x + 1))%Q) by lra.
      apply pw_lt_inv in A, B. lia. }
    unfold unit_of. rewrite E. assert (E2 : half_even (x / two ^ Z.max emin (exponent y - (p - 1))) = half_even (y / two ^ Z.max emin (exponent y - (p - 1)))) by (apply half_even_comp; rewrite H; reflexivity).
    rewrite E2. reflexivity.
Qed.
End Round.
Lemma rn64_nearest : to_nearest rn64.
Proof.
  split; [|split].
  - apply round_comp. 
  - intros x. apply round_float. lia.
  - intros x y. apply round_nearest. lia.
Qed.

(** ** what holds for every nearest rounding *)
Lemma is_float_comp p emin x y : (x == y)%Q -> is_float p emin x -> is_float p emin y.
Proof. intros H (m & e & A & B & C). exists m, e. rewrite <- H. auto. Qed.
Lemma double_zero : double 0.
Proof. exists 0%Z, 0%Z. split; [reflexivity|]. split; [lia|]. reflexivity. Qed.
Lemma double_opp x : double x -> double (- x).
Proof. intros (m & e & A & B & C). exists (- m)%Z, e. rewrite Z.abs_opp. split; auto. split; auto. rewrite C, inject_Z_opp. ring. Qed.
Lemma double_pw e : (-1074 <= e)%Z -> double (two ^ e).
Proof. intros H. exists 1%Z, e. split; [reflexivity|]. split; auto. ring. Qed.
Lemma double_int z : (Z.abs z <= 2 ^ 53)%Z -> double (inject_Z z).
Proof. intros H. apply (float_le 53 (-1074) ltac:(lia) z 0); auto; [lia|]. change (two ^ 0)%Q with 1%Q. ring. Qed.
(** Doubles are multiples of 2^-1074. *)
Lemma double_grid x : double x -> exists m, (x == inject_Z m * two ^ (-1074))%Q.
Proof.
  intros (m & e & A & B & C). exists (m * 2 ^ (e + 1074))%Z. rewrite C, inject_Z_mult, <- pw_Z by lia.
  rewrite <- Qmult_assoc, <- pw_plus. apply eq_q. f_equal. f_equal. lia.
Qed.
Section Nearest.
Variable rnd : Q -> Q.
Hypothesis HR : to_nearest rnd.
Lemma rnd_comp x y : (x == y)%Q -> (rnd x == rnd y)%Q. Proof. apply HR. Qed.
Lemma rnd_double x : double (rnd x). Proof. apply HR. Qed.
Lemma rnd_nearest x y : double y -> (Qabs (x - rnd x) <= Qabs (x - y))%Q. Proof. apply HR. Qed.
Lemma rnd_id x : double x -> (rnd x == x)%Q.
Proof.
  intros H. pose proof (rnd_nearest x x H) as N. assert (E : (x - x == 0)%Q) by ring. rewrite E in N. change (Qabs 0) with 0%Q in N.
  apply Qabs_Qle_condition in N. lra.
Qed.
Lemma rnd_zero : (rnd 0 == 0)%Q. Proof. apply rnd_id, double_zero. Qed.
Lemma rnd_mono x y : (x <= y)%Q -> (rnd x <= rnd y)%Q.
Proof.
  intros H. destruct (Qeq_dec x y) as [E|E]; [rewrite (rnd_comp x y E); lra|].
  apply Qnot_lt_le. intros G. pose proof (rnd_nearest x (rnd y) (rnd_double y)) as A. pose proof (rnd_nearest y (rnd x) (rnd_double x)) as B.
  revert A B. apply Qabs_case; apply Qabs_case; apply Qabs_case; apply Qabs_case; intros; lra.
Qed.
Lemma rnd_ge x lo : double lo -> (lo <= x)%Q -> (lo <= rnd x)%Q.
Proof. intros H L. rewrite <- (rnd_id lo H). apply rnd_mono, L. Qed.
Lemma rnd_le x hi : double hi -> (x <= hi)%Q -> (rnd x <= hi)%Q.
Proof. intros H L. rewrite <- (rnd_id hi H). apply rnd_mono, L. Qed.
Lemma rnd_error x : (Qabs (x - rnd x) <= two ^ (-53) * Qabs x + two ^ (-1075))%Q.
Proof.
  destruct (Qeq_dec x 0) as [Z|N].
  - assert (E : (x - rnd x == 0)%Q) by (rewrite (rnd_comp x 0 Z), rnd_zero; lra). rewrite E. change (Qabs 0) with 0%Q.
    pose proof (Qabs_nonneg x). pose proof (pw_pos (-53)). pose proof (pw_pos (-1075)). nra.
  - pose proof (rnd_nearest x _ (round_float 53 (-1074) ltac:(lia) x)) as A. pose proof (round_error 53 (-1074) x) as B.
    destruct (exponent_ok x N) as [X _]. unfold unit_of in B.
    apply Qle_trans with (1 := A). apply Qle_trans with (1 := B). pose proof (Qabs_nonneg x). pose proof (pw_pos (-53)) as P1. pose proof (pw_pos (-1075)) as P2.
    destruct (Z.le_gt_cases (exponent x - (53 - 1)) (-1074)) as [L|L].
    + rewrite Z.max_l by lia. assert (E : (two ^ (-1074) == 2 * two ^ (-1075))%Q) by (change (-1074)%Z with (-1075 + 1)%Z; apply pw_S). rewrite E. nra.
    + rewrite Z.max_r by lia. assert (E : (two ^ (exponent x - (53 - 1)) == 2 * (two ^ (-53) * two ^ exponent x))%Q).
      { rewrite <- pw_plus, <- pw_S. apply eq_q. f_equal. lia. }
      rewrite E. nra.
Qed.
(** Half the rounded difference of two doubles is at most the difference. *)
Lemma pow_above d : (0 < d)%Q -> exists k, (d <= two ^ k)%Q /\ (two ^ k <= 2 * d)%Q.
Proof.
  intros H. destruct (exponent_ok d) as [A B]; [lra|]. rewrite Qabs_pos in A, B by lra. exists (exponent d + 1)%Z. split; [lra|]. rewrite pw_S. lra.
Qed.
Lemma share_le x y D (n : Z) : double x -> double y -> (x <= y)%Q -> (2 <= n)%Z ->
  (forall k, (-1074 <= k)%Z -> (y - x <= two ^ k)%Q -> (D <= two ^ k)%Q) -> (0 <= D)%Q -> (y - x == 0 -> D == 0)%Q ->
  (0 <= rnd (D / inject_Z n) <= y - x)%Q.
Proof.
  intros Hx Hy L Hn HD D0 DZ. assert (N2 : (2 <= inject_Z n)%Q) by (change 2%Q with (inject_Z 2); rewrite <- Zle_Qle; auto).
  assert (F0 : (0 <= D / inject_Z n)%Q) by (apply Qle_shift_div_l; lra).
  assert (F1 : (D / inject_Z n <= D / 2)%Q).
  { apply Qle_shift_div_l; [lra|]. assert (E : (D / inject_Z n * inject_Z n == D)%Q) by (field; lra). nra. }
  split; [apply rnd_ge; [apply double_zero|auto]|].
  destruct (Qeq_dec (y - x) 0) as [Z|N].
  { rewrite Z. apply rnd_le; [apply double_zero|]. specialize (DZ Z). apply Qle_trans with (1 := F1). apply Qle_shift_div_r; lra. }
  assert (P : (0 < y - x)%Q) by (apply Qnot_le_lt; intros G; apply N; lra).
  destruct (pow_above (y - x) P) as (k & K1 & K2).
  destruct (double_grid x Hx) as (mx & Ex). destruct (double_grid y Hy) as (my & Ey).
  assert (Hg : (two ^ (-1074) <= y - x)%Q).
  { rewrite Ex, Ey. assert (M : (mx < my)%Z).
    { rewrite Zlt_Qlt. pose proof (pw_pos (-1074)). rewrite Ex, Ey in P. nra. }
    assert (M1 : (inject_Z mx + 1 <= inject_Z my)%Q) by (change 1%Q with (inject_Z 1); rewrite <- inject_Z_plus, <- Zle_Qle; lia).
    pose proof (pw_pos (-1074)). nra. }
  destruct (Z.le_gt_cases (-1073) k) as [Hk|Hk].
  - assert (DK : (D <= two ^ k)%Q) by (apply HD; auto; lia).
    assert (Ek : (two ^ k == 2 * two ^ (k - 1))%Q) by (rewrite <- pw_S; apply eq_q; f_equal; lia).
    apply Qle_trans with (two ^ (k - 1))%Q; [|lra].
    apply rnd_le; [apply double_pw; lia|]. apply Qle_trans with (1 := F1). apply Qle_shift_div_r; lra.
  - assert (Ek : (two ^ k <= two ^ (-1074))%Q) by (apply pw_le; lia).
    assert (DK : (D <= two ^ (-1074))%Q) by (apply HD; [lia|lra]).
    apply Qle_trans with (two ^ (-1074))%Q; [|auto]. apply rnd_le; [apply double_pw; lia|]. pose proof (pw_pos (-1074)). apply Qle_trans with (1 := F1). apply Qle_shift_div_r; lra.
Qed.
Lemma share_up x y (n : Z) : double x -> double y -> (x <= y)%Q -> (2 <= n)%Z -> (0 <= rnd (rnd (y - x) / inject_Z n) <= y - x)%Q.
Proof.
  intros Hx Hy L Hn. apply share_le; auto.
  - intros k Hk H. apply rnd_le; [apply double_pw, Hk|auto].
  - apply rnd_ge; [apply double_zero|lra].
  - intros E. rewrite (rnd_comp _ 0 E). apply rnd_zero.
Qed.
Lemma share_down x y (n : Z) : double x -> double y -> (x <= y)%Q -> (2 <= n)%Z -> (0 <= rnd (rnd (x - y) / inject_Z (- n)) <= y - x)%Q.
Proof.
  intros Hx Hy L Hn. assert (N2 : (2 <= inject_Z n)%Q) by (change 2%Q with (inject_Z 2); rewrite <- Zle_Qle; auto).
  assert (E : (rnd (x - y) / inject_Z (- n) == (- rnd (x - y)) / inject_Z n)%Q) by (rewrite inject_Z_opp; field; lra).
  rewrite (rnd_comp _ _ E). apply share_le; auto.
  - intros k Hk H. assert (- two ^ k <= rnd (x - y))%Q; [|lra]. apply rnd_ge; [apply double_opp, double_pw, Hk|lra].
  - assert (rnd (x - y) <= 0)%Q; [|lra]. apply rnd_le; [apply double_zero|lra].
  - intros Z. assert (E0 : (x - y == 0)%Q) by lra. rewrite (rnd_comp _ 0 E0), rnd_zero. reflexivity.
Qed.
End Nearest.
