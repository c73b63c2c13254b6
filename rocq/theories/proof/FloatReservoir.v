(** ReservoirAccumulator quantiles in floating point arithmetic. *)
From Coq Require Import Lqa.
From Verif Require Import model.PyBase model.Bisect model.Quantile model.FloatStats spec.QuantileSpec spec.FloatSpec
  proof.QuantileProofs proof.QuantileProofs2 proof.QuantileProofs3 proof.FloatProofs.
Open Scope nat_scope.

Section FR.
Variable rnd : Q -> Q.
Hypothesis HR : to_nearest rnd.
Definition nat_q (k : nat) : Q := inject_Z (Z.of_nat k).

Lemma fstate s q : fst (fr_get_quantile rnd s q) = fst (r_get_quantile s q).
Proof. unfold fr_get_quantile, r_get_quantile. destruct (negb _); reflexivity. Qed.
Lemma fshape s q : sorted_ok s -> r_data s <> [] -> in01 q -> (Z.of_nat (length (r_data s)) - 1 <= 2 ^ 53)%Z ->
  let x := rnd (q * inject_Z (Z.of_nat (length (r_data s)) - 1)) in
  exists v d k lo hi, snd (fr_get_quantile rnd s q) = Ok v /\ Permutation (r_data s) d /\ qasc d /\ nth_error d k = Some lo /\
    (0 <= x)%Q /\ (x <= inject_Z (Z.of_nat (length (r_data s)) - 1))%Q /\
    (((x == nat_q k)%Q /\ v = lo /\ hi = lo) \/
     ((nat_q k < x)%Q /\ (x < nat_q k + 1)%Q /\ nth_error d (S k) = Some hi /\
      (v == rnd (rnd (lo * rnd (nat_q k + 1 - x)) + rnd (hi * rnd (x - nat_q k))))%Q)).
Proof.
  intros Hs Hne [H0 H1] Hb x. unfold fr_get_quantile. rewrite (proj2 (qlt_true 0 q) H0), (proj2 (qlt_true q 1) H1). cbn [andb negb snd].
  destruct (r_sort_spec s Hs) as (S1 & S2 & _). set (d := r_data (r_sort s)) in *.
  pose proof (Permutation_length S2) as Hlen. rewrite <- Hlen. set (n := length (r_data s)) in *. fold x.
  assert (Hn : 0 < n) by (unfold n; destruct (r_data s); [congruence | simpl; lia]).
  assert (Hz : (0 <= inject_Z (Z.of_nat n - 1))%Q) by (change 0%Q with (inject_Z 0); rewrite <- Zle_Qle; lia).
  assert (Hx0 : (0 <= x)%Q) by (unfold x; apply rnd_ge; auto; [apply double_zero|nra]).
  assert (Hx1 : (x <= inject_Z (Z.of_nat n - 1))%Q) by (unfold x; apply rnd_le; auto; [apply double_int; lia|nra]).
  pose proof (Qfloor_le x) as F1. pose proof (Qlt_floor x) as F2.
  assert (Hf0 : (0 <= Qfloor x)%Z).
  { change 0%Z with (Qfloor 0). apply Qfloor_resp_le. auto. }
  assert (Hfn : (Qfloor x <= Z.of_nat n - 1)%Z).
  { rewrite <- (Qfloor_Z (Z.of_nat n - 1)). apply Qfloor_resp_le. auto. }
  destruct (nth_error d (Z.to_nat (Qfloor x))) as [lo|] eqn:Elo; [|apply nth_error_None in Elo; lia].
  rewrite (py_nth_nat d (Qfloor x) Hf0), Elo.
  assert (Ek : nat_q (Z.to_nat (Qfloor x)) = inject_Z (Qfloor x)) by (unfold nat_q; rewrite Z2Nat.id by auto; reflexivity).
  destruct (Z.eqb_spec (Qfloor x) (Qceiling x)) as [Hfc|Hfc].
  - apply floor_ceil_eq in Hfc. exists lo, d, (Z.to_nat (Qfloor x)), lo, lo. rewrite Ek. repeat (split; [auto; fail|]). left. auto.
  - assert (Hne' : ~ (x == inject_Z (Qfloor x))%Q).
    { intros E. apply Hfc. rewrite (Qceiling_comp _ _ E), Qceiling_Z. reflexivity. }
    apply floor_ceil_neq in Hfc. rewrite Hfc. rewrite py_nth_nat by lia.
    assert (Hlt : (Qfloor x < Z.of_nat n - 1)%Z).
    { destruct (Z.eq_dec (Qfloor x) (Z.of_nat n - 1)) as [E|]; [|lia]. exfalso.
      assert (Hc : (Qceiling x <= Z.of_nat n - 1)%Z) by (rewrite <- (Qceiling_Z (Z.of_nat n - 1)); apply Qceiling_resp_le; auto). lia. }
    replace (Z.to_nat (Qfloor x + 1)) with (S (Z.to_nat (Qfloor x))) by lia.
    destruct (nth_error d (S (Z.to_nat (Qfloor x)))) as [hi|] eqn:Ehi; [|apply nth_error_None in Ehi; lia].
    cbn [rbind]. eexists. exists d, (Z.to_nat (Qfloor x)), lo, hi. split; [reflexivity|]. rewrite Ek. repeat (split; [auto; fail|]). right.
    rewrite inject_Z_plus in F2. change (inject_Z 1) with 1%Q in F2.
    split; [apply Qnot_le_lt; intros G; apply Hne'; lra|]. split; [lra|]. split; auto.
    apply rnd_comp; auto. rewrite inject_Z_plus. change (inject_Z 1) with 1%Q. reflexivity.
Qed.

(** The errors of one interpolation. *)
Lemma abs_mult a x M e : (Qabs a <= M)%Q -> (Qabs x <= e)%Q -> (Qabs (a * x) <= M * e)%Q.
Proof. intros A B. rewrite Qabs_Qmult. apply Qmult_le_compat_nonneg; split; auto; apply Qabs_nonneg. Qed.
Lemma abs_sum x y a b : (Qabs x <= a)%Q -> (Qabs y <= b)%Q -> (Qabs (x + y) <= a + b)%Q.
Proof. intros A B. apply Qle_trans with (1 := Qabs_triangle x y). lra. Qed.
Lemma product_error a w M : (Qabs a <= M)%Q -> (0 <= w)%Q -> (w <= 1)%Q ->
  (Qabs (rnd (a * rnd w) - a * w) <= 2 * two ^ (-53) * M + (M + 1) * two ^ (-1075))%Q /\ (Qabs (rnd (a * rnd w)) <= M + (two ^ (-53) * M + two ^ (-1075)))%Q.
Proof.
  intros A W0 W1. pose proof (Qabs_nonneg a) as A0. pose proof (pw_pos (-53)) as U. pose proof (pw_pos (-1075)) as V.
  assert (R0 : (0 <= rnd w)%Q) by (apply rnd_ge; auto; apply double_zero).
  assert (R1 : (rnd w <= 1)%Q) by (apply rnd_le; auto; apply (double_int 1); lia).
  pose proof (rnd_error rnd HR w) as E1. rewrite (Qabs_pos w) in E1 by auto.
  assert (P : (Qabs (a * rnd w) <= M * 1)%Q) by (apply abs_mult; auto; rewrite Qabs_pos; auto).
  pose proof (rnd_error rnd HR (a * rnd w)) as E2.
  assert (P1 : (Qabs (a * (w - rnd w)) <= M * (two ^ (-53) * 1 + two ^ (-1075)))%Q) by (apply abs_mult; auto; nra).
  split.
  - assert (E : (rnd (a * rnd w) - a * w == - (a * rnd w - rnd (a * rnd w)) + - (a * (w - rnd w)))%Q) by ring. rewrite E.
    apply Qle_trans with ((two ^ (-53) * Qabs (a * rnd w) + two ^ (-1075)) + M * (two ^ (-53) * 1 + two ^ (-1075)))%Q.
    + apply abs_sum; rewrite Qabs_opp; auto.
    + nra.
  - assert (E : (rnd (a * rnd w) == a * rnd w + - (a * rnd w - rnd (a * rnd w)))%Q) by ring. rewrite E.
    apply Qle_trans with (M * 1 + (two ^ (-53) * Qabs (a * rnd w) + two ^ (-1075)))%Q.
    + apply abs_sum; rewrite ?Qabs_opp; auto.
    + nra.
Qed.
Lemma interpolation_error a b f M : (Qabs a <= M)%Q -> (Qabs b <= M)%Q -> (0 <= f)%Q -> (f <= 1)%Q ->
  (Qabs (rnd (rnd (a * rnd (1 - f)) + rnd (b * rnd f)) - (a + f * (b - a))) <= two ^ (-50) * M + two ^ (-1072))%Q.
Proof.
  intros A B F0 F1. destruct (product_error a (1 - f) M A) as [A1 A2]; try lra. destruct (product_error b f M B) as [B1 B2]; auto.
  set (p1 := rnd (a * rnd (1 - f))) in *. set (p2 := rnd (b * rnd f)) in *.
  pose proof (Qabs_nonneg a) as A0.
  assert (S : (Qabs (p1 + p2) <= 2 * M + 2 * (two ^ (-53) * M + two ^ (-1075)))%Q).
  { apply Qle_trans with (1 := Qabs_triangle p1 p2). lra. }
  pose proof (rnd_error rnd HR (p1 + p2)) as E3.
  assert (E : (rnd (p1 + p2) - (a + f * (b - a)) == - (p1 + p2 - rnd (p1 + p2)) + ((p1 - a * (1 - f)) + (p2 - b * f)))%Q) by ring. rewrite E.
  apply Qle_trans with ((two ^ (-53) * Qabs (p1 + p2) + two ^ (-1075)) + ((2 * two ^ (-53) * M + (M + 1) * two ^ (-1075)) + (2 * two ^ (-53) * M + (M + 1) * two ^ (-1075))))%Q.
  { apply abs_sum; [rewrite Qabs_opp; auto|apply abs_sum; auto]. }
  assert (U : (two ^ (-50) == 8 * two ^ (-53))%Q) by (change (-50)%Z with (-53 + 3)%Z; rewrite pw_plus; change (two ^ 3)%Q with 8%Q; ring).
  assert (V : (two ^ (-1072) == 8 * two ^ (-1075))%Q) by (change (-1072)%Z with (-1075 + 3)%Z; rewrite pw_plus; change (two ^ 3)%Q with 8%Q; ring).
  assert (T : (two ^ (-1075) <= (1 # 100) * two ^ (-53))%Q).
  { assert (X : (two ^ (-1075) == two ^ (-1022) * two ^ (-53))%Q) by (rewrite <- pw_plus; apply eq_q; reflexivity). rewrite X.
    apply Qmult_le_compat_r; [|apply Qlt_le_weak, pw_pos]. apply Qle_trans with (two ^ (-10))%Q; [apply pw_le; lia|]. discriminate. }
  assert (T3 : (two ^ (-53) <= 1 # 100)%Q) by discriminate.
  pose proof (pw_pos (-53)) as P1. pose proof (pw_pos (-1075)) as P2. rewrite U, V. clearbody p1 p2.
  set (u := (two ^ (-53))%Q) in *. set (t := (two ^ (-1075))%Q) in *. clearbody u t. clear E U V E3 A1 A2 B1 B2.
  assert (M0 : (0 <= M)%Q) by lra.
  assert (K1 : (u * Qabs (p1 + p2) <= u * (2 * M + 2 * (u * M + t)))%Q) by (rewrite !(Qmult_comm u); apply Qmult_le_compat_r; auto; lra).
  assert (K2 : (u * (u * M) <= (1 # 100) * (u * M))%Q) by (apply Qmult_le_compat_r; [lra|nra]).
  assert (K3 : (u * t <= (1 # 100) * t)%Q) by (apply Qmult_le_compat_r; lra).
  assert (K4 : (M * t <= M * ((1 # 100) * u))%Q) by (rewrite !(Qmult_comm M); apply Qmult_le_compat_r; lra).
  assert (K5 : (0 <= u * M)%Q) by (apply Qmult_le_0_compat; lra).
  lra.
Qed.
Lemma fquantile_error s q M : sorted_ok s -> r_data s <> [] -> in01 q -> (Z.of_nat (length (r_data s)) - 1 <= 2 ^ 53)%Z ->
  (forall x, In x (r_data s) -> Qabs x <= M)%Q ->
  exists v q' v', snd (fr_get_quantile rnd s q) = Ok v /\ linear_quantile (r_data s) q' v' /\
    (Qabs (q' - q) <= two ^ (-53) * q + two ^ (-1075))%Q /\ (Qabs (v - v') <= two ^ (-50) * M + two ^ (-1072))%Q.
Proof.
  intros Hs Hne Hq Hb HM. destruct (fshape s q Hs Hne Hq Hb) as (v & d & k & lo & hi & E & P & A & L & X0 & X1 & C).
  set (n1 := inject_Z (Z.of_nat (length (r_data s)) - 1)) in *. set (x := rnd (q * n1)) in *.
  assert (HMd : forall y, In y d -> (Qabs y <= M)%Q) by (intros y Hy; apply HM; eapply Permutation_in; [apply Permutation_sym; exact P|exact Hy]).
  pose proof (pw_pos (-50)) as U. pose proof (pw_pos (-1072)) as V. pose proof (pw_pos (-53)) as U3. pose proof (pw_pos (-1075)) as V3.
  assert (M0 : (0 <= M)%Q) by (apply Qle_trans with (Qabs lo); [apply Qabs_nonneg|apply HMd; eapply nth_error_In; eauto]).
  destruct Hq as [Q0 Q1].
  assert (Hlen : 0 < length (r_data s)) by (destruct (r_data s); [congruence|cbn; lia]).
  assert (Hq' : exists q', (q' * n1 == x)%Q /\ (Qabs (q' - q) <= two ^ (-53) * q + two ^ (-1075))%Q).
  { destruct (Z.eq_dec (Z.of_nat (length (r_data s)) - 1) 0) as [Z|Z].
    - exists q. unfold x. assert (Zn : (n1 == 0)%Q) by (unfold n1; rewrite Z; reflexivity). split.
      + assert (E0 : (q * n1 == 0)%Q) by (rewrite Zn; ring). rewrite (rnd_comp rnd HR _ 0 E0), (rnd_zero rnd HR). rewrite Zn. ring.
      + assert (E0 : (q - q == 0)%Q) by ring. rewrite E0. change (Qabs 0) with 0%Q. nra.
    - assert (N1 : (1 <= n1)%Q) by (unfold n1; change 1%Q with (inject_Z 1); rewrite <- Zle_Qle; lia).
      exists (x / n1)%Q. split; [field; lra|]. pose proof (rnd_error rnd HR (q * n1)) as R. fold x in R.
      rewrite (Qabs_pos (q * n1)) in R by nra.
      assert (E0 : (x / n1 - q == - (q * n1 - x) / n1)%Q) by (field; lra). rewrite E0. unfold Qdiv. rewrite Qabs_Qmult, Qabs_opp.
      rewrite (Qabs_pos (/ n1)) by (apply Qlt_le_weak, Qinv_lt_0_compat; lra).
      apply Qle_shift_div_r; [lra|]. nra. }
  destruct Hq' as (q' & Eq & Eb). destruct C as [(Ex & -> & ->)|(K0 & K1 & H & Ev)].
  - exists lo, q', lo. split; auto. split; [|split; auto].
    + destruct (nth_error d (S k)) as [hi|] eqn:Eh.
      * exists d, k, 0%Q, lo, hi. split; auto. split; auto. split; [fold n1; rewrite Eq, Ex; unfold nat_q; ring|]. split; [lra|]. split; [lra|]. split; auto. split; auto. ring.
      * exists d, k, 0%Q, lo, lo. split; auto. split; auto. split; [fold n1; rewrite Eq, Ex; unfold nat_q; ring|]. split; [lra|]. split; [lra|]. split; auto. split.
        -- right. split; auto. apply nth_error_None in Eh. assert (k < length d) by (apply nth_error_Some; congruence). lia.
        -- ring.
    + assert (E0 : (lo - lo == 0)%Q) by ring. rewrite E0. change (Qabs 0) with 0%Q. nra.
  - exists v, q', (lo + (x - nat_q k) * (hi - lo))%Q. split; auto. split; [|split; auto].
    + exists d, k, (x - nat_q k)%Q, lo, hi. split; auto. split; auto. split; [fold n1; rewrite Eq; unfold nat_q; ring|]. split; [lra|]. split; [lra|]. split; auto. split; auto. reflexivity.
    + rewrite Ev. assert (W : (rnd (lo * rnd (nat_q k + 1 - x)) == rnd (lo * rnd (1 - (x - nat_q k))))%Q).
      { apply rnd_comp; auto. apply Qmult_comp; [reflexivity|]. apply rnd_comp; auto. ring. }
      assert (W2 : (rnd (rnd (lo * rnd (nat_q k + 1 - x)) + rnd (hi * rnd (x - nat_q k))) == rnd (rnd (lo * rnd (1 - (x - nat_q k))) + rnd (hi * rnd (x - nat_q k))))%Q) by (apply rnd_comp; auto; rewrite W; reflexivity).
      rewrite W2. apply interpolation_error; try lra; apply HMd; eapply nth_error_In; eauto.
Qed.

(** The quartile points: everything but the last addition is exact. *)
Lemma quarter_pw i : (inject_Z i * (1 # 4) == inject_Z i * two ^ (-2))%Q. Proof. reflexivity. Qed.
Lemma quarter_double i : (Z.abs i < 2 ^ 53)%Z -> double (inject_Z i * (1 # 4)).
Proof. intros H. exists i, (-2)%Z. split; auto. split; [lia|]. apply quarter_pw. Qed.
Lemma single_quarter a i : single a -> (0 <= i <= 4)%Z -> double (a * (inject_Z i * (1 # 4))).
Proof.
  intros (m & e & A & B & C) Hi. exists (m * i)%Z, (e + -2)%Z. split; [|split; [lia|]].
  - rewrite Z.abs_mul. assert (2 ^ 24 * 4 < 2 ^ 53)%Z by reflexivity. nia.
  - rewrite C, quarter_pw, inject_Z_mult, pw_plus. ring.
Qed.
Lemma single_double a : single a -> double a.
Proof. intros (m & e & A & B & C). exists m, e. split; [assert (2 ^ 24 < 2 ^ 53)%Z by reflexivity; lia|]. split; auto. lia. Qed.
Lemma fquarter s q j : sorted_ok s -> r_data s <> [] -> (q == inject_Z j * (1 # 4))%Q -> (1 <= j <= 3)%Z ->
  (Z.of_nat (length (r_data s)) <= 2 ^ 50)%Z -> Forall single (r_data s) ->
  exists v v', snd (fr_get_quantile rnd s q) = Ok v /\ linear_quantile (r_data s) q v' /\ (v == rnd v')%Q.
Proof.
  intros Hs Hne Eq Hj Hn HS.
  assert (Hj1 : (1 <= inject_Z j)%Q) by (change 1%Q with (inject_Z 1); rewrite <- Zle_Qle; lia).
  assert (Hj3 : (inject_Z j <= 3)%Q) by (change 3%Q with (inject_Z 3); rewrite <- Zle_Qle; lia).
  assert (Hq : in01 q) by (split; rewrite Eq; lra).
  assert (T : (2 ^ 53 = 8 * 2 ^ 50)%Z) by reflexivity.
  assert (Hb : (Z.of_nat (length (r_data s)) - 1 <= 2 ^ 53)%Z) by lia.
  destruct (fshape s q Hs Hne Hq Hb) as (v & d & k & lo & hi & E & P & A & L & X0 & X1 & C).
  set (m := (Z.of_nat (length (r_data s)) - 1)%Z) in *.
  assert (Hm : (0 <= m < 2 ^ 50)%Z) by (assert (0 < length (r_data s)) by (destruct (r_data s); [congruence|cbn; lia]); unfold m; lia).
  assert (Ex : (q * inject_Z m == inject_Z (j * m) * (1 # 4))%Q) by (rewrite Eq, inject_Z_mult; ring).
  assert (Dx : double (q * inject_Z m)).
  { eapply is_float_comp; [symmetry; exact Ex|]. apply quarter_double. rewrite Z.abs_eq by nia. nia. }
  pose proof (rnd_id rnd HR _ Dx) as Rx. set (x := rnd (q * inject_Z m)) in *.
  assert (Sd : forall y, In y d -> single y).
  { intros y Hy. rewrite Forall_forall in HS. apply HS. eapply Permutation_in; [apply Permutation_sym; exact P|exact Hy]. }
  assert (Slo : single lo) by (apply Sd; eapply nth_error_In; eauto).
  destruct C as [(Ek & -> & ->)|(K0 & K1 & H & Ev)].
  - exists lo, lo. split; auto. split; [|symmetry; apply rnd_id; auto; apply single_double, Slo].
    destruct (nth_error d (S k)) as [hi|] eqn:Eh.
    + exists d, k, 0%Q, lo, hi. split; auto. split; auto. split; [fold m; rewrite <- Rx, Ek; unfold nat_q; ring|]. split; [lra|]. split; [lra|]. split; auto. split; auto. ring.
    + exists d, k, 0%Q, lo, lo. split; auto. split; auto. split; [fold m; rewrite <- Rx, Ek; unfold nat_q; ring|]. split; [lra|]. split; [lra|]. split; auto. split.
      * right. split; auto. apply nth_error_None in Eh. assert (k < length d) by (apply nth_error_Some; congruence). lia.
      * ring.
  - exists v, (lo + (x - nat_q k) * (hi - lo))%Q. split; auto. split.
    + exists d, k, (x - nat_q k)%Q, lo, hi. split; auto. split; auto. split; [fold m; rewrite <- Rx; unfold nat_q; ring|]. split; [lra|]. split; [lra|]. split; auto. split; auto. reflexivity.
    + assert (Shi : single hi) by (apply Sd; eapply nth_error_In; eauto).
      set (i := (j * m - 4 * Z.of_nat k)%Z).
      assert (Ei : (x - nat_q k == inject_Z i * (1 # 4))%Q).
      { rewrite Rx, Ex. unfold i, nat_q, Z.sub. rewrite inject_Z_plus, inject_Z_opp, (inject_Z_mult 4). change (inject_Z 4) with 4%Q. ring. }
      assert (Hi : (0 <= i <= 4)%Z).
      { assert (I0 : (0 <= inject_Z i)%Q) by lra. assert (I1 : (inject_Z i <= inject_Z 4)%Q) by (change (inject_Z 4) with 4%Q; lra).
        change 0%Q with (inject_Z 0) in I0. rewrite <- Zle_Qle in I0, I1. lia. }
      assert (E4 : (nat_q k + 1 - x == inject_Z (4 - i) * (1 # 4))%Q).
      { unfold Z.sub. rewrite inject_Z_plus, inject_Z_opp. change (inject_Z 4) with 4%Q. lra. }
      assert (W : forall y z, double y -> (z == y)%Q -> (rnd z == y)%Q) by (intros y z Dy Ey; rewrite (rnd_comp rnd HR _ _ Ey); apply rnd_id; auto).
      assert (B53 : (4 < 2 ^ 53)%Z) by reflexivity.
      assert (D1 : double (inject_Z i * (1 # 4))) by (apply quarter_double; lia).
      assert (D2 : double (inject_Z (4 - i) * (1 # 4))) by (apply quarter_double; lia).
      rewrite Ev. apply rnd_comp; auto.
      rewrite (W (lo * (inject_Z (4 - i) * (1 # 4)))%Q); [|apply single_quarter; auto; lia|rewrite (W _ _ D2 E4); reflexivity].
      rewrite (W (hi * (inject_Z i * (1 # 4)))%Q); [|apply single_quarter; auto; lia|rewrite (W _ _ D1 Ei); reflexivity].
      rewrite <- E4, <- Ei. ring.
Qed.
Lemma fsort_state s q : sorted_ok s -> exists s', fst (fr_get_quantile rnd s q) = s' /\ sorted_ok s' /\ Permutation (r_data s) (r_data s').
Proof.
  intros Hs. destruct (r_get_quantile_state s q Hs) as (J1 & J2 & _). rewrite fstate. eauto.
Qed.
Lemma fquarter_again s q j : sorted_ok s -> r_data s <> [] -> (q == inject_Z j * (1 # 4))%Q -> (1 <= j <= 3)%Z ->
  (Z.of_nat (length (r_data s)) <= 2 ^ 50)%Z -> Forall single (r_data s) ->
  exists v v' s', fr_get_quantile rnd s q = (s', Ok v) /\ linear_quantile (r_data s) q v' /\ (v == rnd v')%Q /\
    sorted_ok s' /\ r_data s' <> [] /\ Permutation (r_data s) (r_data s') /\ (Z.of_nat (length (r_data s')) <= 2 ^ 50)%Z /\ Forall single (r_data s').
Proof.
  intros Hs Hd Eq Hj Hn HS. destruct (fquarter s q j Hs Hd Eq Hj Hn HS) as (v & v' & E & Lv & R). destruct (fsort_state s q Hs) as (s' & Es & J1 & J2).
  exists v, v', s'. split; [rewrite <- Es, <- E; apply surjective_pairing|]. split; auto. split; auto. split; auto. split.
  - intros X. rewrite X in J2. apply Permutation_sym, Permutation_nil in J2. auto.
  - split; auto. rewrite <- (Permutation_length J2). split; auto. rewrite Forall_forall in *. intros y Hy. apply HS. eapply Permutation_in; [apply Permutation_sym; exact J2|exact Hy].
Qed.
Lemma fquartile_stats s : sorted_ok s -> r_data s <> [] -> (Z.of_nat (length (r_data s)) <= 2 ^ 50)%Z -> Forall single (r_data s) ->
  exists a b c a' b' c',
    linear_quantile (r_data s) (1#4) a' /\ linear_quantile (r_data s) (1#2) b' /\ linear_quantile (r_data s) (3#4) c' /\
    snd (quartiles (fr_get_quantile rnd) s) = Ok (a, b, c) /\ (a == rnd a')%Q /\ (b == rnd b')%Q /\ (c == rnd c')%Q /\
    (a <= b)%Q /\ (b <= c)%Q /\
    (exists lo hi, In lo (r_data s) /\ In hi (r_data s) /\ (lo <= a)%Q /\ (c <= hi)%Q) /\
    (exists i, snd (fiqr rnd (fr_get_quantile rnd) s) = Ok i /\ (i == rnd (c - a))%Q /\ (0 <= i)%Q).
Proof.
  intros Hs Hd Hn HS.
  destruct (fquarter_again s (1#4) 1 Hs Hd) as (a & a' & s1 & E1 & L1 & R1 & S1 & D1 & P1 & N1 & F1); auto; [reflexivity|lia|].
  destruct (fquarter_again s1 (1#2) 2 S1 D1) as (b & b' & s2 & E2 & L2 & R2 & S2 & D2 & P2 & N2 & F2); auto; [reflexivity|lia|].
  destruct (fquarter_again s2 (3#4) 3 S2 D2) as (c & c' & s3 & E3 & L3 & R3 & S3 & D3 & P3 & N3 & F3); auto; [reflexivity|lia|].
  assert (L2' : linear_quantile (r_data s) (1#2) b') by (eapply linear_perm; [apply Permutation_sym; exact P1 | auto]).
  assert (L3' : linear_quantile (r_data s) (3#4) c').
  { eapply linear_perm; [apply Permutation_sym; eapply Permutation_trans; [exact P1 | exact P2] | auto]. }
  assert (Hab : (a' <= b')%Q) by (eapply linear_monotone; [exact L1 | exact L2' | unfold Qle; simpl; lia]).
  assert (Hbc : (b' <= c')%Q) by (eapply linear_monotone; [exact L2' | exact L3' | unfold Qle; simpl; lia]).
  assert (Rab : (a <= b)%Q) by (rewrite R1, R2; apply rnd_mono; auto). assert (Rbc : (b <= c)%Q) by (rewrite R2, R3; apply rnd_mono; auto).
  exists a, b, c, a', b', c'. split; auto. split; auto. split; auto.
  assert (Eq : quartiles (fr_get_quantile rnd) s = (s3, Ok (a, b, c))) by (unfold quartiles; rewrite E1, E2, E3; reflexivity).
  split; [rewrite Eq; auto|]. repeat (split; [auto; fail|]). rewrite Forall_forall in HS. split.
  - destruct (linear_between _ _ _ L1) as (lo & x1 & k1 & I1 & _ & G1 & _). destruct (linear_between _ _ _ L3') as (x2 & hi & k2 & _ & I2 & _ & G2 & _).
    exists lo, hi. split; auto. split; auto. split; [rewrite R1; apply rnd_ge; auto; apply single_double, HS; auto|rewrite R3; apply rnd_le; auto; apply single_double, HS; auto].
  - rewrite <- Forall_forall in HS.
    destruct (fquarter_again s (3#4) 3 Hs Hd) as (c2 & c2' & t1 & G1 & M1 & U1 & T1 & H1 & V1 & O1 & W1); auto; [reflexivity|lia|].
    destruct (fquarter_again t1 (1#4) 1 T1 H1) as (a2 & a2' & t2 & G2 & M2 & U2 & _); auto; [reflexivity|lia|].
    assert (M2' : linear_quantile (r_data s) (1#4) a2') by (eapply linear_perm; [apply Permutation_sym; exact V1 | auto]).
    exists (rnd (c2 - a2)). split; [unfold fiqr; rewrite G1, G2; reflexivity|].
    assert (Hc : (c2' == c')%Q) by (apply Qle_antisym; eapply linear_monotone; eauto; apply Qle_refl).
    assert (Ha : (a2' == a')%Q) by (apply Qle_antisym; eapply linear_monotone; eauto; apply Qle_refl).
    assert (Ec : (c2 == c)%Q) by (rewrite U1, R3; apply rnd_comp; auto). assert (Ea : (a2 == a)%Q) by (rewrite U2, R1; apply rnd_comp; auto).
    split; [apply rnd_comp; auto; rewrite Ec, Ea; reflexivity|]. apply rnd_ge; auto; [apply double_zero|]. lra.
Qed.
End FR.

(** Everything in a reservoir has been stored. *)
Lemma run_stored store cap ops s : (forall x, single (store x)) -> r_run store (r_new cap) ops = Ok s -> Forall single (r_data s).
Proof.
  intros HS. assert (G : forall ops s s', sorted_ok s -> Forall single (r_data s) -> r_run store s ops = Ok s' -> Forall single (r_data s')).
  { clear - HS. induction ops as [|o ops IH]; intros s s' Hs HF H; [injection H as <-; auto|]. destruct o as [v d|q|].
    - cbn [r_run] in H. unfold r_add in H. destruct (below_cap (b_count (r_base s)) (r_cap s)).
      + cbn [rbind] in H. eapply IH; [| |exact H]; [intros X; discriminate X|]. cbn [r_data]. apply Forall_app. split; auto.
      + destruct (below_cap d (r_cap s)); [|eapply IH; [| |exact H]; auto]. destruct (d <? length (r_data s)) eqn:E; [|discriminate H].
        cbn [rbind] in H. eapply IH; [| |exact H]; [intros X; discriminate X|]. cbn [r_data].
        apply Nat.ltb_lt in E. destruct (replace_perm (r_data s) d (store v) E) as (y & P & _).
        rewrite Forall_forall in *. intros z Hz. assert (In z (store v :: r_data s)) as [<-|I]; auto.
        eapply Permutation_in; [apply Permutation_sym; exact P|apply in_or_app; auto].
    - cbn [r_run] in H. destruct (r_get_quantile_state s q Hs) as (J1 & J2 & _). eapply IH; [exact J1| |exact H].
      rewrite Forall_forall in *. intros z Hz. apply HF. eapply Permutation_in; [apply Permutation_sym; exact J2|exact Hz].
    - cbn [r_run] in H. destruct (r_iter_state s Hs) as (J1 & J2 & _). eapply IH; [exact J1| |exact H].
      rewrite Forall_forall in *. intros z Hz. apply HF. eapply Permutation_in; [apply Permutation_sym; exact J2|exact Hz]. }
  apply G; [intros _; exact I|constructor].
Qed.
