(** Proofs about the moments of floats. *)
From Coq Require Import QArith Qabs Lqa Lia.
From Verif Require Import model.PyBase model.Bisect model.Levels model.Quantile model.FloatStats model.FloatMoments spec.QuantileSpec spec.FloatSpec
  proof.QuantileProofs proof.FloatProofs proof.FloatEwma.
Open Scope Q_scope.

Lemma opposite rnd : to_nearest rnd -> to_nearest (fun x => - rnd (- x)).
Proof.
  intros HR. split; [|split].
  - intros x y E. rewrite (rnd_comp rnd HR (- x) (- y)); [reflexivity|rewrite E; reflexivity].
  - intros x. apply double_opp, (rnd_double rnd HR).
  - intros x y Hy. pose proof (rnd_nearest rnd HR (- x) (- y) (double_opp y Hy)) as N.
    assert (E1 : x - - rnd (- x) == - (- x - rnd (- x))) by ring. assert (E2 : x - y == - (- x - - y)) by ring.
    rewrite E1, E2, !Qabs_opp. exact N.
Qed.

Section M.
Variable rnd : Q -> Q.
Hypothesis HR : to_nearest rnd.
Notation u := (two ^ (-53)).
Notation eta := (two ^ (-1075)).
Global Instance rnd_proper : Proper (Qeq ==> Qeq) rnd.
Proof. intros x y E. apply (rnd_comp rnd HR), E. Qed.

(** A step from [x] towards [y] stays between them, downwards too. *)
Lemma share_neg x y (n : Z) : double x -> double y -> x <= y -> (2 <= n)%Z -> - (y - x) <= rnd (rnd (x - y) / inject_Z n) <= 0.
Proof.
  intros Hx Hy L Hn. pose proof (share_up _ (opposite rnd HR) x y n Hx Hy L Hn) as H. cbv beta in H.
  assert (N : ~ inject_Z n == 0) by (change 0 with (inject_Z 0); rewrite inject_Z_injective; lia).
  assert (E : - (- rnd (- (y - x)) / inject_Z n) == rnd (x - y) / inject_Z n).
  { assert (E0 : - (y - x) == x - y) by ring. rewrite E0. field. auto. }
  rewrite E in H. lra.
Qed.
Lemma of_int_eq n : (0 <= n <= 2 ^ 53)%Z -> of_int rnd n == inject_Z n.
Proof. intros H. apply (rnd_id rnd HR), double_int. lia. Qed.

(** What an addition does to the mean and the second moment. *)
Definition delta (s : fmoments) (v : Q) : Q := rnd (v - fm_mean s).
Definition delta_n (s : fmoments) (v : Q) : Q := rnd (delta s v / of_int rnd (fm_count s + 1)).
Definition term (s : fmoments) (v : Q) : Q := rnd (rnd (delta s v * delta_n s v) * of_int rnd (fm_count s + 1 - 1)).
Lemma add_eq s v : fm_count (fm_add rnd s v) = (fm_count s + 1)%Z /\ (fm_min (fm_add rnd s v), fm_max (fm_add rnd s v)) = fm_extremes s v /\
  fm_mean (fm_add rnd s v) = rnd (fm_mean s + delta_n s v) /\ fm_m2 (fm_add rnd s v) = rnd (fm_m2 s + term s v).
Proof. unfold fm_add. destruct (fm_extremes s v) as [mn mx]. cbn. auto. Qed.
Lemma first_delta s v : fm_count s = 0%Z -> fm_mean s == 0 -> double v -> delta s v == v /\ delta_n s v == v.
Proof.
  intros C Z D. assert (E : delta s v == v).
  { unfold delta. assert (E0 : v - fm_mean s == v) by lra. rewrite E0. apply (rnd_id rnd HR), D. }
  split; [auto|]. unfold delta_n. rewrite C, of_int_eq, E by lia. assert (E1 : v / inject_Z (0 + 1) == v) by (cbn; field). rewrite E1. apply (rnd_id rnd HR), D.
Qed.
Lemma later_delta s v : (1 <= fm_count s < 2 ^ 53)%Z -> double (fm_mean s) -> double v ->
  (fm_mean s <= v -> 0 <= delta s v /\ 0 <= delta_n s v <= v - fm_mean s) /\ (v <= fm_mean s -> delta s v <= 0 /\ v - fm_mean s <= delta_n s v <= 0).
Proof.
  intros C Dm Dv. assert (E : delta_n s v == rnd (rnd (v - fm_mean s) / inject_Z (fm_count s + 1))) by (unfold delta_n, delta; rewrite of_int_eq by lia; reflexivity).
  split; intros L.
  - split; [apply (rnd_ge rnd HR); [apply double_zero|lra]|]. rewrite E. apply (share_up rnd HR); auto. lia.
  - split; [apply (rnd_le rnd HR); [apply double_zero|lra]|]. rewrite E. pose proof (share_neg v (fm_mean s) (fm_count s + 1) Dv Dm L ltac:(lia)). lra.
Qed.
Lemma term_nonneg s v : (0 <= fm_count s < 2 ^ 53)%Z -> (fm_count s = 0%Z -> fm_mean s == 0) -> double (fm_mean s) -> double v -> 0 <= term s v.
Proof.
  intros C Z Dm Dv. apply (rnd_ge rnd HR); [apply double_zero|]. rewrite of_int_eq by lia.
  apply Qmult_le_0_compat; [|change 0 with (inject_Z 0); rewrite <- Zle_Qle; lia]. apply (rnd_ge rnd HR); [apply double_zero|].
  destruct (Z.eq_dec (fm_count s) 0) as [E|E].
  - destruct (first_delta s v E (Z E) Dv) as [-> ->]. nra.
  - destruct (later_delta s v ltac:(lia) Dm Dv) as [H1 H2]. destruct (Qlt_le_dec v (fm_mean s)) as [G|G].
    + destruct (H2 (Qlt_le_weak _ _ G)). nra.
    + destruct (H1 G). nra.
Qed.

(** The invariant. *)
Definition fm_ok (vs : list Q) (s : fmoments) : Prop :=
  fm_count s = Z.of_nat (length vs) /\ least_of vs (fm_min s) /\ greatest_of vs (fm_max s) /\
  double (fm_mean s) /\ double (fm_m2 s) /\ 0 <= fm_m2 s /\ (vs = [] -> fm_mean s == 0) /\
  (vs <> [] -> forall lo hi, (forall v, In v vs -> lo <= v <= hi) -> lo <= fm_mean s <= hi).
Lemma fm_adds_snoc vs v : fm_adds rnd (vs ++ [v]) = fm_add rnd (fm_adds rnd vs) v.
Proof. unfold fm_adds. rewrite fold_left_app. reflexivity. Qed.
Lemma fm_adds_ok vs : Forall double vs -> (Z.of_nat (length vs) <= 2 ^ 53)%Z -> fm_ok vs (fm_adds rnd vs).
Proof.
  induction vs as [|v vs IH] using rev_ind; intros F L.
  - split; [reflexivity|]. cbn. split; [auto|]. split; [auto|]. split; [apply double_zero|]. split; [apply double_zero|]. split; [lra|]. split; [intros; lra|congruence].
  - apply Forall_app in F as [F Fv]. inversion Fv as [|? ? Dv _]; subst. rewrite app_length in L. cbn [length] in L.
    destruct (IH F ltac:(lia)) as (H1 & H2 & H3 & H4 & H5 & H6 & H7 & H8). rewrite fm_adds_snoc. set (s := fm_adds rnd vs) in *. clearbody s.
    destruct (add_eq s v) as (A1 & A2 & A3 & A4). unfold fm_ok. rewrite A1, A3, A4. unfold fm_extremes in A2.
    assert (Hc : fm_count s = 0%Z -> vs = []) by (rewrite H1; destruct vs; cbn [length]; auto; lia).
    split; [rewrite app_length; cbn [length]; lia|].
    assert (MM : least_of (vs ++ [v]) (fm_min (fm_add rnd s v)) /\ greatest_of (vs ++ [v]) (fm_max (fm_add rnd s v))).
    { destruct (fm_max s) as [mx|]; cbn in H3.
      - destruct H3 as [X1 X2]. destruct (fm_min s) as [mn|]; cbn in H2; [|subst vs; contradiction]. destruct H2 as [Y1 Y2].
        destruct (Z.eqb_spec (fm_count s) 0) as [E|E]; [rewrite (Hc E) in X1; contradiction|].
        destruct (qlt mx v) eqn:G; [apply qlt_true in G|apply qlt_false in G; destruct (qlt v mn) eqn:G'; [apply qlt_true in G'|apply qlt_false in G']];
          injection A2 as -> ->; cbn; (split; (split; [apply in_or_app; cbn; tauto|])); intros z Hz; apply in_app_or in Hz as [Hz|[<-|[]]];
          try specialize (X2 z Hz); try specialize (Y2 z Hz); try specialize (Y2 mx X1); lra.
      - subst vs. cbn [length Z.of_nat] in H1. rewrite H1 in A2. cbn in A2. injection A2 as -> ->. cbn. split; (split; [auto|]); intros z [<-|[]]; lra. }
    split; [apply MM|]. split; [apply MM|]. split; [apply (rnd_double rnd HR)|]. split; [apply (rnd_double rnd HR)|].
    split; [apply (rnd_ge rnd HR); [apply double_zero|]; pose proof (term_nonneg s v ltac:(lia) (fun E => H7 (Hc E)) H4 Dv); lra|].
    split; [intros E; destruct vs; discriminate E|]. intros _ lo hi B.
    destruct (Z.eq_dec (fm_count s) 0) as [E|E].
    + destruct (first_delta s v E (H7 (Hc E)) Dv) as [_ D2]. rewrite D2, (H7 (Hc E)). assert (E1 : 0 + v == v) by ring. rewrite E1, (rnd_id rnd HR v Dv).
      apply B, in_or_app; cbn; auto.
    + assert (Hv : vs <> []) by (intros ->; cbn in H1; auto). destruct (H8 Hv lo hi) as [M1 M2]; [intros z Hz; apply B, in_or_app; auto|].
      destruct (B v ltac:(apply in_or_app; cbn; auto)) as [V1 V2]. destruct (later_delta s v ltac:(lia) H4 Dv) as [D1 D2].
      destruct (Qlt_le_dec v (fm_mean s)) as [G|G].
      * destruct (D2 (Qlt_le_weak _ _ G)) as [_ D3]. split; [apply Qle_trans with v; auto; apply (rnd_ge rnd HR)|apply Qle_trans with (fm_mean s); auto; apply (rnd_le rnd HR)]; auto; lra.
      * destruct (D1 G) as [_ D3]. split; [apply Qle_trans with (fm_mean s); auto; apply (rnd_ge rnd HR)|apply Qle_trans with v; auto; apply (rnd_le rnd HR)]; auto; lra.
Qed.

(** The error of the mean. *)
Lemma qsum_snoc vs v : qsum (vs ++ [v]) == qsum vs + v.
Proof. induction vs as [|x vs IH]; cbn [qsum fold_right app]; [ring|]. fold (qsum vs). fold (qsum (vs ++ [v])). rewrite IH. ring. Qed.
Lemma step_error s v m : (1 <= fm_count s < 2 ^ 53)%Z -> double (fm_mean s) -> double v -> Qabs v <= m -> Qabs (fm_mean s) <= m ->
  let n := inject_Z (fm_count s + 1) in
  Qabs (n * rnd (fm_mean s + delta_n s v) - (n - 1) * fm_mean s - v) <= u * m * (n + 5) + 3 * n * eta.
Proof.
  intros C Dm Dv Bv Bm n. pose proof u_small as [U0 U1]. pose proof eta_pos as E0.
  assert (N2 : 2 <= n) by (change 2 with (inject_Z 2); unfold n; rewrite <- Zle_Qle; lia).
  set (a := fm_mean s) in *. set (d := delta s v). set (dn := delta_n s v).
  assert (M0 : 0 <= m) by (apply Qle_trans with (Qabs v); [apply Qabs_nonneg|auto]).
  assert (UM : 0 <= u * m) by (apply Qmult_le_0_compat; auto).
  assert (T1 : Qabs ((v - a) - d) <= u * (2 * m) + eta).
  { pose proof (rnd_error rnd HR (v - a)) as E. unfold d, delta. fold a. apply Qle_trans with (1 := E). apply Qplus_le_compat; [|lra]. apply u_mult.
    apply Qle_trans with (Qabs v + Qabs a); [|lra]. unfold Qminus. rewrite <- (Qabs_opp a). apply Qabs_triangle. }
  assert (T1' : Qabs d <= 2 * m + u * (2 * m) + eta).
  { assert (E : d == (v - a) - ((v - a) - d)) by ring. rewrite E at 1. apply Qle_trans with (Qabs (v - a) + Qabs ((v - a) - d)); [unfold Qminus at 1; rewrite <- (Qabs_opp (v - a - d)); apply Qabs_triangle|].
    assert (Qabs (v - a) <= Qabs v + Qabs a) by (unfold Qminus; rewrite <- (Qabs_opp a); apply Qabs_triangle). lra. }
  assert (En : of_int rnd (fm_count s + 1) == n) by (apply of_int_eq; lia).
  assert (T2 : Qabs (d / n - dn) <= u * Qabs (d / n) + eta).
  { unfold dn, delta_n. fold d. rewrite En. apply (rnd_error rnd HR). }
  assert (T2' : Qabs (d / n) * n == Qabs d).
  { rewrite <- (Qabs_pos n) at 2 by lra. rewrite <- Qabs_Qmult. assert (E : d / n * n == d) by (field; lra). rewrite E. reflexivity. }
  assert (T3 : Qabs (a + dn) <= m).
  { apply Qabs_Qle_condition. apply Qabs_Qle_condition in Bv, Bm. destruct (later_delta s v C Dm Dv) as [D1 D2]. fold a in D1, D2. fold d dn in D1, D2.
    destruct (Qlt_le_dec v a) as [G|G]; [destruct (D2 (Qlt_le_weak _ _ G)); lra|destruct (D1 G); lra]. }
  pose proof (rnd_error rnd HR (a + dn)) as T4. set (r := rnd (a + dn)) in *.
  assert (T4' : Qabs (a + dn - r) <= u * m + eta) by (apply Qle_trans with (1 := T4); apply u_mult in T3; lra).
  assert (E : n * r - (n - 1) * a - v == - (n * (a + dn - r)) + - (n * (d / n - dn)) + - ((v - a) - d)) by (field; lra).
  rewrite E. eapply Qle_trans; [apply Qabs_triangle|]. eapply Qle_trans; [apply Qplus_le_compat; [apply Qabs_triangle|apply Qle_refl]|].
  rewrite !Qabs_opp, !Qabs_Qmult, (Qabs_pos n) by lra.
  assert (P1 : n * Qabs (a + dn - r) <= n * (u * m + eta)) by (rewrite !(Qmult_comm n); apply Qmult_le_compat_r; lra).
  assert (P2 : n * Qabs (d / n - dn) <= n * (u * Qabs (d / n) + eta)) by (rewrite !(Qmult_comm n); apply Qmult_le_compat_r; lra).
  assert (P3 : n * (u * Qabs (d / n) + eta) == u * Qabs d + n * eta) by (rewrite <- T2'; ring).
  apply u_mult in T1'.
  assert (P4 : u * (u * (2 * m)) <= (1 # 1000) * (u * (2 * m))) by (apply Qmult_le_compat_r; lra).
  assert (P5 : u * eta <= (1 # 1000) * eta) by (apply Qmult_le_compat_r; auto).
  assert (P6 : 2 * eta <= n * eta) by (apply Qmult_le_compat_r; auto).
  set (X1 := n * Qabs (a + dn - r)) in *. set (X2 := n * Qabs (d / n - dn)) in *. rewrite P3 in P2. set (X3 := Qabs (v - a - d)) in *.
  assert (P7 : u * (2 * m + u * (2 * m) + eta) == 2 * (u * m) + u * (u * (2 * m)) + u * eta) by ring. rewrite P7 in T1'.
  assert (P8 : u * (2 * m) == 2 * (u * m)) by ring. rewrite P8 in P4, T1. assert (P9 : u * (u * (2 * m)) == u * (2 * (u * m))) by (rewrite P8; ring). rewrite P9 in *.
  set (um := u * m) in *. set (ue := u * eta) in *. set (uum := u * (2 * um)) in *. set (ud := u * Qabs d) in *.
  assert (P10 : um * (n + 5) + 3 * n * eta == n * um + 5 * um + 3 * (n * eta)) by ring. rewrite P10.
  assert (P11 : n * (um + eta) == n * um + n * eta) by ring. rewrite P11 in P1. set (ne := n * eta) in *. set (nm := n * um) in *. lra.
Qed.
Lemma mean_error vs m : Forall double vs -> (Z.of_nat (length vs) <= 2 ^ 53)%Z -> (forall v, In v vs -> Qabs v <= m) ->
  let n := inject_Z (Z.of_nat (length vs)) in
  Qabs (n * fm_mean (fm_adds rnd vs) - qsum vs) <= n * ((n / 2 + 6) * (u * m) + 3 * n * eta).
Proof.
  induction vs as [|v vs IH] using rev_ind; intros F L B n; [cbn; vm_compute; discriminate|].
  apply Forall_app in F as [F Fv]. inversion Fv as [|? ? Dv _]; subst. unfold n in *. clear n. rewrite app_length in *. cbn [length] in *.
  assert (Bv : Qabs v <= m) by (apply B, in_or_app; cbn; auto).
  assert (Bo : forall x, In x vs -> Qabs x <= m) by (intros x Hx; apply B, in_or_app; auto).
  specialize (IH F ltac:(lia) Bo). cbv zeta in IH. pose proof (fm_adds_ok vs F ltac:(lia)) as (H1 & _ & _ & H4 & _ & _ & H7 & H8).
  rewrite fm_adds_snoc, qsum_snoc. set (s := fm_adds rnd vs) in *. clearbody s. destruct (add_eq s v) as (_ & _ & A3 & _). rewrite A3.
  assert (M0 : 0 <= m) by (apply Qle_trans with (Qabs v); [apply Qabs_nonneg|auto]).
  pose proof u_small as [U0 U1]. pose proof eta_pos as E0.
  assert (UM : 0 <= u * m) by (apply Qmult_le_0_compat; auto).
  destruct vs as [|v0 vs].
  - cbn [length qsum fold_right app] in *. destruct (first_delta s v H1 (H7 eq_refl) Dv) as [_ D2]. rewrite D2, (H7 eq_refl). assert (E1 : 0 + v == v) by ring. rewrite E1, (rnd_id rnd HR v Dv).
    assert (E2 : inject_Z (Z.of_nat (0 + 1)) * v - v == 0) by (cbn; ring). rewrite E2. change (Qabs 0) with 0. change (inject_Z (Z.of_nat (0 + 1))) with 1.
    assert (E3 : 1 * ((1 / 2 + 6) * (u * m) + 3 * 1 * eta) == (13 # 2) * (u * m) + 3 * eta) by field. rewrite E3. lra.
  - set (l := v0 :: vs) in *. assert (Hl : l <> []) by discriminate. assert (Hn : (1 <= Z.of_nat (length l))%Z) by (unfold l; cbn [length]; lia). clearbody l.
    assert (Bm : Qabs (fm_mean s) <= m).
    { apply Qabs_Qle_condition. destruct (H8 Hl (- m) m); [|split; auto]. intros x Hx. apply Qabs_Qle_condition, Bo, Hx. }
    pose proof (step_error s v m ltac:(lia) H4 Dv Bv Bm) as T. cbv zeta in T. rewrite H1 in T.
    set (k := inject_Z (Z.of_nat (length l))) in *.
    assert (En : inject_Z (Z.of_nat (length l) + 1) == k + 1) by (unfold k; rewrite inject_Z_plus; reflexivity).
    assert (En' : inject_Z (Z.of_nat (length l + 1)) == k + 1) by (rewrite Nat2Z.inj_add; exact En). rewrite En in T. rewrite En'.
    set (r := rnd _) in *. set (a := fm_mean s) in *.
    assert (E : (k + 1) * r - (qsum l + v) == ((k + 1) * r - (k + 1 - 1) * a - v) + (k * a - qsum l)) by ring. rewrite E.
    eapply Qle_trans; [apply Qabs_triangle|]. eapply Qle_trans; [apply Qplus_le_compat; [exact T|exact IH]|].
    assert (K1 : 1 <= k) by (change 1 with (inject_Z 1); unfold k; rewrite <- Zle_Qle; auto).
    set (um := u * m) in *.
    assert (D : (k + 1) * (((k + 1) / 2 + 6) * um + 3 * (k + 1) * eta) - (um * (k + 1 + 5) + 3 * (k + 1) * eta + k * ((k / 2 + 6) * um + 3 * k * eta)) ==
                (1 # 2) * um + 3 * (k * eta)) by field.
    assert (0 <= k * eta) by (apply Qmult_le_0_compat; lra). lra.
Qed.

(** Equal values. *)
Lemma constant_ok v vs : double v -> (forall x, In x vs -> x == v) -> (Z.of_nat (length vs) <= 2 ^ 53)%Z ->
  let s := fm_adds rnd vs in (vs <> [] -> fm_mean s == v) /\ fm_m2 s == 0 /\ fm_m3 s == 0 /\ fm_m4 s == 0.
Proof.
  intros D. induction vs as [|x vs IH] using rev_ind; intros H L; [cbn; repeat split; try reflexivity; congruence|].
  rewrite app_length in L. cbn [length] in L. assert (Hx : x == v) by (apply H, in_or_app; cbn; auto).
  destruct IH as (I1 & I2 & I3 & I4); [intros y Hy; apply H, in_or_app; auto|lia|].
  assert (Dx : double x) by (eapply is_float_comp; [symmetry; exact Hx|exact D]).
  assert (F : Forall double vs) by (apply Forall_forall; intros y Hy; eapply is_float_comp; [symmetry; apply H, in_or_app; auto|exact D]).
  pose proof (fm_adds_ok vs F ltac:(lia)) as (H1 & _ & _ & H4 & _ & _ & H7 & H8).
  cbv zeta. rewrite fm_adds_snoc. set (s := fm_adds rnd vs) in *. clearbody s.
  assert (Z0 : rnd 0 == 0) by apply (rnd_zero rnd HR).
  assert (DN : delta s x * delta_n s x * inject_Z (fm_count s) == 0 /\ rnd (fm_mean s + delta_n s x) == v /\ term s x == 0).
  { destruct vs as [|v0 vs].
    - cbn in H1. destruct (first_delta s x H1 (H7 eq_refl) Dx) as [D1 D2]. split; [rewrite H1; cbn; ring|]. split.
      + rewrite D2, (H7 eq_refl). assert (E : 0 + x == v) by (rewrite Hx; ring). rewrite E. apply (rnd_id rnd HR), D.
      + unfold term. rewrite H1, of_int_eq by (cbn; lia). assert (E : forall y, y * inject_Z (0 + 1 - 1) == 0) by (intros y; cbn; ring). rewrite E. exact Z0.
    - assert (Em : fm_mean s == v) by (apply I1; discriminate).
      assert (D1 : delta s x == 0) by (unfold delta; assert (E : x - fm_mean s == 0) by (rewrite Hx, Em; ring); rewrite E; exact Z0).
      assert (D2 : delta_n s x == 0) by (unfold delta_n; rewrite D1; assert (E : forall y, 0 / y == 0) by (intros y; unfold Qdiv; ring); rewrite E; exact Z0).
      split; [rewrite D1; ring|]. split; [rewrite D2, Em; assert (E : v + 0 == v) by ring; rewrite E; apply (rnd_id rnd HR), D|].
      unfold term. rewrite D1. assert (E : 0 * delta_n s x == 0) by ring. rewrite E, Z0. assert (E1 : forall y, 0 * y == 0) by (intros; ring). rewrite E1. exact Z0. }
  destruct DN as (_ & Dm & Dt). assert (E1 : forall y, 0 * y == 0) by (intros; ring). assert (E2 : forall y, y * 0 == 0) by (intros; ring).
  assert (E3 : 0 + 0 == 0) by ring. assert (E4 : 0 - 0 == 0) by ring.
  unfold fm_add. destruct (fm_extremes s x) as [mn mx]. cbn [fm_mean fm_m2 fm_m3 fm_m4]. cbv zeta. fold (delta s x). fold (delta_n s x). fold (term s x).
  split; [intros _; exact Dm|]. split; [rewrite I2, Dt, E3; exact Z0|]. split; [rewrite I2, I3, Dt, E1, Z0, E1, Z0, E3, E2, Z0, E4; exact Z0|].
  rewrite I2, I3, I4, Dt, E1, Z0, E1, Z0, E3, !E2, Z0, E3, Z0, E4. exact Z0.
Qed.
End M.
