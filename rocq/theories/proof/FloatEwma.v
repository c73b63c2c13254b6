(** Proofs about the moving averages of floats. *)
From Coq Require Import QArith Qabs Lqa Lia.
From Verif Require Import model.PyBase model.Bisect model.Levels model.Quantile model.FloatStats model.FloatMoments spec.FloatSpec spec.FloatEwmaSpec proof.FloatProofs.
Open Scope Q_scope.

(** Both at once. *)
Fixpoint fw_trace (rnd fexp : Q -> Q) (s : fewma) (ops : list fop) : pyres (fewma * list Q) :=
  match ops with
  | [] => Ok (s, [])
  | FAdd v :: ops' => fw_trace rnd fexp (fw_add rnd s v) ops'
  | FRead t1 t2 :: ops' =>
    let? s1 := fw_read rnd fexp t1 t2 s in
    let? r := fw_trace rnd fexp s1 ops' in
    Ok (fst r, (if Qle_bool (fw_interval s) (rnd (t1 - fw_last s)) || fw_force s
                then [rnd (fw_uncounted s / rnd (t2 - fw_last s))] else []) ++ snd r)
  end.
Lemma trace_measured rnd fexp ops : forall s s' ms, fw_trace rnd fexp s ops = Ok (s', ms) ->
  fw_run rnd fexp s ops = Ok s' /\ ms = measured rnd (fw_interval s) (fw_force s) (fw_uncounted s) (fw_last s) ops.
Proof.
  induction ops as [|[v|t1 t2] ops IH]; intros s s' ms H; cbn [fw_trace fw_run measured] in *.
  - injection H as <- <-. auto.
  - apply (IH (fw_add rnd s v)) in H. exact H.
  - destruct (fw_read rnd fexp t1 t2 s) as [s1| | |] eqn:R; cbn [rbind] in H; try discriminate H.
    destruct (fw_trace rnd fexp s1 ops) as [[s2 ms2]| | |] eqn:T; cbn [rbind fst snd] in H; try discriminate H. injection H as <- <-.
    apply IH in T as [T1 T2]. cbn [rbind]. split; [exact T1|]. subst ms2. unfold fw_read, fw_update in R.
    destruct (Qle_bool _ _) eqn:D; cbn [orb andb] in *.
    + destruct (fw_steps _ _ _ _ _); cbn [rbind] in R; try discriminate R. injection R as <-. reflexivity.
    + destruct (fw_force s) eqn:F; [|injection R as <-; cbn [app]; rewrite F; reflexivity].
      cbn [fw_rates fw_uncounted fw_last] in R. destruct (fw_steps _ _ _ _ _); cbn [rbind] in R; try discriminate R. injection R as <-. reflexivity.
Qed.

Section E.
Variable rnd : Q -> Q.
Hypothesis HR : to_nearest rnd.
Variable fexp : Q -> Q.
Hypothesis HE : forall x, x <= 0 -> 0 <= fexp x <= 1.
Notation u := (two ^ (-53)).
Notation eta := (two ^ (-1075)).

Lemma u_small : 0 <= u /\ u <= 1 # 1000. Proof. split; vm_compute; discriminate. Qed.
Lemma u_mult x y : x <= y -> u * x <= u * y.
Proof. intros H. rewrite !(Qmult_comm u). apply Qmult_le_compat_r; [auto|apply u_small]. Qed.
Lemma eta_pos : 0 <= eta. Proof. vm_compute. discriminate. Qed.
Lemma fdiv_pos a b : ~ b == 0 -> fdiv rnd a b = Ok (rnd (a / b)).
Proof. intros H. unfold fdiv, qdiv. destruct (Qeq_bool b 0) eqn:E; [apply Qeq_bool_iff in E; contradiction|reflexivity]. Qed.
Lemma gap x y : double x -> double y -> x < y -> 0 < rnd (y - x).
Proof.
  intros Hx Hy L. destruct (double_grid x Hx) as (mx & Ex). destruct (double_grid y Hy) as (my & Ey).
  assert (P : 0 < two ^ (-1074)) by apply pw_pos.
  apply Qlt_le_trans with (1 := P). apply (rnd_ge rnd HR); [apply double_pw; lia|]. rewrite Ex, Ey in *.
  assert (mx < my)%Z. { apply Z.nle_gt. intros G. apply (Qlt_not_le _ _ L). apply Qmult_le_compat_r; [rewrite <- Zle_Qle; auto|lra]. }
  assert (E : inject_Z my * two ^ (-1074) - inject_Z mx * two ^ (-1074) == inject_Z (my - mx) * two ^ (-1074)).
  { unfold Z.sub. rewrite inject_Z_plus, inject_Z_opp. ring. }
  rewrite E. assert (1 <= inject_Z (my - mx)) by (change 1 with (inject_Z 1); rewrite <- Zle_Qle; lia). nra.
Qed.

(** One update with a rate: [r] the old rate, [n] the one measured. *)
Definition next (alpha r n : Q) : Q := rnd (r + rnd (alpha * rnd (n - r))).
Lemma next_bounds alpha r n : double r -> double n -> 0 <= r -> 0 <= n -> 0 <= alpha <= 1 ->
  (r <= n -> r <= next alpha r n <= (1 + 3 * u) * n + 3 * eta) /\
  (n <= r -> n - u * r - 2 * eta <= next alpha r n <= r) /\ 0 <= next alpha r n.
Proof.
  intros Dr Dn R0 N0 [A0 A1]. pose proof u_small as [U0 U1]. pose proof eta_pos as E0.
  assert (Z : double 0) by apply double_zero.
  assert (C1 : r <= n -> r <= next alpha r n <= (1 + 3 * u) * n + 3 * eta).
  { intros L. set (D := rnd (n - r)). assert (D0 : 0 <= D) by (apply (rnd_ge rnd HR); auto; lra).
    assert (Dd : double D) by apply (rnd_double rnd HR).
    assert (X0 : 0 <= alpha * D) by nra. assert (X1 : alpha * D <= D) by nra.
    assert (Y0 : 0 <= rnd (alpha * D)) by (apply (rnd_ge rnd HR); auto).
    assert (Y1 : rnd (alpha * D) <= D) by (apply (rnd_le rnd HR); auto).
    unfold next. fold D. set (y := r + rnd (alpha * D)). assert (Hy : r <= y <= r + D) by (unfold y; lra).
    split; [apply (rnd_ge rnd HR); auto; lra|].
    pose proof (rnd_error rnd HR (n - r)) as ED. fold D in ED. apply Qabs_Qle_condition in ED. rewrite (Qabs_pos (n - r)) in ED by lra.
    pose proof (rnd_error rnd HR y) as EY. apply Qabs_Qle_condition in EY. rewrite (Qabs_pos y) in EY by lra.
    destruct (Qlt_le_dec n y) as [G|G].
    - assert (T1 : u * (n - r) <= u * n) by (apply u_mult; lra). assert (T0 : 0 <= u * n) by (apply Qmult_le_0_compat; lra).
      assert (Y2 : y <= n + u * n + eta) by lra. apply u_mult in Y2.
      assert (T2 : u * (u * n) <= (1 # 1000) * (u * n)) by (apply Qmult_le_compat_r; auto).
      assert (T3 : u * eta <= (1 # 1000) * eta) by (apply Qmult_le_compat_r; auto).
      (* u * y is about u * r *)
      assert (T4 : u * y <= u * n + (1 # 1000) * (u * n) + (1#1000) * eta) by lra.
      lra.
    - apply Qle_trans with n; [apply (rnd_le rnd HR); auto|]. assert (0 <= u * n) by (apply Qmult_le_0_compat; lra). lra. }
  assert (C2 : n <= r -> n - u * r - 2 * eta <= next alpha r n <= r /\ 0 <= next alpha r n).
  { intros L. set (D := rnd (n - r)). assert (D0 : D <= 0) by (apply (rnd_le rnd HR); auto; lra).
    assert (Dd : double D) by apply (rnd_double rnd HR).
    assert (D1 : - r <= D) by (apply (rnd_ge rnd HR); [apply double_opp; auto|lra]).
    assert (X0 : alpha * D <= 0) by nra. assert (X1 : D <= alpha * D) by nra.
    assert (Y0 : rnd (alpha * D) <= 0) by (apply (rnd_le rnd HR); auto).
    assert (Y1 : D <= rnd (alpha * D)) by (apply (rnd_ge rnd HR); auto).
    unfold next. fold D. set (y := r + rnd (alpha * D)). assert (Hy : r + D <= y <= r) by (unfold y; lra).
    assert (P : 0 <= rnd y) by (apply (rnd_ge rnd HR); auto; lra).
    split; [|auto]. split; [|apply (rnd_le rnd HR); auto; lra].
    pose proof (rnd_error rnd HR (n - r)) as ED. fold D in ED. apply Qabs_Qle_condition in ED. rewrite (Qabs_neg (n - r)) in ED by lra.
    pose proof (rnd_error rnd HR y) as EY. apply Qabs_Qle_condition in EY. rewrite (Qabs_pos y) in EY by lra.
    destruct (Qlt_le_dec y n) as [G|G].
    - assert (u * y <= u * n) by (apply u_mult; lra). lra.
    - assert (n <= rnd y) by (apply (rnd_ge rnd HR); auto). assert (0 <= u * r) by (apply Qmult_le_0_compat; lra). lra. }
  split; [auto|]. split; [intros L; apply C2; auto|]. destruct (Qlt_le_dec r n) as [G|G]; [|apply C2; auto].
  destruct (C1 (Qlt_le_weak _ _ G)); lra.
Qed.

(** Everything a state must satisfy, if the rates measured so far are between [lo] and [hi]. *)
Definition rate_ok (lo hi r : Q) : Prop := double r /\ 0 <= r /\ lo - 2 * u * hi - 3 * eta <= r <= (1 + 3 * u) * hi + 3 * eta.
Definition fw_ok (lo hi : Q) (s : fewma) : Prop :=
  (forall p r, In (p, r) (fw_rates s) -> 0 < p /\ match r with Some r => rate_ok lo hi r | None => True end) /\
  double (fw_uncounted s) /\ 0 <= fw_uncounted s /\ double (fw_last s).

Lemma step_ok lo hi unc i p r : 0 <= lo -> lo <= hi -> 0 <= unc -> 0 < i -> 0 < p -> lo <= rnd (unc / i) <= hi ->
  match r with Some r => rate_ok lo hi r | None => True end ->
  exists r', fw_step rnd fexp unc i (p, r) = Ok (p, Some r') /\ rate_ok lo hi r'.
Proof.
  intros L0 L1 U0 I0 P0 [N0 N1] Hr. pose proof u_small as [V0 V1]. pose proof eta_pos as E0.
  unfold fw_step. cbn [fst snd]. rewrite fdiv_pos by lra. cbn [rbind]. set (n := rnd (unc / i)) in *.
  assert (Dn : double n) by apply (rnd_double rnd HR).
  assert (T1 : 0 <= u * hi) by (apply Qmult_le_0_compat; lra). assert (T2 : 0 <= u * eta) by (apply Qmult_le_0_compat; lra).
  destruct r as [r|].
  - rewrite fdiv_pos by lra. cbn [rbind]. eexists. split; [reflexivity|]. destruct Hr as (Dr & R0 & RL & RH).
    set (x := rnd (- i / p)). assert (X : x <= 0).
    { apply (rnd_le rnd HR); [apply double_zero|]. apply Qle_shift_div_r; lra. }
    destruct (HE x X) as [F0 F1]. set (alpha := rnd (1 - fexp x)).
    assert (A : 0 <= alpha <= 1).
    { split; [apply (rnd_ge rnd HR); [apply double_zero|lra]|apply (rnd_le rnd HR); [apply (double_int 1); lia|lra]]. }
    destruct (next_bounds alpha r n Dr Dn R0 (Qle_trans _ _ _ L0 N0) A) as (C1 & C2 & C3). unfold next in *.
    split; [apply (rnd_double rnd HR)|]. split; [auto|]. destruct (Qlt_le_dec r n) as [G|G].
    + destruct (C1 (Qlt_le_weak _ _ G)) as [Q1 Q2]. assert (u * n <= u * hi) by (rewrite !(Qmult_comm u); apply Qmult_le_compat_r; auto). split; lra.
    + destruct (C2 G) as [Q1 Q2]. split; [|lra].
      assert (B1 : u * r <= u * ((1 + 3 * u) * hi + 3 * eta)) by (rewrite !(Qmult_comm u); apply Qmult_le_compat_r; auto).
      assert (B3 : u * eta <= (1 # 1000) * eta) by (apply Qmult_le_compat_r; auto). assert (B2 : u * (u * hi) <= (1 # 1000) * (u * hi)) by (apply Qmult_le_compat_r; auto). lra.
  - eexists. split; [reflexivity|]. split; [auto|]. split; lra.
Qed.
Lemma steps_ok lo hi unc i l : 0 <= lo -> lo <= hi -> 0 <= unc -> 0 < i -> lo <= rnd (unc / i) <= hi ->
  (forall p r, In (p, r) l -> 0 < p /\ match r with Some r => rate_ok lo hi r | None => True end) ->
  exists l', fw_steps rnd fexp unc i l = Ok l' /\ map fst l' = map fst l /\ forall p r, In (p, r) l' -> 0 < p /\ exists v, r = Some v /\ rate_ok lo hi v.
Proof.
  intros L0 L1 U0 I0 N. induction l as [|[p r] l IH]; intros H; [exists []; cbn; intuition contradiction|].
  destruct (H p r (or_introl eq_refl)) as [P0 Hr]. destruct (step_ok lo hi unc i p r L0 L1 U0 I0 P0 N Hr) as (r' & E1 & E2).
  destruct IH as (l' & E3 & E4 & E5); [intros; apply H; right; auto|]. exists ((p, Some r') :: l'). cbn [fw_steps]. rewrite E1. cbn [rbind]. rewrite E3. cbn [rbind map fst].
  split; [reflexivity|]. split; [f_equal; auto|]. intros p1 r1 [X|X]; [injection X as <- <-; split; eauto|apply E5; auto].
Qed.
(** The interval a read measures. *)
Definition updates (t1 : Q) (s : fewma) : bool := Qle_bool (fw_interval s) (rnd (t1 - fw_last s)) || fw_force s.
Lemma read_cases t1 t2 s : updates t1 s = true -> exists f,
  fw_read rnd fexp t1 t2 s = (let? rates := fw_steps rnd fexp (fw_uncounted s) (rnd (t2 - fw_last s)) (fw_rates s) in Ok (mkFewma (fw_interval s) rates 0 t2 f)).
Proof.
  unfold updates, fw_read, fw_update. destruct (Qle_bool _ _); [intros _; exists (fw_force s); reflexivity|]. cbn [orb]. intros ->. exists false. reflexivity.
Qed.
Lemma read_idle t1 t2 s : updates t1 s = false -> fw_read rnd fexp t1 t2 s = Ok s.
Proof. unfold updates, fw_read. destruct (Qle_bool _ _); [discriminate|]. cbn [orb]. intros ->. reflexivity. Qed.

Definition well (ok : Q -> Prop) (s : fewma) : Prop :=
  (forall p r, In (p, r) (fw_rates s) -> 0 < p /\ match r with Some r => ok r | None => True end) /\
  double (fw_uncounted s) /\ 0 <= fw_uncounted s /\ double (fw_last s).
Definition sane (r : Q) : Prop := double r /\ 0 <= r.

Lemma steps_sane unc i l : 0 <= unc -> 0 < i ->
  (forall p r, In (p, r) l -> 0 < p /\ match r with Some r => sane r | None => True end) ->
  exists l', fw_steps rnd fexp unc i l = Ok l' /\ map fst l' = map fst l /\ forall p r, In (p, r) l' -> 0 < p /\ exists v, r = Some v /\ sane v.
Proof.
  intros U0 I0. induction l as [|[p r] l IH]; intros H; [exists []; cbn; intuition contradiction|].
  destruct (H p r (or_introl eq_refl)) as [P0 Hr].
  assert (M0 : 0 <= rnd (unc / i)). { apply (rnd_ge rnd HR); [apply double_zero|]. apply Qle_shift_div_l; lra. }
  assert (E : exists r', fw_step rnd fexp unc i (p, r) = Ok (p, Some r') /\ sane r').
  { unfold fw_step. cbn [fst snd]. rewrite fdiv_pos by lra. cbn [rbind]. destruct r as [r|]; [|eexists; split; [reflexivity|]; split; [apply (rnd_double rnd HR)|auto]].
    rewrite fdiv_pos by lra. cbn [rbind]. eexists. split; [reflexivity|]. destruct Hr as [Dr R0]. split; [apply (rnd_double rnd HR)|].
    set (x := rnd (- i / p)). assert (X : x <= 0) by (apply (rnd_le rnd HR); [apply double_zero|]; apply Qle_shift_div_r; lra).
    destruct (HE x X) as [F0 F1].
    assert (A : 0 <= rnd (1 - fexp x) <= 1).
    { split; [apply (rnd_ge rnd HR); [apply double_zero|lra]|apply (rnd_le rnd HR); [apply (double_int 1); lia|lra]]. }
    apply (next_bounds _ r (rnd (unc / i)) Dr (rnd_double rnd HR _) R0 M0 A). }
  destruct E as (r' & E1 & E2).
  destruct IH as (l' & E3 & E4 & E5); [intros; apply H; right; auto|]. exists ((p, Some r') :: l'). cbn [fw_steps]. rewrite E1. cbn [rbind]. rewrite E3. cbn [rbind map fst].
  split; [reflexivity|]. split; [f_equal; auto|]. intros p1 r1 [X|X]; [injection X as <- <-; split; eauto|apply E5; auto].
Qed.
Lemma add_well ok s v : well ok s -> double v \/ True -> 0 <= v -> well ok (fw_add rnd s v).
Proof.
  intros (H1 & H2 & H3 & H4) _ V. unfold well, fw_add. cbn [fw_rates fw_uncounted fw_last]. split; [auto|]. split; [apply (rnd_double rnd HR)|].
  split; [apply (rnd_ge rnd HR); [apply double_zero|lra]|auto].
Qed.
Lemma advancing_le ops : forall a b, a <= b -> fadvancing double b ops -> fadvancing double a ops.
Proof.
  induction ops as [|[v|x y] ops IH]; intros a b L; cbn [fadvancing]; eauto. intros (? & ?). split; [lra|auto].
Qed.
Lemma run_sane ops : forall s, well sane s -> fadvancing double (fw_last s) ops -> adds_nonneg ops ->
  exists s' ms, fw_trace rnd fexp s ops = Ok (s', ms) /\ Forall (fun m => 0 <= m) ms /\ map fst (fw_rates s') = map fst (fw_rates s) /\ well sane s' /\
    (ms <> [] \/ (forall p r, In (p, r) (fw_rates s) -> r <> None) -> forall p r, In (p, r) (fw_rates s') -> r <> None).
Proof.
  induction ops as [|o ops IH]; intros s W A N; [exists s, []; split; [reflexivity|]; split; [constructor|]; split; [reflexivity|]; split; [auto|]; intros [H|H]; [congruence|exact H]|]. destruct o as [v|t1 t2]; cbn [fw_trace fadvancing] in *.
  - apply (IH (fw_add rnd s v)); auto; [apply add_well; auto; apply N; left; auto|intros x Hx; apply N; right; auto].
  - destruct A as (A1 & A2 & A3 & A4 & A5). assert (N' : adds_nonneg ops) by (intros x Hx; apply N; right; auto).
    destruct (updates t1 s) eqn:Eu.
    + destruct (read_cases t1 t2 s Eu) as (f & ->). fold (updates t1 s). rewrite Eu. destruct W as (W1 & W2 & W3 & W4).
      assert (I0 : 0 < rnd (t2 - fw_last s)) by (apply gap; auto; lra).
      destruct (steps_sane (fw_uncounted s) _ (fw_rates s) W3 I0 W1) as (l' & E3 & E4 & E5). rewrite E3. cbn [rbind].
      destruct (IH (mkFewma (fw_interval s) l' 0 t2 f)) as (s' & ms & R1 & R2 & R3 & R4 & R5); auto.
      { split; [|cbn [fw_uncounted fw_last]; split; [apply double_zero|split; [lra|auto]]]. intros p r Hp. destruct (E5 p r Hp) as (? & v & -> & ?). auto. }
      rewrite R1. cbn [rbind fst snd]. eexists s', _. split; [reflexivity|]. cbn [fw_rates] in *. split; [|split; [congruence|split; [auto|]]].
      * apply Forall_app. split; [|auto]. constructor; [|constructor]. apply (rnd_ge rnd HR); [apply double_zero|]. apply Qle_shift_div_l; lra.
      * intros _. apply R5. right. intros p r Hp. destruct (E5 p r Hp) as (? & v & -> & ?). discriminate.
    + rewrite read_idle by auto. cbn [rbind]. fold (updates t1 s). rewrite Eu.
      destruct (IH s) as (s' & ms & R1 & R2 & R3 & R4 & R5); auto.
      { apply (advancing_le ops _ t2); auto. lra. }
      rewrite R1. cbn [rbind fst snd app]. exists s', ms. auto.
Qed.
Lemma run_between lo hi : 0 <= lo -> lo <= hi -> forall ops s s' ms, well (rate_ok lo hi) s -> fadvancing double (fw_last s) ops -> adds_nonneg ops ->
  fw_trace rnd fexp s ops = Ok (s', ms) -> Forall (fun m => lo <= m <= hi) ms -> well (rate_ok lo hi) s'.
Proof.
  intros L0 L1. induction ops as [|o ops IH]; intros s s' ms W A N E F; [injection E as <- <-; auto|]. destruct o as [v|t1 t2]; cbn [fw_trace fadvancing] in *.
  - apply (IH (fw_add rnd s v) s' ms); auto; [apply add_well; auto; apply N; left; auto|intros x Hx; apply N; right; auto].
  - destruct A as (A1 & A2 & A3 & A4 & A5). assert (N' : adds_nonneg ops) by (intros x Hx; apply N; right; auto). fold (updates t1 s) in E.
    destruct (updates t1 s) eqn:Eu.
    + destruct (read_cases t1 t2 s Eu) as (f & Er). rewrite Er in E. destruct W as (W1 & W2 & W3 & W4).
      assert (I0 : 0 < rnd (t2 - fw_last s)) by (apply gap; auto; lra).
      assert (S0 : forall p r, In (p, r) (fw_rates s) -> 0 < p /\ match r with Some r => sane r | None => True end).
      { intros p r Hp. destruct (W1 p r Hp) as (? & Hr). split; auto. destruct r; auto. destruct Hr as (? & ? & _). split; auto. }
      destruct (steps_sane (fw_uncounted s) _ (fw_rates s) W3 I0 S0) as (l' & E3 & _). rewrite E3 in E. cbn [rbind] in E.
      destruct (fw_trace rnd fexp (mkFewma (fw_interval s) l' 0 t2 f) ops) as [[s1 ms1]| | |] eqn:E1; cbn [rbind fst snd] in E; try discriminate E.
      injection E as <- <-. inversion F as [|? ? F1 F2]; subst.
      destruct (steps_ok lo hi (fw_uncounted s) _ (fw_rates s) L0 L1 W3 I0 F1 W1) as (l2 & E4 & _ & E5). rewrite E3 in E4. injection E4 as <-.
      apply (IH _ s1 ms1) in E1; auto. split; [|cbn [fw_uncounted fw_last]; split; [apply double_zero|split; [lra|auto]]].
      intros p r Hp. destruct (E5 p r Hp) as (? & v & -> & ?). auto.
    + rewrite read_idle in E by auto. cbn [rbind] in E. destruct (fw_trace rnd fexp s ops) as [[s1 ms1]| | |] eqn:E1; cbn [rbind fst snd app] in E; try discriminate E.
      injection E as <- <-. apply (IH s s1 ms1); auto. apply (advancing_le ops _ t2); auto. lra.
Qed.
End E.
