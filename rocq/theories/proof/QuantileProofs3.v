From Coq Require Import Lqa.
From Verif Require Import model.PyBase model.Bisect model.Levels model.Quantile spec.QuantileSpec proof.QuantileProofs proof.QuantileProofs2.
Open Scope nat_scope.

(** Several quantile reads in a row look at the same data. *)
Lemma quantile_again s q : sorted_ok s -> r_data s <> [] -> in01 q ->
  exists v s', r_get_quantile s q = (s', Ok v) /\ linear_quantile (r_data s) q v /\
    sorted_ok s' /\ r_data s' <> [] /\ Permutation (r_data s) (r_data s').
Proof.
  intros Hs Hd Hq. destruct (quantile_value s q Hs Hd Hq) as (v & Ev & Lv). destruct (r_get_quantile_state s q Hs) as (J1 & J2 & _).
  destruct (r_get_quantile s q) as [s' r]. cbn [fst snd] in *. subst r. exists v, s'. split; auto. split; auto. split; auto. split; auto.
  intros E. rewrite E in J2. apply Permutation_sym, Permutation_nil in J2. auto.
Qed.
Lemma in01_14 : in01 (1#4)%Q. Proof. split; reflexivity. Qed.
Lemma in01_12 : in01 (1#2)%Q. Proof. split; reflexivity. Qed.
Lemma in01_34 : in01 (3#4)%Q. Proof. split; reflexivity. Qed.

Theorem quartile_stats s : sorted_ok s -> r_data s <> [] ->
  exists a b c,
    linear_quantile (r_data s) (1#4) a /\ linear_quantile (r_data s) (1#2) b /\ linear_quantile (r_data s) (3#4) c /\
    snd (quartiles r_get_quantile s) = Ok (a, b, c) /\ (a <= b)%Q /\ (b <= c)%Q /\
    (exists d, snd (iqr r_get_quantile s) = Ok d /\ (d == c - a)%Q /\ (0 <= d)%Q) /\
    (exists t, snd (trimean r_get_quantile s) = Ok t /\ (t == (a + 2 * b + c) / 4)%Q /\ (a <= t)%Q /\ (t <= c)%Q).
Proof.
  intros Hs Hd. destruct (quantile_again s _ Hs Hd in01_14) as (a & s1 & E1 & L1 & S1 & D1 & P1).
  destruct (quantile_again s1 _ S1 D1 in01_12) as (b & s2 & E2 & L2 & S2 & D2 & P2).
  destruct (quantile_again s2 _ S2 D2 in01_34) as (c & s3 & E3 & L3 & S3 & D3 & P3).
  assert (L2' : linear_quantile (r_data s) (1#2) b) by (eapply linear_perm; [apply Permutation_sym; exact P1 | auto]).
  assert (L3' : linear_quantile (r_data s) (3#4) c).
  { eapply linear_perm; [apply Permutation_sym; eapply Permutation_trans; [exact P1 | exact P2] | auto]. }
  assert (Hab : (a <= b)%Q) by (eapply linear_monotone; [exact L1 | exact L2' | unfold Qle; simpl; lia]).
  assert (Hbc : (b <= c)%Q) by (eapply linear_monotone; [exact L2' | exact L3' | unfold Qle; simpl; lia]).
  exists a, b, c. split; auto. split; auto. split; auto.
  assert (Eq : quartiles r_get_quantile s = (s3, Ok (a, b, c))) by (unfold quartiles; rewrite E1, E2, E3; reflexivity).
  split; [rewrite Eq; auto|]. split; auto. split; auto. split.
  - destruct (quantile_again s _ Hs Hd in01_34) as (c' & t1 & F1 & M1 & T1 & G1 & R1).
    destruct (quantile_again t1 _ T1 G1 in01_14) as (a' & t2 & F2 & M2 & T2 & G2 & R2).
    assert (M2' : linear_quantile (r_data s) (1#4) a') by (eapply linear_perm; [apply Permutation_sym; exact R1 | auto]).
    exists (c' - a')%Q. split; [unfold iqr; rewrite F1, F2; reflexivity|].
    assert (Hc : (c' == c)%Q) by (apply Qle_antisym; eapply linear_monotone; eauto; apply Qle_refl).
    assert (Ha : (a' == a)%Q) by (apply Qle_antisym; eapply linear_monotone; eauto; apply Qle_refl).
    split; [rewrite Hc, Ha; reflexivity|]. lra.
  - exists ((a + 2 * b + c) / 4)%Q. split; [unfold trimean; rewrite Eq; reflexivity|]. split; [reflexivity|].
    assert (E4 : ((a + 2 * b + c) / 4 == (1#4) * a + (1#2) * b + (1#4) * c)%Q) by field. rewrite E4. split; lra.
Qed.
