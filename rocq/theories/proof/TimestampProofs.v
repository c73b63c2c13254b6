(** Proofs for C82. *)
From Verif Require Import model.PyBase model.Emitters model.Timestamps spec.TimestampSpec.
From Coq Require Import ZifyClasses Zify ZifyN.
Open Scope N_scope.
Ltac Zify.zify_post_hook ::= Z.to_euclidean_division_equations.

(** ** Digits *)
Lemma read_plus w1 w2 : forall acc t, read_digits (w1 + w2) acc t = match read_digits w1 acc t with Some (v, t') => read_digits w2 v t' | None => None end.
Proof.
  induction w1 as [|w1 IH]; intros acc t; [reflexivity|]. cbn [Nat.add read_digits]. destruct t as [|c t]; [reflexivity|].
  destruct ((48 <=? c) && (c <=? 57)); [apply IH|reflexivity].
Qed.
Lemma pow_S w : 10 ^ N.of_nat (S w) = 10 ^ N.of_nat w * 10.
Proof. rewrite Nat2N.inj_succ, N.pow_succ_r'. lia. Qed.
Lemma read_dec w : forall n acc r, n < 10 ^ N.of_nat w -> read_digits w acc (dec w n ++ r) = Some (acc * 10 ^ N.of_nat w + n, r).
Proof.
  induction w as [|w IH]; intros n acc r H.
  - cbn in *. f_equal. f_equal. lia.
  - rewrite pow_S in *. cbn [dec]. rewrite <- app_assoc. replace (S w) with (w + 1)%nat by lia. rewrite read_plus, IH.
    2:{ set (P := 10 ^ N.of_nat w) in *. clearbody P. lia. }
    cbn [app read_digits]. set (P := 10 ^ N.of_nat w) in *. clearbody P.
    replace ((48 <=? 48 + n mod 10) && (48 + n mod 10 <=? 57)) with true by (symmetry; apply andb_true_iff; split; apply N.leb_le; lia).
    f_equal. f_equal. replace (48 + n mod 10 - 48) with (n mod 10) by lia. lia.
Qed.
Lemma dec_length w : forall n, length (dec w n) = w.
Proof. induction w as [|w IH]; intros n; [reflexivity|]. cbn [dec]. rewrite app_length, IH. cbn. lia. Qed.
Lemma dec_digits w : forall n, Forall (fun c => 48 <= c <= 57) (dec w n).
Proof. induction w as [|w IH]; intros n; [constructor|]. cbn [dec]. apply Forall_app. split; [apply IH|]. constructor; [lia|constructor]. Qed.
(** ** Comparing *)
Definition lexi (c : comparison) (k : comparison) : comparison := match c with Eq => k | _ => c end.
Lemma compare_dec w : forall a b x y, a < 10 ^ N.of_nat w -> b < 10 ^ N.of_nat w ->
  text_compare (dec w a ++ x) (dec w b ++ y) = lexi (a ?= b) (text_compare x y).
Proof.
  induction w as [|w IH]; intros a b x y Ha Hb.
  - cbn in *. replace a with 0 by lia. replace b with 0 by lia. reflexivity.
  - rewrite pow_S in *. set (P := 10 ^ N.of_nat w) in *. cbn [dec]. rewrite <- !app_assoc. rewrite IH by (fold P; clearbody P; lia). cbn [app text_compare].
    destruct (N.compare_spec (a / 10) (b / 10)) as [E|E|E]; cbn [lexi].
    + destruct (N.compare_spec (48 + a mod 10) (48 + b mod 10)) as [E'|E'|E'].
      * replace (a ?= b) with Eq by (symmetry; apply N.compare_eq_iff; lia). reflexivity.
      * replace (a ?= b) with Lt by (symmetry; apply N.compare_lt_iff; lia). reflexivity.
      * replace (a ?= b) with Gt by (symmetry; apply N.compare_gt_iff; lia). reflexivity.
    + replace (a ?= b) with Lt by (symmetry; apply N.compare_lt_iff; lia). reflexivity.
    + replace (a ?= b) with Gt by (symmetry; apply N.compare_gt_iff; lia). reflexivity.
Qed.
Lemma compare_same c x y : text_compare (c :: x) (c :: y) = text_compare x y.
Proof. cbn [text_compare]. rewrite N.compare_refl. reflexivity. Qed.
Lemma compare_block B a1 r1 a2 r2 : r1 < B -> r2 < B -> (a1 * B + r1 ?= a2 * B + r2) = lexi (a1 ?= a2) (r1 ?= r2).
Proof.
  intros H1 H2. destruct (N.compare_spec a1 a2) as [E|E|E]; cbn [lexi].
  - subst. destruct (N.compare_spec r1 r2) as [F|F|F]; [apply N.compare_eq_iff|apply N.compare_lt_iff|apply N.compare_gt_iff]; lia.
  - apply N.compare_lt_iff. assert ((a1 + 1) * B <= a2 * B) by (apply N.mul_le_mono_r; lia). lia.
  - apply N.compare_gt_iff. assert ((a2 + 1) * B <= a1 * B) by (apply N.mul_le_mono_r; lia). lia.
Qed.

(** ** The calendar *)
Definition dby (y : N) : N := 365 * (y - 1) + (y - 1) / 4 - (y - 1) / 100 + (y - 1) / 400.
Lemma leap_same y : leap y = is_leap y. Proof. reflexivity. Qed.
Lemma leap_iff y : is_leap y = true <-> leap_year y.
Proof.
  unfold is_leap, leap_year. rewrite andb_true_iff, orb_true_iff, negb_true_iff, !N.eqb_eq, N.eqb_neq. reflexivity.
Qed.
Lemma dby_S y : 1 <= y -> dby (y + 1) = dby y + year_length y.
Proof.
  intros Hy. unfold dby, year_length, is_leap. replace (y + 1 - 1) with y by lia.
  destruct (N.eqb_spec (y mod 4) 0) as [E4|E4]; cbn [andb]; [|lia].
  destruct (N.eqb_spec (y mod 100) 0) as [E100|E100]; cbn [negb orb]; [|lia].
  destruct (N.eqb_spec (y mod 400) 0) as [E400|E400]; lia.
Qed.
Lemma dby_mono y1 y2 : 1 <= y1 -> y1 <= y2 -> dby y1 <= dby y2.
Proof.
  intros H1 H2. replace y2 with (y1 + (y2 - y1)) by lia. generalize (y2 - y1). clear H2 y2. intros k. induction k as [|k IH] using N.peano_ind; [rewrite N.add_0_r; lia|].
  replace (y1 + N.succ k) with (y1 + k + 1) by lia. rewrite dby_S by lia. unfold year_length. destruct (is_leap (y1 + k)); lia.
Qed.
Lemma years_dby k : days_of_years k + 719162 = dby (1970 + N.of_nat k).
Proof.
  induction k as [|k IH]; [vm_compute; reflexivity|]. cbn [days_of_years]. replace (1970 + N.of_nat (S k)) with (1970 + N.of_nat k + 1) by lia. rewrite dby_S by lia. lia.
Qed.
Lemma month_cases m : 1 <= m <= 12 -> m = 1 \/ m = 2 \/ m = 3 \/ m = 4 \/ m = 5 \/ m = 6 \/ m = 7 \/ m = 8 \/ m = 9 \/ m = 10 \/ m = 11 \/ m = 12.
Proof. lia. Qed.
Ltac months H := apply month_cases in H; repeat (destruct H as [H|H]); subst.
Definition mlen (lp : bool) (m : N) : N :=
  if m =? 2 then (if lp then 29 else 28) else if (m =? 4) || (m =? 6) || (m =? 9) || (m =? 11) then 30 else 31.
Fixpoint dom (lp : bool) (k : nat) : N := match k with O => 0 | S k' => dom lp k' + mlen lp (N.of_nat (S k')) end.
Lemma dom_same y k : days_of_months y k = dom (is_leap y) k.
Proof. induction k as [|k IH]; [reflexivity|]. cbn [days_of_months dom]. rewrite IH. reflexivity. Qed.
Lemma months_dbm y m : 1 <= m <= 12 -> days_of_months y (N.to_nat (m - 1)) = days_before_month (is_leap y) m.
Proof. intros H. rewrite dom_same. destruct (is_leap y); months H; vm_compute; reflexivity. Qed.
Lemma dbm_next y m : 1 <= m <= 11 -> days_before_month (is_leap y) (m + 1) = days_before_month (is_leap y) m + month_length y m.
Proof. intros H. assert (H' : 1 <= m <= 12) by lia. unfold month_length. destruct (is_leap y); months H'; try (vm_compute; reflexivity); lia. Qed.
Lemma dbm_mono lp m1 m2 : 1 <= m1 -> m1 <= m2 -> m2 <= 12 -> days_before_month lp m1 <= days_before_month lp m2.
Proof.
  intros H1 H2 H3. assert (Ha : 1 <= m1 <= 12) by lia. assert (Hb : 1 <= m2 <= 12) by lia.
  months Ha; months Hb; try lia; destruct lp; vm_compute; discriminate.
Qed.
Lemma dbm_last y m : 1 <= m <= 12 -> days_before_month (is_leap y) m + month_length y m <= year_length y.
Proof. intros H. unfold month_length, year_length. destruct (is_leap y); months H; vm_compute; discriminate. Qed.
Lemma month_length_le y m : month_length y m <= 31.
Proof. unfold month_length. destruct (m =? 2), (is_leap y), ((m =? 4) || (m =? 6) || (m =? 9) || (m =? 11)); lia. Qed.

Definition md_ok (lp : bool) (n : N) : bool :=
  let '(m, d) := month_day lp n in
  (1 <=? m) && (m <=? 12) && (1 <=? d) && (d <=? mlen lp m) && (days_before_month lp m + d =? n + 1).
Lemma md_all : forallb (fun n => md_ok true (N.of_nat n)) (seq 0 366) && forallb (fun n => md_ok false (N.of_nat n)) (seq 0 365) = true.
Proof. vm_compute. reflexivity. Qed.
Lemma month_day_ok (lp : bool) (n : N) : n < (if lp then 366 else 365) ->
  let '(m, d) := month_day lp n in 1 <= m <= 12 /\ 1 <= d <= mlen lp m /\ days_before_month lp m + d = n + 1.
Proof.
  intros H. pose proof md_all as A. apply andb_true_iff in A as [A1 A2]. rewrite forallb_forall in A1, A2.
  assert (K : md_ok lp n = true).
  { replace n with (N.of_nat (N.to_nat n)) by lia. destruct lp; [apply A1|apply A2]; apply in_seq; lia. }
  unfold md_ok in K. destruct (month_day lp n) as [m d]. rewrite !andb_true_iff, !N.leb_le, N.eqb_eq in K. lia.
Qed.
(** ** ord_to_ymd *)
Lemma ymd_ok n : 1 <= n -> let '(y, m, d) := ord_to_ymd n in
  1 <= y /\ 1 <= m <= 12 /\ 1 <= d <= month_length y m /\ dby y + days_before_month (is_leap y) m + d = n.
Proof.
  intros H. unfold ord_to_ymd. set (k := n - 1). set (n400 := k / 146097). set (k1 := k mod 146097). set (n100 := k1 / 36524). set (k2 := k1 mod 36524).
  set (n4 := k2 / 1461). set (k3 := k2 mod 1461). set (n1 := k3 / 365). set (k4 := k3 mod 365).
  assert (E0 : n = n400 * 146097 + k1 + 1 /\ k1 < 146097) by (subst k1 n400; subst k; lia).
  assert (E1 : k1 = n100 * 36524 + k2 /\ k2 < 36524) by (subst k2 n100; lia).
  assert (E2 : k2 = n4 * 1461 + k3 /\ k3 < 1461) by (subst k3 n4; lia).
  assert (E3 : k3 = n1 * 365 + k4 /\ k4 < 365) by (subst k4 n1; lia).
  clearbody n400 k1 n100 k2 n4 k3 n1 k4. clear k.
  assert (B100 : n100 <= 4) by lia. assert (B4 : n4 <= 24) by lia. assert (B1 : n1 <= 4) by lia.
  destruct (N.eqb_spec n1 4) as [F1|F1]; cbn [orb].
  { (* 31 December of a leap year *)
    subst n1. assert (k4 = 0) by lia. set (y := n400 * 400 + 1 + n100 * 100 + n4 * 4 + 4 - 1).
    assert (Hy : y = n400 * 400 + n100 * 100 + n4 * 4 + 4) by (subst y; lia). clearbody y.
    assert (n4 < 24 \/ n4 = 24) as [Hq|Hq] by lia.
    - assert (n100 < 4) by lia.
      assert (L : is_leap y = true). { apply leap_iff. split; [lia|]. left. lia. }
      split; [lia|]. split; [lia|]. unfold month_length. cbn. split; [lia|]. rewrite L. replace (days_before_month true 12) with 335 by reflexivity. unfold dby. lia.
    - assert (n100 < 4) by lia. lia. }
  destruct (N.eqb_spec n100 4) as [F2|F2].
  { subst n100. assert (k2 = 0) by lia. assert (n4 = 0) by lia. assert (n1 = 0) by lia. assert (k4 = 0) by lia. subst.
    set (y := n400 * 400 + 1 + 4 * 100 + 0 * 4 + 0 - 1). assert (Hy : y = n400 * 400 + 400) by (subst y; lia). clearbody y.
    assert (L : is_leap y = true). { apply leap_iff. split; [lia|]. right. lia. }
    split; [lia|]. split; [lia|]. unfold month_length. cbn. split; [lia|]. rewrite L. replace (days_before_month true 12) with 335 by reflexivity. unfold dby. lia. }
  set (y := n400 * 400 + 1 + n100 * 100 + n4 * 4 + n1).
  assert (L : (n1 =? 3) && (negb (n4 =? 24) || (n100 =? 3)) = is_leap y).
  { destruct (is_leap y) eqn:EL.
    - apply leap_iff in EL as [EL1 EL2]. rewrite andb_true_iff, orb_true_iff, negb_true_iff, !N.eqb_eq, N.eqb_neq. subst y. lia.
    - destruct ((n1 =? 3) && (negb (n4 =? 24) || (n100 =? 3))) eqn:K; [|reflexivity]. rewrite andb_true_iff, orb_true_iff, negb_true_iff, !N.eqb_eq, N.eqb_neq in K.
      assert (X : is_leap y = true). { apply leap_iff. subst y. split; lia. } congruence. }
  rewrite L. pose proof (month_day_ok (is_leap y) k4) as M. destruct (month_day (is_leap y) k4) as [m d].
  assert (M' : k4 < (if is_leap y then 366 else 365)) by (destruct (is_leap y); lia). specialize (M M'). destruct M as (M1 & M2 & M3).
  split; [subst y; lia|]. split; [exact M1|]. split; [exact M2|].
  assert (D : dby y = n400 * 146097 + n100 * 36524 + n4 * 1461 + n1 * 365). { unfold dby. subst y. clear - F1 F2 B1 B4 B100. lia. }
  lia.
Qed.

(** ** Broken-down time *)
Lemma days_ymd y m d : 1970 <= y -> 1 <= m <= 12 -> 1 <= d -> days_since_1970 y m d + 719163 = dby y + days_before_month (is_leap y) m + d.
Proof.
  intros Hy Hm Hd. unfold days_since_1970. rewrite months_dbm by exact Hm. pose proof (years_dby (N.to_nat (y - 1970))) as Y.
  replace (1970 + N.of_nat (N.to_nat (y - 1970))) with y in Y by lia. lia.
Qed.
Lemma days_date y m d : 1 <= y -> 1 <= m <= 12 -> 1 <= d <= month_length y m ->
  dby y < dby y + days_before_month (is_leap y) m + d <= dby (y + 1).
Proof. intros Hy Hm Hd. rewrite dby_S by exact Hy. pose proof (dbm_last y m Hm). lia. Qed.
Record civ_ok (us : N) (c : civil) : Prop := {
  co_y : 1970 <= c_year c < 10000; co_m : 1 <= c_month c <= 12; co_d : 1 <= c_day c <= month_length (c_year c) (c_month c);
  co_h : c_hour c < 24; co_mi : c_min c < 60; co_s : c_sec c < 60; co_f : c_micro c < 1000000;
  co_us : us = (days_since_1970 (c_year c) (c_month c) (c_day c) * 86400 + c_hour c * 3600 + c_min c * 60 + c_sec c) * 1000000 + c_micro c }.
Lemma civil_ok us : us < year_10000 -> civ_ok us (civil_of us).
Proof.
  unfold year_10000. intros H. unfold civil_of. set (s := us / 1000000).
  assert (Hs : us = s * 1000000 + us mod 1000000 /\ us mod 1000000 < 1000000) by (subst s; lia). destruct Hs as [Hs1 Hs2].
  pose proof (ymd_ok (epoch + s / 86400) ltac:(unfold epoch; lia)) as Y. destruct (ord_to_ymd (epoch + s / 86400)) as [[y m] d]. destruct Y as (Y1 & Y2 & Y3 & Y4).
  pose proof (days_date y m d Y1 Y2 Y3) as DD. unfold epoch in Y4.
  assert (K : s / 86400 <= 2932896) by (clearbody s; lia).
  assert (L1 : 1970 <= y).
  { destruct (N.lt_ge_cases y 1970) as [L|L]; [|exact L]. exfalso. pose proof (dby_mono (y + 1) 1970 ltac:(lia) ltac:(lia)) as M. replace (dby 1970) with 719162 in M by reflexivity. generalize (s / 86400) Y4. lia. }
  assert (L2 : y < 10000).
  { destruct (N.lt_ge_cases y 10000) as [L|L]; [exact L|]. exfalso. pose proof (dby_mono 10000 y ltac:(lia) L) as M. replace (dby 10000) with 3652059 in M by reflexivity. lia. }
  pose proof (days_ymd y m d L1 Y2 ltac:(lia)) as DY.
  constructor; cbn [c_year c_month c_day c_hour c_min c_sec c_micro]; try lia.
Qed.
(** ** Reading back *)
Lemma read_char_same c t : read_char c (c :: t) = Some t.
Proof. cbn. rewrite N.eqb_refl. reflexivity. Qed.
Ltac rd w := rewrite (read_dec w) by (match goal with |- ?a < ?x => let v := eval vm_compute in x in change (a < v) end; lia).
Lemma read_fmt_seconds us c r : civ_ok us c -> read_seconds (fmt_seconds c ++ r) = Some (us / 1000000, r).
Proof.
  intros [Hy Hm Hd Hh Hmi Hs Hf Hus]. pose proof (month_length_le (c_year c) (c_month c)) as ML.
  unfold read_seconds, fmt_seconds. repeat (rewrite <- app_assoc; cbn [app]).
  rd 4%nat. rewrite read_char_same. rd 2%nat. rewrite read_char_same. rd 2%nat. rewrite read_char_same. rd 2%nat. rewrite read_char_same. rd 2%nat. rewrite read_char_same. rd 2%nat.
  f_equal. f_equal. rewrite Hus. rewrite !N.mul_0_l, !N.add_0_l. generalize (days_since_1970 (c_year c) (c_month c) (c_day c)). intros dd. lia.
Qed.
Lemma read_fmt_micros us r : us < year_10000 -> read_micros (fmt_micros (civil_of us) ++ r) = Some (us, r).
Proof.
  intros H. pose proof (civil_ok us H) as C. unfold read_micros, fmt_micros. repeat (rewrite <- app_assoc; cbn [app]). rewrite (read_fmt_seconds us _ _ C), read_char_same.
  pose proof (co_f _ _ C) as F. rd 6%nat. f_equal. f_equal. pose proof (co_us _ _ C) as U. clear - F U. set (v := _ * 86400 + _ + _ + _) in U. clearbody v. lia.
Qed.
Lemma read_fmt_zone o : (-1440 < o < 1440)%Z -> read_zone (fmt_zone o) = Some o.
Proof.
  intros H. unfold fmt_zone, read_zone. rd 2%nat. rewrite <- (app_nil_r (dec 2 (Z.abs_N o mod 60))). rd 2%nat.
  destruct (Z.ltb_spec o 0).
  - change (45 =? 43) with false. change (45 =? 45) with true. cbn iota. f_equal. lia.
  - change (43 =? 43) with true. cbn iota. f_equal. lia.
Qed.
(** ** Order *)
Lemma date_compare y1 m1 d1 y2 m2 d2 : 1970 <= y1 -> 1 <= m1 <= 12 -> 1 <= d1 <= month_length y1 m1 -> 1970 <= y2 -> 1 <= m2 <= 12 -> 1 <= d2 <= month_length y2 m2 ->
  (days_since_1970 y1 m1 d1 ?= days_since_1970 y2 m2 d2) = lexi (y1 ?= y2) (lexi (m1 ?= m2) (d1 ?= d2)).
Proof.
  intros Hy1 Hm1 Hd1 Hy2 Hm2 Hd2.
  pose proof (days_ymd y1 m1 d1 Hy1 Hm1 ltac:(lia)) as D1. pose proof (days_ymd y2 m2 d2 Hy2 Hm2 ltac:(lia)) as D2.
  pose proof (days_date y1 m1 d1 ltac:(lia) Hm1 Hd1) as B1. pose proof (days_date y2 m2 d2 ltac:(lia) Hm2 Hd2) as B2.
  destruct (N.compare_spec y1 y2) as [E|E|E]; cbn [lexi].
  - subst y2. destruct (N.compare_spec m1 m2) as [F|F|F]; cbn [lexi].
    + subst m2. destruct (N.compare_spec d1 d2) as [G|G|G]; [apply N.compare_eq_iff|apply N.compare_lt_iff|apply N.compare_gt_iff]; lia.
    + apply N.compare_lt_iff. pose proof (dbm_next y1 m1 ltac:(lia)). pose proof (dbm_mono (is_leap y1) (m1 + 1) m2 ltac:(lia) ltac:(lia) ltac:(lia)). lia.
    + apply N.compare_gt_iff. pose proof (dbm_next y1 m2 ltac:(lia)). pose proof (dbm_mono (is_leap y1) (m2 + 1) m1 ltac:(lia) ltac:(lia) ltac:(lia)). lia.
  - apply N.compare_lt_iff. pose proof (dby_mono (y1 + 1) y2 ltac:(lia) ltac:(lia)). lia.
  - apply N.compare_gt_iff. pose proof (dby_mono (y2 + 1) y1 ltac:(lia) ltac:(lia)). lia.
Qed.
Ltac cd w := rewrite (compare_dec w) by (match goal with |- ?a < ?x => let v := eval vm_compute in x in change (a < v) end; lia).
Lemma lexi_assoc a b c : lexi (lexi a b) c = lexi a (lexi b c). Proof. destruct a; reflexivity. Qed.
Lemma compare_micros us1 us2 x y : us1 < year_10000 -> us2 < year_10000 ->
  text_compare (fmt_micros (civil_of us1) ++ x) (fmt_micros (civil_of us2) ++ y) = lexi (us1 ?= us2) (text_compare x y).
Proof.
  intros H1 H2. pose proof (civil_ok _ H1) as C1. pose proof (civil_ok _ H2) as C2. destruct (civil_of us1) as [y1 m1 d1 h1 i1 s1 f1]. destruct (civil_of us2) as [y2 m2 d2 h2 i2 s2 f2].
  destruct C1 as [Ay Am Ad Ah Ai As Af Au]. destruct C2 as [By Bm Bd Bh Bi Bs Bf Bu]. cbn [c_year c_month c_day c_hour c_min c_sec c_micro] in *.
  pose proof (month_length_le y1 m1) as L1. pose proof (month_length_le y2 m2) as L2.
  unfold fmt_micros, fmt_seconds. cbn [c_year c_month c_day c_hour c_min c_sec c_micro]. repeat (rewrite <- app_assoc; cbn [app]).
  cd 4%nat. rewrite compare_same. cd 2%nat. rewrite compare_same. cd 2%nat. rewrite compare_same. cd 2%nat. rewrite compare_same. cd 2%nat. rewrite compare_same. cd 2%nat. rewrite compare_same. cd 6%nat.
  rewrite Au, Bu. rewrite (compare_block 1000000) by lia.
  replace (days_since_1970 y1 m1 d1 * 86400 + h1 * 3600 + i1 * 60 + s1) with (((days_since_1970 y1 m1 d1 * 24 + h1) * 60 + i1) * 60 + s1) by lia.
  replace (days_since_1970 y2 m2 d2 * 86400 + h2 * 3600 + i2 * 60 + s2) with (((days_since_1970 y2 m2 d2 * 24 + h2) * 60 + i2) * 60 + s2) by lia.
  rewrite !(compare_block 60) by lia. rewrite (compare_block 24) by lia. rewrite date_compare by lia. rewrite !lexi_assoc. reflexivity.
Qed.

(** ** Rounding *)
Lemma rhe_near a b : 0 < b -> let u := round_half_even a b in
  2 * u * b <= 2 * a + b /\ 2 * a <= 2 * u * b + b /\ (2 * a = 2 * u * b + b -> N.even u = true) /\ (2 * u * b = 2 * a + b -> N.even u = true).
Proof.
  intros Hb. unfold round_half_even. set (f := a / b). set (r := a mod b). assert (E : a = b * f + r) by (subst f r; apply N.div_mod'). assert (R : r < b) by (subst r; apply N.mod_lt; lia).
  clearbody f r. subst a. replace (2 * (b * f + r)) with (2 * f * b + 2 * r) by lia. replace (2 * (f + 1) * b) with (2 * f * b + 2 * b) by lia.
  destruct (N.ltb_spec (2 * r) b); [repeat split; lia|]. destruct (N.ltb_spec b (2 * r)).
  { replace (2 * (f + 1) * b) with (2 * f * b + 2 * b) by lia. repeat split; lia. }
  assert (b = 2 * r) by lia. destruct (N.even f) eqn:F; [repeat split; try lia; intros; assumption|].
  replace (2 * (f + 1) * b) with (2 * f * b + 2 * b) by lia. repeat split; try lia; intros; rewrite N.add_1_r, N.even_succ, <- N.negb_even, F; reflexivity.
Qed.
Lemma rhe_mono a1 b1 a2 b2 : 0 < b1 -> 0 < b2 -> a1 * b2 <= a2 * b1 -> round_half_even a1 b1 <= round_half_even a2 b2.
Proof.
  intros H1 H2 H. pose proof (rhe_near a1 b1 H1) as (A1 & A2 & A3 & A4). pose proof (rhe_near a2 b2 H2) as (B1 & B2 & B3 & B4). cbn zeta in *.
  set (u1 := round_half_even a1 b1) in *. set (u2 := round_half_even a2 b2) in *. clearbody u1 u2.
  destruct (N.le_gt_cases u1 u2) as [L|L]; [exact L|exfalso].
  assert (P : 0 < b1 * b2) by (apply N.mul_pos_pos; assumption).
  assert (X1 : 2 * u1 * (b1 * b2) <= 2 * (a1 * b2) + b1 * b2) by nia.
  assert (X2 : 2 * (a2 * b1) <= 2 * u2 * (b1 * b2) + b1 * b2) by nia.
  assert (X3 : 2 * u1 * (b1 * b2) <= (2 * u2 + 2) * (b1 * b2)) by lia.
  assert (X4 : 2 * u1 <= 2 * u2 + 2) by (apply N.mul_le_mono_pos_r in X3; assumption).
  assert (u1 = u2 + 1) by lia. subst u1.
  assert (Y1 : 2 * (u2 + 1) * b1 = 2 * a1 + b1) by nia. assert (Y2 : 2 * a2 = 2 * u2 * b2 + b2) by nia.
  specialize (A4 Y1). specialize (B3 Y2). rewrite N.add_1_r, N.even_succ, <- N.negb_even, B3 in A4. discriminate.
Qed.
Lemma rhe_apart a1 b1 a2 b2 : 0 < b1 -> 0 < b2 -> a1 * b2 + b1 * b2 < a2 * b1 -> round_half_even a1 b1 < round_half_even a2 b2.
Proof.
  intros H1 H2 H. pose proof (rhe_near a1 b1 H1) as (A1 & A2 & _). pose proof (rhe_near a2 b2 H2) as (B1 & B2 & _). cbn zeta in *.
  set (u1 := round_half_even a1 b1) in *. set (u2 := round_half_even a2 b2) in *. clearbody u1 u2.
  destruct (N.lt_ge_cases u1 u2) as [L|L]; [exact L|exfalso].
  assert (P : 0 < b1 * b2) by (apply N.mul_pos_pos; assumption).
  assert (X1 : 2 * u1 * (b1 * b2) <= 2 * (a1 * b2) + b1 * b2) by nia.
  assert (X2 : 2 * (a2 * b1) <= 2 * u2 * (b1 * b2) + b1 * b2) by nia.
  assert (2 * u2 * (b1 * b2) <= 2 * u1 * (b1 * b2)) by nia. lia.
Qed.
