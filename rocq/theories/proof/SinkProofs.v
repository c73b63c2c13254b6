From Coq Require Import Lqa.
From Verif Require Import model.PyBase model.Bisect model.Quantile model.Sinks spec.QuantileSpec spec.SinkSpec proof.AccProofs proof.QuantileProofs proof.DictLemmas.
Open Scope nat_scope.

(** ** deques *)
Lemma skipn_S_tl {A} k (l : list A) : skipn (S k) l = tl (skipn k l).
Proof. revert k. induction l as [|x l IH]; intros [|k]; auto. change (skipn (S k) l = tl (skipn k l)). apply IH. Qed.
Lemma dq_append_recent {A} m (l : list A) x : dq_append m (most_recent m l) x = most_recent m (l ++ [x]).
Proof.
  destruct m as [m|]; auto. unfold dq_append, most_recent. rewrite skipn_length, app_length. cbn [length].
  destruct (Nat.le_gt_cases (length l) m) as [H|H].
  - replace (length l - m) with 0 by lia. cbn [skipn]. replace (length l - 0 + 1 - m) with (length l + 1 - m) by lia. auto.
  - replace (length l - (length l - m) + 1 - m) with (m + 1 - m) by lia. replace (m + 1 - m) with 1 by lia.
    replace (length l + 1 - m) with (S (length l - m)) by lia. rewrite (skipn_app (S (length l - m)) l [x]).
    replace (S (length l - m) - length l) with (1 - m) by lia. destruct m as [|m].
    + rewrite !(skipn_all2 l) by lia. reflexivity.
    + replace (1 - S m) with 0 by lia. rewrite (skipn_S_tl (length l - S m) l).
      destruct (skipn (length l - S m) l) as [|y r] eqn:E; [|reflexivity].
      assert (Hl : length (skipn (length l - S m) l) = 0) by (rewrite E; auto). rewrite skipn_length in Hl. lia.
Qed.
Lemma fold_dq {A} m (l : list A) : fold_left (dq_append m) l [] = most_recent m l.
Proof.
  induction l as [|x l IH] using rev_ind; [destruct m; auto; unfold most_recent; rewrite skipn_nil; auto|].
  rewrite fold_left_app, IH. cbn [fold_left]. apply dq_append_recent.
Qed.

(** ** RateAccumulator *)
Lemma ra_adds ts n c : let s := fold_left ra_add ts (ra_new n c) in
  ra_times s = most_recent n ts /\ ra_total s = length ts /\ ra_created s = c /\ ra_max s = n.
Proof.
  cbv zeta. induction ts as [|t ts IH] using rev_ind; [cbn; destruct n; auto|].
  rewrite fold_left_app. cbn [fold_left]. destruct IH as (I1 & I2 & I3 & I4).
  set (s := fold_left ra_add ts (ra_new n c)) in *. unfold ra_add. cbn [ra_times ra_total ra_created ra_max].
  rewrite I1, I2, I4, dq_append_recent, app_length. cbn [length]. repeat split; auto; lia.
Qed.
Lemma most_recent_app {A} n (l : list A) : exists old, l = old ++ most_recent n l.
Proof. destruct n as [n|]; [exists (firstn (length l - n) l); symmetry; apply firstn_skipn | exists []; auto]. Qed.
Lemma q_bisect_split l x : qasc l -> exists l1 l2, l = l1 ++ l2 /\ q_bisect_left l x = length l1 /\
  (forall y, In y l1 -> (y < x)%Q) /\ (forall y, In y l2 -> (x <= y)%Q).
Proof.
  intros Ha. destruct (bisect_split (fun y => negb (qlt y x)) l) as (l1 & l2 & H1 & H2 & H3 & H4).
  - intros i j a b Hij Hi Hj Hb. pose proof (qasc_nth l Ha i j a b Hij Hi Hj). apply negb_true_iff, qlt_false in Hb. apply negb_true_iff, qlt_false. lra.
  - exists l1, l2. split; auto. split; auto. split; intros y Hy.
    + specialize (H3 y Hy). apply negb_false_iff, qlt_true in H3. auto.
    + specialize (H4 y Hy). apply negb_true_iff, qlt_false in H4. auto.
Qed.
Lemma count_app {A} (f : A -> bool) a b : count_if f (a ++ b) = count_if f a + count_if f b.
Proof. unfold count_if. rewrite filter_app, app_length. auto. Qed.
Lemma count_all {A} (f : A -> bool) l : (forall x, In x l -> f x = true) -> count_if f l = length l.
Proof. intros H. unfold count_if. induction l as [|x l IH]; auto. simpl. rewrite H by (left; auto). simpl. f_equal. apply IH. intros; apply H; right; auto. Qed.
Lemma count_none {A} (f : A -> bool) l : (forall x, In x l -> f x = false) -> count_if f l = 0.
Proof. intros H. unfold count_if. induction l as [|x l IH]; auto. simpl. rewrite H by (left; auto). apply IH. intros; apply H; right; auto. Qed.

Definition since (start : Q) (t : Q) : bool := Qle_bool start t.
Theorem get_rate_window ts n c start en now t1 t2 : qasc ts -> (c < start)%Q -> ~ (start == 0)%Q ->
  ~ (en == 0)%Q -> ~ (en == start)%Q ->
  In t1 (most_recent n ts) -> (t1 < start)%Q -> In t2 (most_recent n ts) -> (start <= t2)%Q ->
  ra_get_rate (fold_left ra_add ts (ra_new n c)) (Some start) (Some en) now =
  Ok (inject_Z (Z.of_nat (count_if (since start) ts)) / (en - start))%Q.
Proof.
  intros Ha Hc Hs He Hes H1 L1 H2 L2. destruct (ra_adds ts n c) as (T & N & C & _). unfold ra_get_rate. rewrite T, C.
  destruct (most_recent_app n ts) as (old & Hold). set (r := most_recent n ts) in *.
  assert (Har : qasc r) by (rewrite Hold in Ha; apply qasc_app in Ha; apply Ha).
  destruct r as [|first rest] eqn:Er; [destruct H1|]. unfold or_default.
  assert (E0 : forall x, ~ (x == 0)%Q -> Qeq_bool x 0 = false) by (intros x Hx; destruct (Qeq_bool x 0) eqn:E; auto; apply Qeq_bool_iff in E; contradiction).
  rewrite (E0 start Hs), (E0 en He).
  replace (Qle_bool start c) with false by (symmetry; destruct (Qle_bool start c) eqn:E; auto; apply Qle_bool_iff in E; lra).
  rewrite <- Er in *. destruct (q_bisect_split (first :: rest) start ltac:(rewrite <- Er; auto)) as (l1 & l2 & S1 & S2 & S3 & S4). rewrite Er in *. rewrite S2.
  assert (Hl1 : 0 < length l1).
  { destruct l1; [|simpl; lia]. simpl in S1. subst l2. specialize (S4 t1 H1). lra. }
  assert (Hl2 : 0 < length l2).
  { destruct l2; [|simpl; lia]. rewrite app_nil_r in S1. subst l1. specialize (S3 t2 H2). lra. }
  rewrite S1, app_length. replace (length l1 + length l2 - length l1) with (length l2) by lia.
  replace (length l2 =? 0) with false by (symmetry; apply Nat.eqb_neq; lia). replace (length l1 =? 0) with false by (symmetry; apply Nat.eqb_neq; lia).
  assert (Hcount : count_if (since start) ts = length l2).
  { rewrite Hold, S1, !count_app. rewrite (count_all (since start) l2) by (intros x Hx; apply Qle_bool_iff; auto).
    rewrite (count_none (since start) l1), (count_none (since start) old); auto.
    - intros x Hx. unfold since. destruct (Qle_bool start x) eqn:E; auto. apply Qle_bool_iff in E.
      rewrite Hold in Ha. apply qasc_app in Ha. destruct Ha as (_ & _ & Ha). specialize (Ha x t1 Hx H1). lra.
    - intros x Hx. unfold since. destruct (Qle_bool start x) eqn:E; auto. apply Qle_bool_iff in E. specialize (S3 x Hx). lra. }
  rewrite Hcount. unfold qdiv. destruct (Qeq_bool (en - start) 0) eqn:E; auto. apply Qeq_bool_iff in E. exfalso. apply Hes. lra.
Qed.
Theorem get_rate_lifetime ts n c start en now : ts <> [] -> most_recent n ts <> [] -> (or_default start c <= c)%Q -> ~ (or_default en now == or_default start c)%Q ->
  ra_get_rate (fold_left ra_add ts (ra_new n c)) start en now = Ok (inject_Z (Z.of_nat (length ts)) / (or_default en now - or_default start c))%Q.
Proof.
  intros Hne Hr Hle Hd. destruct (ra_adds ts n c) as (T & N & C & _). unfold ra_get_rate. rewrite T, C, N.
  destruct (most_recent n ts); [congruence|]. replace (Qle_bool (or_default start c) c) with true by (symmetry; apply Qle_bool_iff; auto).
  unfold qdiv. destruct (Qeq_bool (or_default en now - or_default start c) 0) eqn:E; auto. apply Qeq_bool_iff in E. exfalso. apply Hd. lra.
Qed.
Theorem get_rate_all_after ts n c start en now first rest : qasc ts -> (c < start)%Q -> ~ (start == 0)%Q -> ~ (en == 0)%Q ->
  most_recent n ts = first :: rest -> (start <= first)%Q -> ~ (en == first)%Q ->
  ra_get_rate (fold_left ra_add ts (ra_new n c)) (Some start) (Some en) now =
  Ok (inject_Z (Z.of_nat (length (first :: rest))) / (en - first))%Q.
Proof.
  intros Ha Hc Hs He Hr Hf Hef. destruct (ra_adds ts n c) as (T & N & C & _). unfold ra_get_rate. rewrite T, C.
  destruct (most_recent_app n ts) as (old & Hold). rewrite Hr in *.
  assert (Har : qasc (first :: rest)) by (rewrite Hold in Ha; apply qasc_app in Ha; apply Ha).
  unfold or_default.
  assert (E0 : forall x, ~ (x == 0)%Q -> Qeq_bool x 0 = false) by (intros x Hx; destruct (Qeq_bool x 0) eqn:E; auto; apply Qeq_bool_iff in E; contradiction).
  rewrite (E0 start Hs), (E0 en He).
  replace (Qle_bool start c) with false by (symmetry; destruct (Qle_bool start c) eqn:E; auto; apply Qle_bool_iff in E; lra).
  destruct (q_bisect_split (first :: rest) start Har) as (l1 & l2 & S1 & S2 & S3 & S4). rewrite S2.
  assert (Hl1 : l1 = []).
  { destruct l1 as [|y l1]; auto. exfalso. inversion S1; subst. specialize (S3 y (or_introl eq_refl)). lra. }
  subst l1. cbn [length]. rewrite Nat.sub_0_r. cbn [Nat.eqb].
  unfold qdiv. destruct (Qeq_bool (en - first) 0) eqn:E; auto. apply Qeq_bool_iff in E. exfalso. apply Hef. lra.
Qed.
Theorem get_rate_none_after ts n c start en now first rest : qasc ts -> (c < start)%Q -> ~ (start == 0)%Q ->
  most_recent n ts = first :: rest -> (last rest first < start)%Q ->
  ra_get_rate (fold_left ra_add ts (ra_new n c)) (Some start) en now =
  if Qeq_bool (last rest first) first then ZeroDivisionError else Ok (inject_Z (Z.of_nat (length (first :: rest))) / (last rest first - first))%Q.
Proof.
  intros Ha Hc Hs Hr Hf. destruct (ra_adds ts n c) as (T & N & C & _). unfold ra_get_rate. rewrite T, C.
  destruct (most_recent_app n ts) as (old & Hold). rewrite Hr in *.
  assert (Har : qasc (first :: rest)) by (rewrite Hold in Ha; apply qasc_app in Ha; apply Ha).
  assert (E0 : or_default (Some start) c = start).
  { unfold or_default. destruct (Qeq_bool start 0) eqn:E; auto. apply Qeq_bool_iff in E. contradiction. }
  rewrite E0. cbv zeta.
  replace (Qle_bool start c) with false by (symmetry; destruct (Qle_bool start c) eqn:E; auto; apply Qle_bool_iff in E; lra).
  destruct (q_bisect_split (first :: rest) start Har) as (l1 & l2 & S1 & S2 & S3 & S4). rewrite S2.
  assert (Hlast : last (first :: rest) first = last rest first) by (destruct rest; auto).
  assert (Hl2 : l2 = []).
  { destruct l2 as [|y l2]; auto. exfalso. specialize (S4 (last (y :: l2) first)).
    assert (El : last (first :: rest) first = last (y :: l2) first).
    { rewrite S1. clear. induction l1 as [|a l1 IH]; auto. cbn [app]. destruct (l1 ++ y :: l2) eqn:E; [destruct l1; discriminate|]. rewrite <- IH. reflexivity. }
    assert (Hin : In (last (y :: l2) first) (y :: l2)).
    { destruct (exists_last (l := y :: l2)) as (m & z & Em); [discriminate|]. rewrite Em, last_last. apply in_or_app. right. left. auto. }
    specialize (S4 Hin). rewrite <- El, Hlast in S4. lra. }
  subst l2. rewrite app_nil_r in S1. rewrite <- S1. replace (length (first :: rest) - length (first :: rest)) with 0 by lia. cbn [Nat.eqb].
  rewrite Hlast. unfold qdiv.
  destruct (Qeq_bool (last rest first - first) 0) eqn:E, (Qeq_bool (last rest first) first) eqn:E2; auto.
  - apply Qeq_bool_iff in E. assert (H : (last rest first == first)%Q) by lra. apply Qeq_bool_iff in H. congruence.
  - apply Qeq_bool_iff in E2. assert (H : (last rest first - first == 0)%Q) by lra. apply Qeq_bool_iff in H. congruence.
Qed.
