(** RateSink: counts and rates of a history. *)
From Coq Require Import Lqa.
From Verif Require Import model.PyBase model.Quantile model.Sinks spec.QuantileSpec spec.SinkSpec proof.DictLemmas proof.SinkProofs proof.SinkProofs2.
Open Scope nat_scope.

Section Lookup.
  Context {K A E : Type} (keq : K -> K -> bool).
  Hypothesis keq_refl : forall a, keq a a = true.
  Hypothesis keq_sym : forall a b, keq a b = keq b a.
  Hypothesis keq_trans : forall a b c, keq a b = true -> keq b c = true -> keq a c = true.
  Context (kof : E -> K) (ev : E -> end_ev) (new : E -> A) (upd : A -> E -> A).
  Definition stat_of (evs : list E) : list (string * A) :=
    fold_left (fun sm e => dupd String.eqb (ee_status (ev e)) (new e) (fun a => upd a e) sm) evs [].
  Definition name_of (evs : list E) : list (string * list (string * A)) :=
    fold_left (fun nm e => dupd String.eqb (ee_name (ev e)) [] (dupd String.eqb (ee_status (ev e)) (new e) (fun a => upd a e)) nm) evs [].
  Lemma name_get evs n : dget String.eqb n (name_of evs) =
    match filter (named ev n) evs with [] => None | _ => Some (stat_of (filter (named ev n) evs)) end.
  Proof.
    induction evs as [|e evs IH] using rev_ind; auto. unfold name_of. rewrite fold_left_app, filter_app. cbn [filter fold_left]. fold (name_of evs).
    rewrite (dget_upd String.eqb String.eqb_sym string_eqb_trans), IH. change (n =? ee_name (ev e))%string with (named ev n e). destruct (named ev n e).
    - unfold stat_of. rewrite fold_left_app. cbn [fold_left]. destruct (filter (named ev n) evs) as [|a l]; reflexivity.
    - rewrite app_nil_r. auto.
  Qed.
  Lemma logger_get evs k : dget keq k (run3 keq kof ev new upd evs) =
    match filter (same_logger keq kof k) evs with [] => None | _ => Some (name_of (filter (same_logger keq kof k) evs)) end.
  Proof.
    induction evs as [|e evs IH] using rev_ind; auto. rewrite run3_snoc, filter_app. cbn [filter]. unfold step3.
    rewrite (dget_upd keq keq_sym keq_trans), IH. change (keq k (kof e)) with (same_logger keq kof k e). destruct (same_logger keq kof k e).
    - unfold name_of. rewrite fold_left_app. cbn [fold_left]. destruct (filter (same_logger keq kof k) evs) as [|a l]; reflexivity.
    - rewrite app_nil_r. auto.
  Qed.
  Lemma in_filter_ne {X} (f : X -> bool) l x : In x l -> f x = true -> filter f l <> [].
  Proof. intros H1 H2 E0. assert (In x (filter f l)) by (apply filter_In; auto). rewrite E0 in *. auto. Qed.

  (** The path of an event. *)
  Lemma path_of evs e : In e evs ->
    exists k, In (k, name_of (filter (same_logger keq kof (kof e)) evs)) (run3 keq kof ev new upd evs) /\ keq (kof e) k = true /\
      In (ee_name (ev e), stat_of (filter (named ev (ee_name (ev e))) (filter (same_logger keq kof (kof e)) evs))) (name_of (filter (same_logger keq kof (kof e)) evs)) /\
      exists e0 l, filter (with_status ev (ee_status (ev e))) (filter (named ev (ee_name (ev e))) (filter (same_logger keq kof (kof e)) evs)) = e0 :: l /\
      In (ee_status (ev e), fold_left upd (e0 :: l) (new e0)) (stat_of (filter (named ev (ee_name (ev e))) (filter (same_logger keq kof (kof e)) evs))).
  Proof.
    intros He.
    assert (H1 : In e (filter (same_logger keq kof (kof e)) evs)) by (apply filter_In; split; auto; apply keq_refl).
    assert (H2 : In e (filter (named ev (ee_name (ev e))) (filter (same_logger keq kof (kof e)) evs))) by (apply filter_In; split; auto; apply String.eqb_refl).
    assert (H3 : In e (filter (with_status ev (ee_status (ev e))) (filter (named ev (ee_name (ev e))) (filter (same_logger keq kof (kof e)) evs)))) by (apply filter_In; split; auto; apply String.eqb_refl).
    pose proof (logger_get evs (kof e)) as G1. destruct (filter (same_logger keq kof (kof e)) evs) as [|x l] eqn:F1; [destruct H1|]. rewrite <- F1 in *.
    destruct (dget_in _ _ _ _ G1) as (k & K1 & K2). exists k. split; auto. split; auto.
    pose proof (name_get (filter (same_logger keq kof (kof e)) evs) (ee_name (ev e))) as G2.
    destruct (filter (named ev (ee_name (ev e))) (filter (same_logger keq kof (kof e)) evs)) as [|x2 l2] eqn:F2; [destruct H2|]. rewrite <- F2 in *.
    split; [apply dget_string_in; auto|].
    pose proof (status_get ev new upd (filter (named ev (ee_name (ev e))) (filter (same_logger keq kof (kof e)) evs)) (ee_status (ev e))) as G3.
    destruct (filter (with_status ev (ee_status (ev e))) (filter (named ev (ee_name (ev e))) (filter (same_logger keq kof (kof e)) evs))) as [|x3 l3] eqn:F3; [destruct H3|].
    exists x3, l3. split; auto. apply dget_string_in. exact G3.
  Qed.
End Lookup.

Lemma run3_well_keyed {A E} (ev : E -> end_ev) (new : E -> A) upd evs : distinct_names (map ev evs) -> no_reserved (map ev evs) -> well_keyed (run3 logger_eqb (fun e => ee_logger (ev e)) ev new upd evs).
Proof.
  intros Hd Hr. destruct (run3_wf logger_eqb logger_eqb_refl logger_eqb_sym logger_eqb_trans (fun e => ee_logger (ev e)) ev new upd evs) as [W1 W2]. pose proof (run3_keys logger_eqb logger_eqb_refl (fun e => ee_logger (ev e)) ev new upd evs) as HK. split; auto. split.
  - intros k k' v v' H H' HE. destruct (HK k v H) as [(e & He & <-) _]. destruct (HK k' v' H') as [(e' & He' & <-) _]. apply (Hd (ev e) (ev e')); auto using in_map.
  - intros k v H. destruct (HK k v H) as [(e & He & Ek) Hn]. split; [rewrite <- Ek; apply Hr; auto using in_map|]. destruct (W2 k v H) as [N1 N2]. split; auto.
    intros n sm Hin. destruct (Hn n sm Hin) as [(e' & He' & En) Hs]. split; [rewrite <- En; apply Hr; auto using in_map|]. split; [eapply N2; eauto|].
    intros st a Hst. destruct (Hs st a Hst) as (e'' & He'' & <-). apply Hr; auto using in_map.
Qed.

(** ** RateSink *)
Definition rs_upd (a : rate_acc) (p : Q * end_ev) : rate_acc := match ee_value (snd p) with Some v => ra_add a v | None => a end.
Definition rs_fresh (size : option nat) (p : Q * end_ev) : rate_acc := ra_new size (fst p).
Lemma rs_run_eq size t0 evs : rs_run size t0 evs = mkRS size (run3 logger_eqb (fun p : Q * end_ev => ee_logger (snd p)) snd (rs_fresh size) rs_upd evs) t0.
Proof.
  induction evs as [|[t e] evs IH] using rev_ind; auto. unfold rs_run in *. rewrite fold_left_app, IH, run3_snoc. reflexivity.
Qed.
Lemma fold_add_nat {P} (f : P -> nat) l : forall z, fold_left (fun t p => t + f p) l z = z + list_sum (map f l).
Proof. induction l as [|p l IH]; intros z; simpl; [lia|]. rewrite IH. lia. Qed.
Definition w1 (p : Q * end_ev) : nat := if answered (snd p) then 1 else 0.
Lemma sum_w1 evs : list_sum (map w1 evs) = count_if answered (map snd evs).
Proof. unfold count_if, w1. induction evs as [|[t e] evs IH]; auto. simpl. destruct (answered e); simpl; rewrite IH; auto. Qed.
Lemma filter_map_swap {X Y} (g : X -> Y) (f : Y -> bool) l : filter f (map g l) = map g (filter (fun x => f (g x)) l).
Proof. induction l as [|x l IH]; auto. simpl. rewrite IH. destruct (f (g x)); auto. Qed.
Lemma filter_filter_and {X} (f g : X -> bool) l : filter f (filter g l) = filter (fun x => g x && f x) l.
Proof. induction l as [|x l IH]; auto. simpl. destruct (g x); simpl; rewrite IH; auto. Qed.

Lemma same_logger_name {E} (ev : E -> end_ev) evs e : distinct_names (map ev evs) -> In e evs ->
  filter (same_logger logger_eqb (fun e => ee_logger (ev e)) (ee_logger (ev e))) evs = filter (fun x => of_logger (snd (ee_logger (ev e))) (ev x)) evs.
Proof.
  intros Hd He. apply filter_ext_in. intros x Hx. unfold same_logger, of_logger, logger_eqb. apply Bool.eq_iff_eq_true. rewrite Nat.eqb_eq, String.eqb_eq.
  apply Hd; apply in_map; auto.
Qed.

Theorem rs_totals size t0 evs : distinct_names (map snd evs) -> no_reserved (map snd evs) ->
  let t := rs_total_counts (rs_run size t0 evs) in
  entry t ["__all__"] = Some (count_if answered (map snd evs)) /\
  forall e, In e (map snd evs) ->
    entry t [snd (ee_logger e); "__all__"] = Some (count_if answered (filter (of_logger (snd (ee_logger e))) (map snd evs))) /\
    entry t [snd (ee_logger e); ee_name e; "__all__"] = Some (count_if answered (filter (of_name (snd (ee_logger e)) (ee_name e)) (map snd evs))) /\
    entry t [snd (ee_logger e); ee_name e; ee_status e] = Some (count_if answered (filter (of_status (snd (ee_logger e)) (ee_name e) (ee_status e)) (map snd evs))).
Proof.
  intros Hd Hr t. unfold t. rewrite rs_run_eq. unfold rs_total_counts. cbn [rs_map]. clear t t0.
  pose proof (run3_well_keyed snd (rs_fresh size) rs_upd evs Hd Hr) as W. destruct (group_entries ra_total Nat.add 0 _ W) as [G1 G2].
  assert (Hu : forall a e, ra_total (rs_upd a e) = ra_total a + w1 e) by (intros a [tt e]; unfold rs_upd, w1, answered; cbn [snd]; destruct (ee_value e); cbn [ra_total ra_add]; lia).
  assert (Hn : forall e, ra_total (rs_fresh size e) = 0) by auto.
  assert (F1 : forall sm, fold_leaves ra_total Nat.add 0 sm = S1 ra_total sm) by (intros; unfold fold_leaves; rewrite fold_add_nat; reflexivity).
  assert (F2 : forall nm, fold_names ra_total Nat.add 0 nm = S2 ra_total nm) by (intros nm; unfold fold_names; rewrite fold_add_nat; unfold S2; cbn [Nat.add]; f_equal; apply map_ext; intros; apply F1).
  assert (F3 : forall m, fold_all ra_total Nat.add 0 m = S3 ra_total m) by (intros m; unfold fold_all; rewrite fold_add_nat; unfold S3; cbn [Nat.add]; f_equal; apply map_ext; intros; apply F2).
  split; [rewrite G1, F3, (S3_run logger_eqb (fun p : Q * end_ev => ee_logger (snd p)) snd (rs_fresh size) rs_upd ra_total Hn w1 Hu), sum_w1; reflexivity|].
  intros e He. apply in_map_iff in He. destruct He as (te & Et & He).
  destruct (path_of logger_eqb logger_eqb_refl logger_eqb_sym logger_eqb_trans (fun p : Q * end_ev => ee_logger (snd p)) snd (rs_fresh size) rs_upd evs te He) as (k & K1 & K2 & K3 & e0 & l & K4 & K5).
  assert (Ek : snd k = snd (ee_logger e)).
  { destruct (run3_keys logger_eqb logger_eqb_refl (fun p : Q * end_ev => ee_logger (snd p)) snd (rs_fresh size) rs_upd evs k _ K1) as [(x & Hx & Ex) _]. apply Nat.eqb_eq in K2. rewrite Et in K2. rewrite <- Ex in *.
    symmetry. apply (Hd e (snd x)); auto. - rewrite <- Et. apply in_map; auto. - apply in_map; auto. }
  rewrite (same_logger_name snd evs te Hd He) in *. rewrite Et in *.
  destruct (G2 k _ K1) as [H1 H2]. destruct (H2 _ _ K3) as [H3 H4]. specialize (H4 _ _ K5). rewrite Ek in *.
  rewrite H1, H3, H4, F1, F2. unfold name_of, stat_of.
  rewrite (S2_run snd (rs_fresh size) rs_upd ra_total Hn w1 Hu), (S1_run snd (rs_fresh size) rs_upd ra_total Hn w1 Hu).
  rewrite !sum_w1, !filter_map_swap, !filter_filter_and. split; auto. split; auto. f_equal.
  assert (T : forall l a, ra_total (fold_left rs_upd l a) = ra_total a + list_sum (map w1 l)).
  { induction l0 as [|x l0 IH]; intros a; simpl; [lia|]. rewrite IH, Hu. lia. }
  rewrite T, <- K4. change (ra_total (rs_fresh size e0)) with 0. rewrite Nat.add_0_l, sum_w1, !filter_filter_and. do 2 f_equal. apply filter_ext. intros x. unfold of_status, of_name. rewrite <- andb_assoc. reflexivity.
Qed.
