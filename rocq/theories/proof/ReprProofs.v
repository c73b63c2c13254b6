(** C107: the accumulators of a RateSink as one list. *)
From Coq Require Import Lqa.
From Verif Require Import model.PyBase model.Quantile model.Sinks spec.QuantileSpec spec.SinkSpec proof.DictLemmas proof.SinkProofs proof.SinkProofs2 proof.SinkProofs4 model.Reprs spec.ReprSpec.
Open Scope nat_scope.

(** One member is changed by [F], or a new one is changed and put in. *)
Definition one_step {A} (F : A -> A) (new : A) (l l' : list A) : Prop :=
  exists l1 l2, (exists a, l = l1 ++ a :: l2 /\ l' = l1 ++ F a :: l2) \/ (l = l1 ++ l2 /\ l' = l1 ++ F new :: l2).
Lemma one_step_mid {A} (F : A -> A) new p l l' q : one_step F new l l' -> one_step F new (p ++ l ++ q) (p ++ l' ++ q).
Proof.
  intros (l1 & l2 & [(a & -> & ->)|[-> ->]]); exists (p ++ l1), (l2 ++ q); [left; exists a|right]; rewrite <- !app_assoc; auto.
Qed.
Lemma dset_cases {K V} (eqb : K -> K -> bool) k (f : V -> V) default : forall d,
  (exists d1 k' v d2, d = d1 ++ (k', v) :: d2 /\ dupd eqb k default f d = d1 ++ (k', f v) :: d2) \/ dupd eqb k default f d = d ++ [(k, f default)].
Proof.
  unfold dupd. induction d as [|[k' v] d IH]; [right; reflexivity|]. cbn [dget dset]. destruct (eqb k k').
  - left. exists [], k', v, d. auto.
  - destruct IH as [(d1 & k1 & v1 & d2 & -> & E)|E].
    + left. exists ((k', v) :: d1), k1, v1, d2. rewrite E. auto.
    + right. rewrite E. reflexivity.
Qed.
Lemma one_step_dupd {K V A} (eqb : K -> K -> bool) k default (g : V -> V) (lv : V -> list A) F new d :
  (forall v, one_step F new (lv v) (lv (g v))) -> one_step F new [] (lv (g default)) ->
  one_step F new (flat_map (fun p => lv (snd p)) d) (flat_map (fun p => lv (snd p)) (dupd eqb k default g d)).
Proof.
  intros H0 H1. destruct (dset_cases eqb k g default d) as [(d1 & k' & v & d2 & -> & ->)| ->].
  - rewrite !flat_map_app. cbn [flat_map snd]. apply one_step_mid, H0.
  - rewrite flat_map_app. cbn [flat_map snd]. rewrite <- (app_nil_r (flat_map _ d)) at 1. rewrite <- (app_nil_l (@nil A)) at 1. apply one_step_mid, H1.
Qed.

(** All accumulators of a sink. *)
Definition accs (m : rate_map) : list rate_acc := flat_map (fun p => flat_map (fun q => flat_map (fun r => [snd r]) (snd q)) (snd p)) m.
Definition change (e : end_ev) (a : rate_acc) : rate_acc := match ee_value e with Some v => ra_add a v | None => a end.
Lemma accs_step now s e : one_step (change e) (ra_new (rs_size s) now) (accs (rs_map s)) (accs (rs_map (rs_on_end now s e))).
Proof.
  assert (X : forall sm, one_step (change e) (ra_new (rs_size s) now) (flat_map (fun r => [snd r]) sm)
     (flat_map (fun r => [snd r]) (dupd String.eqb (ee_status e) (ra_new (rs_size s) now) (change e) sm))).
  { intros sm. apply (one_step_dupd String.eqb (ee_status e) (ra_new (rs_size s) now) (change e) (fun a => [a])).
    - intros v. exists [], []. left. exists v. auto.
    - exists [], []. right. auto. }
  assert (Y : forall nm, one_step (change e) (ra_new (rs_size s) now) (flat_map (fun q => flat_map (fun r => [snd r]) (snd q)) nm)
     (flat_map (fun q => flat_map (fun r => [snd r]) (snd q)) (dupd String.eqb (ee_name e) [] (dupd String.eqb (ee_status e) (ra_new (rs_size s) now) (change e)) nm))).
  { intros nm. apply (one_step_dupd String.eqb (ee_name e) [] _ (fun sm => flat_map (fun r => [snd r]) sm)); [exact X|exact (X [])]. }
  unfold accs, rs_on_end. cbn [rs_map].
  apply (one_step_dupd logger_eqb (ee_logger e) [] _ (fun nm => flat_map (fun q => flat_map (fun r => [snd r]) (snd q)) nm)); [exact Y|exact (Y [])].
Qed.

(** What holds of each accumulator of a sink made at [c]. *)
Definition acc_ok (c : Q) (a : rate_acc) : Prop := (c <= ra_created a)%Q /\ ra_max a <> Some 0 /\ (ra_times a = [] <-> ra_total a = 0).
Lemma change_ok c e a : acc_ok c a -> acc_ok c (change e a).
Proof.
  intros (C & M & T). unfold change. destruct (ee_value e) as [v|]; [|repeat split; auto; apply T].
  unfold acc_ok, ra_add. cbn [ra_created ra_max ra_times ra_total]. split; [exact C|]. split; [exact M|]. split; [|discriminate].
  intros H. exfalso. destruct (ra_max a) as [[|m]|]; [congruence| |].
  - apply (f_equal (@length Q)) in H. unfold dq_append in H. rewrite skipn_length, app_length in H. cbn [length] in H. lia.
  - unfold dq_append in H. destruct (ra_times a); discriminate.
Qed.
Lemma change_total e a : ra_total (change e a) = (if answered e then 1 else 0) + ra_total a.
Proof. unfold change, answered. destruct (ee_value e); reflexivity. Qed.
Definition total_of (l : list rate_acc) : nat := list_sum (map ra_total l).
Lemma accs_run size c : size <> Some 0 -> forall evs, not_before c evs ->
  let s := rs_run size c evs in rs_size s = size /\ rs_created s = c /\ Forall (acc_ok c) (accs (rs_map s)) /\ total_of (accs (rs_map s)) = count_if answered (map snd evs).
Proof.
  intros NZ evs. induction evs as [|[t e] evs IH] using rev_ind; intros NB; cbv zeta.
  - repeat split. constructor.
  - destruct IH as (S0 & C0 & F & T). { intros t' e' H. apply (NB t' e'), in_or_app. auto. }
    unfold rs_run in *. rewrite fold_left_app. cbn [fold_left fst snd]. remember (fold_left (fun s p => rs_on_end (fst p) s (snd p)) evs (rs_new size c)) as s eqn:ES. clear ES.
    split; [exact S0|]. split; [exact C0|].
    assert (CT : (c <= t)%Q) by (apply (NB t e), in_or_app; right; left; reflexivity).
    assert (NEW : acc_ok c (ra_new (rs_size s) t)) by (repeat split; auto; rewrite S0; exact NZ).
    rewrite map_app, count_app, <- T. cbn [map snd].
    assert (CE : count_if answered [e] = if answered e then 1 else 0) by (unfold count_if; cbn [filter]; destruct (answered e); reflexivity).
    rewrite CE. destruct (accs_step t s e) as (l1 & l2 & [(a & E1 & E2)|[E1 E2]]); rewrite E1, E2 in *; unfold total_of; rewrite !map_app, !list_sum_app; cbn [map list_sum fold_right] in *;
      fold (list_sum (map ra_total l2)); rewrite change_total.
    + apply Forall_app in F. destruct F as [F1 F2]. pose proof (Forall_inv F2). pose proof (Forall_inv_tail F2). split; [apply Forall_app; split; auto; constructor; auto; apply change_ok; auto|]. lia.
    + apply Forall_app in F. destruct F as [F1 F2]. split; [apply Forall_app; split; auto; constructor; auto; apply change_ok; auto|]. cbn [ra_new ra_total]. lia.
Qed.

(** Sums over groups are sums over accumulators. *)
Lemma all_entry_group {A V} (leaf : A -> V) add zero m : all_entry (group_all leaf add zero m) = Some (fold_all leaf add zero m).
Proof. rewrite group_all_eq. cbn [all_entry]. induction (build _ _ m []) as [|[k v] d IH]; [reflexivity|]. cbn [dset]. destruct (String.eqb "__all__" k) eqn:E; cbn [dget]; rewrite E; auto. Qed.
Lemma fold_plus {P} (f : P -> nat) l : forall z, fold_left (fun t p => t + f p) l z = z + list_sum (map f l).
Proof. induction l as [|p l IH]; intros z; cbn [fold_left map list_sum fold_right]; [lia|]. rewrite IH. fold (list_sum (map f l)). lia. Qed.
Lemma fold_all_nat m : fold_all ra_total Nat.add 0 m = total_of (accs m).
Proof.
  unfold fold_all, accs, total_of. rewrite fold_plus. cbn [Nat.add]. induction m as [|[k nm] m IH]; [reflexivity|]. cbn [map flat_map snd]. rewrite map_app, list_sum_app, <- IH. cbn [list_sum fold_right]. f_equal. clear.
  unfold fold_names. rewrite fold_plus. cbn [Nat.add]. induction nm as [|[k sm] m IH]; [reflexivity|]. cbn [map flat_map snd]. rewrite map_app, list_sum_app, <- IH. cbn [list_sum fold_right]. f_equal. clear.
  unfold fold_leaves. rewrite fold_plus. cbn [Nat.add]. induction sm as [|[k a] m IH]; [reflexivity|]. cbn [map flat_map snd app]. cbn [list_sum fold_right] in *. f_equal. exact IH.
Qed.
Lemma qsum_app a b : (qsum (a ++ b) == qsum a + qsum b)%Q.
Proof. induction a as [|x a IH]; cbn [app qsum fold_right]; [fold (qsum b); lra|]. fold (qsum (a ++ b)) (qsum a). rewrite IH. lra. Qed.
Lemma fold_all_q (f : rate_acc -> Q) m : (fold_all f Qplus 0 m == qsum (map f (accs m)))%Q.
Proof.
  unfold fold_all, accs. rewrite fold_qplus, Qplus_0_l. induction m as [|[k nm] m IH]; [reflexivity|]. cbn [map flat_map snd]. rewrite map_app, qsum_app, <- IH. cbn [qsum fold_right]. apply Qplus_comp; [|reflexivity]. clear.
  unfold fold_names. rewrite fold_qplus, Qplus_0_l. induction nm as [|[k sm] m IH]; [reflexivity|]. cbn [map flat_map snd]. rewrite map_app, qsum_app, <- IH. cbn [qsum fold_right]. apply Qplus_comp; [|reflexivity]. clear.
  unfold fold_leaves. rewrite fold_qplus, Qplus_0_l. induction sm as [|[k a] m IH]; [reflexivity|]. cbn [map flat_map snd app]. cbn [qsum fold_right] in *. apply Qplus_comp; [reflexivity|exact IH].
Qed.
Lemma leaf_rates_accs s c t now : rs_leaf_rates s c t now = map (fun a => ra_get_rate a (Some c) (Some t) now) (accs (rs_map s)).
Proof.
  unfold rs_leaf_rates, accs. induction (rs_map s) as [|[k nm] m IH]; [reflexivity|]. cbn [flat_map snd]. rewrite map_app, <- IH. f_equal. clear.
  induction nm as [|[k sm] m IH]; [reflexivity|]. cbn [flat_map snd]. rewrite map_app, <- IH. f_equal. clear.
  induction sm as [|[k a] m IH]; [reflexivity|]. cbn [flat_map map snd app]. f_equal. exact IH.
Qed.
(** The rate of one accumulator over the life of the sink. *)
Lemma acc_rate c now a : acc_ok c a -> ~ (c == 0)%Q -> ~ (now == 0)%Q ->
  ra_get_rate a (Some c) (Some now) now = if ra_total a =? 0 then Ok 0%Q else qdiv (inject_Z (Z.of_nat (ra_total a))) (now - c).
Proof.
  intros (C & _ & T) Hc Hn. unfold ra_get_rate. destruct (ra_times a) as [|f r] eqn:E.
  - rewrite (proj1 T eq_refl). reflexivity.
  - destruct (ra_total a) as [|n] eqn:E'; [destruct T as [_ T]; discriminate (T eq_refl)|]. cbn [Nat.eqb or_default].
    assert (X : forall q, ~ (q == 0)%Q -> Qeq_bool q 0 = false) by (intros q H; destruct (Qeq_bool q 0) eqn:B; auto; apply Qeq_bool_iff in B; contradiction).
    rewrite (X c Hc), (X now Hn). replace (Qle_bool c (ra_created a)) with true by (symmetry; apply Qle_bool_iff, C). reflexivity.
Qed.
