From Coq Require Import Lqa.
From Verif Require Import model.PyBase model.Bisect model.Levels model.Quantile spec.QuantileSpec proof.QuantileProofs proof.QuantileProofs2 proof.P2Proofs.
Open Scope nat_scope.

(** ** the points are processed twice *)
Lemma dedup_len l : forall seen, length (qp_dedup seen l) <= length l.
Proof. induction l as [|p l IH]; intros seen; simpl; auto. destruct (existsb _ seen); [specialize (IH seen) | specialize (IH (qp_key p :: seen))]; simpl; lia. Qed.
Lemma vals_exist (l : list qpoint) qs : (forall p, In p l -> exists q, qp_val p = Some q /\ In q qs) ->
  exists vs, map qp_val l = map Some vs /\ (forall v, In v vs -> In v qs) /\ length vs = length l.
Proof.
  induction l as [|p l IH]; intros H; [exists []; split; auto; split; auto; intros ? []|].
  destruct IH as (vs & E & I1 & L); [intros; apply H; right; auto|]. destruct (H p (or_introl eq_refl)) as (q & Eq & Hq).
  exists (q :: vs). split; [simpl; congruence|]. split; [intros v [<-|Hv]; auto | simpl; congruence].
Qed.
Lemma process_again qs : qs <> [] -> Forall in01 qs ->
  exists l, process_q_points (as_qpoints qs) = Ok l /\ length l <= length qs /\ (forall x, In x l -> In x qs) /\
    (forall x, In x qs -> exists y, In y l /\ (x == y)%Q).
Proof.
  intros Hne Hi. rewrite process_trim. destruct (dedup_spec (as_qpoints qs) []) as (D1 & D2 & D3).
  destruct (vals_exist (qp_dedup [] (as_qpoints qs)) qs) as (vs & Ev & Hv & Lv).
  { intros p Hp. apply D2 in Hp. destruct Hp as [Hp _]. unfold as_qpoints in Hp. apply in_map_iff in Hp. destruct Hp as (q & <- & Hq). exists q. auto. }
  rewrite (proj2 (all_vals_spec _ _) Ev). destruct (qsort_spec vs) as [A P].
  assert (Hin : Forall in01 vs) by (rewrite Forall_forall in *; auto).
  assert (Hcov : forall x, In x qs -> exists y, In y vs /\ (x == y)%Q).
  { intros x Hx. assert (Hp : In (mkQp (first_index x qs) (Some x)) (as_qpoints qs)) by (apply in_map_iff; eauto).
    destruct (D3 _ Hp (fun f => f)) as (p' & Hp' & Hk). cbn [qp_key] in Hk.
    pose proof (proj1 (D2 p' Hp')) as Hq. apply in_map_iff in Hq. destruct Hq as (y & <- & Hy). cbn [qp_key] in Hk.
    exists y. split.
    - assert (Hs : In (Some y) (map Some vs)) by (rewrite <- Ev; apply in_map_iff; eexists; split; [|exact Hp']; reflexivity).
      apply in_map_iff in Hs. destruct Hs as (z & Ez & Hz). inversion Ez; subst; auto.
    - clear - Hk Hx Hy. revert Hk Hx Hy. generalize qs. induction qs0 as [|z l IH]; intros Hk Hx Hy; [destruct Hx|]. simpl in Hk.
      destruct (Qeq_bool y z) eqn:Ey, (Qeq_bool x z) eqn:Ex; try discriminate.
      + apply Qeq_bool_iff in Ey, Ex. rewrite Ex, Ey. reflexivity.
      + destruct Hx as [->|Hx]; [rewrite (proj2 (Qeq_bool_iff x x) (Qeq_refl x)) in Ex; discriminate|].
        destruct Hy as [->|Hy]; [rewrite (proj2 (Qeq_bool_iff y y) (Qeq_refl y)) in Ey; discriminate|]. apply IH; auto. }
  destruct (trim_complete (qsort vs) [] vs []) as (l & El & Pl); auto.
  - left; auto.
  - left; auto.
  - simpl. rewrite app_nil_r. apply Permutation_sym, P.
  - intros ->. destruct qs as [|q qs]; [congruence|]. destruct (Hcov q (or_introl eq_refl)) as (y & [] & _).
  - exists l. split; auto. split; [rewrite <- (Permutation_length Pl), Lv; rewrite dedup_len; unfold as_qpoints; rewrite map_length; auto|].
    split.
    + intros x Hx. apply Hv. eapply Permutation_in; [apply Permutation_sym; exact Pl | auto].
    + intros x Hx. destruct (Hcov x Hx) as (y & Hy & E). exists y. split; auto. eapply Permutation_in; eauto.
Qed.

(** ** the accumulator *)
Lemma p2a_run_app rnd ops1 : forall s ops2, p2a_run rnd s (ops1 ++ ops2) = let? s1 := p2a_run rnd s ops1 in p2a_run rnd s1 ops2.
Proof.
  induction ops1 as [|o ops1 IH]; intros s ops2; auto. destruct o as [v|q]; cbn [app p2a_run]; auto.
  destruct (p2a_add rnd s v); auto. cbn [rbind]. auto.
Qed.
Lemma padded_app a b : padded (a ++ b) = padded a ++ padded b.
Proof. induction a as [|[v|q] a IH]; auto. cbn [app padded]. rewrite IH. auto. Qed.
Lemma r_run_app1 rnd ops s o : r_run rnd (r_new None) ops = Ok s -> r_run rnd (r_new None) (ops ++ [o]) = r_run rnd s [o].
Proof. intros H. rewrite r_run_app, H. reflexivity. Qed.

(** What the accumulator [s] holds after the operations [ops]; [qs] are the
    tracked points, [qs2] those of the estimator. *)
Definition p2a_inv (rnd : Q -> Q) (qs qs2 : list Q) (ops : list pop) (s : p2acc) : Prop :=
  pa_qps s = qs /\ describes (pa_base s) (skipn (length qs + 2) (padded ops)) /\
  if length (padded ops) <? length qs + 2 then
    exists tmp rops, pa_phase s = Warm tmp /\ r_run rnd (r_new None) rops = Ok tmp /\ added rops = padded ops
  else
    exists e data, pa_phase s = Est e /\
      Permutation data (map rnd (firstn (length qs + 2) (padded ops))) /\
      p2_inv (0%Q :: qs2 ++ [1%Q]) (data ++ skipn (length qs + 2) (padded ops)) e.
Lemma p2a_run_ok rnd q_points qs s0 : process_q_points q_points = Ok qs -> p2a_new q_points = Ok s0 ->
  exists qs2, process_q_points (as_qpoints qs) = Ok qs2 /\ length qs2 <= length qs /\
  (forall x, In x qs2 -> In x qs) /\ (forall x, In x qs -> exists y, In y qs2 /\ (x == y)%Q) /\
  forall ops, exists s, p2a_run rnd s0 ops = Ok s /\ p2a_inv rnd qs qs2 ops s.
Proof.
  intros Hq Hn. unfold p2a_new in Hn. rewrite Hq in Hn. cbn [rbind] in Hn. inversion Hn; subst s0. clear Hn.
  assert (Hqs : qs <> [] /\ Forall in01 qs). { destruct (process_sound _ _ Hq) as (_ & vs & _ & zs & os & _ & _ & _ & Hne & Hi). auto. }
  destruct Hqs as [Hne Hi]. destruct (process_again qs Hne Hi) as (qs2 & Hq2 & L2 & In2 & Cov2). exists qs2. split; auto. split; auto. split; auto. split; auto.
  induction ops as [|o ops IH] using rev_ind.
  - eexists. split; [reflexivity|]. split; auto. split; [simpl; rewrite skipn_nil; apply base_new_describes|].
    replace (length (padded []) <? length qs + 2) with true by (symmetry; apply Nat.ltb_lt; simpl; lia).
    exists (r_new None), []. auto.
  - destruct IH as (s & E & Iq & Id & Ip). rewrite p2a_run_app, E. cbn [rbind].
    unfold p2a_inv in *. rewrite padded_app. set (k := length qs + 2) in *. set (l := padded ops) in *.
    destruct o as [v|q]; cbn [p2a_run padded].
    + unfold p2a_add. rewrite app_length. cbn [length]. destruct (length l <? k) eqn:Ek.
      * apply Nat.ltb_lt in Ek. destruct Ip as (tmp & rops & Et & Er & Ea). rewrite Et.
        destruct (uncapped_run rnd (rops ++ [RAdd v 0])) as (tmp1 & E1 & S1 & C1 & P1 & D1).
        rewrite (r_run_app1 rnd rops tmp (RAdd v 0) Er) in E1. cbn [r_run] in E1.
        destruct (r_add rnd 0 tmp v) as [t1| | |] eqn:Ert; try discriminate. cbn [rbind] in E1. inversion E1; subst t1. clear E1. cbn [rbind].
        assert (Ha1 : added (rops ++ [RAdd v 0]) = l ++ [v]).
        { unfold added in *. rewrite r_adds_of_app, map_app. cbn. congruence. }
        rewrite Ha1 in *. destruct D1 as (Dc & Dd). rewrite Dc, Iq, app_length. cbn [length]. fold k.
        destruct (k <=? length l + 1) eqn:El.
        -- apply Nat.leb_le in El. assert (Hk : length l + 1 = k) by lia.
           destruct (p2_new_ok (as_qpoints qs) qs2 (r_data tmp1) Hq2) as (e & Ee & Ie).
           { rewrite (Permutation_length P1), map_length, app_length. simpl. lia. }
           rewrite Ee. cbn [rbind]. eexists. split; [reflexivity|]. cbn [pa_qps pa_base pa_phase]. split; auto.
           assert (Hsk : skipn k (l ++ [v]) = []) by (apply skipn_all2; rewrite app_length; simpl; lia).
           split; [rewrite Hsk; rewrite skipn_all2 in Id by lia; auto|].
           replace (length l + 1 <? k) with false by (symmetry; apply Nat.ltb_ge; lia).
           exists e, (r_data tmp1). split; auto. split; [rewrite firstn_all2 by (rewrite app_length; simpl; lia); auto|].
           rewrite Hsk, app_nil_r. auto.
        -- apply Nat.leb_gt in El. eexists. split; [reflexivity|]. cbn [pa_qps pa_base pa_phase]. split; auto.
           split; [rewrite skipn_all2 by (rewrite app_length; simpl; lia); rewrite skipn_all2 in Id by lia; auto|].
           replace (length l + 1 <? k) with true by (symmetry; apply Nat.ltb_lt; lia).
           exists tmp1, (rops ++ [RAdd v 0]). split; auto. split; auto. rewrite (r_run_app1 rnd rops tmp _ Er). cbn [r_run]. rewrite Ert. auto.
      * apply Nat.ltb_ge in Ek. destruct Ip as (e & data & Ee & Pd & Ie). rewrite Ee.
        destruct (p2_add_ok _ _ e v Ie) as (e1 & E1 & I1). rewrite E1. cbn [rbind]. eexists. split; [reflexivity|]. cbn [pa_qps pa_base pa_phase].
        rewrite skipn_app, firstn_app. replace (k - length l) with 0 by lia. cbn [skipn firstn].
        split; auto. split; [apply base_add_describes; auto|].
        replace (length l + 1 <? k) with false by (symmetry; apply Nat.ltb_ge; lia).
        exists e1, data. split; auto. rewrite app_nil_r. split; auto. rewrite app_assoc. auto.
    + rewrite app_nil_r. eexists. split; [reflexivity|]. unfold p2a_get_quantile. destruct (length l <? k).
      * destruct Ip as (tmp & rops & Et & Er & Ea). rewrite Et. destruct (r_get_quantile tmp q) as [tmp1 r] eqn:Eg.
        cbn [fst pa_qps pa_base pa_phase]. split; auto. split; auto. exists tmp1, (rops ++ [RQuantile q]). split; auto.
        split; [rewrite (r_run_app1 rnd rops tmp _ Er); cbn [r_run]; rewrite Eg; auto|].
        unfold added in *. rewrite r_adds_of_app, map_app. cbn. rewrite app_nil_r. auto.
      * destruct Ip as (e & data & Ee & Ip). rewrite Ee. cbn [fst]. rewrite Ee. split; auto. split; auto. exists e, data. auto.
Qed.

(** ** lookups *)
Lemma find_last_in q l : (exists v, In (q, v) l) -> exists q' v, find_last q l = Some v /\ In (q', v) l /\ (q == q')%Q.
Proof.
  induction l as [|[a b] l IH]; intros (v & Hv); [destruct Hv|]. simpl.
  destruct (find_last q l) as [w|] eqn:E.
  - assert (Hw : exists q', In (q', w) l /\ (q == q')%Q).
    { clear - E. revert w E. induction l as [|[c d] l IH]; intros w E; [discriminate|]. simpl in E.
      destruct (find_last q l) as [u|] eqn:Eu; [inversion E; subst; destruct (IH w eq_refl) as (q' & H1 & H2); exists q'; split; [right|]; auto|].
      destruct (Qeq_bool q c) eqn:Eq; [|discriminate]. inversion E; subst. exists c. split; [left; auto|]. apply Qeq_bool_iff; auto. }
    destruct Hw as (q' & H1 & H2). exists q', w. split; [auto|]. split; [right; auto | auto].
  - destruct Hv as [Hv|Hv].
    + inversion Hv; subst. rewrite (proj2 (Qeq_bool_iff q q) (Qeq_refl q)). exists q, v. split; auto. split; [left; auto | apply Qeq_refl].
    + destruct (IH (ex_intro _ v Hv)) as (q' & w & H & _). discriminate.
Qed.
Lemma find_last_some q l v : find_last q l = Some v -> exists i q', nth_error l i = Some (q', v) /\ (q == q')%Q /\
  (forall j q'' v'', nth_error l j = Some (q'', v'') -> (q == q'')%Q -> j <= i).
Proof.
  revert v. induction l as [|[c d] l IH]; intros v E; [discriminate|]. simpl in E.
  destruct (find_last q l) as [u|] eqn:Eu.
  - inversion E; subst. destruct (IH v eq_refl) as (i & q' & H1 & H2 & H3). exists (S i), q'. split; auto. split; auto.
    intros [|j] q'' v'' Hj Hq; [lia|]. specialize (H3 j q'' v'' Hj Hq). lia.
  - destruct (Qeq_bool q c) eqn:Eq; [|discriminate]. inversion E; subst. exists 0, c. split; auto. split; [apply Qeq_bool_iff; auto|].
    intros [|j] q'' v'' Hj Hq; [lia|]. exfalso. cbn [nth_error] in Hj. clear - Eu Hj Hq. revert j Hj. induction l as [|[a b] l IH]; intros j Hj; [destruct j; discriminate|].
    simpl in Eu. destruct (find_last q l) eqn:E1; [discriminate|]. destruct (Qeq_bool q a) eqn:Ea; [discriminate|].
    destruct j as [|j]; cbn [nth_error] in Hj; [inversion Hj; subst; apply Qeq_bool_iff in Hq; congruence|]. eapply IH; eauto.
Qed.
Lemma find_last_none q l : (forall q' v, In (q', v) l -> ~ (q == q')%Q) -> find_last q l = None.
Proof.
  intros H. induction l as [|[a b] l IH]; auto. simpl. rewrite IH by (intros; eapply H; right; eauto).
  destruct (Qeq_bool q a) eqn:E; auto. exfalso. apply (H a b); [left; auto | apply Qeq_bool_iff; auto].
Qed.
Lemma nth_combine {A B} (a : list A) (b : list B) i x y : nth_error (combine a b) i = Some (x, y) -> nth_error a i = Some x /\ nth_error b i = Some y.
Proof.
  revert a b. induction i as [|i IH]; intros [|u a] [|w b] H; try discriminate; simpl in *; [inversion H; auto|]. apply IH; auto.
Qed.
Lemma p2_lookup qps data e q v : p2_inv qps data e -> p2_get_quantile e q = Ok v ->
  exists i q', nth_error qps i = Some q' /\ nth_error (map snd (p2_vals e)) i = Some v /\ (q == q')%Q /\
    (forall j q'', nth_error qps j = Some q'' -> (q == q'')%Q -> j <= i).
Proof.
  intros [Iq Il Im _] H. unfold p2_get_quantile, p2_get_quantiles in H. destruct (find_last q _) as [w|] eqn:E; [|discriminate]. injection H as H. subst w.
  destruct (find_last_some _ _ _ E) as (i & q' & H1 & H2 & H3). destruct (nth_combine _ _ _ _ _ H1) as [N1 N2]. rewrite Iq in N1, H3.
  exists i, q'. split; auto. split; auto. split; auto. intros j q'' Hj Hq.
  assert (Hlen : length (p2_qps e) = length (map snd (p2_vals e))) by (rewrite map_length, Iq; auto). rewrite Iq in Hlen.
  assert (Hb : exists v'', nth_error (map snd (p2_vals e)) j = Some v'').
  { destruct (nth_error (map snd (p2_vals e)) j) eqn:En; eauto. apply nth_error_None in En. assert (j < length (p2_qps e)) by (rewrite Iq; apply nth_error_Some; congruence). rewrite Iq in *. lia. }
  destruct Hb as (v'' & Hv). apply (H3 j q'' v''); auto.
  clear - Hj Hv. revert j Hj Hv. generalize qps (map snd (p2_vals e)). intros a b. revert b. induction a as [|x a IH]; intros [|y b] [|j] Hj Hv; try discriminate; simpl in *; [congruence|auto].
Qed.

Theorem p2a_warm rnd q_points qs s0 ops s q : process_q_points q_points = Ok qs -> p2a_new q_points = Ok s0 ->
  p2a_run rnd s0 ops = Ok s -> 0 < length (padded ops) < length qs + 2 -> in01 q ->
  exists v, snd (p2a_get_quantile s q) = Ok v /\ linear_quantile (map rnd (padded ops)) q v.
Proof.
  intros Hq Hn Hr Hl Hi. destruct (p2a_run_ok rnd q_points qs s0 Hq Hn) as (qs2 & _ & _ & _ & _ & H). destruct (H ops) as (s' & E & _ & _ & Ip).
  replace s' with s in * by congruence. replace (length (padded ops) <? length qs + 2) with true in Ip by (symmetry; apply Nat.ltb_lt; lia).
  destruct Ip as (tmp & rops & Et & Er & Ea). unfold p2a_get_quantile. rewrite Et.
  destruct (uncapped_run rnd rops) as (t & E1 & S1 & _ & P1 & _). replace t with tmp in * by congruence.
  destruct (quantile_value tmp q S1) as (v & Ev & Lv); auto.
  { intros En. rewrite En in P1. apply Permutation_length in P1. rewrite map_length, Ea in P1. simpl in P1. lia. }
  destruct (r_get_quantile tmp q). cbn [snd] in *. exists v. split; auto. rewrite <- Ea. eapply linear_perm; eauto.
Qed.
Theorem p2a_estimating rnd q_points qs s0 ops s : process_q_points q_points = Ok qs -> p2a_new q_points = Ok s0 ->
  p2a_run rnd s0 ops = Ok s -> length qs + 2 <= length (padded ops) ->
  let seen := map rnd (firstn (length qs + 2) (padded ops)) ++ skipn (length qs + 2) (padded ops) in
  (forall q, In q qs -> exists v lo hi, snd (p2a_get_quantile s q) = Ok v /\ least_of seen (Some lo) /\ greatest_of seen (Some hi) /\ (lo <= v)%Q /\ (v <= hi)%Q) /\
  (forall q1 q2 v1 v2, (q1 <= q2)%Q -> snd (p2a_get_quantile s q1) = Ok v1 -> snd (p2a_get_quantile s q2) = Ok v2 -> (v1 <= v2)%Q) /\
  (forall q, (forall x, In x (0%Q :: qs ++ [1%Q]) -> ~ (q == x)%Q) -> snd (p2a_get_quantile s q) = ValueError).
Proof.
  intros Hq Hn Hr Hl seen. destruct (p2a_run_ok rnd q_points qs s0 Hq Hn) as (qs2 & Hq2 & _ & Sub & Cov & H). destruct (H ops) as (s' & E & _ & _ & Ip).
  replace s' with s in * by congruence. replace (length (padded ops) <? length qs + 2) with false in Ip by (symmetry; apply Nat.ltb_ge; lia).
  destruct Ip as (e & data & Ee & Pd & Ie). unfold p2a_get_quantile. rewrite Ee. cbn [snd].
  destruct (process_sound _ _ Hq2) as (A2 & vs2 & _ & zs2 & os2 & _ & _ & _ & _ & I2).
  pose proof (keys_asc qs2 A2 I2) as Hasc. pose proof (mono_qasc _ (pi_mono _ _ _ Ie)) as Hva.
  assert (Hlen : length (p2_qps e) = length (map snd (p2_vals e))) by (rewrite map_length, (pi_qps _ _ _ Ie); symmetry; apply (pi_len _ _ _ Ie)).
  split; [|split].
  - intros q Hin. destruct (Cov q Hin) as (y & Hy & Ey).
    assert (Hg : exists v, p2_get_quantile e q = Ok v).
    { unfold p2_get_quantile. destruct (find_last q (p2_get_quantiles e)) as [w|] eqn:Ef; [eauto|]. exfalso.
      assert (Hc : In y (map fst (p2_get_quantiles e))).
      { unfold p2_get_quantiles. rewrite combine_fst by auto. rewrite (pi_qps _ _ _ Ie). right. apply in_or_app. auto. }
      apply in_map_iff in Hc. destruct Hc as ([y' w] & Ey' & Hc). cbn [fst] in Ey'. subst y'.
      clear - Ef Hc Ey. revert Ef Hc. generalize (p2_get_quantiles e). induction l as [|[a b] l IH]; intros Ef Hc; [destruct Hc|].
      simpl in Ef. destruct (find_last q l) eqn:E1; [discriminate|]. destruct (Qeq_bool q a) eqn:Ea; [discriminate|].
      destruct Hc as [Hc|Hc]; [inversion Hc; subst; apply Qeq_bool_iff in Ey; congruence | auto]. }
    destruct Hg as (v & Eg). rewrite Eg.
    destruct (p2_lookup _ _ _ _ _ Ie Eg) as (i & q' & N1 & N2 & _). pose proof (pi_form _ _ _ Ie) as (mn & mid & mx & Ev & F1 & Fn & Lm & Lx).
    assert (Hperm : Permutation (data ++ skipn (length qs + 2) (padded ops)) seen) by (unfold seen; apply Permutation_app_tail; auto).
    exists v, (snd mn), (snd mx). split; auto.
    destruct Lm as [Lm1 Lm2], Lx as [Lx1 Lx2].
    split; [split; [eapply Permutation_in; eauto | intros x Hx; apply Lm2; eapply Permutation_in; [apply Permutation_sym; eauto | auto]]|].
    split; [split; [eapply Permutation_in; eauto | intros x Hx; apply Lx2; eapply Permutation_in; [apply Permutation_sym; eauto | auto]]|].
    apply nth_error_In in N2. rewrite Ev in N2, Hva. cbn [map] in N2, Hva. rewrite map_app in N2, Hva. cbn [map] in N2, Hva.
    destruct Hva as [Hv1 Hv2]. apply qasc_app in Hv2. destruct Hv2 as (_ & _ & Hv2).
    destruct N2 as [<-|N2]; [split; [lra|]; apply Hv1, in_or_app; right; left; auto|].
    split; [apply Hv1; auto|]. apply in_app_or in N2. destruct N2 as [N2|[<-|[]]]; [apply Hv2; auto; left; auto | lra].
  - intros q1 q2 v1 v2 Hle H1 H2. destruct (p2_lookup _ _ _ _ _ Ie H1) as (i & a & N1 & M1 & E1 & B1). destruct (p2_lookup _ _ _ _ _ Ie H2) as (j & b & N2 & M2 & E2 & B2).
    assert (Hij : i <= j).
    { destruct (Nat.le_gt_cases i j) as [|Hgt]; auto. exfalso.
      assert (Hba : (b <= a)%Q) by (eapply (qasc_nth _ Hasc j i); eauto; lia).
      assert (Hqe : (q2 == a)%Q) by lra. specialize (B2 i a N1 Hqe). lia. }
    apply (qasc_nth _ Hva i j); auto.
  - intros q Hun. unfold p2_get_quantile. rewrite find_last_none; auto. intros q' w Hin.
    apply Hun. assert (Hc : In q' (map fst (p2_get_quantiles e))) by (apply in_map_iff; exists (q', w); auto).
    unfold p2_get_quantiles in Hc. rewrite combine_fst in Hc by auto. rewrite (pi_qps _ _ _ Ie) in Hc.
    destruct Hc as [<-|Hc]; [left; auto|]. right. apply in_app_or in Hc. apply in_or_app. destruct Hc as [Hc|Hc]; auto.
Qed.

Lemma map_quantiles_pure {S} (gq : S -> Q -> S * pyres Q) (s : S) (f : Q -> Q) (qs : list Q) :
  (forall q, In q qs -> gq s q = (s, Ok (f q))) -> map_quantiles gq s qs = (s, Ok (map (fun q => (q, Some (f q))) qs)).
Proof.
  induction qs as [|q qs IH]; intros H; [reflexivity|]. cbn [map_quantiles map]. rewrite (H q (or_introl eq_refl)).
  rewrite IH by (intros; apply H; right; assumption). reflexivity.
Qed.
Lemma qasc_map_mono (f : Q -> Q) qs : qasc qs -> (forall a b, In a qs -> In b qs -> (a <= b)%Q -> (f a <= f b)%Q) -> qasc (map f qs).
Proof.
  induction qs as [|q qs IH]; intros A M; [exact I|]. destruct A as [A1 A2]. cbn [map]. split.
  - intros y Hy. apply in_map_iff in Hy as (x & <- & Hx). apply M; [left; reflexivity|right; assumption|]. apply A1, Hx.
  - apply IH; [exact A2|]. intros; apply M; auto; right; assumption.
Qed.
Theorem p2a_defaults rnd q_points qs s0 ops s : process_q_points q_points = Ok qs -> p2a_new q_points = Ok s0 ->
  p2a_run rnd s0 ops = Ok s -> length qs + 2 <= length (padded ops) ->
  exists vals, snd (p2a_get_quantiles s []) = Ok ((0%Q, b_min (pa_base s)) :: combine qs (map Some vals) ++ [(1%Q, b_max (pa_base s))]) /\
    Forall2 (fun q v => snd (p2a_get_quantile s q) = Ok v) qs vals /\ qasc vals.
Proof.
  intros Hq Hn Hr Hl. destruct (p2a_estimating rnd q_points qs s0 ops s Hq Hn Hr Hl) as (H1 & H2 & _).
  destruct (p2a_run_ok rnd q_points qs s0 Hq Hn) as (qs2 & _ & _ & _ & _ & H). destruct (H ops) as (s' & E & Iq & _ & Ip).
  replace s' with s in * by congruence. replace (length (padded ops) <? length qs + 2) with false in Ip by (symmetry; apply Nat.ltb_ge; lia).
  destruct Ip as (e & data & Ee & _).
  set (f := fun q => match p2_get_quantile e q with Ok v => v | _ => 0%Q end).
  assert (G : forall q, In q qs -> p2a_get_quantile s q = (s, Ok (f q))).
  { intros q Hin. destruct (H1 q Hin) as (v & _ & _ & Ev & _). unfold p2a_get_quantile in *. rewrite Ee in *. cbn [snd] in Ev. unfold f. rewrite Ev. reflexivity. }
  exists (map f qs). split; [|split].
  - unfold p2a_get_quantiles, get_quantiles. rewrite Iq, (map_quantiles_pure _ _ f) by exact G. cbn [snd rbind]. do 3 f_equal.
    clear. induction qs as [|q qs IH]; [reflexivity|]. cbn. rewrite IH. reflexivity.
  - clear - G. induction qs as [|q qs IH]; cbn; constructor; [rewrite G by (left; reflexivity); reflexivity|]. apply IH. intros; apply G; right; assumption.
  - apply qasc_map_mono; [apply (process_sound _ _ Hq)|]. intros a b Ha Hb L. apply (H2 a b); auto; rewrite G; auto.
Qed.
