From Coq Require Import Lqa.
From Verif Require Import model.PyBase model.Bisect model.Levels model.Quantile spec.QuantileSpec proof.QuantileProofs.
Open Scope nat_scope.

(** ** C32 *)
Lemma linear_perm l l' q v : Permutation l l' -> linear_quantile l q v -> linear_quantile l' q v.
Proof.
  intros P (s & k & fr & lo & hi & P1 & H). exists s, k, fr, lo, hi. split.
  - eapply Permutation_trans; [apply Permutation_sym; exact P | auto].
  - rewrite <- (Permutation_length P). auto.
Qed.
Lemma map_quantiles_ok : forall qs s, sorted_ok s -> r_data s <> [] -> Forall in01 qs ->
  exists s' vs, map_quantiles r_get_quantile s qs = (s', Ok (combine qs (map Some vs))) /\ length vs = length qs /\
    r_base s' = r_base s /\ Forall2 (linear_quantile (r_data s)) qs vs.
Proof.
  induction qs as [|q qs IH]; intros s Hs Hd Hq.
  - exists s, []. auto.
  - inversion Hq; subst. destruct (quantile_value s q Hs Hd H1) as (v & Ev & Lv).
    destruct (r_get_quantile_state s q Hs) as (J1 & J2 & J3 & J4).
    cbn [map_quantiles]. destruct (r_get_quantile s q) as [s1 r]. simpl in Ev, J1, J2, J3, J4. subst r.
    assert (Hd1 : r_data s1 <> []). { intros E. rewrite E in J2. apply Permutation_sym, Permutation_nil in J2. auto. }
    destruct (IH s1 J1 Hd1 H2) as (s' & vs & E & L & B & F). rewrite E.
    exists s', (v :: vs). split; [reflexivity|]. split; [simpl; auto|]. split; [congruence|].
    constructor; auto. clear -F J2. induction F; constructor; auto. eapply linear_perm; [apply Permutation_sym; eauto | auto].
Qed.

Lemma accepted_values rnd cap ops s : r_run rnd (r_new cap) ops = Ok s -> exists acc,
  describes (r_base s) acc /\ forall x, In x (r_data s) -> exists v, In v acc /\ x = rnd v.
Proof.
  intros H. destruct cap as [c|].
  - destruct (capped_run rnd c ops) as (s' & E & I1 & I2 & I3 & (rest & I4) & I5 & I6). replace s with s' by congruence.
    exists (accepted c ops). split; auto. intros x Hx.
    assert (Hin : In x (map rnd (accepted c ops))) by (eapply Permutation_in; [apply Permutation_sym; exact I4 | apply in_or_app; auto]).
    apply in_map_iff in Hin. destruct Hin as (v & <- & Hv). eauto.
  - destruct (uncapped_run rnd ops) as (s' & E & I1 & I2 & I3 & I4). replace s with s' by congruence.
    exists (added ops). split; auto. intros x Hx.
    assert (Hin : In x (map rnd (added ops))) by (eapply Permutation_in; [exact I3 | auto]).
    apply in_map_iff in Hin. destruct Hin as (v & <- & Hv). eauto.
Qed.

Lemma combine_app {A B} (a b : list A) (c d : list B) : length a = length c -> combine (a ++ b) (c ++ d) = combine a c ++ combine b d.
Proof. revert c. induction a as [|x a IH]; intros [|y c] H; try discriminate; simpl; auto. f_equal. apply IH. simpl in H. lia. Qed.

Lemma quantiles_monotone rnd cap ops s qs : (forall x, (rnd x == x)%Q) ->
  r_run rnd (r_new cap) ops = Ok s -> r_data s <> [] -> qasc qs -> Forall in01 qs ->
  exists vals, snd (r_get_quantiles s qs) = Ok (combine (0%Q :: qs ++ [1%Q]) (map Some vals)) /\
    length vals = length qs + 2 /\ qasc vals /\
    option_map Some (hd_error vals) = Some (b_min (r_base s)) /\ Some (last vals 0%Q) = b_max (r_base s).
Proof.
  intros Hr Hrun Hd Hqa Hq.
  pose proof (reach_sorted rnd cap ops s Hrun) as Hs.
  destruct (accepted_values rnd cap ops s Hrun) as (acc & (D1 & D2 & D3) & Hacc).
  destruct (map_quantiles_ok qs s Hs Hd Hq) as (s' & vs & E & L & B & F).
  unfold r_get_quantiles, get_quantiles. rewrite E. cbn [snd rbind]. rewrite B.
  assert (Hne : acc <> []). { destruct (r_data s) as [|x d]; [congruence|]. destruct (Hacc x (or_introl eq_refl)) as (v & Hv & _). intros ->. destruct Hv. }
  destruct (b_min (r_base s)) as [mn|]; simpl in D2; [|congruence].
  destruct (b_max (r_base s)) as [mx|]; simpl in D3; [|congruence].
  destruct D2 as [D2 D2'], D3 as [D3 D3'].
  assert (Hrange : forall q v, linear_quantile (r_data s) q v -> (mn <= v)%Q /\ (v <= mx)%Q).
  { intros q v Hl. destruct (linear_between _ _ _ Hl) as (lo & hi & k & Hlo & Hhi & H1 & H2 & _).
    destruct (Hacc lo Hlo) as (vl & Hvl & ->). destruct (Hacc hi Hhi) as (vh & Hvh & ->).
    rewrite Hr in *. specialize (D2' vl Hvl). specialize (D3' vh Hvh). lra. }
  exists (mn :: vs ++ [mx]). split; [|split; [|split; [|split]]].
  - simpl. f_equal. rewrite map_app. rewrite combine_app by (rewrite map_length; auto). reflexivity.
  - simpl. rewrite app_length. simpl. lia.
  - simpl. split.
    + intros y Hy. apply in_app_or in Hy. destruct Hy as [Hy|[<-|[]]].
      * clear -F Hy Hrange. induction F; [destruct Hy|]. destruct Hy as [<-|Hy]; auto. eapply Hrange; eauto.
      * apply D2'; auto.
    + apply qasc_app. split; [|split].
      * clear -F Hqa. induction F as [|q0 v0 ql vl Hl F IHF]; simpl; auto. destruct Hqa as [Ha Hb]. split; auto.
        intros y' Hy'. assert (Hex : exists q', In q' ql /\ linear_quantile (r_data s) q' y').
        { clear -F Hy'. induction F as [|q1 v1 ql1 vl1 Hl1 F1 IHF1]; [destruct Hy'|]. destruct Hy' as [<-|Hy']; [exists q1; simpl; auto|].
          destruct (IHF1 Hy') as (q' & ? & ?). exists q'. simpl; auto. }
        destruct Hex as (q' & Hq' & Hl'). eapply linear_monotone; eauto.
      * simpl. split; auto. intros ? [].
      * intros x y Hx [<-|[]]. clear -F Hx Hrange. induction F; [destruct Hx|]. destruct Hx as [<-|Hx]; auto. eapply Hrange; eauto.
  - reflexivity.
  - change (mn :: vs ++ [mx]) with ((mn :: vs) ++ [mx]). rewrite last_last. reflexivity.
Qed.

(** ** C35 *)
Lemma dedup_spec l : forall seen,
  NoDup (map qp_key (qp_dedup seen l)) /\
  (forall p, In p (qp_dedup seen l) -> In p l /\ ~ In (qp_key p) seen) /\
  (forall p, In p l -> ~ In (qp_key p) seen -> exists p', In p' (qp_dedup seen l) /\ qp_key p' = qp_key p).
Proof.
  induction l as [|p l IH]; intros seen; simpl.
  - split; [constructor|]. split; [intros ? []|intros ? []].
  - destruct (existsb (Nat.eqb (qp_key p)) seen) eqn:E.
    + destruct (IH seen) as (H1 & H2 & H3). split; auto. split.
      * intros x Hx. destruct (H2 x Hx). auto.
      * intros x [<-|Hx] Hn; auto. exfalso. apply Hn. apply existsb_exists in E. destruct E as (y & Hy & Ey).
        apply Nat.eqb_eq in Ey. congruence.
    + destruct (IH (qp_key p :: seen)) as (H1 & H2 & H3). split; [|split].
      * simpl. constructor; auto. intros Hin. apply in_map_iff in Hin. destruct Hin as (x & Ex & Hx).
        destruct (H2 x Hx) as [_ Hn]. apply Hn. left. auto.
      * intros x [<-|Hx].
        -- split; auto. intros Hin. assert (existsb (Nat.eqb (qp_key p)) seen = true); [|congruence].
           apply existsb_exists. exists (qp_key p). rewrite Nat.eqb_refl. auto.
        -- destruct (H2 x Hx) as [Ha Hb]. split; auto. intros Hc. apply Hb. right; auto.
      * intros x [<-|Hx] Hn; [exists p; split; [left; reflexivity | reflexivity]|]. destruct (Nat.eq_dec (qp_key x) (qp_key p)) as [Ek|Ek].
        -- exists p. split; [left; reflexivity | auto].
        -- destruct (H3 x Hx) as (p' & Hp' & Ep'); [intros [Hc|Hc]; auto|]. exists p'. split; [right; auto | auto].
Qed.
Lemma all_vals_spec l vs : all_vals l = Some vs <-> map qp_val l = map Some vs.
Proof.
  revert vs. induction l as [|p l IH]; intros vs; simpl.
  - split; [intros H; inversion H; auto | intros H; destruct vs; [auto | discriminate]].
  - destruct (qp_val p) as [q|]; [|split; [discriminate | intros H; destruct vs; discriminate]].
    destruct (all_vals l) as [qs|] eqn:E.
    + split.
      * intros H. inversion H; subst. simpl. f_equal. apply IH; auto.
      * intros H. destruct vs as [|v vs]; [discriminate|]. simpl in H. inversion H; subst.
        assert (Some qs = Some vs) as X by (apply IH; auto). inversion X. auto.
    + split; [discriminate|]. intros H. destruct vs as [|v vs]; [discriminate|]. simpl in H. inversion H.
      assert (None = Some vs) as X by (apply IH; auto). discriminate.
Qed.
Lemma map_some_inj (a b : list Q) : map Some a = map Some b -> a = b.
Proof. revert b. induction a as [|x a IH]; intros [|y b] H; try discriminate; auto. inversion H. f_equal. auto. Qed.

Lemma set_values_unique qps vs : consistent qps -> set_values qps vs ->
  exists vs', all_vals (qp_dedup [] qps) = Some vs' /\ Permutation vs vs'.
Proof.
  intros Hc (ms & N & H1 & H2 & H3). destruct (dedup_spec qps []) as (D1 & D2 & D3).
  assert (P : Permutation ms (qp_dedup [] qps)).
  { apply NoDup_Permutation; [eapply NoDup_map_inv; eauto | eapply NoDup_map_inv; eauto|].
    assert (Heq : forall p p', In p qps -> In p' qps -> qp_key p = qp_key p' -> p = p').
    { intros p p' Hp Hp' Hk. pose proof (Hc p p' Hp Hp' Hk). destruct p, p'; simpl in *; congruence. }
    intros p. split; intros Hp.
    - destruct (D3 p (H1 p Hp) (fun x => x)) as (p' & Hp' & Ek). replace p with p'; auto. apply Heq; auto; apply D2 in Hp'; tauto.
    - destruct (D2 p Hp) as [Hq _]. destruct (H2 p Hq) as (p' & Hp' & Ek). replace p with p'; auto. }
  assert (Hp : Permutation (map qp_val ms) (map qp_val (qp_dedup [] qps))) by (apply Permutation_map; auto).
  rewrite H3 in Hp. destruct (Permutation_map_inv _ _ (Permutation_sym Hp)) as (l3 & E & P3). exists l3. split.
  - apply all_vals_spec. auto.
  - auto.
Qed.
Lemma dedup_set_values qps vs : all_vals (qp_dedup [] qps) = Some vs -> set_values qps vs.
Proof.
  intros H. destruct (dedup_spec qps []) as (D1 & D2 & D3). exists (qp_dedup [] qps). split; auto.
  split; [intros p Hp; apply D2; auto|]. split; [intros p Hp; apply D3; auto|]. apply all_vals_spec. auto.
Qed.

(** The part of [process_q_points] after sorting. *)
Definition trim (l : list Q) : pyres (list Q) :=
  match l with
  | [] => ValueError
  | q0 :: rest =>
    let qps := if Qeq_bool q0 0 then rest else q0 :: rest in
    match qps with
    | [] => ValueError
    | _ =>
      let qps := if Qeq_bool (last qps 0%Q) 1 then removelast qps else qps in
      match qps with
      | [] => ValueError
      | _ => if forallb (fun x => qlt 0 x && qlt x 1) qps then Ok qps else ValueError
      end
    end
  end.
Lemma process_trim qps : process_q_points qps = match all_vals (qp_dedup [] qps) with None => ValueError | Some vs => trim (qsort vs) end.
Proof. reflexivity. Qed.
Lemma forallb_in01 l : forallb (fun x => qlt 0 x && qlt x 1) l = true <-> Forall in01 l.
Proof.
  rewrite forallb_forall, Forall_forall. split; intros H x Hx; specialize (H x Hx).
  - apply andb_true_iff in H. rewrite !qlt_true in H. exact H.
  - apply andb_true_iff. rewrite !qlt_true. exact H.
Qed.
Lemma trim_sound s l : trim s = Ok l -> exists zs os, at_most_one 0 zs /\ at_most_one 1 os /\ s = zs ++ l ++ os /\ l <> [] /\ Forall in01 l.
Proof.
  unfold trim. destruct s as [|q0 rest]; [discriminate|].
  set (qps := if Qeq_bool q0 0 then rest else q0 :: rest).
  assert (Hz : exists zs, at_most_one 0 zs /\ q0 :: rest = zs ++ qps).
  { unfold qps. destruct (Qeq_bool q0 0) eqn:E.
    - exists [q0]. split; [right; exists q0; split; auto; apply Qeq_bool_iff; auto | auto].
    - exists []. split; [left; auto | auto]. }
  destruct Hz as (zs & Hz1 & Hz2). cbv zeta. destruct qps as [|a b] eqn:Eq; [discriminate|].
  rewrite <- Eq in *.
  intros H. destruct (Qeq_bool (last qps 0%Q) 1) eqn:E1.
  - destruct (exists_last (l := qps)) as (l0 & z & Ez); [rewrite Eq; discriminate|].
    rewrite Ez in H, E1, Hz2. rewrite removelast_last in H. rewrite last_last in E1.
    destruct l0 as [|c l0]; [discriminate|]. destruct (forallb _ (c :: l0)) eqn:F; [|discriminate].
    inversion H; subst l. apply forallb_in01 in F. exists zs, [z]. split; auto. split; [right; exists z; split; auto; apply Qeq_bool_iff; auto|].
    split; auto. split; auto. discriminate.
  - rewrite Eq in H, Hz2. destruct (forallb _ (a :: b)) eqn:F; [|discriminate].
    inversion H; subst l. apply forallb_in01 in F. exists zs, []. rewrite app_nil_r. split; auto. split; [left; auto|].
    split; auto. split; auto. discriminate.
Qed.

Lemma trim_complete s zs mid os : qasc s -> at_most_one 0 zs -> at_most_one 1 os -> Permutation s (zs ++ mid ++ os) ->
  mid <> [] -> Forall in01 mid -> exists l, trim s = Ok l /\ Permutation mid l.
Proof.
  intros Ha Hz Ho P Hm Hi. rewrite Forall_forall in Hi.
  assert (Hos : forall x, In x os -> (x == 1)%Q) by (destruct Ho as [->|(y & -> & Ey)]; [intros ? [] | intros x [<-|[]]; auto]).
  assert (Hzs : forall x, In x zs -> (x == 0)%Q) by (destruct Hz as [->|(y & -> & Ey)]; [intros ? [] | intros x [<-|[]]; auto]).
  (* the head *)
  assert (H1 : exists r, s = zs ++ r /\ Permutation r (mid ++ os)).
  { destruct Hz as [->|(z & -> & Ez)]; [exists s; auto|]. destruct s as [|q0 rest]; [apply Permutation_nil in P; discriminate|].
    assert (q0 = z).
    { assert (Hin : In q0 ([z] ++ mid ++ os)) by (eapply Permutation_in; [exact P | left; auto]).
      assert (Hz : In z (q0 :: rest)) by (eapply Permutation_in; [apply Permutation_sym; exact P | left; auto]).
      assert (q0 <= z)%Q by (destruct Ha as [Ha _]; destruct Hz as [->|Hz]; [lra|]; apply Ha; auto).
      cbn [app] in Hin. destruct Hin as [Hin|Hin]; auto. exfalso. apply in_app_or in Hin. destruct Hin as [Hin|Hin].
      - destruct (Hi q0 Hin). lra.
      - specialize (Hos q0 Hin). lra. }
    subst q0. exists rest. split; auto. apply Permutation_cons_inv in P. auto. }
  destruct H1 as (r & -> & P1). apply qasc_app in Ha. destruct Ha as (_ & Ha & _).
  assert (H2 : exists m, r = m ++ os /\ Permutation m mid).
  { destruct Ho as [->|(o & -> & Eo)]; [exists r; rewrite !app_nil_r in *; auto|].
    destruct r as [|a r0]; [apply Permutation_nil in P1; destruct mid; discriminate|].
    destruct (exists_last (l := a :: r0)) as (m & x & E); [discriminate|]. rewrite E in *. clear a r0 E.
    assert (x = o).
    { assert (Hin : In x (mid ++ [o])) by (eapply Permutation_in; [exact P1 | apply in_or_app; right; left; auto]).
      assert (Hoin : In o (m ++ [x])) by (eapply Permutation_in; [apply Permutation_sym; exact P1 | apply in_or_app; right; left; auto]).
      assert (o <= x)%Q.
      { apply qasc_app in Ha. destruct Ha as (_ & _ & Ha). apply in_app_or in Hoin. destruct Hoin as [Hx|[<-|[]]]; [|lra].
        apply Ha; auto. left; auto. }
      apply in_app_or in Hin. destruct Hin as [Hin|[<-|[]]]; auto. destruct (Hi x Hin). lra. }
    subst x. exists m. split; auto. apply Permutation_app_inv_r in P1. auto. }
  destruct H2 as (m & -> & P2).
  assert (Hmne : m <> []) by (intros ->; apply Permutation_nil in P2; auto).
  assert (Him : Forall in01 m) by (apply Forall_forall; intros x Hx; apply Hi; eapply Permutation_in; eauto).
  exists m. split; [|apply Permutation_sym; auto].
  assert (Hlast : forall l, l = m ++ os -> exists a b, l = a :: b /\
     match (if Qeq_bool (last l 0%Q) 1 then removelast l else l) with [] => ValueError | _ => 
       if forallb (fun x => qlt 0 x && qlt x 1) (if Qeq_bool (last l 0%Q) 1 then removelast l else l) then
         Ok (if Qeq_bool (last l 0%Q) 1 then removelast l else l) else ValueError end = Ok m).
  { intros l ->. assert (El : (if Qeq_bool (last (m ++ os) 0%Q) 1 then removelast (m ++ os) else (m ++ os)) = m).
    { destruct Ho as [->|(o & -> & Eo)].
      - rewrite app_nil_r. destruct (exists_last Hmne) as (m0 & x & E). rewrite E, last_last.
        destruct (Qeq_bool x 1) eqn:E1; auto. apply Qeq_bool_iff in E1. rewrite Forall_forall in Him.
        destruct (Him x); [rewrite E; apply in_or_app; right; left; auto|]. lra.
      - rewrite last_last, removelast_last. rewrite (proj2 (Qeq_bool_iff o 1) Eo). auto. }
    rewrite El. destruct m as [|a b]; [congruence|]. exists a, (b ++ os). split; auto.
    rewrite (proj2 (forallb_in01 (a :: b)) Him). auto. }
  unfold trim. destruct Hz as [->|(z & -> & Ez)].
  - cbn [app]. destruct (Hlast (m ++ os) eq_refl) as (a & b & E & HL). rewrite E in *.
    assert (Hna : Qeq_bool a 0 = false).
    { destruct (Qeq_bool a 0) eqn:E0; auto. apply Qeq_bool_iff in E0. destruct m as [|a' m']; [congruence|].
      inversion E; subst. inversion Him; subst. destruct H1. lra. }
    rewrite Hna. cbv zeta. destruct (if Qeq_bool (last (a :: b) 0%Q) 1 then _ else _) eqn:Eq; exact HL.
  - cbn [app]. rewrite (proj2 (Qeq_bool_iff z 0) Ez). destruct (Hlast (m ++ os) eq_refl) as (a & b & E & HL). rewrite E in *.
    cbv zeta. destruct (if Qeq_bool (last (a :: b) 0%Q) 1 then _ else _) eqn:Eq; exact HL.
Qed.

Theorem process_sound qps l : process_q_points qps = Ok l ->
  qasc l /\ exists vs, set_values qps vs /\ interior vs l.
Proof.
  rewrite process_trim. destruct (all_vals (qp_dedup [] qps)) as [vs|] eqn:E; [|discriminate]. intros H.
  destruct (trim_sound _ _ H) as (zs & os & Z & O & Es & Hne & Hi). destruct (qsort_spec vs) as [A P]. rewrite Es in A, P.
  apply qasc_app in A. destruct A as (_ & A & _). apply qasc_app in A. destruct A as (A & _ & _). split; auto.
  exists vs. split; [apply dedup_set_values; auto|]. exists zs, os. auto 10.
Qed.
Theorem process_complete qps vs mid : consistent qps -> set_values qps vs -> interior vs mid ->
  exists l, process_q_points qps = Ok l /\ Permutation mid l.
Proof.
  intros Hc Hs (zs & os & Z & O & P & Hne & Hi). destruct (set_values_unique qps vs Hc Hs) as (vs' & E & P').
  rewrite process_trim, E. destruct (qsort_spec vs') as [A Pq]. eapply trim_complete; eauto.
  eapply Permutation_trans; [apply Permutation_sym; exact Pq|]. eapply Permutation_trans; [apply Permutation_sym; exact P' | exact P].
Qed.
Lemma process_errors qps : (exists l, process_q_points qps = Ok l) \/ process_q_points qps = ValueError.
Proof.
  rewrite process_trim. destruct (all_vals (qp_dedup [] qps)) as [vs|]; [|auto]. unfold trim.
  destruct (qsort vs) as [|a b]; auto. cbv zeta. destruct (if Qeq_bool a 0 then b else a :: b) as [|c d]; auto.
  destruct (if Qeq_bool (last (c :: d) 0%Q) 1 then removelast (c :: d) else c :: d) as [|e f]; auto.
  destruct (forallb _ (e :: f)); eauto.
Qed.

(** ** C36 *)
Lemma map_quantiles_keys {S} (gq : S -> Q -> S * pyres Q) qs : forall s s' l, map_quantiles gq s qs = (s', Ok l) -> map fst l = qs.
Proof.
  induction qs as [|q qs IH]; intros s s' l H; simpl in H; [inversion H; auto|].
  destruct (gq s q) as [s1 [v| | |]]; try discriminate. destruct (map_quantiles gq s1 qs) as [s2 rs] eqn:E.
  destruct rs as [l'| | |]; simpl in H; try discriminate. inversion H; subst. simpl. f_equal. eapply IH; eauto.
Qed.
Lemma get_quantiles_keys {S} (gq : S -> Q -> S * pyres Q) bs s qs s' l : get_quantiles gq bs s qs = (s', Ok l) ->
  map fst l = 0%Q :: qs ++ [1%Q].
Proof.
  unfold get_quantiles. destruct (map_quantiles gq s qs) as [s1 r] eqn:E. destruct r as [l'| | |]; simpl; intros H; try discriminate.
  inversion H; subst. simpl. rewrite map_app. simpl. rewrite (map_quantiles_keys gq qs s s' l' E). auto.
Qed.

Definition pairs {A} (l : list A) : list (A * A) := combine l (tl l).
Lemma pairs_map {A B} (f : A -> B) l : pairs (map f l) = map (fun p => (f (fst p), f (snd p))) (pairs l).
Proof.
  unfold pairs. destruct l as [|a l]; auto. cbn [tl map]. revert a. induction l as [|b l IH]; intros a; auto.
  specialize (IH b). cbn [map combine fst snd] in *. f_equal. exact IH.
Qed.
Lemma pairs_length {A} (l : list A) : length (pairs l) = length l - 1.
Proof. unfold pairs. rewrite combine_length. destruct l; cbn [tl length]; lia. Qed.
Lemma cells_q total qw : map c_q (histogram_cells total qw) = pairs (map fst qw).
Proof.
  unfold histogram_cells. rewrite map_map, pairs_map. fold (pairs qw). apply map_ext. intros [[a b] [c d]]. reflexivity.
Qed.
Lemma cells_ratio total qw c : In c (histogram_cells total qw) -> c_ratio c = (snd (c_q c) - fst (c_q c))%Q.
Proof.
  unfold histogram_cells. intros H. apply in_map_iff in H. destruct H as ([[a b] [c0 d]] & <- & _). reflexivity.
Qed.
Lemma telescope a l : (qsum (map (fun p => (snd p - fst p)%Q) (pairs (a :: l))) == last (a :: l) 0 - a)%Q.
Proof.
  revert a. induction l as [|b l IH]; intros a; [simpl; ring|].
  change (pairs (a :: b :: l)) with ((a, b) :: pairs (b :: l)). cbn [map]. 
  change (qsum ((snd (a, b) - fst (a, b))%Q :: ?x)) with ((b - a) + qsum x)%Q. 
  unfold qsum in *. cbn [fold_right]. rewrite IH. change (last (a :: b :: l) 0%Q) with (last (b :: l) 0%Q). cbn [fst snd]. ring.
Qed.
Lemma cells_sum total qw qs : map fst qw = 0%Q :: qs ++ [1%Q] -> (qsum (map c_ratio (histogram_cells total qw)) == 1)%Q.
Proof.
  intros H. assert (E : map c_ratio (histogram_cells total qw) = map (fun p => (snd p - fst p)%Q) (pairs (map fst qw))).
  { rewrite <- (cells_q total). rewrite map_map. apply map_ext_in. intros c Hc. eapply cells_ratio; eauto. }
  rewrite E, H, telescope. change (0%Q :: qs ++ [1%Q]) with ((0%Q :: qs) ++ [1%Q]). rewrite last_last. ring.
Qed.

(** Truncation error. *)
Lemma qtrunc_floor x : (0 <= x)%Q -> (inject_Z (qtrunc x) <= x)%Q /\ (x < inject_Z (qtrunc x) + 1)%Q /\ (0 <= qtrunc x)%Z.
Proof.
  intros H. assert (E : qtrunc x = Qfloor x).
  { unfold qtrunc, Qfloor. destruct x as [n d]. simpl in *. apply Z.quot_div_nonneg; [|lia]. unfold Qle in H. simpl in H. lia. }
  rewrite E. pose proof (Qfloor_le x). pose proof (Qlt_floor x) as F. rewrite inject_Z_plus in F. change (inject_Z 1) with 1%Q in F.
  split; auto. split; auto. change 0%Z with (Qfloor 0). apply Qfloor_resp_le. auto.
Qed.

Definition end_bonus (p : Q * Q) : Z := if Qeq_bool (fst p) 0 || Qeq_bool (snd p) 1 then 1%Z else 0%Z.
Lemma cells_count_large total qw : length qw <= total ->
  map c_count (histogram_cells total qw) =
  map (fun p => (qtrunc ((snd p - fst p) * inject_Z (Z.of_nat total)) + end_bonus p)%Z) (pairs (map fst qw)).
Proof.
  intros H. unfold histogram_cells. rewrite map_map, pairs_map, map_map. fold (pairs qw). apply map_ext. intros [[a b] [c d]].
  cbn [fst snd c_count]. replace (total <? length qw) with false by (symmetry; apply Nat.ltb_ge; auto).
  unfold end_bonus. cbn [fst snd]. destruct (Qeq_bool a 0 || Qeq_bool c 1); lia.
Qed.
Lemma zsum_map_add {A} (f g : A -> Z) l : zsum (map (fun x => (f x + g x)%Z) l) = (zsum (map f l) + zsum (map g l))%Z.
Proof. induction l as [|x l IH]; auto. cbn [map]. unfold zsum in *. cbn [fold_right]. rewrite IH. lia. Qed.
Lemma zsum_cons x l : zsum (x :: l) = (x + zsum l)%Z. Proof. reflexivity. Qed.
Lemma qsum_cons x l : qsum (x :: l) = (x + qsum l)%Q. Proof. reflexivity. Qed.
Lemma trunc_sum l : (forall x, In x l -> (0 <= x)%Q) ->
  (inject_Z (zsum (map qtrunc l)) <= qsum l)%Q /\ (l <> [] -> (qsum l < inject_Z (zsum (map qtrunc l) + Z.of_nat (length l)))%Q).
Proof.
  induction l as [|x l IH]; intros H; [split; [apply Qle_refl | congruence]|].
  destruct (qtrunc_floor x) as (A & B & _); [apply H; left; auto|].
  destruct IH as [I1 I2]; [intros; apply H; right; auto|]. cbn [map]. rewrite zsum_cons, qsum_cons.
  split; [rewrite inject_Z_plus; lra|]. intros _. cbn [length]. rewrite Nat2Z.inj_succ.
  destruct l as [|y l].
  - simpl. rewrite !inject_Z_plus. simpl. change (inject_Z 1) with 1%Q. change (inject_Z 0) with 0%Q in *. lra.
  - specialize (I2 ltac:(discriminate)). set (z := zsum (map qtrunc (y :: l))) in *. set (n := Z.of_nat (length (y :: l))) in *.
    replace (qtrunc x + z + Z.succ n)%Z with (qtrunc x + 1 + (z + n))%Z by lia.
    rewrite (inject_Z_plus _ (z + n)), (inject_Z_plus _ 1). change (inject_Z 1) with 1%Q. lra.
Qed.
Lemma end_bonus_tail qs : forall a, in01 a -> Forall in01 qs -> zsum (map end_bonus (pairs (a :: qs ++ [1%Q]))) = 1%Z.
Proof.
  induction qs as [|b qs IH]; intros a Ha Hq.
  - unfold end_bonus. simpl. destruct (Qeq_bool a 0); reflexivity.
  - inversion Hq; subst. change (pairs (a :: (b :: qs) ++ [1%Q])) with ((a, b) :: pairs (b :: qs ++ [1%Q])).
    cbn [map]. rewrite zsum_cons, IH by auto. unfold end_bonus. cbn [fst snd].
    destruct Ha as [A0 A1], H1 as [B0 B1].
    destruct (Qeq_bool a 0) eqn:E; [apply Qeq_bool_iff in E; lra|]. destruct (Qeq_bool b 1) eqn:E1; [apply Qeq_bool_iff in E1; lra|]. reflexivity.
Qed.
Lemma pairs_nonneg l : qasc l -> forall p, In p (pairs l) -> (0 <= snd p - fst p)%Q.
Proof.
  unfold pairs. destruct l as [|a l]; [intros _ p []|]. cbn [tl]. revert a. induction l as [|b l IH]; intros a H p Hp; [destruct Hp|].
  destruct H as [H1 H2]. cbn [combine] in Hp. destruct Hp as [<-|Hp].
  - cbn [fst snd]. specialize (H1 b (or_introl eq_refl)). lra.
  - apply (IH b); auto.
Qed.
Lemma qsum_scale (l : list (Q * Q)) t : (qsum (map (fun p => (snd p - fst p) * t) l) == qsum (map (fun p => snd p - fst p) l) * t)%Q.
Proof. induction l as [|p l IH]; [simpl; ring|]. cbn [map]. rewrite !qsum_cons, IH. ring. Qed.
Lemma keys_asc qs : qasc qs -> Forall in01 qs -> qasc (0%Q :: qs ++ [1%Q]).
Proof.
  intros Ha Hi. rewrite Forall_forall in Hi. split.
  - intros y Hy. apply in_app_or in Hy. destruct Hy as [Hy|[<-|[]]]; [destruct (Hi y Hy); lra | lra].
  - apply qasc_app. split; auto. split; [simpl; split; [intros ? []|exact I]|]. intros x y Hx [<-|[]]. destruct (Hi x Hx). lra.
Qed.
Lemma trunc_total qs total : qasc qs -> Forall in01 qs ->
  let S := zsum (map (fun p => qtrunc ((snd p - fst p) * inject_Z (Z.of_nat total))) (pairs (0%Q :: qs ++ [1%Q]))) in
  (S <= Z.of_nat total /\ Z.of_nat total < S + Z.of_nat (length qs + 1))%Z.
Proof.
  intros Ha Hi. cbv zeta. set (ps := pairs (0%Q :: qs ++ [1%Q])). set (T := inject_Z (Z.of_nat total)).
  assert (HT : (0 <= T)%Q) by (unfold T; change 0%Q with (inject_Z 0); rewrite <- Zle_Qle; lia).
  assert (Hl : length (map (fun p => ((snd p - fst p) * T)%Q) ps) = length qs + 1).
  { rewrite map_length. unfold ps. rewrite pairs_length. simpl. rewrite app_length. simpl. lia. }
  destruct (trunc_sum (map (fun p => ((snd p - fst p) * T)%Q) ps)) as [A B].
  { intros x Hx. apply in_map_iff in Hx. destruct Hx as (p & <- & Hp).
    pose proof (pairs_nonneg _ (keys_asc qs Ha Hi) p Hp). nra. }
  rewrite Hl in B. rewrite qsum_scale in A, B. unfold ps in A, B. rewrite telescope in A, B. fold ps in A, B.
  change (0%Q :: qs ++ [1%Q]) with ((0%Q :: qs) ++ [1%Q]) in A, B. rewrite last_last in A, B. rewrite map_map in A, B.
  assert (Hne : map (fun p => ((snd p - fst p) * T)%Q) ps <> []).
  { intros E. rewrite E in Hl. simpl in Hl. lia. }
  specialize (B Hne). unfold T in A at 2, B at 1.
  assert (A' : (inject_Z (zsum (map (fun p => qtrunc ((snd p - fst p) * T)) ps)) <= inject_Z (Z.of_nat total))%Q) by lra.
  assert (B' : (inject_Z (Z.of_nat total) < inject_Z (zsum (map (fun p => qtrunc ((snd p - fst p) * T)) ps) + Z.of_nat (length qs + 1)))%Q) by lra.
  rewrite <- Zle_Qle in A'. rewrite <- Zlt_Qlt in B'. split; auto.
Qed.
Theorem histogram_count_large total qw qs : qs <> [] -> qasc qs -> Forall in01 qs -> map fst qw = 0%Q :: qs ++ [1%Q] ->
  length qw <= total ->
  let S := zsum (map c_count (histogram_cells total qw)) in
  (S <= Z.of_nat total + 2 /\ Z.of_nat total + 2 < S + Z.of_nat (length qs + 1))%Z.
Proof.
  intros Hne Ha Hi Hk Ht. cbv zeta. rewrite cells_count_large by auto. rewrite zsum_map_add, Hk.
  assert (E : zsum (map end_bonus (pairs (0%Q :: qs ++ [1%Q]))) = 2%Z).
  { destruct qs as [|q qs]; [congruence|]. inversion Hi; subst.
    change (pairs (0%Q :: (q :: qs) ++ [1%Q])) with ((0%Q, q) :: pairs (q :: qs ++ [1%Q])).
    cbn [map]. rewrite zsum_cons, end_bonus_tail by auto. reflexivity. }
  rewrite E. destruct (trunc_total qs total Ha Hi) as [A B]. lia.
Qed.
Lemma cells_count_small total qw : total < length qw ->
  exists bonus : (Q * option Q) * (Q * option Q) -> Z, (forall p, 0 <= bonus p <= 1)%Z /\
  map c_count (histogram_cells total qw) =
  map (fun p => (qtrunc ((fst (snd p) - fst (fst p)) * inject_Z (Z.of_nat total)) + bonus p)%Z) (pairs qw).
Proof.
  intros H. exists (fun p => if val_lt (snd (fst p)) (snd (snd p)) then 1%Z else 0%Z). split.
  - intros p. destruct (val_lt _ _); lia.
  - unfold histogram_cells. rewrite map_map. fold (pairs qw). apply map_ext. intros [[a b] [c d]].
    cbn [fst snd c_count]. replace (total <? length qw) with true by (symmetry; apply Nat.ltb_lt; auto).
    destruct (val_lt b d); lia.
Qed.
Theorem histogram_count_small total qw qs : qasc qs -> Forall in01 qs -> map fst qw = 0%Q :: qs ++ [1%Q] ->
  total < length qw ->
  let S := zsum (map c_count (histogram_cells total qw)) in
  (S <= Z.of_nat total + Z.of_nat (length qs + 1) /\ Z.of_nat total < S + Z.of_nat (length qs + 1))%Z.
Proof.
  intros Ha Hi Hk Ht. cbv zeta. destruct (cells_count_small total qw Ht) as (bonus & Hb & ->). rewrite zsum_map_add.
  assert (E : zsum (map (fun p : (Q * option Q) * (Q * option Q) => qtrunc ((fst (snd p) - fst (fst p)) * inject_Z (Z.of_nat total))) (pairs qw)) =
          zsum (map (fun p => qtrunc ((snd p - fst p) * inject_Z (Z.of_nat total))) (pairs (0%Q :: qs ++ [1%Q])))).
  { rewrite <- Hk, pairs_map, map_map. reflexivity. }
  rewrite E. destruct (trunc_total qs total Ha Hi) as [A B].
  assert (Hl : length (pairs qw) = length qs + 1).
  { rewrite pairs_length. apply (f_equal (@length Q)) in Hk. rewrite map_length in Hk. simpl in Hk. rewrite app_length in Hk. simpl in Hk. lia. }
  assert (Hz : (0 <= zsum (map bonus (pairs qw)) <= Z.of_nat (length (pairs qw)))%Z).
  { clear -Hb. induction (pairs qw) as [|p l IH]; [simpl; lia|]. cbn [map]. rewrite zsum_cons. cbn [length]. specialize (Hb p). lia. }
  rewrite Hl in Hz. lia.
Qed.
