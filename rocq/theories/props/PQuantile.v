(** Properties of the quantile accumulators: C29-C36, C63, C64. *)
From Coq Require Import Lqa.
From Verif Require Import model.PyBase model.Quantile spec.QuantileSpec
  proof.QuantileProofs proof.QuantileProofs2 proof.QuantileProofs3 proof.P2Proofs proof.P2Track proof.P2AccProofs.
Open Scope nat_scope.

(** C29. *)
Theorem C29_uncapped_keeps_all : forall rnd ops, exists s,
  r_run rnd (r_new None) ops = Ok s /\
  Permutation (r_data s) (map rnd (added ops)) /\ describes (r_base s) (added ops).
Proof. intros rnd ops. destruct (uncapped_run rnd ops) as (s & E & _ & _ & P & D). exists s. auto. Qed.
Print Assumptions C29_uncapped_keeps_all.
(** A read returns the same data in non-decreasing order. *)
Theorem C29_iter_sorted : forall rnd cap ops s, r_run rnd (r_new cap) ops = Ok s ->
  Permutation (r_data s) (snd (r_iter s)) /\ qasc (snd (r_iter s)).
Proof.
  intros rnd cap ops s H. destruct (r_sort_spec s (reach_sorted _ _ _ _ H)) as (S1 & S2 & _). split; auto.
Qed.
Print Assumptions C29_iter_sorted.
Example C29_ex :
  exists s, r_run (fun x => x) (r_new None) [RAdd 3 0; RQuantile (1#2); RAdd 1 0; RIter; RAdd 2 0] = Ok s /\
    b_count (r_base s) = 3 /\ b_min (r_base s) = Some 1%Q /\ b_max (r_base s) = Some 3%Q /\
    r_data s = [1%Q; 3%Q; 2%Q] /\ snd (r_iter s) = [1%Q; 2%Q; 3%Q].
Proof. eexists. vm_compute. repeat split; reflexivity. Qed.

(** C30. *)
Theorem C30_capped_bounded : forall rnd cap ops, exists s, r_run rnd (r_new (Some cap)) ops = Ok s /\
  length (r_data s) = Nat.min (length (added ops)) cap /\
  (exists dropped, Permutation (map rnd (accepted cap ops)) (r_data s ++ dropped)) /\
  (forall x, In x (r_data s) -> exists v, In v (added ops) /\ x = rnd v) /\
  describes (r_base s) (accepted cap ops).
Proof.
  intros rnd cap ops. destruct (capped_run rnd cap ops) as (s & E & _ & _ & L & P & D & _). exists s.
  split; auto. split; auto. split; auto. split; auto. intros x Hx. destruct P as (rest & P).
  assert (Hin : In x (map rnd (accepted cap ops))) by (eapply Permutation_in; [apply Permutation_sym; exact P | apply in_or_app; auto]).
  apply in_map_iff in Hin. destruct Hin as (v & <- & Hv). exists v. split; auto.
  unfold accepted in Hv. unfold added. apply in_map_iff in Hv. destruct Hv as (p & <- & Hp). apply in_map.
  rewrite <- (firstn_skipn cap (r_adds_of ops)). apply in_app_or in Hp. apply in_or_app. destruct Hp as [Hp|Hp]; auto.
  apply filter_In in Hp. right. apply Hp.
Qed.
Print Assumptions C30_capped_bounded.
(** The natural expectation about [count], [min] and [max] is false. *)
Theorem C30_count_refuted : exists cap ops s, r_run (fun x => x) (r_new (Some cap)) ops = Ok s /\
  b_count (r_base s) <> length (added ops) /\ ~ greatest_of (added ops) (b_max (r_base s)).
Proof.
  exists 2, [RAdd 1 0; RAdd 2 1; RAdd 9 2]. eexists. split; [reflexivity|]. split; [vm_compute; discriminate|].
  intros [_ H]. specialize (H 9%Q (or_intror (or_intror (or_introl eq_refl)))). revert H. vm_compute. intros H. apply H. reflexivity.
Qed.
Print Assumptions C30_count_refuted.
Example C30_ex : exists s, r_run (fun x => x) (r_new (Some 2)) [RAdd 5 0; RAdd 7 0; RAdd 1 1; RAdd 8 2] = Ok s /\ r_data s = [5%Q; 1%Q] /\ b_count (r_base s) = 3.
Proof. eexists. vm_compute. repeat split; reflexivity. Qed.

(** C31. *)
Theorem C31_quantile_interpolates : forall rnd cap ops s q, r_run rnd (r_new cap) ops = Ok s ->
  r_data s <> [] -> in01 q ->
  exists v, snd (r_get_quantile s q) = Ok v /\ linear_quantile (r_data s) q v /\
    exists lo hi, least_of (r_data s) (Some lo) /\ greatest_of (r_data s) (Some hi) /\ (lo <= v)%Q /\ (v <= hi)%Q.
Proof.
  intros rnd cap ops s q H Hd Hq. destruct (quantile_value s q (reach_sorted _ _ _ _ H) Hd Hq) as (v & Ev & Lv). exists v. split; auto. split; auto.
  destruct (linear_between _ _ _ Lv) as (lo & hi & _ & Hlo & Hhi & H1 & H2 & _).
  destruct (qsort_spec (r_data s)) as [A P]. destruct (qsort (r_data s)) as [|x l] eqn:E; [apply Permutation_sym, Permutation_nil in P; contradiction|].
  assert (Hall : forall y, In y (r_data s) -> In y (x :: l)) by (intros y Hy; eapply Permutation_in; eauto).
  assert (Hall' : forall y, In y (x :: l) -> In y (r_data s)) by (intros y Hy; eapply Permutation_in; [apply Permutation_sym|]; eauto).
  destruct (exists_last (l := x :: l)) as (m & z & Em); [discriminate|].
  assert (Hx : forall y, In y (x :: l) -> (x <= y)%Q) by (intros y [<-|Hy]; [apply Qle_refl | apply A; auto]).
  assert (Hz : forall y, In y (x :: l) -> (y <= z)%Q).
  { rewrite Em in *. apply qasc_app in A. destruct A as (_ & _ & A). intros y Hy. apply in_app_or in Hy.
    destruct Hy as [Hy|[<-|[]]]; [apply A; auto; left; auto | apply Qle_refl]. }
  exists x, z. split; [split; [apply Hall'; left; auto | auto]|]. split; [split; [apply Hall'; rewrite Em; apply in_or_app; right; left; auto | auto]|].
  specialize (Hx lo (Hall lo Hlo)). specialize (Hz hi (Hall hi Hhi)). split; lra.
Qed.
Print Assumptions C31_quantile_interpolates.
Theorem C31_quantile_monotone : forall rnd cap ops s q1 q2 v1 v2, r_run rnd (r_new cap) ops = Ok s ->
  (q1 <= q2)%Q -> snd (r_get_quantile s q1) = Ok v1 -> snd (r_get_quantile s q2) = Ok v2 -> (v1 <= v2)%Q.
Proof.
  intros rnd cap ops s q1 q2 v1 v2 H Hle E1 E2. pose proof (reach_sorted _ _ _ _ H) as Hs.
  assert (I : forall q v, snd (r_get_quantile s q) = Ok v -> in01 q /\ r_data s <> []).
  { intros q v E. assert (Hq : in01 q).
    { destruct (qlt 0 q) eqn:A; [destruct (qlt q 1) eqn:B|].
      - split; apply qlt_true; auto.
      - rewrite quantile_range in E; [discriminate|]. intros [_ Hx]. apply qlt_true in Hx. congruence.
      - rewrite quantile_range in E; [discriminate|]. intros [Hx _]. apply qlt_true in Hx. congruence. }
    split; auto. intros Hd. rewrite quantile_empty in E by auto. discriminate. }
  destruct (I q1 v1 E1) as [I1 Hd]. destruct (I q2 v2 E2) as [I2 _].
  destruct (quantile_value s q1 Hs Hd I1) as (w1 & F1 & L1). destruct (quantile_value s q2 Hs Hd I2) as (w2 & F2 & L2).
  replace v1 with w1 by congruence. replace v2 with w2 by congruence. eapply linear_monotone; eauto.
Qed.
Print Assumptions C31_quantile_monotone.
Theorem C31_quantile_errors : forall s q,
  (~ in01 q -> snd (r_get_quantile s q) = ValueError) /\
  (in01 q -> r_data s = [] -> snd (r_get_quantile s q) = IndexError).
Proof.
  intros s q. split; [intros H; rewrite (quantile_range s q H); auto | intros; apply quantile_empty; auto].
Qed.
Print Assumptions C31_quantile_errors.
Example C31_ex : exists s, r_run (fun x => x) (r_new None) [RAdd 4 0; RAdd 1 0; RAdd 2 0; RAdd 8 0] = Ok s /\ r_data s <> [] /\ in01 (1#2) /\
  exists v, snd (r_get_quantile s (1#2)) = Ok v /\ (v == 3)%Q.
Proof. eexists. split; [reflexivity|]. split; [discriminate|]. split; [split; reflexivity|]. eexists. split; [vm_compute; reflexivity | reflexivity]. Qed.

(** C32. *)
Theorem C32_quantiles_monotone : forall rnd cap ops s qs, (forall x, (rnd x == x)%Q) ->
  r_run rnd (r_new cap) ops = Ok s -> r_data s <> [] -> qasc qs -> Forall in01 qs ->
  exists vals, snd (r_get_quantiles s qs) = Ok (combine (0%Q :: qs ++ [1%Q]) (map Some vals)) /\
    length vals = length qs + 2 /\ qasc vals /\
    option_map Some (hd_error vals) = Some (b_min (r_base s)) /\ Some (last vals 0%Q) = b_max (r_base s).
Proof. exact quantiles_monotone. Qed.
Print Assumptions C32_quantiles_monotone.
(** With values stored in single precision the list need not be monotone. *)
Theorem C32_single_precision_refuted : exists ops s qs v m,
  r_run f32 (r_new None) ops = Ok s /\ qasc qs /\ Forall in01 qs /\
  snd (r_get_quantiles s qs) = Ok [(0%Q, b_min (r_base s)); (9#10, Some v); (1%Q, Some m)] /\ (m < v)%Q.
Proof.
  exists [RAdd 16777219 0], (mkRes (mkBase 1 (Some 16777219%Q) (Some 16777219%Q)) [16777220%Q] false None), [9#10]%Q, 16777220%Q, 16777219%Q.
  split; [vm_compute; reflexivity|]. split; [split; [intros ? []|exact I]|]. split; [repeat constructor|].
  split; vm_compute; reflexivity.
Qed.
Print Assumptions C32_single_precision_refuted.
Example C32_ex : exists s vals, r_run (fun x => x) (r_new None) [RAdd 4 0; RAdd 1 0; RAdd 7 0] = Ok s /\
  snd (r_get_quantiles s [1#4; 1#2]%Q) = Ok (combine [0; 1#4; 1#2; 1]%Q (map Some vals)) /\ map Qred vals = [1; 5#2; 4; 7]%Q.
Proof. eexists. eexists [1; _; 4; 7]%Q. split; [reflexivity|]. split; vm_compute; reflexivity. Qed.

(** C33. *)
Theorem C33_p2_estimates : forall q_points qs data more,
  process_q_points q_points = Ok qs -> length qs + 2 <= length data ->
  exists s lo mid hi, (let? s0 := p2_new q_points data in p2_adds s0 more) = Ok s /\
    p2_get_quantiles s = combine (0%Q :: qs ++ [1%Q]) (lo :: mid ++ [hi]) /\ length mid = length qs /\
    qasc (lo :: mid ++ [hi]) /\
    least_of (data ++ more) (Some lo) /\ greatest_of (data ++ more) (Some hi) /\
    increasing (map fst (p2_vals s)) /\
    hd_error (map fst (p2_vals s)) = Some 1%Z /\ last (map fst (p2_vals s)) 0%Z = Z.of_nat (length (data ++ more)).
Proof. exact p2_estimates. Qed.
Print Assumptions C33_p2_estimates.
(** The rank at which the estimate for the [j]-th point stands (of the list 0, points, 1) is
    never further from the ideal rank [1 + (n - 1) q] than a constant that depends on the
    number of points only, however many values are added. *)
Theorem C33_ranks_track : forall q_points qs data more s,
  process_q_points q_points = Ok qs -> length qs + 2 <= length data ->
  (let? s0 := p2_new q_points data in p2_adds s0 more) = Ok s ->
  forall j q rank, nth_error (0%Q :: qs ++ [1%Q]) j = Some q -> nth_error (map fst (p2_vals s)) j = Some rank ->
  let ideal := (1 + (inject_Z (Z.of_nat (length (data ++ more))) - 1) * q)%Q in
  (ideal - 2 * inject_Z (Z.of_nat (length qs + 1 - j)) <= inject_Z rank)%Q /\ (inject_Z rank <= ideal + inject_Z (Z.of_nat j))%Q.
Proof. exact p2_track. Qed.
Print Assumptions C33_ranks_track.
Theorem C33_p2_too_short : forall q_points qs data,
  process_q_points q_points = Ok qs -> length data < length qs + 2 -> p2_new q_points data = ValueError.
Proof. exact p2_new_short. Qed.
Print Assumptions C33_p2_too_short.
Definition half_point : list qpoint := [mkQp 0 (Some (1#2)%Q)].
Example C33_ex : process_q_points half_point = Ok [(1#2)%Q] /\
  exists s, (let? s0 := p2_new half_point [3; 1; 2]%Q in p2_adds s0 [5; 4; 0; 9]%Q) = Ok s /\
    map fst (p2_vals s) = [1; 4; 7]%Z /\ map (fun p => (fst p, Qred (snd p))) (p2_get_quantiles s) = [(0, 0); (1#2, 3); (1, 9)]%Q.
Proof. split; [reflexivity|]. eexists. split; [vm_compute; reflexivity|]. split; vm_compute; reflexivity. Qed.

(** C34.  The full statement: count, min and max describe the values added. *)
Theorem C34_p2acc_describes_refuted : exists q_points s0 ops s,
  p2a_new q_points = Ok s0 /\ p2a_run (fun x => x) s0 ops = Ok s /\ ~ describes (pa_base s) (padded ops).
Proof.
  exists half_point. eexists. exists [PAdd 1; PAdd 2; PAdd 3; PAdd 4]. eexists. split; [reflexivity|]. split; [vm_compute; reflexivity|].
  intros [H _]. vm_compute in H. discriminate.
Qed.
Print Assumptions C34_p2acc_describes_refuted.
(** What holds: no operation raises, and they describe the values added after
    the first [length qs + 2]. *)
Theorem C34_p2acc_describes_partial : forall rnd q_points qs s0 ops,
  process_q_points q_points = Ok qs -> p2a_new q_points = Ok s0 ->
  exists s, p2a_run rnd s0 ops = Ok s /\ describes (pa_base s) (skipn (length qs + 2) (padded ops)).
Proof.
  intros rnd q_points qs s0 ops Hq Hn. destruct (p2a_run_ok rnd q_points qs s0 Hq Hn) as (qs2 & _ & _ & _ & _ & H).
  destruct (H ops) as (s & E & _ & D & _). exists s. auto.
Qed.
Print Assumptions C34_p2acc_describes_partial.
Example C34_ex : exists s0 s, p2a_new half_point = Ok s0 /\ p2a_run (fun x => x) s0 [PAdd 1; PQuantile (1#2); PAdd 2; PAdd 3; PAdd 4; PAdd 9] = Ok s /\
  b_count (pa_base s) = 2 /\ b_min (pa_base s) = Some 4%Q.
Proof. eexists. eexists. split; [reflexivity|]. split; [vm_compute; reflexivity|]. split; reflexivity. Qed.

(** C35. *)
Theorem C35_accepts_sound : forall q_points l, process_q_points q_points = Ok l ->
  qasc l /\ exists vs, set_values q_points vs /\ interior vs l.
Proof. exact process_sound. Qed.
Print Assumptions C35_accepts_sound.
Theorem C35_accepts_complete : forall q_points vs mid, consistent q_points -> set_values q_points vs -> interior vs mid ->
  exists l, process_q_points q_points = Ok l /\ qasc l /\ Permutation mid l.
Proof.
  intros q_points vs mid Hc Hs Hi. destruct (process_complete q_points vs mid Hc Hs Hi) as (l & E & P). exists l. split; auto.
  split; auto. apply (process_sound _ _ E).
Qed.
Print Assumptions C35_accepts_complete.
Theorem C35_rejects : forall q_points, (exists l, process_q_points q_points = Ok l) \/ process_q_points q_points = ValueError.
Proof. exact process_errors. Qed.
Print Assumptions C35_rejects.
Example C35_ex :
  process_q_points [mkQp 0 (Some 1%Q); mkQp 1 (Some (3#4)%Q); mkQp 2 (Some (1#4)%Q); mkQp 1 (Some (3#4)%Q); mkQp 3 (Some 0%Q)] = Ok [1#4; 3#4]%Q /\
  process_q_points [mkQp 0 (Some 1%Q); mkQp 1 (Some 0%Q)] = ValueError /\ process_q_points [mkQp 0 (Some (3#2)%Q)] = ValueError /\
  process_q_points [mkQp 0 None] = ValueError /\ process_q_points [] = ValueError.
Proof. vm_compute. repeat split; reflexivity. Qed.

(** C36, for any accumulator given by its quantile reads. *)
Theorem C36_histogram_tiles : forall (S : Type) (gq : S -> Q -> S * pyres Q) bs s qs s' cells,
  get_histogram gq bs s qs = (s', Ok cells) ->
  map c_q cells = combine (0%Q :: qs) (qs ++ [1%Q]) /\
  (forall c, In c cells -> c_ratio c = (snd (c_q c) - fst (c_q c))%Q) /\
  (qsum (map c_ratio cells) == 1)%Q.
Proof.
  intros S gq bs s qs s' cells H. unfold get_histogram in H. destruct (get_quantiles gq bs s qs) as [s1 r] eqn:E.
  destruct r as [qw| | |]; cbn [rbind] in H; inversion H; subst. pose proof (get_quantiles_keys gq bs s qs s' qw E) as Hk.
  split; [rewrite cells_q, Hk|split; [intros c; apply cells_ratio | apply (cells_sum _ qw qs Hk)]].
  unfold pairs. cbn [tl]. clear. generalize 0%Q. induction qs as [|q qs IH]; intros x; [reflexivity|]. cbn [app combine]. f_equal. apply IH.
Qed.
Print Assumptions C36_histogram_tiles.
Theorem C36_histogram_counts : forall (S : Type) (gq : S -> Q -> S * pyres Q) bs s qs s' cells,
  qs <> [] -> qasc qs -> Forall in01 qs ->
  get_histogram gq bs s qs = (s', Ok cells) ->
  (Z.abs (zsum (map c_count cells) - Z.of_nat (b_count (bs s'))) <= Z.of_nat (length cells))%Z.
Proof.
  intros S gq bs s qs s' cells Hne Ha Hi H. unfold get_histogram in H. destruct (get_quantiles gq bs s qs) as [s1 r] eqn:E.
  destruct r as [qw| | |]; cbn [rbind] in H; inversion H; subst. pose proof (get_quantiles_keys gq bs s qs s' qw E) as Hk.
  assert (Hl : length (histogram_cells (b_count (bs s')) qw) = length qs + 1).
  { rewrite <- (map_length c_q), cells_q, pairs_length, Hk. cbn [length]. rewrite app_length. cbn [length]. lia. }
  rewrite Hl. destruct (Nat.le_gt_cases (length qw) (b_count (bs s'))) as [L|L].
  - destruct (histogram_count_large _ qw qs Hne Ha Hi Hk L) as [A B]. assert (length qs > 0) by (destruct qs; [congruence | simpl; lia]). lia.
  - destruct (histogram_count_small _ qw qs Ha Hi Hk L) as [A B]. lia.
Qed.
Print Assumptions C36_histogram_counts.
Example C36_ex : exists s s' cells, r_run (fun x => x) (r_new None) [RAdd 4 0; RAdd 1 0; RAdd 7 0; RAdd 3 0; RAdd 8 0] = Ok s /\
  get_histogram r_get_quantile r_base s [1#4; 1#2]%Q = (s', Ok cells) /\ map c_count cells = [2; 1; 3]%Z /\ map c_q cells = [(0, 1#4); (1#4, 1#2); (1#2, 1)]%Q.
Proof. eexists. eexists. eexists. split; [reflexivity|]. split; [vm_compute; reflexivity|]. split; reflexivity. Qed.

(** C63. *)
Theorem C63_p2acc_warm_up : forall rnd q_points qs s0 ops s q,
  process_q_points q_points = Ok qs -> p2a_new q_points = Ok s0 ->
  p2a_run rnd s0 ops = Ok s -> 0 < length (padded ops) < length qs + 2 -> in01 q ->
  exists v, snd (p2a_get_quantile s q) = Ok v /\ linear_quantile (map rnd (padded ops)) q v.
Proof. exact p2a_warm. Qed.
Print Assumptions C63_p2acc_warm_up.
Theorem C63_p2acc_estimating : forall rnd q_points qs s0 ops s,
  process_q_points q_points = Ok qs -> p2a_new q_points = Ok s0 ->
  p2a_run rnd s0 ops = Ok s -> length qs + 2 <= length (padded ops) ->
  let seen := map rnd (firstn (length qs + 2) (padded ops)) ++ skipn (length qs + 2) (padded ops) in
  (forall q, In q qs -> exists v lo hi, snd (p2a_get_quantile s q) = Ok v /\ least_of seen (Some lo) /\ greatest_of seen (Some hi) /\ (lo <= v)%Q /\ (v <= hi)%Q) /\
  (forall q1 q2 v1 v2, (q1 <= q2)%Q -> snd (p2a_get_quantile s q1) = Ok v1 -> snd (p2a_get_quantile s q2) = Ok v2 -> (v1 <= v2)%Q) /\
  (forall q, (forall x, In x (0%Q :: qs ++ [1%Q]) -> ~ (q == x)%Q) -> snd (p2a_get_quantile s q) = ValueError).
Proof. exact p2a_estimating. Qed.
Print Assumptions C63_p2acc_estimating.
Example C63_ex : exists s0 s1 s2 v1 v2, p2a_new half_point = Ok s0 /\
  p2a_run (fun x => x) s0 [PAdd 1; PAdd 2] = Ok s1 /\ snd (p2a_get_quantile s1 (1#2)) = Ok v1 /\ (v1 == 3#2)%Q /\
  p2a_run (fun x => x) s0 [PAdd 1; PAdd 2; PAdd 3; PAdd 4; PAdd 9] = Ok s2 /\ snd (p2a_get_quantile s2 (1#2)) = Ok v2 /\ (v2 == 11#3)%Q /\
  snd (p2a_get_quantile s2 (1#3)) = ValueError.
Proof.
  eexists. eexists. eexists. eexists. eexists. split; [reflexivity|]. split; [vm_compute; reflexivity|]. split; [vm_compute; reflexivity|]. split; [reflexivity|].
  split; [vm_compute; reflexivity|]. split; [vm_compute; reflexivity|]. split; reflexivity.
Qed.

(** get_quantiles() without points uses the accumulator's own. *)
Theorem C63_p2acc_get_quantiles : forall rnd q_points qs s0 ops s,
  process_q_points q_points = Ok qs -> p2a_new q_points = Ok s0 ->
  p2a_run rnd s0 ops = Ok s -> length qs + 2 <= length (padded ops) ->
  exists vals, snd (p2a_get_quantiles s []) = Ok ((0%Q, b_min (pa_base s)) :: combine qs (map Some vals) ++ [(1%Q, b_max (pa_base s))]) /\
    Forall2 (fun q v => snd (p2a_get_quantile s q) = Ok v) qs vals /\ qasc vals.
Proof. exact p2a_defaults. Qed.
Print Assumptions C63_p2acc_get_quantiles.
(** Its two ends come from the minimum and maximum of C34, so the list need not ascend. *)
Theorem C63_get_quantiles_ascending_refuted : exists q_points s0 ops s a v b,
  p2a_new q_points = Ok s0 /\ p2a_run (fun x => x) s0 ops = Ok s /\
  snd (p2a_get_quantiles s []) = Ok [(0%Q, Some a); (1#2, Some v); (1%Q, Some b)]%Q /\ (v < a)%Q.
Proof.
  exists half_point. eexists. exists [PAdd 1; PAdd 2; PAdd 3; PAdd 4; PAdd 9]. eexists. eexists. eexists. eexists.
  split; [reflexivity|]. split; [vm_compute; reflexivity|]. split; [vm_compute; reflexivity|]. reflexivity.
Qed.
Print Assumptions C63_get_quantiles_ascending_refuted.

(** C64. *)
Theorem C64_quartiles_iqr_trimean : forall rnd cap ops s, r_run rnd (r_new cap) ops = Ok s -> r_data s <> [] ->
  exists a b c,
    linear_quantile (r_data s) (1#4) a /\ linear_quantile (r_data s) (1#2) b /\ linear_quantile (r_data s) (3#4) c /\
    snd (quartiles r_get_quantile s) = Ok (a, b, c) /\ (a <= b)%Q /\ (b <= c)%Q /\
    (exists d, snd (iqr r_get_quantile s) = Ok d /\ (d == c - a)%Q /\ (0 <= d)%Q) /\
    (exists t, snd (trimean r_get_quantile s) = Ok t /\ (t == (a + 2 * b + c) / 4)%Q /\ (a <= t)%Q /\ (t <= c)%Q).
Proof. intros rnd cap ops s H Hd. apply quartile_stats; auto. apply (reach_sorted _ _ _ _ H). Qed.
Print Assumptions C64_quartiles_iqr_trimean.
Example C64_ex : exists s, r_run (fun x => x) (r_new None) [RAdd 4 0; RAdd 1 0; RAdd 7 0; RAdd 3 0; RAdd 8 0] = Ok s /\ r_data s <> [] /\
  snd (quartiles r_get_quantile s) = Ok (3, 4, 7)%Q.
Proof. eexists. split; [reflexivity|]. split; [discriminate | vm_compute; reflexivity]. Qed.
