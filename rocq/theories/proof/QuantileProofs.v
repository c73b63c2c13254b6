From Coq Require Import Lqa.
From Verif Require Import model.PyBase model.Bisect model.Levels model.Quantile spec.QuantileSpec.
Open Scope nat_scope.

(** ** comparisons and sorting *)
Lemma qlt_true a b : qlt a b = true <-> (a < b)%Q.
Proof.
  unfold qlt. rewrite negb_true_iff. split.
  - intros H. apply Qnot_le_lt. intros Hle. apply Qle_bool_iff in Hle. congruence.
  - intros H. destruct (Qle_bool b a) eqn:E; auto. apply Qle_bool_iff in E. exfalso. lra.
Qed.
Lemma qlt_false a b : qlt a b = false <-> (b <= a)%Q.
Proof. unfold qlt. rewrite negb_false_iff. apply Qle_bool_iff. Qed.

Lemma qinsert_spec x l : qasc l -> qasc (qinsert x l) /\ Permutation (x :: l) (qinsert x l).
Proof.
  induction l as [|y l IH]; intros H; simpl; [split; [split; auto; intros ? []|auto]|].
  destruct H as [H1 H2]. destruct (IH H2) as [I1 I2]. destruct (qlt x y) eqn:E.
  - apply qlt_true in E. split; auto. simpl. split; [|split; auto]. intros z [<-|Hz]; [lra|]. specialize (H1 z Hz). lra.
  - apply qlt_false in E. split.
    + simpl. split; auto. intros z Hz. eapply Permutation_in in Hz; [|apply Permutation_sym; exact I2].
      destruct Hz as [<-|Hz]; auto.
    + apply Permutation_trans with (y :: x :: l); [apply perm_swap | apply perm_skip; auto].
Qed.
Lemma qsort_acc l : forall acc, qasc acc ->
  qasc (fold_left (fun acc x => qinsert x acc) l acc) /\ Permutation (l ++ acc) (fold_left (fun acc x => qinsert x acc) l acc).
Proof.
  induction l as [|x l IH]; intros acc H; [simpl; auto|]. simpl.
  destruct (qinsert_spec x acc H) as [H1 H2]. destruct (IH _ H1) as [H3 H4]. split; auto.
  eapply Permutation_trans; [|exact H4]. eapply Permutation_trans; [apply Permutation_middle|]. apply Permutation_app_head; auto.
Qed.
Lemma qsort_spec l : qasc (qsort l) /\ Permutation l (qsort l).
Proof. destruct (qsort_acc l [] I) as [H1 H2]. rewrite app_nil_r in H2. auto. Qed.
Lemma qasc_nth l : qasc l -> forall i j x y, i <= j -> nth_error l i = Some x -> nth_error l j = Some y -> (x <= y)%Q.
Proof.
  induction l as [|a l IH]; intros H i j x y Hij Hx Hy; [destruct i; discriminate|].
  destruct H as [H1 H2]. destruct j.
  - assert (i = 0) by lia. subst. simpl in *. assert (x = y) by congruence. subst. lra.
  - destruct i; simpl in *; [|apply (IH H2 i j x y); auto; lia]. inversion Hx; subst. apply H1. eapply nth_error_In; eauto.
Qed.
Lemma qasc_app a b : qasc (a ++ b) <-> qasc a /\ qasc b /\ forall x y, In x a -> In y b -> (x <= y)%Q.
Proof.
  induction a as [|z a IH]; simpl.
  - split; [intros H; split; [exact I|split; [auto|intros ? ? []]] | tauto].
  - rewrite IH. split.
    + intros (H1 & H2 & H3 & H4). split; [split; auto; intros; apply H1, in_or_app; auto|]. split; auto.
      intros x y [<-|Hx] Hy; auto. apply H1, in_or_app; auto.
    + intros ((H1 & H2) & H3 & H4). split; [|split; [auto|split; auto]].
      intros y Hy. apply in_app_or in Hy. destruct Hy; auto.
Qed.

(** ** base *)
Lemma base_new_describes : describes base_new [].
Proof. split; auto. split; reflexivity. Qed.
Lemma base_add_describes b vs v : describes b vs -> describes (base_add b v) (vs ++ [v]).
Proof.
  intros (H1 & H2 & H3). unfold base_add. split; [simpl; rewrite app_length; simpl; lia|].
  cbn [b_min b_max]. split.
  - destruct (b_min b) as [m|]; simpl in H2.
    + destruct H2 as [Hm Hall]. destruct (qlt v m) eqn:E; [apply qlt_true in E | apply qlt_false in E]; simpl;
      (split; [apply in_or_app; simpl; tauto|]); intros x Hx; apply in_app_or in Hx; destruct Hx as [Hx|[<-|[]]];
      try specialize (Hall x Hx); lra.
    + subst vs. simpl. split; auto. intros x [<-|[]]. lra.
  - destruct (b_max b) as [m|]; simpl in H3.
    + destruct H3 as [Hm Hall]. destruct (qlt m v) eqn:E; [apply qlt_true in E | apply qlt_false in E]; simpl;
      (split; [apply in_or_app; simpl; tauto|]); intros x Hx; apply in_app_or in Hx; destruct Hx as [Hx|[<-|[]]];
      try specialize (Hall x Hx); lra.
    + subst vs. simpl. split; auto. intros x [<-|[]]. lra.
Qed.

(** ** reservoir *)
Definition sorted_ok (s : reservoir) : Prop := r_sorted s = true -> qasc (r_data s).
Lemma r_sort_spec s : sorted_ok s ->
  qasc (r_data (r_sort s)) /\ Permutation (r_data s) (r_data (r_sort s)) /\
  r_base (r_sort s) = r_base s /\ r_cap (r_sort s) = r_cap s /\ r_sorted (r_sort s) = true.
Proof.
  intros H. unfold r_sort. destruct (r_sorted s) eqn:E; [auto|]. destruct (qsort_spec (r_data s)). simpl. auto.
Qed.
Lemma r_get_quantile_state s q : sorted_ok s ->
  let s' := fst (r_get_quantile s q) in
  sorted_ok s' /\ Permutation (r_data s) (r_data s') /\ r_base s' = r_base s /\ r_cap s' = r_cap s.
Proof.
  intros H. unfold r_get_quantile. destruct (negb _); [simpl; auto|]. cbn [fst].
  destruct (r_sort_spec s H) as (H1 & H2 & H3 & H4 & H5). split; [intros _; auto|]. auto.
Qed.
Lemma r_iter_state s : sorted_ok s ->
  let s' := fst (r_iter s) in
  sorted_ok s' /\ Permutation (r_data s) (r_data s') /\ r_base s' = r_base s /\ r_cap s' = r_cap s.
Proof.
  intros H. unfold r_iter. cbn [fst]. destruct (r_sort_spec s H) as (H1 & H2 & H3 & H4 & H5). split; [intros _; auto|]. auto.
Qed.

Lemma r_adds_of_app a b : r_adds_of (a ++ b) = r_adds_of a ++ r_adds_of b.
Proof. induction a as [|[]]; simpl; auto. f_equal. auto. Qed.
Lemma r_run_app rnd a : forall s b, r_run rnd s (a ++ b) = let? s1 := r_run rnd s a in r_run rnd s1 b.
Proof.
  induction a as [|o a IH]; intros s b; auto. destruct o; simpl; auto.
  destruct (r_add rnd draw s v); simpl; auto.
Qed.

(** C29 *)
Lemma uncapped_run rnd ops : exists s,
  r_run rnd (r_new None) ops = Ok s /\ sorted_ok s /\ r_cap s = None /\
  Permutation (r_data s) (map rnd (added ops)) /\ describes (r_base s) (added ops).
Proof.
  induction ops as [|o ops IH] using rev_ind.
  - exists (r_new None). split; auto. split; [intros _; exact I|]. split; auto. split; [apply perm_nil|apply base_new_describes].
  - destruct IH as (s & E & I1 & I2 & I3 & I4). rewrite r_run_app, E. cbn [rbind].
    unfold added in *. rewrite r_adds_of_app, map_app. destruct o as [v d|q|]; cbn [r_run r_adds_of map].
    + unfold r_add. rewrite I2. simpl. eexists. split; [reflexivity|]. split; [intros H; discriminate|].
      split; auto. split; [|apply base_add_describes; auto]. cbn [r_data]. rewrite map_app.
      apply Permutation_app; auto.
    + rewrite app_nil_r. destruct (r_get_quantile_state s q I1) as (J1 & J2 & J3 & J4).
      eexists. split; [reflexivity|]. split; auto. split; [congruence|]. rewrite J3. split; auto.
      eapply Permutation_trans; [apply Permutation_sym; exact J2 | auto].
    + rewrite app_nil_r. destruct (r_iter_state s I1) as (J1 & J2 & J3 & J4).
      eexists. split; [reflexivity|]. split; auto. split; [congruence|]. rewrite J3. split; auto.
      eapply Permutation_trans; [apply Permutation_sym; exact J2 | auto].
Qed.

(** C30 *)
Lemma replace_perm {A} (l : list A) i x : i < length l -> exists y, Permutation (x :: l) (replace_at i x l ++ [y]) /\ In y l.
Proof.
  revert i. induction l as [|a l IH]; intros i Hi; [simpl in Hi; lia|]. destruct i; simpl.
  - exists a. split; auto. apply Permutation_trans with (x :: l ++ [a]); [apply perm_skip, Permutation_cons_append | auto].
  - simpl in Hi. destruct (IH i ltac:(lia)) as (y & Hp & Hy). exists y. split; auto.
    apply Permutation_trans with (a :: x :: l); [apply perm_swap | apply perm_skip; auto].
Qed.
Lemma replace_at_length {A} (l : list A) i x : length (replace_at i x l) = length l.
Proof. revert i. induction l; intros [|i]; simpl; auto. Qed.

Lemma accepted_snoc cap ops v d :
  accepted cap (ops ++ [RAdd v d]) = accepted cap ops ++ (if (length (r_adds_of ops) <? cap) || (d <? cap) then [v] else []).
Proof.
  unfold accepted. rewrite r_adds_of_app. cbn [r_adds_of]. set (l := r_adds_of ops).
  rewrite firstn_app, skipn_app. rewrite !map_app, filter_app, map_app.
  destruct (Nat.ltb_spec (length l) cap) as [H|H].
  - assert (E : skipn cap l = []) by (apply skipn_all2; lia). rewrite E. simpl.
    destruct (cap - length l) as [|k] eqn:Ek; [lia|]. simpl. rewrite firstn_nil, skipn_nil. simpl. rewrite !app_nil_r. auto.
  - replace (cap - length l) with 0 by lia. simpl. rewrite app_nil_r, <- app_assoc. f_equal. f_equal.
    destruct (d <? cap); auto.
Qed.
Lemma accepted_read cap ops o : match o with RAdd _ _ => False | _ => True end -> accepted cap (ops ++ [o]) = accepted cap ops.
Proof. unfold accepted. rewrite r_adds_of_app. destruct o; intros []; simpl; rewrite app_nil_r; auto. Qed.

Definition capped_inv (rnd : Q -> Q) (cap : nat) (ops : list rop) (s : reservoir) : Prop :=
  sorted_ok s /\ r_cap s = Some cap /\ length (r_data s) = Nat.min (length (added ops)) cap /\
  (exists rest, Permutation (map rnd (accepted cap ops)) (r_data s ++ rest)) /\
  describes (r_base s) (accepted cap ops) /\ Nat.min (length (added ops)) cap <= b_count (r_base s) <= length (added ops).

Lemma count_lt_cap rnd cap ops s : capped_inv rnd cap ops s ->
  (b_count (r_base s) <? cap) = (length (r_adds_of ops) <? cap).
Proof.
  intros (_ & _ & _ & _ & _ & H). unfold added in H. rewrite map_length in H.
  destruct (Nat.ltb_spec (b_count (r_base s)) cap), (Nat.ltb_spec (length (r_adds_of ops)) cap); auto; lia.
Qed.
Lemma capped_run rnd cap ops : exists s, r_run rnd (r_new (Some cap)) ops = Ok s /\ capped_inv rnd cap ops s.
Proof.
  induction ops as [|o ops IH] using rev_ind.
  - exists (r_new (Some cap)). split; auto. split; [intros _; exact I|]. split; auto. split; [reflexivity|].
    unfold accepted. simpl. rewrite firstn_nil, skipn_nil. simpl.
    split; [exists []; apply perm_nil|]. split; [apply base_new_describes|]. simpl. lia.
  - destruct IH as (s & E & Inv). rewrite r_run_app, E. cbn [rbind]. pose proof (count_lt_cap rnd cap ops s Inv) as Hcc.
    destruct Inv as (I1 & I2 & I3 & (rest & I4) & I5 & I6).
    destruct o as [v d|q|].
    + assert (Hadd : length (added (ops ++ [RAdd v d])) = S (length (added ops))).
      { unfold added. rewrite r_adds_of_app, map_app, app_length. simpl. lia. }
      cbn [r_run]. unfold r_add. rewrite I2. cbn [below_cap]. rewrite Hcc.
      unfold capped_inv. rewrite Hadd, accepted_snoc.
      assert (Hl : length (added ops) = length (r_adds_of ops)) by (unfold added; apply map_length).
      destruct (Nat.ltb_spec (length (r_adds_of ops)) cap) as [H|H].
      * cbn [orb rbind r_data r_base r_cap]. eexists. split; [reflexivity|]. split; [intros Hx; discriminate|]. split; auto.
        split; [cbn [r_data]; rewrite app_length; cbn [length]; lia|]. split; [|split; [apply base_add_describes; auto | cbn [r_base b_count base_add]; lia]].
        exists rest. cbn [r_data]. rewrite map_app. cbn [map].
        eapply Permutation_trans; [apply Permutation_app_comm|]. cbn [app]. rewrite <- app_assoc. cbn [app].
        eapply Permutation_trans; [apply perm_skip; exact I4|]. apply Permutation_middle.
      * cbn [orb]. destruct (Nat.ltb_spec d cap) as [Hd|Hd].
        -- destruct (Nat.ltb_spec d (length (r_data s))) as [Hdl|Hdl]; [|lia].
           cbn [rbind]. eexists. split; [reflexivity|]. split; [intros Hx; discriminate|]. split; auto.
           split; [cbn [r_data]; rewrite replace_at_length; lia|].
           split; [|split; [apply base_add_describes; auto | cbn [r_base b_count base_add]; lia]].
           destruct (replace_perm (r_data s) d (rnd v) Hdl) as (y & Hp & _).
           exists (y :: rest). cbn [r_data]. rewrite map_app. cbn [map].
           eapply Permutation_trans; [apply Permutation_app_comm|]. cbn [app].
           eapply Permutation_trans; [apply perm_skip; exact I4|].
           change (rnd v :: r_data s ++ rest) with ((rnd v :: r_data s) ++ rest).
           eapply Permutation_trans; [apply Permutation_app_tail; exact Hp|]. rewrite <- app_assoc. auto.
        -- cbn [rbind]. rewrite app_nil_r. exists s. split; [reflexivity|]. split; auto. split; auto. split; [lia|].
           split; [exists rest; auto|]. split; auto. lia.
    + cbn [r_run]. destruct (r_get_quantile_state s q I1) as (J1 & J2 & J3 & J4). eexists. split; [reflexivity|].
      unfold capped_inv. rewrite (accepted_read cap ops (RQuantile q) I).
      replace (added (ops ++ [RQuantile q])) with (added ops) by (unfold added; rewrite r_adds_of_app; simpl; rewrite app_nil_r; auto).
      rewrite J3, J4. split; auto. split; auto. split; [rewrite <- (Permutation_length J2); auto|]. split; [|auto].
      exists rest. eapply Permutation_trans; [exact I4|]. apply Permutation_app_tail; auto.
    + cbn [r_run]. destruct (r_iter_state s I1) as (J1 & J2 & J3 & J4). eexists. split; [reflexivity|].
      unfold capped_inv. rewrite (accepted_read cap ops RIter I).
      replace (added (ops ++ [RIter])) with (added ops) by (unfold added; rewrite r_adds_of_app; simpl; rewrite app_nil_r; auto).
      rewrite J3, J4. split; auto. split; auto. split; [rewrite <- (Permutation_length J2); auto|]. split; [|auto].
      exists rest. eapply Permutation_trans; [exact I4|]. apply Permutation_app_tail; auto.
Qed.

Lemma reach_sorted rnd cap ops s : r_run rnd (r_new cap) ops = Ok s -> sorted_ok s.
Proof.
  intros H. destruct cap as [c|].
  - destruct (capped_run rnd c ops) as (s' & E & Inv). replace s with s' by congruence. apply Inv.
  - destruct (uncapped_run rnd ops) as (s' & E & Inv & _). replace s with s' by congruence. auto.
Qed.

(** C31 *)
Lemma floor_ceil_eq x : Qfloor x = Qceiling x -> (x == inject_Z (Qfloor x))%Q.
Proof. intros H. pose proof (Qfloor_le x). pose proof (Qle_ceiling x). rewrite <- H in *. lra. Qed.
Lemma floor_ceil_neq x : Qfloor x <> Qceiling x -> (Qceiling x = Qfloor x + 1)%Z.
Proof.
  intros H. pose proof (Qfloor_le x) as H1. pose proof (Qle_ceiling x) as H2. pose proof (Qlt_floor x) as H3. pose proof (Qceiling_lt x) as H4.
  assert (inject_Z (Qceiling x - 1) < inject_Z (Qfloor x + 1))%Q by lra. rewrite <- Zlt_Qlt in H0.
  assert (inject_Z (Qfloor x) <= inject_Z (Qceiling x))%Q by lra. rewrite <- Zle_Qle in H5. lia.
Qed.
Lemma py_nth_nat {A} (l : list A) i : (0 <= i)%Z -> py_nth l i = nth_error l (Z.to_nat i).
Proof. intros H. unfold py_nth. destruct (Z.ltb_spec i 0); [lia|auto]. Qed.

Lemma quantile_value s q : sorted_ok s -> r_data s <> [] -> in01 q ->
  exists v, snd (r_get_quantile s q) = Ok v /\ linear_quantile (r_data s) q v.
Proof.
  intros Hs Hne [H0 H1]. unfold r_get_quantile. rewrite (proj2 (qlt_true 0 q) H0), (proj2 (qlt_true q 1) H1). cbn [andb negb snd].
  destruct (r_sort_spec s Hs) as (S1 & S2 & _). set (d := r_data (r_sort s)) in *.
  pose proof (Permutation_length S2) as Hlen. rewrite <- Hlen. set (n := length (r_data s)) in *.
  assert (Hn : 0 < n) by (unfold n; destruct (r_data s); [congruence | simpl; lia]).
  set (x := (q * inject_Z (Z.of_nat n - 1))%Q).
  assert (Hz : (0 <= inject_Z (Z.of_nat n - 1))%Q) by (change 0%Q with (inject_Z 0); rewrite <- Zle_Qle; lia).
  assert (Hx0 : (0 <= x)%Q) by (unfold x; nra).
  assert (Hx1 : (x <= inject_Z (Z.of_nat n - 1))%Q) by (unfold x; nra).
  pose proof (Qfloor_le x) as F1. pose proof (Qlt_floor x) as F2.
  assert (Hf0 : (0 <= Qfloor x)%Z).
  { change 0%Z with (Qfloor 0). apply Qfloor_resp_le. auto. }
  assert (Hfn : (Qfloor x <= Z.of_nat n - 1)%Z).
  { rewrite <- (Qfloor_Z (Z.of_nat n - 1)). apply Qfloor_resp_le. auto. }
  destruct (nth_error d (Z.to_nat (Qfloor x))) as [lo|] eqn:Elo; [|apply nth_error_None in Elo; lia].
  rewrite (py_nth_nat d (Qfloor x) Hf0), Elo.
  destruct (Z.eqb_spec (Qfloor x) (Qceiling x)) as [Hfc|Hfc].
  - exists lo. split; [reflexivity|]. apply floor_ceil_eq in Hfc.
    assert (Hhi : exists hi, nth_error d (S (Z.to_nat (Qfloor x))) = Some hi \/ (S (Z.to_nat (Qfloor x)) = length d /\ hi = lo)).
    { destruct (nth_error d (S (Z.to_nat (Qfloor x)))) as [hi|] eqn:E; [exists hi; auto|]. apply nth_error_None in E. exists lo. right. split; auto. lia. }
    destruct Hhi as (hi & Hhi). exists d, (Z.to_nat (Qfloor x)), 0%Q, lo, hi. rewrite Z2Nat.id by auto. fold n. fold x.
    repeat split; auto; try lra.
  - apply floor_ceil_neq in Hfc. rewrite Hfc. rewrite py_nth_nat by lia.
    assert (Hlt : (Qfloor x < Z.of_nat n - 1)%Z).
    { destruct (Z.eq_dec (Qfloor x) (Z.of_nat n - 1)) as [E|]; [|lia]. exfalso.
      assert (Hc : (Qceiling x <= Z.of_nat n - 1)%Z) by (rewrite <- (Qceiling_Z (Z.of_nat n - 1)); apply Qceiling_resp_le; auto). lia. }
    replace (Z.to_nat (Qfloor x + 1)) with (S (Z.to_nat (Qfloor x))) by lia.
    destruct (nth_error d (S (Z.to_nat (Qfloor x)))) as [hi|] eqn:Ehi; [|apply nth_error_None in Ehi; lia].
    cbn [rbind]. eexists. split; [reflexivity|].
    exists d, (Z.to_nat (Qfloor x)), (x - inject_Z (Qfloor x))%Q, lo, hi. rewrite Z2Nat.id by auto. fold n. fold x.
    rewrite inject_Z_plus in F2 |- *. change (inject_Z 1) with 1%Q in F2 |- *. split; auto. split; auto. split; [lra|]. split; [lra|]. split; [lra|]. split; auto. split; auto.
    ring.
Qed.
Lemma quantile_range s q : ~ in01 q -> r_get_quantile s q = (s, ValueError).
Proof.
  intros H. unfold r_get_quantile. destruct (qlt 0 q) eqn:E0; auto. destruct (qlt q 1) eqn:E1; auto.
  exfalso. apply H. split; apply qlt_true; auto.
Qed.
Lemma qred0 : (inject_Z (Z.of_nat 0 - 1) == -1)%Q. Proof. reflexivity. Qed.
Lemma quantile_empty s q : r_data s = [] -> in01 q -> snd (r_get_quantile s q) = IndexError.
Proof.
  intros Hd [H0 H1]. unfold r_get_quantile. rewrite (proj2 (qlt_true 0 q) H0), (proj2 (qlt_true q 1) H1). cbn [andb negb snd].
  assert (E : r_data (r_sort s) = []).
  { unfold r_sort. destruct (r_sorted s); auto. simpl. rewrite Hd. reflexivity. }
  rewrite E. assert (Hp : forall i, @py_nth Q [] i = None).
  { intros i. unfold py_nth. simpl. destruct (i <? 0)%Z; [|destruct (Z.to_nat i); auto].
    destruct (i + 0 <? 0)%Z; auto. destruct (Z.to_nat (i + 0)); auto. }
  cbv zeta. rewrite !Hp. destruct (_ =? _)%Z; reflexivity.
Qed.

Lemma filter_len {A} (f : A -> bool) l : length (filter f l) <= length l.
Proof. induction l as [|a l IH]; simpl; auto. destruct (f a); simpl; lia. Qed.
Lemma perm_qasc_nth l s s' : Permutation l s -> qasc s -> Permutation l s' -> qasc s' -> forall k x y, nth_error s k = Some x -> nth_error s' k = Some y -> (x == y)%Q.
Proof.
  intros P1 A1 P2 A2. assert (P : Permutation s s') by (eapply Permutation_trans; [apply Permutation_sym; eauto|auto]). clear l P1 P2.
  assert (H : forall s s', Permutation s s' -> qasc s -> qasc s' -> forall k x y, nth_error s k = Some x -> nth_error s' k = Some y -> (x <= y)%Q).
  { clear. intros s s' P A1 A2 k x y Hx Hy.
    (* if y < x then the k+1 first of s' are all < x, but only k elements of s can be < x *)
    destruct (Qlt_le_dec y x) as [Hlt|]; auto. exfalso.
    pose (f := fun z => qlt z x).
    assert (C : length (filter f s) = length (filter f s')).
    { clearbody f. clear -P. induction P as [|a l l' P IH|a b l|l1 l2 l3 P1 IH1 P2 IH2]; simpl; auto.
      - destruct (f a); simpl; auto.
      - destruct (f a), (f b); simpl; auto.
      - congruence. }
    assert (C1 : length (filter f s) <= k).
    { rewrite <- (firstn_skipn k s), filter_app, app_length.
      assert (Z : filter f (skipn k s) = []).
      { assert (Hall : forall z, In z (skipn k s) -> f z = false).
        { intros z Hz. apply In_nth_error in Hz. destruct Hz as (i & Hi). apply qlt_false.
          apply (qasc_nth s A1 k (k + i)); auto; [lia|]. rewrite <- Hi. clear. revert s. induction k; intros s; auto. destruct s; simpl; auto. destruct i; auto. }
        clear -Hall. induction (skipn k s) as [|a l IH]; auto. simpl. rewrite Hall by (left; auto). apply IH. intros; apply Hall; right; auto. }
      rewrite Z. simpl. pose proof (filter_len f (firstn k s)). rewrite firstn_length in H. lia. }
    assert (C2 : k < length (filter f s')).
    { rewrite <- (firstn_skipn (S k) s'), filter_app, app_length.
      assert (Hk : k < length s') by (apply nth_error_Some; congruence).
      assert (Z : filter f (firstn (S k) s') = firstn (S k) s').
      { assert (Hall : forall z, In z (firstn (S k) s') -> f z = true).
        { intros z Hz. apply In_nth_error in Hz. destruct Hz as (i & Hi). apply qlt_true.
          assert (Hik : i < S k). { assert (Hl : i < length (firstn (S k) s')) by (apply nth_error_Some; congruence). rewrite firstn_length in Hl. lia. }
          apply Qle_lt_trans with y; auto. apply (qasc_nth s' A2 i k); auto; [lia|]. rewrite <- Hi.
          clear -Hik. revert i s' Hik. induction (S k); intros i s' Hik; [lia|]. destruct s'; [destruct i; auto|]. destruct i; auto. simpl. apply IHn. lia. }
        clear -Hall. induction (firstn (S k) s') as [|a l IH]; auto. simpl. rewrite Hall by (left; auto). f_equal. apply IH. intros; apply Hall; right; auto. }
      rewrite Z, firstn_length. lia. }
    lia. }
  intros k x y Hx Hy. apply Qle_antisym; [apply (H s s' P A1 A2 k) | apply (H s' s (Permutation_sym P) A2 A1 k)]; auto.
Qed.

(** The interpolated quantile is determined by the data, and monotone in q. *)
Lemma linear_between l q v : linear_quantile l q v -> exists lo hi k, In lo l /\ In hi l /\ (lo <= v)%Q /\ (v <= hi)%Q /\
   (forall s, Permutation l s -> qasc s -> exists x, nth_error s k = Some x /\ (x == lo)%Q).
Proof.
  intros (s & k & fr & lo & hi & P & A & E & F0 & F1 & Hlo & Hhi & V).
  assert (Hle : (lo <= hi)%Q).
  { destruct Hhi as [Hhi|[_ ->]]; [|lra]. apply (qasc_nth s A k (S k)); auto. }
  exists lo, hi, k. split; [eapply Permutation_in; [apply Permutation_sym; eauto | eapply nth_error_In; eauto]|].
  split. { destruct Hhi as [Hhi|[_ ->]]; eapply Permutation_in; try (apply Permutation_sym; eauto); eapply nth_error_In; eauto. }
  split; [rewrite V; nra|]. split; [rewrite V; nra|].
  intros s' P' A'. assert (Hk : k < length s') by (rewrite <- (Permutation_length P'), (Permutation_length P); apply nth_error_Some; congruence).
  destruct (nth_error s' k) as [x|] eqn:Ex; [|apply nth_error_None in Ex; lia]. exists x. split; auto.
  exact (perm_qasc_nth l s' s P' A' P A k x lo Ex Hlo).
Qed.
Lemma linear_monotone l q1 v1 q2 v2 : linear_quantile l q1 v1 -> linear_quantile l q2 v2 -> (q1 <= q2)%Q -> (v1 <= v2)%Q.
Proof.
  intros (s & k & fr & lo & hi & P & A & E & F0 & F1 & Hlo & Hhi & V)
         (s' & k' & fr' & lo' & hi' & P' & A' & E' & F0' & F1' & Hlo' & Hhi' & V') Hq.
  assert (Hn : 0 < length l) by (rewrite (Permutation_length P); destruct s; [destruct k; discriminate | simpl; lia]).
  assert (Hz : (0 <= inject_Z (Z.of_nat (length l) - 1))%Q) by (change 0%Q with (inject_Z 0); rewrite <- Zle_Qle; lia).
  assert (Hx : (inject_Z (Z.of_nat k) + fr <= inject_Z (Z.of_nat k') + fr')%Q) by (rewrite <- E, <- E'; nra).
  assert (Hk : k <= k').
  { assert (inject_Z (Z.of_nat k) < inject_Z (Z.of_nat k' + 1))%Q by (rewrite inject_Z_plus; change (inject_Z 1) with 1%Q; lra).
    rewrite <- Zlt_Qlt in H. lia. }
  assert (Hle : (lo <= hi)%Q) by (destruct Hhi as [Hhi|[_ ->]]; [|lra]; apply (qasc_nth s A k (S k)); auto).
  assert (Hle' : (lo' <= hi')%Q) by (destruct Hhi' as [Hhi'|[_ ->]]; [|lra]; apply (qasc_nth s' A' k' (S k')); auto).
  assert (Hlen : length s = length s') by (rewrite <- (Permutation_length P), <- (Permutation_length P'); auto).
  destruct (Nat.eq_dec k k') as [<-|Hne].
  - pose proof (perm_qasc_nth l s s' P A P' A' k lo lo' Hlo Hlo') as EL.
    assert (EH : (hi == hi')%Q).
    { destruct Hhi as [Hhi|[Hk1 ->]], Hhi' as [Hhi'|[Hk2 ->]]; auto.
      - exact (perm_qasc_nth l s s' P A P' A' (S k) hi hi' Hhi Hhi').
      - assert (S k < length s) by (apply nth_error_Some; congruence). lia.
      - assert (S k < length s') by (apply nth_error_Some; congruence). lia. }
    rewrite V, V', EL, EH. assert (fr <= fr')%Q by lra. rewrite EL, EH in Hle. nra.
  - assert (Hh : (hi <= lo')%Q).
    { destruct Hhi as [Hhi|[Hk1 ->]].
      - assert (Hk' : k' < length s) by (rewrite Hlen; apply nth_error_Some; congruence).
        destruct (nth_error s k') as [z|] eqn:Ez; [|apply nth_error_None in Ez; lia].
        rewrite <- (perm_qasc_nth l s s' P A P' A' k' z lo' Ez Hlo'). apply (qasc_nth s A (S k) k'); auto. lia.
      - assert (k' < length s') by (apply nth_error_Some; congruence). lia. }
    rewrite V, V'. nra.
Qed.
