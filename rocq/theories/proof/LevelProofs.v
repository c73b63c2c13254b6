From Verif Require Import model.PyBase model.Levels spec.LevelSpec.
From Coq Require Import Permutation Ascii.

Lemma lkey_eqb_spec a b : reflect (a = b) (lkey_eqb a b).
Proof.
  destruct a, b; simpl; try (constructor; congruence).
  - destruct (String.eqb_spec s s0); constructor; congruence.
  - destruct (Z.eqb_spec z z0); constructor; congruence.
  - destruct (String.eqb_spec name name0); constructor; congruence.
Qed.

Lemma dget_dset {V} k k' (v : V) d :
  dget lkey_eqb k (dset lkey_eqb k' v d) = if lkey_eqb k k' then Some v else dget lkey_eqb k d.
Proof.
  induction d as [|[k0 v0] d IH]; simpl.
  - reflexivity.
  - destruct (lkey_eqb_spec k' k0) as [->|Hn]; simpl.
    + destruct (lkey_eqb_spec k k0); reflexivity.
    + destruct (lkey_eqb_spec k k0) as [->|]; simpl.
      * destruct (lkey_eqb_spec k0 k'); congruence.
      * exact IH.
Qed.

(** ** C21 *)
Lemma lt_value a b : lv_lt a b = true <-> (lv_value a < lv_value b)%Z.
Proof. apply Z.ltb_lt. Qed.
Lemma ge_value a b : lv_ge a b = true <-> (lv_value a >= lv_value b)%Z.
Proof. unfold lv_ge, lv_lt. destruct (Z.ltb_spec (lv_value a) (lv_value b)); simpl; split; intros; try lia; congruence. Qed.
Lemma gt_value a b : lv_name a <> lv_name b -> (lv_gt a b = true <-> (lv_value a > lv_value b)%Z).
Proof.
  intros Hn. unfold lv_gt, lv_lt, lv_eq. destruct (String.eqb_spec (lv_name a) (lv_name b)); [congruence|].
  destruct (Z.ltb_spec (lv_value a) (lv_value b)), (Z.eqb_spec (lv_value a) (lv_value b)); simpl; split; intros; try lia; congruence.
Qed.
Lemma le_value a b : lv_name a <> lv_name b -> (lv_le a b = true <-> (lv_value a <= lv_value b)%Z).
Proof.
  intros Hn. unfold lv_le, lv_lt, lv_eq. destruct (String.eqb_spec (lv_name a) (lv_name b)); [congruence|].
  destruct (Z.ltb_spec (lv_value a) (lv_value b)), (Z.eqb_spec (lv_value a) (lv_value b)); simpl; split; intros; try lia; congruence.
Qed.

Lemma trichotomy a b : (lv_name a = lv_name b <-> lv_value a = lv_value b) ->
  (lv_lt a b = true /\ lv_eq a b = false /\ lv_gt a b = false) \/
  (lv_lt a b = false /\ lv_eq a b = true /\ lv_gt a b = false) \/
  (lv_lt a b = false /\ lv_eq a b = false /\ lv_gt a b = true).
Proof.
  intros H. unfold lv_gt, lv_lt, lv_eq.
  destruct (Z.ltb_spec (lv_value a) (lv_value b)), (Z.eqb_spec (lv_value a) (lv_value b)),
    (String.eqb_spec (lv_name a) (lv_name b)); simpl; auto; try (exfalso; intuition lia).
Qed.

Lemma distinct_in ls a b : distinct_levels ls -> In a ls -> In b ls ->
  lv_name a = lv_name b \/ lv_value a = lv_value b -> a = b.
Proof.
  intros [H1 H2] Ha Hb [He|He].
  - clear H2. induction ls as [|x ls IH]; [destruct Ha|]. simpl in H1. inversion H1; subst.
    destruct Ha as [->|Ha], Hb as [->|Hb]; auto; exfalso;
      match goal with H : ~ In _ _ |- _ => apply H end; [rewrite He | rewrite <- He]; apply in_map; auto.
  - clear H1. induction ls as [|x ls IH]; [destruct Ha|]. simpl in H2. inversion H2; subst.
    destruct Ha as [->|Ha], Hb as [->|Hb]; auto; exfalso;
      match goal with H : ~ In _ _ |- _ => apply H end; [rewrite He | rewrite <- He]; apply in_map; auto.
Qed.

Lemma total_order ls : distinct_levels ls ->
  (forall a, In a ls -> lv_lt a a = false) /\
  (forall a b c, In a ls -> In b ls -> In c ls -> lv_lt a b = true -> lv_lt b c = true -> lv_lt a c = true) /\
  (forall a b, In a ls -> In b ls ->
     (lv_lt a b = true /\ lv_eq a b = false /\ lv_gt a b = false /\ a <> b) \/
     (lv_lt a b = false /\ lv_eq a b = true /\ lv_gt a b = false /\ a = b) \/
     (lv_lt a b = false /\ lv_eq a b = false /\ lv_gt a b = true /\ a <> b)).
Proof.
  intros HD. split; [|split].
  - intros a _. unfold lv_lt. apply Z.ltb_irrefl.
  - intros a b c _ _ _. rewrite !lt_value. lia.
  - intros a b Ha Hb.
    assert (H : lv_name a = lv_name b <-> lv_value a = lv_value b).
    { split; intros He; assert (a = b) by (eapply distinct_in; eauto); congruence. }
    destruct (trichotomy a b H) as [(H1 & H2 & H3)|[(H1 & H2 & H3)|(H1 & H2 & H3)]].
    + left. repeat split; auto. intros ->. unfold lv_lt in H1. rewrite Z.ltb_irrefl in H1. discriminate.
    + right; left. repeat split; auto. apply (distinct_in ls); auto.
      unfold lv_eq in H2. apply orb_true_iff in H2. destruct H2 as [H2|H2];
        [right; apply Z.eqb_eq in H2; auto | left; apply String.eqb_eq in H2; auto].
    + right; right. repeat split; auto. intros ->. unfold lv_gt, lv_eq in H3.
      rewrite Z.eqb_refl in H3. simpl in H3. rewrite andb_false_r in H3. discriminate.
Qed.

(** ** C22 *)
Section R.
Variable so : list level -> list level.
Hypothesis Hso : any_order so.

Lemma register_get l rg k d :
  get_level (register_level so l rg) k d =
  if existsb (lkey_eqb k) (aliases l) then l else get_level rg k d.
Proof.
  unfold get_level, register_level, level_key. cbn [rg_map aliases existsb]. rewrite !dget_dset.
  destruct (lkey_eqb k (KStr (lower (lv_name l)))), (lkey_eqb k (KStr (upper (lv_name l)))),
    (lkey_eqb k (KNum (lv_value l))), (lkey_eqb k (KLev (lv_name l))); reflexivity.
Qed.

Lemma find_app {A} (f : A -> bool) l1 l2 : find f (l1 ++ l2) = match find f l1 with Some x => Some x | None => find f l2 end.
Proof. induction l1 as [|x l1 IH]; simpl; auto. destruct (f x); auto. Qed.

Lemma get_level_last regs : forall rg k d,
  get_level (register_all so regs rg) k d =
  match last_registered k regs with Some l => l | None => get_level rg k d end.
Proof.
  induction regs as [|l regs IH]; intros rg k d; [reflexivity|].
  unfold register_all in *. simpl. rewrite IH, register_get.
  unfold last_registered. cbn [rev]. rewrite find_app.
  destruct (find _ (rev regs)); auto. cbn [find]. destruct (existsb (lkey_eqb k) (aliases l)); reflexivity.
Qed.

(** ** C23 *)
Lemma insert_perm x ls : Permutation (insert_level x ls) (x :: ls).
Proof.
  induction ls as [|y ls IH]; simpl; auto. destruct (lv_lt y x); auto.
  eapply Permutation_trans; [apply perm_skip, IH | apply perm_swap].
Qed.
Lemma sort_perm ls : Permutation (sort_levels ls) ls.
Proof.
  induction ls as [|x ls IH]; simpl; auto. eapply Permutation_trans; [apply insert_perm | apply perm_skip, IH].
Qed.

Fixpoint ordered (ls : list level) : Prop :=
  match ls with
  | [] => True
  | x :: ls' => (forall y, In y ls' -> (lv_value x <= lv_value y)%Z) /\ ordered ls'
  end.
Lemma insert_ordered x ls : ordered ls -> ordered (insert_level x ls).
Proof.
  induction ls as [|y ls IH]; simpl; intros H; [split; [intros z []|auto]|].
  destruct H as [Hy Ho]. unfold lv_lt. destruct (Z.ltb_spec (lv_value y) (lv_value x)).
  - split; [|auto]. intros z Hz. eapply Permutation_in in Hz; [|apply insert_perm].
    destruct Hz as [<-|Hz]; [lia|]. auto.
  - split; [|split; auto]. intros z [<-|Hz]; [lia|]. specialize (Hy z Hz). lia.
Qed.
Lemma sort_ordered ls : ordered (sort_levels ls).
Proof. induction ls; simpl; auto. apply insert_ordered; auto. Qed.
Lemma ordered_sorted ls : ordered ls -> sorted_by_value ls.
Proof.
  induction ls as [|x ls IH]; intros Ho i j a b Hij Ha Hb; [destruct i; discriminate|].
  destruct Ho as [Hx Ho]. destruct j; [lia|]. destruct i; simpl in *.
  - inversion Ha; subst. apply Hx. eapply nth_error_In; eauto.
  - eapply (IH Ho i j); eauto; lia.
Qed.

Lemma reg_sorted regs : regs <> [] -> forall rg, ordered (rg_list (register_all so regs rg)).
Proof.
  induction regs as [|l regs IH]; [congruence|]. intros _ rg. unfold register_all in *. simpl.
  destruct regs as [|l2 regs]; [|apply IH; discriminate]. simpl. apply sort_ordered.
Qed.

(** Elements of the list. *)
Lemma dedup_spec seen ls : NoDup (map lv_name (dedup seen ls)) /\
  (forall l, In l (dedup seen ls) -> In l ls /\ ~ In (lv_name l) seen) /\
  (forall l, In l ls -> In (lv_name l) seen \/ exists l', In l' (dedup seen ls) /\ lv_name l' = lv_name l).
Proof.
  revert seen. induction ls as [|x ls IH]; intros seen; simpl.
  - split; [constructor|]. split; [intros l []|intros l []].
  - destruct (existsb (String.eqb (lv_name x)) seen) eqn:Hx.
    + assert (Hin : In (lv_name x) seen).
      { apply existsb_exists in Hx. destruct Hx as (y & Hy & He). apply String.eqb_eq in He. congruence. }
      destruct (IH seen) as (I1 & I2 & I3). split; auto. split.
      * intros l Hl. destruct (I2 l Hl). auto.
      * intros l [<-|Hl]; auto.
    + assert (Hnin : ~ In (lv_name x) seen).
      { intros Hin. assert (existsb (String.eqb (lv_name x)) seen = true); [|congruence].
        apply existsb_exists. exists (lv_name x). split; auto. apply String.eqb_refl. }
      destruct (IH (lv_name x :: seen)) as (I1 & I2 & I3). split; [|split].
      * simpl. constructor; auto. intros Hin. apply in_map_iff in Hin. destruct Hin as (y & Hy & Hiny).
        destruct (I2 y Hiny) as [_ Hc]. apply Hc. left. auto.
      * intros l [<-|Hl]; [auto|]. destruct (I2 l Hl) as [H1 H2]. split; auto. intros Hc; apply H2; right; auto.
      * intros l [<-|Hl]; [right; exists x; split; [left; reflexivity | reflexivity]|]. destruct (I3 l Hl) as [[Hs|Hs]|(l' & Hl' & He)].
        -- right. exists x. split; [left; reflexivity | auto].
        -- left; auto.
        -- right. exists l'. split; [right; auto | auto].
Qed.

(** The map after registering distinct levels: exactly their aliases. *)
Definition map_ok (regs : list level) (m : list (lkey * level)) : Prop :=
  (forall k l, In (k, l) m -> In l regs) /\ (forall l, In l regs -> exists k, In (k, l) m).

Lemma in_dset k l k0 l0 (m : list (lkey * level)) : In (k, l) (dset lkey_eqb k0 l0 m) -> l = l0 \/ In (k, l) m.
Proof.
  induction m as [|[k1 l1] m IH]; simpl.
  - intros [H|[]]. inversion H; auto.
  - destruct (lkey_eqb k0 k1); simpl; intros [H|H]; auto; [inversion H; auto|]. destruct (IH H); auto.
Qed.
Lemma in_dset_new k0 (l0 : level) m : exists k, In (k, l0) (dset lkey_eqb k0 l0 m).
Proof.
  induction m as [|[k1 l1] m [k IH]]; simpl; [eauto|]. destruct (lkey_eqb k0 k1); eexists; [left; eauto | right; eauto].
Qed.
Lemma in_dset_old k l k0 l0 (m : list (lkey * level)) : In (k, l) m -> k <> k0 -> In (k, l) (dset lkey_eqb k0 l0 m).
Proof.
  induction m as [|[k1 l1] m IH]; simpl; [tauto|]. intros Hin Hne.
  destruct (lkey_eqb_spec k0 k1) as [->|]; simpl.
  - destruct Hin as [H|H]; auto. inversion H; congruence.
  - destruct Hin; auto.
Qed.

(** Every registered level keeps its Level key. *)
Definition reg_inv (regs : list level) (m : list (lkey * level)) : Prop :=
  (forall k l, In (k, l) m -> In l regs) /\
  (forall l, In l regs -> In (KLev (lv_name l), l) m).

Lemma in_dset_key k (l0 : level) m : In (k, l0) (dset lkey_eqb k l0 m).
Proof.
  induction m as [|[k1 l1] m IH]; simpl; auto.
  destruct (lkey_eqb_spec k k1) as [->|]; simpl; auto.
Qed.

Lemma register_inv regs l rg : reg_inv regs (rg_map rg) -> ~ In (lv_name l) (map lv_name regs) ->
  reg_inv (regs ++ [l]) (rg_map (register_level so l rg)).
Proof.
  intros [H1 H2] Hn. unfold register_level; cbn [rg_map]. split.
  - intros k x Hin. apply in_or_app. repeat (apply in_dset in Hin; destruct Hin as [->|Hin]; [right; left; auto|]).
    left; eauto.
  - intros x Hx. apply in_app_or in Hx. destruct Hx as [Hx|[<-|[]]].
    + assert (Hne : lv_name x <> lv_name l) by (intros He; apply Hn; rewrite <- He; apply in_map; auto).
      repeat apply in_dset_old; auto; unfold level_key; congruence.
    + unfold level_key. apply in_dset_key.
Qed.

Lemma register_all_inv ls : forall regs rg, reg_inv regs (rg_map rg) -> NoDup (map lv_name (regs ++ ls)) ->
  reg_inv (regs ++ ls) (rg_map (register_all so ls rg)).
Proof.
  induction ls as [|l ls IH]; intros regs rg Hi Hn; simpl; [rewrite app_nil_r; auto|].
  unfold register_all in *. simpl. replace (regs ++ l :: ls) with ((regs ++ [l]) ++ ls) in * by (rewrite <- app_assoc; auto).
  apply IH; auto. apply register_inv; auto.
  rewrite !map_app in Hn. simpl in Hn. intros Hin.
  apply NoDup_remove_2 with (l := map lv_name regs) (l' := map lv_name ls) (a := lv_name l).
  - rewrite <- app_assoc in Hn. exact Hn.
  - apply in_or_app; auto.
Qed.

Lemma reg_perm regs : regs <> [] -> distinct_levels regs ->
  Permutation (rg_list (register_all so regs empty_registry)) regs.
Proof.
  intros Hne [Hn Hv].
  pose proof (register_all_inv regs [] empty_registry) as Hi. simpl in Hi.
  destruct Hi as [H1 H2]; [split; [intros ? ? []|intros ? []] | exact Hn |].
  assert (Hl : rg_list (register_all so regs empty_registry) =
    sort_levels (so (dedup [] (map snd (rg_map (register_all so regs empty_registry)))))).
  { clear -Hne. generalize empty_registry. induction regs as [|l regs IH]; [congruence|]. intros rg.
    unfold register_all in *. simpl. destruct regs; [reflexivity|]. apply IH. discriminate. }
  rewrite Hl. eapply Permutation_trans; [apply sort_perm|]. eapply Permutation_trans; [apply Hso|].
  set (m := rg_map _) in *. destruct (dedup_spec [] (map snd m)) as (D1 & D2 & D3).
  apply NoDup_Permutation.
  - eapply NoDup_map_inv; eauto.
  - eapply NoDup_map_inv; eauto.
  - intros x. split; intros Hx.
    + destruct (D2 x Hx) as [Hin _]. apply in_map_iff in Hin. destruct Hin as ([k y] & <- & Hin). simpl. eauto.
    + pose proof (H2 x Hx) as Hin. apply (in_map snd) in Hin. simpl in Hin.
      destruct (D3 x Hin) as [[]|(x' & Hx' & He)].
      destruct (D2 x' Hx') as [Hin' _]. apply in_map_iff in Hin'. destruct Hin' as ([k y] & <- & Hin'). simpl in *.
      assert (y = x); [|subst; auto]. apply (distinct_in regs); [split; auto | eauto | auto | auto].
Qed.

(** Position in a sorted duplicate-free list = rank. *)
Lemma ordered_nth_rank ls : ordered ls -> distinct_levels ls -> forall i a,
  nth_error ls i = Some a -> rank ls a = i.
Proof.
  intros Ho HD i a Ha.
  assert (Hg : forall pre suf, ls = pre ++ a :: suf -> rank ls a = length pre).
  { intros pre suf ->. unfold rank. rewrite filter_app, app_length. simpl.
    rewrite Z.ltb_irrefl. destruct HD as [_ Hv]. rewrite map_app in Hv. simpl in Hv.
    assert (H1 : length (filter (fun x => (lv_value x <? lv_value a)%Z) pre) = length pre).
    { clear Ha. induction pre as [|y pre IH]; auto. simpl in *. destruct Ho as [Hy Ho].
      inversion Hv; subst. assert (Hle : (lv_value y <= lv_value a)%Z) by (apply Hy, in_or_app; right; left; auto).
      assert (lv_value y <> lv_value a) by (intros He; apply H1; rewrite He; apply in_or_app; right; left; auto).
      destruct (Z.ltb_spec (lv_value y) (lv_value a)); [|lia]. simpl. rewrite IH; auto. }
    assert (H2 : filter (fun x => (lv_value x <? lv_value a)%Z) suf = []).
    { clear H1. assert (Hs : forall y, In y suf -> (lv_value a <= lv_value y)%Z).
      { clear Hv Ha. induction pre as [|y pre IH]; simpl in Ho; destruct Ho; auto. }
      clear -Hs. induction suf as [|y suf IH]; auto. simpl.
      destruct (Z.ltb_spec (lv_value y) (lv_value a)); [specialize (Hs y (or_introl eq_refl)); lia|].
      apply IH. intros z Hz. apply Hs. right; auto. }
    rewrite H1, H2. simpl. lia. }
  destruct (nth_error_split _ _ Ha) as (pre & suf & -> & Hl). rewrite (Hg pre suf eq_refl). auto.
Qed.

Lemma rank_perm l1 l2 a : Permutation l1 l2 -> rank l1 a = rank l2 a.
Proof.
  intros H. unfold rank. induction H; simpl; auto; try congruence.
  - destruct (_ <? _)%Z; simpl; congruence.
  - destruct (lv_value x <? lv_value a)%Z, (lv_value y <? lv_value a)%Z; reflexivity.
Qed.

Lemma distinct_perm l1 l2 : Permutation l1 l2 -> distinct_levels l1 -> distinct_levels l2.
Proof.
  intros HP [H1 H2]. split; [apply (Permutation_NoDup (Permutation_map lv_name HP) H1) | apply (Permutation_NoDup (Permutation_map lv_value HP) H2)].
Qed.

Lemma index_of_rank ls a : ordered ls -> distinct_levels ls -> In a ls -> index_of a ls = Some (rank ls a).
Proof.
  intros Ho HD Hin.
  assert (Hi : exists i, index_of a ls = Some i /\ nth_error ls i = Some a).
  { assert (Hu : forall x, In x ls -> lv_eq x a = true -> x = a).
    { intros x Hx He. apply (distinct_in ls); auto. unfold lv_eq in He. apply orb_true_iff in He.
      destruct He as [He|He]; [right; apply Z.eqb_eq; auto | left; apply String.eqb_eq; auto]. }
    clear Ho HD. induction ls as [|x ls IH]; [destruct Hin|]. simpl.
    destruct (lv_eq x a) eqn:He.
    - exists 0. split; auto. simpl. rewrite (Hu x); auto. left; auto.
    - destruct Hin as [->|Hin]; [unfold lv_eq in He; rewrite Z.eqb_refl in He; discriminate|].
      destruct IH as (i & H1 & H2); auto; [intros; apply Hu; auto; right; auto|].
      exists (S i). rewrite H1. auto. }
  destruct Hi as (i & H1 & H2). rewrite H1. f_equal. symmetry. eapply ordered_nth_rank; eauto.
Qed.

Section Distinct.
Variable regs : list level.
Hypothesis Hne : regs <> [].
Hypothesis HD : distinct_levels regs.
Let rg := register_all so regs empty_registry.

Lemma rg_facts : ordered (rg_list rg) /\ Permutation (rg_list rg) regs /\ distinct_levels (rg_list rg).
Proof.
  assert (HP : Permutation (rg_list rg) regs) by (apply reg_perm; auto).
  split; [apply reg_sorted; auto|]. split; auto. eapply distinct_perm; [apply Permutation_sym|]; eauto.
Qed.

Lemma nth_by_rank i : i < length regs -> exists m, nth_error (rg_list rg) i = Some m /\ In m regs /\ rank regs m = i.
Proof.
  intros Hi. destruct rg_facts as (Ho & HP & HD'). pose proof (Permutation_length HP) as Hlen.
  destruct (nth_error (rg_list rg) i) as [m|] eqn:Hm; [|apply nth_error_None in Hm; lia].
  exists m. split; auto. split; [eapply Permutation_in; eauto; eapply nth_error_In; eauto|].
  rewrite <- (rank_perm (rg_list rg) regs m HP). apply ordered_nth_rank; auto.
Qed.

Lemma rank_lt l : In l regs -> rank regs l < length regs.
Proof.
  intros Hl. destruct rg_facts as (Ho & HP & HD').
  assert (Hin : In l (rg_list rg)) by (eapply Permutation_in; [apply Permutation_sym|]; eauto).
  destruct (In_nth_error _ _ Hin) as (i & Hi). rewrite <- (rank_perm (rg_list rg) regs l HP).
  rewrite (ordered_nth_rank _ Ho HD' _ _ Hi). rewrite <- (Permutation_length HP). apply nth_error_Some. congruence.
Qed.

Lemma index_rank l : In l regs -> index_of l (rg_list rg) = Some (rank regs l).
Proof.
  intros Hl. destruct rg_facts as (Ho & HP & HD').
  rewrite <- (rank_perm (rg_list rg) regs l HP). apply index_of_rank; auto.
  eapply Permutation_in; [apply Permutation_sym|]; eauto.
Qed.

Lemma next_rank k l d : get_level rg k DEFAULT_LEVEL = l -> In l regs -> (0 <= d)%Z ->
  exists m, get_next_level rg k d = Some m /\ In m regs /\
    rank regs m = Nat.min (rank regs l + Z.to_nat d) (length regs - 1).
Proof.
  intros Hk Hl Hd. unfold get_next_level. rewrite Hk, (index_rank l Hl).
  destruct rg_facts as (Ho & HP & HD'). rewrite (Permutation_length HP).
  pose proof (rank_lt l Hl) as Hr.
  set (i := Nat.min (rank regs l + Z.to_nat d) (length regs - 1)).
  destruct (nth_by_rank i) as (m & Hm & Hin & Hrk); [unfold i; lia|].
  exists m. split; [|auto]. unfold py_nth.
  replace (Z.min (Z.of_nat (rank regs l) + d) (Z.of_nat (length regs) - 1)) with (Z.of_nat i) by (unfold i; lia).
  destruct (Z.ltb_spec (Z.of_nat i) 0); [lia|]. rewrite Nat2Z.id. auto.
Qed.

Lemma prev_rank k l d : get_level rg k DEFAULT_LEVEL = l -> In l regs ->
  exists m, get_prev_level rg k d = Some m /\ In m regs /\ rank regs m = rank regs l - Z.to_nat (Z.abs d).
Proof.
  intros Hk Hl. unfold get_prev_level. rewrite Hk, (index_rank l Hl).
  pose proof (rank_lt l Hl) as Hr.
  set (i := rank regs l - Z.to_nat (Z.abs d)).
  destruct (nth_by_rank i) as (m & Hm & Hin & Hrk); [unfold i; lia|].
  exists m. split; [|auto]. unfold py_nth.
  replace (Z.max (Z.of_nat (rank regs l) - Z.abs d) 0) with (Z.of_nat i) by (unfold i; lia).
  destruct (Z.ltb_spec (Z.of_nat i) 0); [lia|]. rewrite Nat2Z.id. auto.
Qed.

Lemma rank_mono a b : (lv_value a <= lv_value b)%Z -> rank regs a <= rank regs b.
Proof.
  intros H. unfold rank. clear Hne HD rg. induction regs as [|x ls IH]; simpl; auto.
  destruct (Z.ltb_spec (lv_value x) (lv_value a)), (Z.ltb_spec (lv_value x) (lv_value b)); simpl; lia.
Qed.
Lemma rank_strict a b : In a regs -> (lv_value a < lv_value b)%Z -> rank regs a < rank regs b.
Proof.
  intros Ha H. unfold rank. clear Hne HD rg. induction regs as [|x ls IH]; [destruct Ha|]. simpl.
  destruct Ha as [->|Ha].
  - destruct (Z.ltb_spec (lv_value a) (lv_value a)), (Z.ltb_spec (lv_value a) (lv_value b)); simpl; try lia.
    assert (Hm : length (filter (fun x => (lv_value x <? lv_value a)%Z) ls) <= length (filter (fun x => (lv_value x <? lv_value b)%Z) ls)); [|lia].
    clear IH. induction ls as [|y ls IH]; simpl; auto.
    destruct (Z.ltb_spec (lv_value y) (lv_value a)), (Z.ltb_spec (lv_value y) (lv_value b)); simpl; lia.
  - specialize (IH Ha). destruct (Z.ltb_spec (lv_value x) (lv_value a)), (Z.ltb_spec (lv_value x) (lv_value b)); simpl; lia.
Qed.

(** The least registered level above, or the top one. *)
Lemma next_one k l : get_level rg k DEFAULT_LEVEL = l -> In l regs ->
  exists m, get_next_level rg k 1 = Some m /\ In m regs /\
    (((lv_value l < lv_value m)%Z /\ forall x, In x regs -> (lv_value l < lv_value x)%Z -> (lv_value m <= lv_value x)%Z) \/
     (m = l /\ forall x, In x regs -> (lv_value x <= lv_value l)%Z)).
Proof.
  intros Hk Hl. destruct (next_rank k l 1 Hk Hl ltac:(lia)) as (m & Hm & Hin & Hr).
  exists m. split; auto. split; auto. pose proof (rank_lt l Hl) as Hlt.
  destruct (Nat.eq_dec (rank regs l) (length regs - 1)) as [He|Hn].
  - right. assert (Hrm : rank regs m = rank regs l) by (change (Z.to_nat 1) with 1 in Hr; lia).
    split.
    + destruct (Z.lt_trichotomy (lv_value m) (lv_value l)) as [Hx|[Hx|Hx]].
      * pose proof (rank_strict m l Hin Hx). lia.
      * apply (distinct_in regs); auto.
      * pose proof (rank_strict l m Hl Hx). lia.
    + intros x Hx. destruct (Z_le_gt_dec (lv_value x) (lv_value l)); auto.
      pose proof (rank_strict l x Hl ltac:(lia)). pose proof (rank_lt x Hx). lia.
  - left. assert (Hrm : rank regs m = S (rank regs l)) by (change (Z.to_nat 1) with 1 in Hr; lia).
    assert (Hgt : (lv_value l < lv_value m)%Z).
    { destruct (Z_lt_le_dec (lv_value l) (lv_value m)); auto. pose proof (rank_mono m l l0). lia. }
    split; auto. intros x Hx Hlx. destruct (Z_le_gt_dec (lv_value m) (lv_value x)); auto.
    pose proof (rank_strict l x Hl Hlx). pose proof (rank_strict x m Hx ltac:(lia)). lia.
Qed.

Lemma prev_one k l : get_level rg k DEFAULT_LEVEL = l -> In l regs ->
  exists m, get_prev_level rg k 1 = Some m /\ In m regs /\
    (((lv_value m < lv_value l)%Z /\ forall x, In x regs -> (lv_value x < lv_value l)%Z -> (lv_value x <= lv_value m)%Z) \/
     (m = l /\ forall x, In x regs -> (lv_value l <= lv_value x)%Z)).
Proof.
  intros Hk Hl. destruct (prev_rank k l 1 Hk Hl) as (m & Hm & Hin & Hr).
  exists m. split; auto. split; auto. pose proof (rank_lt l Hl) as Hlt. change (Z.to_nat (Z.abs 1)) with 1 in Hr.
  destruct (Nat.eq_dec (rank regs l) 0) as [He|Hn].
  - right. assert (Hrm : rank regs m = rank regs l) by lia.
    split.
    + destruct (Z.lt_trichotomy (lv_value m) (lv_value l)) as [Hx|[Hx|Hx]].
      * pose proof (rank_strict m l Hin Hx). lia.
      * apply (distinct_in regs); auto.
      * pose proof (rank_strict l m Hl Hx). lia.
    + intros x Hx. destruct (Z_le_gt_dec (lv_value l) (lv_value x)); auto.
      pose proof (rank_strict x l Hx ltac:(lia)). lia.
  - left. assert (Hrm : S (rank regs m) = rank regs l) by lia.
    assert (Hgt : (lv_value m < lv_value l)%Z).
    { destruct (Z_lt_le_dec (lv_value m) (lv_value l)); auto. pose proof (rank_mono l m l0). lia. }
    split; auto. intros x Hx Hlx. destruct (Z_le_gt_dec (lv_value x) (lv_value m)); auto.
    pose proof (rank_strict m x Hin ltac:(lia)). pose proof (rank_strict x l Hx Hlx). lia.
Qed.
End Distinct.
End R.

(** ** C22 in terms of the names given to Level() *)
Lemma small_char c : lower_char c = small_letter c.
Proof. destruct c as [[] [] [] [] [] [] [] []]; reflexivity. Qed.
Lemma capital_char c : upper_char c = capital_letter c.
Proof. destruct c as [[] [] [] [] [] [] [] []]; reflexivity. Qed.
Lemma small_small_char c : small_letter (small_letter c) = small_letter c.
Proof. destruct c as [[] [] [] [] [] [] [] []]; reflexivity. Qed.
Lemma capital_small_char c : capital_letter (small_letter c) = capital_letter c.
Proof. destruct c as [[] [] [] [] [] [] [] []]; reflexivity. Qed.
Lemma lower_small s : lower s = small s.
Proof. unfold lower, small. induction s as [|c s IH]; cbn; [reflexivity|]. rewrite small_char, IH. reflexivity. Qed.
Lemma upper_capital s : upper s = capital s.
Proof. unfold upper, capital. induction s as [|c s IH]; cbn; [reflexivity|]. rewrite capital_char, IH. reflexivity. Qed.
Lemma small_small s : small (small s) = small s.
Proof. unfold small. rewrite list_ascii_of_string_of_list_ascii, map_map. f_equal. apply map_ext, small_small_char. Qed.
Lemma capital_small s : capital (small s) = capital s.
Proof. unfold small, capital. rewrite list_ascii_of_string_of_list_ascii, map_map. f_equal. apply map_ext, capital_small_char. Qed.

Lemma finds_alias k n v : existsb (lkey_eqb k) (aliases (Level n v)) = finds k (n, v).
Proof.
  unfold aliases, finds, Level. cbn [lv_name lv_value existsb fst snd]. rewrite !lower_small, upper_capital, small_small, capital_small.
  destruct k; cbn [lkey_eqb]; rewrite ?orb_false_r; reflexivity.
Qed.
Lemma find_map' {A B} (f : A -> B) p l : find p (map f l) = option_map f (find (fun x => p (f x)) l).
Proof. induction l as [|x l IH]; cbn; [reflexivity|]. destruct (p (f x)); [reflexivity|exact IH]. Qed.
Lemma find_ext' {A} (p q : A -> bool) l : (forall x, p x = q x) -> find p l = find q l.
Proof. intro H. induction l as [|x l IH]; cbn; [reflexivity|]. rewrite H, IH. reflexivity. Qed.
Lemma get_level_named so nvs k d :
  get_level (register_all so (map (fun nv => Level (fst nv) (snd nv)) nvs) empty_registry) k d =
  match find (finds k) (rev nvs) with Some (n, v) => mkLevelObj (small n) v | None => d end.
Proof.
  rewrite get_level_last. unfold last_registered. rewrite <- map_rev, find_map'.
  rewrite (find_ext' _ (finds k)) by (intros [n v]; apply finds_alias).
  destruct (find (finds k) (rev nvs)) as [[n v]|]; cbn; [|reflexivity]. unfold Level. rewrite lower_small. reflexivity.
Qed.
