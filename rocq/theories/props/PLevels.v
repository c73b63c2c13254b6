(** Levels: C21-C23. *)
From Verif Require Import model.PyBase model.Levels spec.LevelSpec proof.LevelProofs.
From Coq Require Import Permutation.

(** C21: [<] and [>=] are comparisons of values; [>] and [<=] too between
    levels of different names. *)
Theorem C21_compare_by_value :
  forall a b, (lv_lt a b = true <-> (lv_value a < lv_value b)%Z) /\
              (lv_ge a b = true <-> (lv_value a >= lv_value b)%Z) /\
              (lv_name a <> lv_name b ->
                (lv_gt a b = true <-> (lv_value a > lv_value b)%Z) /\
                (lv_le a b = true <-> (lv_value a <= lv_value b)%Z)).
Proof.
  intros a b. split; [exact (lt_value a b)|]. split; [exact (ge_value a b)|].
  intros H. split; [exact (gt_value a b H) | exact (le_value a b H)].
Qed.
Print Assumptions C21_compare_by_value.

Theorem C21_strict_total_order :
  forall ls, distinct_levels ls ->
  (forall a, In a ls -> lv_lt a a = false) /\
  (forall a b c, In a ls -> In b ls -> In c ls -> lv_lt a b = true -> lv_lt b c = true -> lv_lt a c = true) /\
  (forall a b, In a ls -> In b ls ->
     (lv_lt a b = true /\ lv_eq a b = false /\ lv_gt a b = false /\ a <> b) \/
     (lv_lt a b = false /\ lv_eq a b = true /\ lv_gt a b = false /\ a = b) \/
     (lv_lt a b = false /\ lv_eq a b = false /\ lv_gt a b = true /\ a <> b)).
Proof. exact total_order. Qed.
Print Assumptions C21_strict_total_order.

(** Without distinctness [==] is not transitive, and equal levels may hash
    differently. *)
Theorem C21_equality_refuted :
  (exists a b c, lv_eq a b = true /\ lv_eq b c = true /\ lv_eq a c = false) /\
  (exists a b, lv_eq a b = true /\ lv_hash a <> lv_hash b).
Proof.
  split.
  - exists (Level "a" 1), (Level "a" 2), (Level "b" 2). repeat split.
  - exists (Level "a" 1), (Level "b" 1). split; [reflexivity | discriminate].
Qed.
Print Assumptions C21_equality_refuted.

Example C21_builtins : distinct_levels ([MIN_LEVEL; MAX_LEVEL] ++ BUILTIN_LEVELS).
Proof. split; repeat constructor; simpl; intuition discriminate. Qed.

(** C22 *)
Theorem C22_alias_resolution :
  forall so regs k default,
  get_level (register_all so regs empty_registry) k default =
  match last_registered k regs with Some l => l | None => default end.
Proof. intros so regs k d. exact (get_level_last so regs empty_registry k d). Qed.
Print Assumptions C22_alias_resolution.

(** The same in terms of the names and values the levels were made with, after importing the
    library: a level is found by its name in small or in capital letters, by its value and
    by a level of the same name; the last registration wins. *)
Theorem C22_found_by_name_or_value :
  forall so nvs k default,
  get_level (register_all so (map (fun nv => Level (fst nv) (snd nv)) nvs) (import_registry so)) k default =
  match find (finds k) (rev ([("_min", 0); ("_max", 100); ("debug", 20); ("info", 70); ("critical", 90)]%Z%string ++ nvs)) with
  | Some (n, v) => mkLevelObj (small n) v
  | None => default
  end.
Proof.
  intros so nvs k d. rewrite <- (get_level_named so). rewrite map_app. unfold register_all at 2. rewrite fold_left_app. reflexivity.
Qed.
Print Assumptions C22_found_by_name_or_value.

Example C22_reached :
  let rg := register_all (fun l => l) [MIN_LEVEL; DEBUG; Level "Loud" 80; Level "shout" 80; Level "loud" 85] empty_registry in
  get_level rg (KStr "LOUD") DEBUG = Level "loud" 85 /\ get_level rg (KNum 80) DEBUG = Level "shout" 80 /\
  get_level rg (KStr "Loud") INFO = INFO /\ get_level rg (level_key (Level "LOUD" 3)) DEBUG = Level "loud" 85.
Proof. repeat split; vm_compute; reflexivity. Qed.

(** C23 *)
Theorem C23_level_list_sorted :
  forall so regs rg, regs <> [] -> sorted_by_value (rg_list (register_all so regs rg)).
Proof. intros so regs rg H. exact (ordered_sorted _ (reg_sorted so regs H rg)). Qed.
Print Assumptions C23_level_list_sorted.

Theorem C23_next_and_previous :
  forall so regs, any_order so -> regs <> [] -> distinct_levels regs ->
  let rg := register_all so regs empty_registry in
  forall k l, get_level rg k DEFAULT_LEVEL = l -> In l regs ->
  (exists m, get_next_level rg k 1 = Some m /\ In m regs /\
    (((lv_value l < lv_value m)%Z /\ forall x, In x regs -> (lv_value l < lv_value x)%Z -> (lv_value m <= lv_value x)%Z) \/
     (m = l /\ forall x, In x regs -> (lv_value x <= lv_value l)%Z))) /\
  (exists m, get_prev_level rg k 1 = Some m /\ In m regs /\
    (((lv_value m < lv_value l)%Z /\ forall x, In x regs -> (lv_value x < lv_value l)%Z -> (lv_value x <= lv_value m)%Z) \/
     (m = l /\ forall x, In x regs -> (lv_value l <= lv_value x)%Z))).
Proof.
  intros so regs Hs Hn Hd rg k l Hk Hl.
  split; [exact (next_one so Hs regs Hn Hd k l Hk Hl) | exact (prev_one so Hs regs Hn Hd k l Hk Hl)].
Qed.
Print Assumptions C23_next_and_previous.

(** Saturating steps of any size: the result has exactly this many registered
    levels below it. *)
Theorem C23_saturating_delta :
  forall so regs, any_order so -> regs <> [] -> distinct_levels regs ->
  let rg := register_all so regs empty_registry in
  forall k l, get_level rg k DEFAULT_LEVEL = l -> In l regs -> forall d, (0 <= d)%Z ->
  (exists m, get_next_level rg k d = Some m /\ In m regs /\
     rank regs m = Nat.min (rank regs l + Z.to_nat d) (length regs - 1)) /\
  (exists m, get_prev_level rg k d = Some m /\ In m regs /\ rank regs m = rank regs l - Z.to_nat d).
Proof.
  intros so regs Hs Hn HD rg k l Hk Hl d Hd.
  split; [exact (next_rank so Hs regs Hn HD k l d Hk Hl Hd)|].
  destruct (prev_rank so Hs regs Hn HD k l d Hk Hl) as (m & H1 & H2 & H3).
  exists m. rewrite H3, Z.abs_eq by exact Hd. auto.
Qed.
Print Assumptions C23_saturating_delta.

(** Levels sharing a value: whatever the set order, from one of the two
    [get_next_level] never gets to the level above. *)
Theorem C23_shared_values_refuted :
  exists regs top, forall so, any_order so ->
  let rg := register_all so regs empty_registry in
  exists l, In l regs /\ (lv_value l < lv_value top)%Z /\ In top regs /\ get_next_level rg (level_key l) 1 = Some l.
Proof.
  exists [Level "a" 1; Level "b" 1; Level "c" 2], (Level "c" 2). intros so Hso rg.
  set (d := dedup [] (map snd (rg_map rg))).
  assert (Hd : d = [Level "a" 1; Level "b" 1; Level "c" 2]) by reflexivity.
  assert (Hl : rg_list rg = sort_levels (so d)) by reflexivity.
  assert (Hc : rg_list rg = [Level "a" 1; Level "b" 1; Level "c" 2] \/ rg_list rg = [Level "b" 1; Level "a" 1; Level "c" 2]).
  { assert (HP : Permutation (rg_list rg) d).
    { rewrite Hl. eapply Permutation_trans; [apply sort_perm | apply Hso]. }
    assert (Ho : ordered (rg_list rg)) by (rewrite Hl; apply sort_ordered).
    rewrite Hd in HP. destruct (rg_list rg) as [|x [|y [|z [|u q]]]];
      try (apply Permutation_length in HP; discriminate).
    assert (Hx : In x [x; y; z]) by (simpl; auto). assert (Hy : In y [x; y; z]) by (simpl; auto).
    assert (Hz : In z [x; y; z]) by (simpl; auto).
    apply (Permutation_in _ HP) in Hx. apply (Permutation_in _ HP) in Hy. apply (Permutation_in _ HP) in Hz.
    assert (HN : NoDup [x; y; z]).
    { eapply Permutation_NoDup; [apply Permutation_sym; exact HP|]. repeat constructor; simpl; intuition discriminate. }
    inversion HN as [|? ? N1 HN2]; subst. inversion HN2 as [|? ? N2 _]; subst.
    destruct Ho as [Ho1 [Ho2 _]].
    simpl in Hx, Hy, Hz.
    destruct Hx as [<-|[<-|[<-|[]]]], Hy as [<-|[<-|[<-|[]]]], Hz as [<-|[<-|[<-|[]]]];
      try (exfalso; apply N1; simpl; auto; fail); try (exfalso; apply N2; simpl; auto; fail); auto;
      exfalso; try (specialize (Ho1 _ (or_introl eq_refl))); try (specialize (Ho2 _ (or_introl eq_refl))); simpl in *; lia. }
  destruct Hc as [Hc|Hc].
  - exists (Level "b" 1). split; [simpl; auto|]. split; [reflexivity|]. split; [simpl; auto|].
    unfold get_next_level. rewrite Hc. reflexivity.
  - exists (Level "a" 1). split; [simpl; auto|]. split; [reflexivity|]. split; [simpl; auto|].
    unfold get_next_level. rewrite Hc. reflexivity.
Qed.
Print Assumptions C23_shared_values_refuted.

Theorem C23_negative_delta_refuted :
  get_next_level (import_registry (fun l => l)) (KStr "_min") (-1) = Some MAX_LEVEL.
Proof. vm_compute. reflexivity. Qed.

Example C23_reached :
  any_order (fun l => l) /\ distinct_levels ([MIN_LEVEL; MAX_LEVEL] ++ BUILTIN_LEVELS) /\
  get_level (import_registry (fun l => l)) (KStr "INFO") DEFAULT_LEVEL = INFO /\
  get_next_level (import_registry (fun l => l)) (KStr "INFO") 1 = Some CRITICAL /\
  get_prev_level (import_registry (fun l => l)) (KStr "info") 7 = Some MIN_LEVEL.
Proof.
  split; [intros l; apply Permutation_refl|]. split; [apply C21_builtins|]. repeat split; vm_compute; reflexivity.
Qed.
Print Assumptions C23_negative_delta_refuted.
