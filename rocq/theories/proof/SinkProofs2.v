(** Grouped totals. *)
From Verif Require Import model.PyBase model.Quantile model.Sinks spec.QuantileSpec spec.SinkSpec proof.DictLemmas proof.SinkProofs.
Open Scope nat_scope.

Lemma fold_pair {P V} (key : P -> string) (val : P -> tree V) (add : V -> V -> V) (num : P -> V) l : forall d z,
  fold_left (fun acc p => (dset String.eqb (key p) (val p) (fst acc), add (snd acc) (num p))) l (d, z) =
  (build key val l d, fold_left (fun t p => add t (num p)) l z).
Proof. induction l as [|p l IH]; intros d z; auto. cbn [fold_left fst snd]. rewrite IH. reflexivity. Qed.

(** Maps with three levels; the outer keys are loggers. *)
Definition gmap (K A : Type) := list (K * list (string * list (string * A))).
Notation lmap := (gmap (nat * string)).
Definition well_keyed {A} (m : lmap A) : Prop :=
  ndk logger_eqb m /\
  (forall k k' v v', In (k, v) m -> In (k', v') m -> snd k = snd k' -> fst k = fst k') /\
  (forall k v, In (k, v) m -> snd k <> "__all__" /\ ndk String.eqb v /\
     forall n sm, In (n, sm) v -> n <> "__all__" /\ ndk String.eqb sm /\ forall st a, In (st, a) sm -> st <> "__all__").

Lemma dget_string_in {V} k (d : list (string * V)) v : dget String.eqb k d = Some v -> In (k, v) d.
Proof. intros H. destruct (dget_in String.eqb k v d H) as (k' & Hin & E). apply String.eqb_eq in E. subst. auto. Qed.
Lemma dget_string_ndk {V} k (d : list (string * V)) v : ndk String.eqb d -> In (k, v) d -> dget String.eqb k d = Some v.
Proof. apply dget_of_in; [apply String.eqb_refl | apply String.eqb_sym]. Qed.
Lemma dget_set_all {V} k (x : V) d : k <> "__all__" -> dget String.eqb k (dset String.eqb "__all__" x d) = dget String.eqb k d.
Proof.
  intros H. rewrite (dget_set String.eqb String.eqb_sym string_eqb_trans). destruct (String.eqb_spec k "__all__"); congruence.
Qed.
Lemma dget_all_set {V} (x : V) d : dget String.eqb "__all__" (dset String.eqb "__all__" x d) = Some x.
Proof. rewrite (dget_set String.eqb String.eqb_sym string_eqb_trans), String.eqb_refl. auto. Qed.
Lemma build_get {P V} (val : string * P -> V) (l : list (string * P)) k v : ndk String.eqb l -> In (k, v) l ->
  dget String.eqb k (build fst val l []) = Some (val (k, v)).
Proof.
  intros N H. apply (build_hit fst val l [] k (k, v) H eq_refl). intros [k' v'] H' E. cbn [fst] in E. subst k'.
  pose proof (dget_string_ndk k l v N H). pose proof (dget_string_ndk k l v' N H'). congruence.
Qed.

Section Entries.
  Context {A V : Type} (leaf : A -> V) (add : V -> V -> V) (zero : V).
  Definition fold_leaves (sm : list (string * A)) : V := fold_left (fun t p => add t (leaf (snd p))) sm zero.
  Definition fold_names (nm : list (string * list (string * A))) : V := fold_left (fun t p => add t (fold_leaves (snd p))) nm zero.
  Definition fold_all (m : lmap A) : V := fold_left (fun t p => add t (fold_names (snd p))) m zero.

  Lemma group_name_eq sm : group_name leaf add zero sm =
    (Node (dset String.eqb "__all__" (Leaf (fold_leaves sm)) (build fst (fun p => Leaf (leaf (snd p))) sm [])), fold_leaves sm).
  Proof. unfold group_name. rewrite (fold_pair fst (fun p => Leaf (leaf (snd p))) add (fun p => leaf (snd p))). reflexivity. Qed.
  Lemma group_logger_eq nm : group_logger leaf add zero nm =
    (Node (dset String.eqb "__all__" (Leaf (fold_names nm)) (build fst (fun p => fst (group_name leaf add zero (snd p))) nm [])), fold_names nm).
  Proof.
    unfold group_logger. rewrite (fold_pair fst (fun p => fst (group_name leaf add zero (snd p))) add (fun p => snd (group_name leaf add zero (snd p)))).
    assert (E : forall l z, fold_left (fun t p => add t (snd (group_name leaf add zero (snd p)))) l z = fold_left (fun t (p : string * list (string * A)) => add t (fold_leaves (snd p))) l z).
    { induction l as [|p l IH]; intros z; auto. cbn [fold_left]. rewrite group_name_eq. cbn [snd]. apply IH. }
    rewrite E. reflexivity.
  Qed.
  Lemma group_all_eq m : group_all leaf add zero m =
    Node (dset String.eqb "__all__" (Leaf (fold_all m)) (build (fun p => snd (fst p)) (fun p => fst (group_logger leaf add zero (snd p))) m [])).
  Proof.
    unfold group_all. rewrite (fold_pair (fun p => snd (fst p)) (fun p => fst (group_logger leaf add zero (snd p))) add (fun p => snd (group_logger leaf add zero (snd p)))).
    assert (E : forall (l : lmap A) z, fold_left (fun t p => add t (snd (group_logger leaf add zero (snd p)))) l z = fold_left (fun t p => add t (fold_names (snd p))) l z).
    { induction l as [|p l IH]; intros z; auto. cbn [fold_left]. rewrite group_logger_eq. cbn [snd]. apply IH. }
    rewrite E. reflexivity.
  Qed.
  Lemma group_entries m : well_keyed m ->
    entry (group_all leaf add zero m) ["__all__"] = Some (fold_all m) /\
    forall k nm, In (k, nm) m ->
      entry (group_all leaf add zero m) [snd k; "__all__"] = Some (fold_names nm) /\
      forall n sm, In (n, sm) nm ->
        entry (group_all leaf add zero m) [snd k; n; "__all__"] = Some (fold_leaves sm) /\
        forall st a, In (st, a) sm -> entry (group_all leaf add zero m) [snd k; n; st] = Some (leaf a).
  Proof.
    intros (W1 & W2 & W3). rewrite group_all_eq. unfold entry. split; [cbn [path]; rewrite dget_all_set; reflexivity|].
    intros k nm Hk. destruct (W3 k nm Hk) as (Rk & Nk & Hn).
    assert (E1 : forall rest, path (Node (dset String.eqb "__all__" (Leaf (fold_all m)) (build (fun p => snd (fst p)) (fun p => fst (group_logger leaf add zero (snd p))) m []))) (snd k :: rest) =
      path (fst (group_logger leaf add zero nm)) rest).
    { intros rest. cbn [path]. rewrite dget_set_all by auto. rewrite (build_hit (fun p => snd (fst p)) _ m [] (snd k) (k, nm) Hk eq_refl); [reflexivity|].
      intros [k' nm'] H' E. cbn [fst snd] in *. pose proof (W2 k' k nm' nm H' Hk E) as Ei.
      assert (Hd : dget logger_eqb k m = Some nm) by (apply dget_of_in; auto; [apply logger_eqb_refl | apply logger_eqb_sym]).
      assert (Hd' : dget logger_eqb k' m = Some nm') by (apply dget_of_in; auto; [apply logger_eqb_refl | apply logger_eqb_sym]).
      rewrite (dget_ext logger_eqb logger_eqb_sym logger_eqb_trans k' k m) in Hd' by (unfold logger_eqb; rewrite Ei; apply Nat.eqb_refl). congruence. }
    rewrite E1, group_logger_eq. cbn [fst]. split; [cbn [path]; rewrite dget_all_set; reflexivity|].
    intros n sm Hin. destruct (Hn n sm Hin) as (Rn & Nn & Hs).
    assert (E2 : forall rest, path (Node (dset String.eqb "__all__" (Leaf (fold_names nm)) (build fst (fun p => fst (group_name leaf add zero (snd p))) nm []))) (n :: rest) =
      path (fst (group_name leaf add zero sm)) rest).
    { intros rest. cbn [path]. rewrite dget_set_all by auto. rewrite (build_get _ nm n sm Nk Hin). reflexivity. }
    rewrite E1, group_logger_eq. cbn [fst]. rewrite E2, group_name_eq. cbn [fst]. split; [cbn [path]; rewrite dget_all_set; reflexivity|].
    intros st a Ha. rewrite E1, group_logger_eq. cbn [fst]. rewrite E2, group_name_eq. cbn [fst path].
    rewrite dget_set_all by (eapply Hs; eauto). rewrite (build_get _ sm st a Nn Ha). reflexivity.
  Qed.
End Entries.

Lemma in_dupd {K X} (eqb : K -> K -> bool) (Hr : forall a, eqb a a = true) k (x : X) k0 dflt f d : In (k, x) (dupd eqb k0 dflt f d) ->
  In (k, x) d \/ (eqb k0 k = true /\ x = f (match dget eqb k0 d with Some v => v | None => dflt end)).
Proof. intros H. destruct (in_dset eqb Hr _ _ _ _ d H) as [[-> E]|H']; auto. Qed.
(** The keys come from the events. *)
Lemma dset_keys {K X} (eqb : K -> K -> bool) k0 (v : X) d : forall k x, In (k, x) (dset eqb k0 v d) -> In k (map fst d) \/ k = k0.
Proof.
  induction d as [|[a b] d IH]; intros k x H; simpl in *; [destruct H as [H|[]]; inversion H; auto|].
  destruct (eqb k0 a); destruct H as [H|H]; try (inversion H; subst; auto; fail).
  - left. right. apply in_map_iff. exists (k, x). auto.
  - destruct (IH k x H); auto.
Qed.

(** ** Histories of three-level maps *)
Section History.
  Context {K A Ev : Type} (keq : K -> K -> bool).
  Hypothesis keq_refl : forall a, keq a a = true.
  Hypothesis keq_sym : forall a b, keq a b = keq b a.
  Hypothesis keq_trans : forall a b c, keq a b = true -> keq b c = true -> keq a c = true.
  Context (kof : Ev -> K) (ev : Ev -> end_ev) (new : Ev -> A) (upd : A -> Ev -> A).
  Definition step3 (m : gmap K A) (e : Ev) : gmap K A :=
    dupd keq (kof e) [] (dupd String.eqb (ee_name (ev e)) [] (dupd String.eqb (ee_status (ev e)) (new e) (fun a => upd a e))) m.
  Definition run3 (evs : list Ev) : gmap K A := fold_left step3 evs [].
  Lemma run3_snoc evs e : run3 (evs ++ [e]) = step3 (run3 evs) e.
  Proof. unfold run3. rewrite fold_left_app. reflexivity. Qed.

  (** Groups of events. *)
  Definition same_logger (l : K) (e : Ev) : bool := keq l (kof e).
  Definition named (n : string) (e : Ev) : bool := String.eqb n (ee_name (ev e)).
  Definition with_status (st : string) (e : Ev) : bool := String.eqb st (ee_status (ev e)).
  Lemma status_get evs st : dget String.eqb st (fold_left (fun sm e => dupd String.eqb (ee_status (ev e)) (new e) (fun a => upd a e) sm) evs []) =
    match filter (with_status st) evs with [] => None | e0 :: l => Some (fold_left upd (e0 :: l) (new e0)) end.
  Proof.
    induction evs as [|e evs IH] using rev_ind; auto. rewrite fold_left_app, filter_app. cbn [filter fold_left].
    rewrite (dget_upd String.eqb String.eqb_sym string_eqb_trans), IH. change (st =? ee_status (ev e))%string with (with_status st e). destruct (with_status st e).
    - destruct (filter (with_status st) evs) as [|a l]; [reflexivity|]. cbn [app]. f_equal.
      change (a :: l ++ [e]) with ((a :: l) ++ [e]). rewrite fold_left_app. reflexivity.
    - rewrite app_nil_r. auto.
  Qed.

  Definition wf3 (m : gmap K A) : Prop :=
    ndk keq m /\ forall k v, In (k, v) m -> ndk String.eqb v /\ forall n sm, In (n, sm) v -> ndk String.eqb sm.
  Lemma wf3_step m e : wf3 m -> wf3 (step3 m e).
  Proof.
    intros [H1 H2]. split; [apply (ndk_set keq keq_refl keq_sym keq_trans); auto|].
    intros k v Hin. unfold step3 in Hin. apply (in_dupd _ keq_refl) in Hin. destruct Hin as [Hin|[_ ->]]; [eapply H2; eauto|].
    set (nm := match dget keq (kof e) m with Some v => v | None => [] end).
    assert (Hnm : ndk String.eqb nm /\ forall n sm, In (n, sm) nm -> ndk String.eqb sm).
    { unfold nm. destruct (dget keq (kof e) m) eqn:HE; [|split; [exact I | intros ? ? []]].
      destruct (dget_in _ _ _ _ HE) as (k' & Hk & _). eapply H2; eauto. }
    destruct Hnm as [N1 N2]. split; [apply (ndk_set String.eqb String.eqb_refl String.eqb_sym string_eqb_trans); auto|].
    intros n sm Hin. apply (in_dupd _ String.eqb_refl) in Hin. destruct Hin as [Hin|[_ ->]]; [eapply N2; eauto|].
    apply (ndk_set String.eqb String.eqb_refl String.eqb_sym string_eqb_trans). destruct (dget String.eqb (ee_name (ev e)) nm) eqn:HE; [|exact I].
    apply dget_string_in in HE. eapply N2; eauto.
  Qed.
  Lemma run3_wf evs : wf3 (run3 evs).
  Proof.
    induction evs as [|e evs IH] using rev_ind; [split; [exact I | intros ? ? []]|]. rewrite run3_snoc. apply wf3_step; auto.
  Qed.
  Definition keyed_by (evs : list Ev) (m : gmap K A) : Prop :=
    forall k nm, In (k, nm) m -> (exists e, In e evs /\ kof e = k) /\
      forall n sm, In (n, sm) nm -> (exists e, In e evs /\ ee_name (ev e) = n) /\ forall st a, In (st, a) sm -> exists e, In e evs /\ ee_status (ev e) = st.
  Lemma run3_keys evs : keyed_by evs (run3 evs).
  Proof.
    induction evs as [|e evs IH] using rev_ind; [intros ? ? []|]. rewrite run3_snoc.
    assert (Hold : forall (P : Ev -> Prop), (exists x, In x evs /\ P x) -> exists x, In x (evs ++ [e]) /\ P x) by (intros P (x & Hx & Px); exists x; split; auto; apply in_or_app; auto).
    assert (Hme : In e (evs ++ [e])) by (apply in_or_app; right; left; auto).
    intros k nm Hin. split.
    - destruct (dset_keys _ _ _ _ _ _ Hin) as [Hk|Hk]; [|exists e; auto].
      apply in_map_iff in Hk. destruct Hk as ([k' v'] & Ek & Hk). cbn [fst] in Ek. subst k'. apply Hold. apply (IH k v' Hk).
    - intros n sm Hn. unfold step3 in Hin. apply (in_dupd _ keq_refl) in Hin.
      assert (Hlift : forall k' nm', In (k', nm') (run3 evs) -> In (n, sm) nm' -> (exists e0, In e0 (evs ++ [e]) /\ ee_name (ev e0) = n) /\ forall st a, In (st, a) sm -> exists e0, In e0 (evs ++ [e]) /\ ee_status (ev e0) = st).
      { intros k' nm' Hk' Hn'. destruct (IH k' nm' Hk') as [_ H]. destruct (H n sm Hn') as [Ha Hb]. split; [apply Hold; auto|]. intros st a Hst. apply Hold. eapply Hb; eauto. }
      destruct Hin as [Hin|[_ ->]]; [eapply Hlift; eauto|].
      set (nm0 := match dget keq (kof e) (run3 evs) with Some v => v | None => [] end) in *.
      assert (Hnm0 : forall x, In x nm0 -> exists k', In (k', nm0) (run3 evs)).
      { unfold nm0. intros x Hx. destruct (dget keq (kof e) (run3 evs)) eqn:HE; [|destruct Hx]. destruct (dget_in _ _ _ _ HE) as (k' & Hk' & _). eauto. }
      split.
      + destruct (dset_keys _ _ _ _ _ _ Hn) as [Hk|Hk]; [|exists e; auto].
        apply in_map_iff in Hk. destruct Hk as ([n' sm'] & En & Hk). cbn [fst] in En. subst n'. destruct (Hnm0 _ Hk) as (k' & Hk').
        apply Hold. destruct (IH k' nm0 Hk') as [_ H]. apply (H n sm' Hk).
      + intros st a Hst. apply (in_dupd _ String.eqb_refl) in Hn. destruct Hn as [Hn|[_ ->]].
        * destruct (Hnm0 _ Hn) as (k' & Hk'). destruct (Hlift k' nm0 Hk' Hn) as [_ H]. eapply H; eauto.
        * destruct (dset_keys _ _ _ _ _ _ Hst) as [Hk|Hk]; [|exists e; auto].
          apply in_map_iff in Hk. destruct Hk as ([st' a'] & Est & Hk). cbn [fst] in Est. subst st'.
          destruct (dget String.eqb (ee_name (ev e)) nm0) as [sm0|] eqn:HE; [|destruct Hk]. apply dget_string_in in HE. destruct (Hnm0 _ HE) as (k' & Hk').
          apply Hold. destruct (IH k' nm0 Hk') as [_ H]. destruct (H (ee_name (ev e)) sm0 HE) as [_ H']. eapply H'; eauto.
  Qed.
  (** Additive measures. *)
  Context (g : A -> nat) (Hnew : forall e, g (new e) = 0) (w : Ev -> nat) (Hupd : forall a e, g (upd a e) = g a + w e).
  Definition S1 (sm : list (string * A)) := list_sum (map (fun p => g (snd p)) sm).
  Definition S2 (nm : list (string * list (string * A))) := list_sum (map (fun p => S1 (snd p)) nm).
  Definition S3 (m : gmap K A) := list_sum (map (fun p => S2 (snd p)) m).
  Lemma S1_step sm e : S1 (dupd String.eqb (ee_status (ev e)) (new e) (fun a => upd a e) sm) = S1 sm + w e.
  Proof.
    unfold S1, dupd. pose proof (sum_set String.eqb g (ee_status (ev e)) (upd (match dget String.eqb (ee_status (ev e)) sm with Some v => v | None => new e end) e) sm) as H.
    rewrite Hupd in H. destruct (dget String.eqb (ee_status (ev e)) sm); rewrite ?Hnew in *; rewrite ?Hupd; lia.
  Qed.
  Lemma S2_step nm e : S2 (dupd String.eqb (ee_name (ev e)) [] (dupd String.eqb (ee_status (ev e)) (new e) (fun a => upd a e)) nm) = S2 nm + w e.
  Proof.
    unfold S2. pose proof (sum_set String.eqb S1 (ee_name (ev e)) (dupd String.eqb (ee_status (ev e)) (new e) (fun a => upd a e) (match dget String.eqb (ee_name (ev e)) nm with Some v => v | None => [] end)) nm) as H.
    rewrite S1_step in H. unfold dupd in *. destruct (dget String.eqb (ee_name (ev e)) nm); [lia|]. change (S1 []) with 0 in H. lia.
  Qed.
  Lemma S3_step m e : S3 (step3 m e) = S3 m + w e.
  Proof.
    unfold S3, step3. pose proof (sum_set keq S2 (kof e) (dupd String.eqb (ee_name (ev e)) [] (dupd String.eqb (ee_status (ev e)) (new e) (fun a => upd a e)) (match dget keq (kof e) m with Some v => v | None => [] end)) m) as H.
    rewrite S2_step in H. unfold dupd in *. destruct (dget keq (kof e) m); [lia|]. change (S2 []) with 0 in H. lia.
  Qed.
  Lemma S3_run evs : S3 (run3 evs) = list_sum (map w evs).
  Proof. induction evs as [|e evs IH] using rev_ind; auto. rewrite run3_snoc, S3_step, IH, map_app, list_sum_app. simpl. lia. Qed.
  Lemma S2_run evs : S2 (fold_left (fun nm e => dupd String.eqb (ee_name (ev e)) [] (dupd String.eqb (ee_status (ev e)) (new e) (fun a => upd a e)) nm) evs []) = list_sum (map w evs).
  Proof. induction evs as [|e evs IH] using rev_ind; auto. rewrite fold_left_app. cbn [fold_left]. rewrite S2_step, IH, map_app, list_sum_app. simpl. lia. Qed.
  Lemma S1_run evs : S1 (fold_left (fun sm e => dupd String.eqb (ee_status (ev e)) (new e) (fun a => upd a e) sm) evs []) = list_sum (map w evs).
  Proof. induction evs as [|e evs IH] using rev_ind; auto. rewrite fold_left_app. cbn [fold_left]. rewrite S1_step, IH, map_app, list_sum_app. simpl. lia. Qed.
End History.
