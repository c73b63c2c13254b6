(** Sums over the members of a group; RateSink rates; EWMASink; QuantileSink. *)
From Coq Require Import Lqa.
From Verif Require Import model.PyBase model.Quantile model.Sinks spec.QuantileSpec spec.SinkSpec proof.DictLemmas proof.SinkProofs proof.SinkProofs2 proof.SinkProofs3.
Open Scope nat_scope.

Lemma qsum_perm l l' : Permutation l l' -> (qsum l == qsum l')%Q.
Proof. induction 1; simpl; lra. Qed.
Lemma fold_qplus {P} (f : P -> Q) l : forall z, (fold_left (fun t p => t + f p)%Q l z == z + qsum (map f l))%Q.
Proof. induction l as [|p l IH]; intros z; simpl; [lra|]. rewrite IH. lra. Qed.
Lemma ndk_nodup {V} (d : list (string * V)) : ndk String.eqb d -> NoDup (map fst d).
Proof.
  induction d as [|[k v] d IH]; intros H; [constructor|]. destruct H as [H1 H2]. simpl. constructor; auto.
  intros Hin. apply in_map_iff in Hin. destruct Hin as ([k' v'] & Ek & Hin). cbn [fst] in Ek. subst. specialize (H1 _ _ Hin). rewrite String.eqb_refl in H1. discriminate.
Qed.
Lemma in_keys_get {V} (d : list (string * V)) k : In k (map fst d) <-> dget String.eqb k d <> None.
Proof.
  induction d as [|[a b] d IH]; simpl; [intuition congruence|]. destruct (String.eqb_spec k a) as [->|N]; [intuition congruence|].
  rewrite <- IH. intuition congruence.
Qed.
Lemma keys_perm {V} (d : list (string * V)) S : ndk String.eqb d -> (forall k, dget String.eqb k d <> None <-> In k S) ->
  Permutation (map fst d) (nodup string_dec S).
Proof.
  intros H1 H2. apply NoDup_Permutation; [apply ndk_nodup; auto | apply NoDup_nodup |]. intros x. rewrite in_keys_get, nodup_In. apply H2.
Qed.
Lemma filter_ne_iff {X} (f : X -> bool) l : filter f l <> [] <-> exists x, In x l /\ f x = true.
Proof.
  split; [|intros (x & H1 & H2); eapply in_filter_ne; eauto].
  destruct (filter f l) as [|x r] eqn:E; [congruence|]. intros _. exists x. apply filter_In. rewrite E. left; auto.
Qed.

Section Keys.
  Context {A E : Type} (ev : E -> end_ev) (new : E -> A) (upd : A -> E -> A).
  Lemma stat_of_ndk evs : ndk String.eqb (stat_of ev new upd evs).
  Proof.
    unfold stat_of. induction evs as [|e evs IH] using rev_ind; [exact I|]. rewrite fold_left_app. cbn [fold_left].
    apply (ndk_set String.eqb String.eqb_refl String.eqb_sym string_eqb_trans); auto.
  Qed.
  Lemma stat_keys evs : Permutation (map fst (stat_of ev new upd evs)) (nodup string_dec (map (fun e => ee_status (ev e)) evs)).
  Proof.
    apply keys_perm; [apply stat_of_ndk|]. intros k. unfold stat_of. rewrite status_get.
    assert (H : filter (with_status ev k) evs <> [] <-> In k (map (fun e => ee_status (ev e)) evs)).
    { rewrite filter_ne_iff, in_map_iff. unfold with_status. split; intros (x & H1 & H2); exists x; [rewrite String.eqb_eq in H2|subst; rewrite String.eqb_refl]; auto. }
    rewrite <- H. destruct (filter (with_status ev k) evs); intuition congruence.
  Qed.
  Lemma name_of_ndk evs : ndk String.eqb (name_of ev new upd evs).
  Proof.
    unfold name_of. induction evs as [|e evs IH] using rev_ind; [exact I|]. rewrite fold_left_app. cbn [fold_left].
    apply (ndk_set String.eqb String.eqb_refl String.eqb_sym string_eqb_trans); auto.
  Qed.
  Lemma name_keys evs : Permutation (map fst (name_of ev new upd evs)) (nodup string_dec (map (fun e => ee_name (ev e)) evs)).
  Proof.
    apply keys_perm; [apply name_of_ndk|]. intros k. rewrite name_get.
    assert (H : filter (named ev k) evs <> [] <-> In k (map (fun e => ee_name (ev e)) evs)).
    { rewrite filter_ne_iff, in_map_iff. unfold named. split; intros (x & H1 & H2); exists x; [rewrite String.eqb_eq in H2|subst; rewrite String.eqb_refl]; auto. }
    rewrite <- H. destruct (filter (named ev k) evs); intuition congruence.
  Qed.
End Keys.

(** ** RateSink rates *)
Definition rate_at (t : tree Q) (ks : list string) : Q := match entry t ks with Some v => v | None => 0%Q end.

Section RateTree.
  Context {A : Type} (new : Q * end_ev -> A) (upd : A -> Q * end_ev -> A) (leaf : A -> Q).
  Notation m evs := (run3 logger_eqb (fun p : Q * end_ev => ee_logger (snd p)) snd new upd evs).
  Notation t evs := (group_all leaf Qplus 0%Q (m evs)).

  Lemma key_name evs k nm e : distinct_names (map snd evs) -> In (k, nm) (m evs) -> In e evs -> logger_eqb (ee_logger (snd e)) k = true -> snd k = snd (ee_logger (snd e)).
  Proof.
    intros Hd Hk He E. destruct (run3_keys logger_eqb logger_eqb_refl (fun p : Q * end_ev => ee_logger (snd p)) snd new upd evs k nm Hk) as [(x & Hx & Ex) _].
    apply Nat.eqb_eq in E. rewrite <- Ex in *. symmetry. apply (Hd (snd e) (snd x)); auto using in_map.
  Qed.
  Theorem group_sums evs : distinct_names (map snd evs) -> no_reserved (map snd evs) ->
    (exists v, entry (t evs) ["__all__"] = Some v /\ (v == qsum (map (fun l => rate_at (t evs) [l; "__all__"]) (logger_names (map snd evs))))%Q) /\
    forall e, In e (map snd evs) ->
      (exists v, entry (t evs) [snd (ee_logger e); "__all__"] = Some v /\
        (v == qsum (map (fun n => rate_at (t evs) [snd (ee_logger e); n; "__all__"]) (names_in (snd (ee_logger e)) (map snd evs))))%Q) /\
      (exists v, entry (t evs) [snd (ee_logger e); ee_name e; "__all__"] = Some v /\
        (v == qsum (map (fun st => rate_at (t evs) [snd (ee_logger e); ee_name e; st]) (statuses_in (snd (ee_logger e)) (ee_name e) (map snd evs))))%Q) /\
      exists te l, filter (of_status (snd (ee_logger e)) (ee_name e) (ee_status e)) (map snd evs) = map snd (te :: l) /\
        filter (fun p => of_status (snd (ee_logger e)) (ee_name e) (ee_status e) (snd p)) evs = te :: l /\
        entry (t evs) [snd (ee_logger e); ee_name e; ee_status e] = Some (leaf (fold_left upd (te :: l) (new te))).
  Proof.
    intros Hd Hr. pose proof (run3_well_keyed snd new upd evs Hd Hr) as W. destruct (group_entries leaf Qplus 0%Q _ W) as [G1 G2].
    split.
    - eexists. split; [exact G1|]. unfold fold_all. rewrite fold_qplus, Qplus_0_l.
      assert (E1 : map (fun p => fold_names leaf Qplus 0%Q (snd p)) (m evs) = map (fun l => rate_at (t evs) [l; "__all__"]) (map (fun p => snd (fst p)) (m evs))).
      { rewrite map_map. apply map_ext_in. intros [k nm] Hin. cbn [fst snd]. unfold rate_at. destruct (G2 k nm Hin) as [-> _]. reflexivity. }
      rewrite E1. apply qsum_perm, Permutation_map. unfold logger_names. apply NoDup_Permutation.
      + destruct W as (W1 & W2 & _). clear - W1 W2. revert W1 W2. generalize (m evs) as mm. intros mm. induction mm as [|[k nm] mm IH]; intros W1 W2; [constructor|].
        simpl. destruct W1 as [W1 W1']. constructor; [|apply IH; auto; intros; eapply W2; try (right; eauto); auto].
        intros Hin. apply in_map_iff in Hin. destruct Hin as ([k' nm'] & Ek & Hin). cbn [fst] in Ek.
        pose proof (W2 k k' nm nm' (or_introl eq_refl) (or_intror Hin) (eq_sym Ek)) as Ei. specialize (W1 _ _ Hin). unfold logger_eqb in W1. rewrite Ei, Nat.eqb_refl in W1. discriminate.
      + apply NoDup_nodup.
      + intros x. rewrite nodup_In, !in_map_iff. split.
        * intros ([k nm] & Ex & Hin). cbn [fst] in Ex. subst x. destruct (run3_keys logger_eqb logger_eqb_refl (fun p : Q * end_ev => ee_logger (snd p)) snd new upd evs k nm Hin) as [(e & He & Ee) _].
          exists (snd e). split; [rewrite Ee; auto | apply in_map; auto].
        * intros (e & Ex & He). apply in_map_iff in He. destruct He as (te & Et & He).
          destruct (path_of logger_eqb logger_eqb_refl logger_eqb_sym logger_eqb_trans (fun p : Q * end_ev => ee_logger (snd p)) snd new upd evs te He) as (k & K1 & K2 & _).
          eexists. split; [|exact K1]. cbn [fst]. rewrite (key_name evs k _ te Hd K1 He K2). subst. reflexivity.
    - intros e He. apply in_map_iff in He. destruct He as (te & Et & He).
      destruct (path_of logger_eqb logger_eqb_refl logger_eqb_sym logger_eqb_trans (fun p : Q * end_ev => ee_logger (snd p)) snd new upd evs te He) as (k & K1 & K2 & K3 & e0 & l & K4 & K5).
      pose proof (key_name evs k _ te Hd K1 He K2) as Ek.
      cbv beta in *. rewrite (same_logger_name snd evs te Hd He) in *. rewrite Et in *.
      destruct (G2 k _ K1) as [H1 H2]. destruct (H2 _ _ K3) as [H3 H4]. pose proof (H4 _ _ K5) as H5. rewrite Ek in *.
      split; [|split].
      + eexists. split; [exact H1|]. unfold fold_names. rewrite fold_qplus, Qplus_0_l.
        match goal with |- (qsum (map _ ?nm) == _)%Q => set (nm0 := nm) in * end.
        assert (E1 : map (fun p => fold_leaves leaf Qplus 0%Q (snd p)) nm0 = map (fun n => rate_at (t evs) [snd (ee_logger e); n; "__all__"]) (map fst nm0)).
        { rewrite map_map. apply map_ext_in. intros [n sm] Hin. cbn [fst snd]. unfold rate_at. destruct (H2 n sm Hin) as [-> _]. reflexivity. }
        rewrite E1. apply qsum_perm, Permutation_map. unfold nm0. rewrite name_keys. unfold names_in. rewrite filter_map_swap, map_map. reflexivity.
      + eexists. split; [exact H3|]. unfold fold_leaves. rewrite fold_qplus, Qplus_0_l.
        match goal with |- (qsum (map _ ?sm) == _)%Q => set (sm0 := sm) in * end.
        assert (E1 : map (fun p => leaf (snd p)) sm0 = map (fun st => rate_at (t evs) [snd (ee_logger e); ee_name e; st]) (map fst sm0)).
        { rewrite map_map. apply map_ext_in. intros [st a] Hin. cbn [fst snd]. unfold rate_at. rewrite (H4 st a Hin). reflexivity. }
        rewrite E1. apply qsum_perm, Permutation_map. unfold sm0. rewrite stat_keys. unfold statuses_in. rewrite filter_map_swap, map_map, filter_filter_and. reflexivity.
      + exists e0, l. rewrite !filter_filter_and in K4. rewrite filter_map_swap.
        assert (E0 : filter (fun p => of_status (snd (ee_logger e)) (ee_name e) (ee_status e) (snd p)) evs = e0 :: l).
        { rewrite <- K4. apply filter_ext. intros x. unfold of_status, of_name. rewrite <- andb_assoc. reflexivity. }
        rewrite E0. auto.
  Qed.
End RateTree.

Lemma rs_upd_fold l : forall a, fold_left rs_upd l a = fold_left ra_add (values_of (fun _ => true) (map snd l)) a.
Proof.
  unfold values_of. induction l as [|[tt e] l IH]; intros a; auto. cbn [map snd filter flat_map fold_left]. rewrite IH, fold_left_app. unfold rs_upd. cbn [snd].
  destruct (ee_value e); reflexivity.
Qed.
Lemma filter_true {X} (l : list X) : filter (fun _ => true) l = l.
Proof. induction l; simpl; congruence. Qed.

Lemma filter_not_exists {X} (f : X -> bool) l : existsb f l = false -> filter f l = [].
Proof. induction l as [|x l IH]; auto. simpl. destruct (f x); [discriminate|]. auto. Qed.

(** ** QuantileSink *)
Section QSink.
  Context {A : Type} (new : A) (add : A -> Q -> A).
  Definition qs_upd (a : A) (e : end_ev) : A := match ee_value e with Some v => add a v | None => a end.
  Definition qs_run (evs : list end_ev) := fold_left (qs_on_end new add) evs [].
  Definition qget (evs : list end_ev) (l n : string) : option A :=
    match dget String.eqb l (qs_run evs) with Some d => dget String.eqb n d | None => None end.
  Lemma qs_upd_fold evs : forall a, fold_left qs_upd evs a = fold_left add (values_of (fun _ => true) evs) a.
  Proof.
    unfold values_of. rewrite filter_true. induction evs as [|e evs IH]; intros a; auto. cbn [flat_map fold_left]. rewrite IH, fold_left_app. unfold qs_upd.
    destruct (ee_value e); reflexivity.
  Qed.
  Lemma qs_lookup evs l n : qget evs l n =
    if existsb (of_name l n) evs then Some (fold_left add (values_of (of_name l n) evs) new) else None.
  Proof.
    unfold values_of. assert (H : qget evs l n = if existsb (of_name l n) evs then Some (fold_left qs_upd (filter (of_name l n) evs) new) else None).
    { unfold qget, qs_run. induction evs as [|e evs IH] using rev_ind; auto. rewrite fold_left_app, filter_app, fold_left_app, existsb_app. cbn [fold_left filter existsb].
      rewrite orb_false_r. unfold qs_on_end at 1. rewrite (dget_upd String.eqb String.eqb_sym string_eqb_trans).
      unfold of_name at 2 3, of_logger at 1 2. destruct (String.eqb l (snd (ee_logger e))).
      - cbn [andb]. rewrite (dget_upd String.eqb String.eqb_sym string_eqb_trans). destruct (String.eqb n (ee_name e)).
        + rewrite orb_true_r. f_equal. cbn [fold_left]. unfold qs_upd at 1.
          assert (Ed : match (match dget String.eqb l (fold_left (qs_on_end new add) evs []) with Some v => dget String.eqb n v | None => dget String.eqb n [] end) with Some v => v | None => new end = fold_left qs_upd (filter (of_name l n) evs) new).
          { destruct (dget String.eqb l (fold_left (qs_on_end new add) evs [])) as [d|]; [rewrite IH|]; destruct (existsb (of_name l n) evs) eqn:Ex; try discriminate IH; auto;
              rewrite (filter_not_exists _ _ Ex); auto. }
          destruct (dget String.eqb l (fold_left (qs_on_end new add) evs [])); rewrite Ed; reflexivity.
        + rewrite orb_false_r. cbn [fold_left]. destruct (dget String.eqb l (fold_left (qs_on_end new add) evs [])); auto.
      - cbn [andb]. rewrite orb_false_r. cbn [fold_left]. auto. }
    rewrite H. destruct (existsb (of_name l n) evs); auto. f_equal. rewrite qs_upd_fold. unfold values_of. rewrite filter_true. reflexivity.
  Qed.
End QSink.
