(** EWMASink sums. *)
From Coq Require Import Lqa.
From Verif Require Import model.PyBase model.Quantile model.Sinks spec.QuantileSpec spec.SinkSpec proof.DictLemmas proof.SinkProofs proof.SinkProofs2 proof.SinkProofs3 proof.SinkProofs4.
Open Scope nat_scope.

Lemma qeqb_refl a : Qeq_bool a a = true. Proof. apply Qeq_bool_iff; lra. Qed.
Lemma qeqb_sym a b : Qeq_bool a b = Qeq_bool b a. Proof. apply Bool.eq_iff_eq_true. rewrite !Qeq_bool_iff. split; intros; lra. Qed.
Lemma qeqb_trans a b c : Qeq_bool a b = true -> Qeq_bool b c = true -> Qeq_bool a c = true. Proof. rewrite !Qeq_bool_iff. intros; lra. Qed.

Lemma sum_for_set p k v d : sum_for p (dset Qeq_bool k v d) = if Qeq_bool p k then v else sum_for p d.
Proof. unfold sum_for. rewrite (dget_set Qeq_bool qeqb_sym qeqb_trans). destruct (Qeq_bool p k); auto. Qed.
Lemma update_add_step d q r : update_add d (q :: r) = update_add (match snd q with None => d | Some v => match dget Qeq_bool (fst q) d with Some x => dset Qeq_bool (fst q) (x + v)%Q d | None => dset Qeq_bool (fst q) v d end end) r.
Proof. reflexivity. Qed.
Lemma rate_for_cons p q r : (rate_for p (q :: r) == (if Qeq_bool p (fst q) then match snd q with Some v => v | None => 0 end else 0) + rate_for p r)%Q.
Proof. unfold rate_for. cbn [flat_map]. destruct (Qeq_bool p (fst q)); [destruct (snd q)|]; cbn [app qsum fold_right]; unfold qsum; cbn [fold_right]; lra. Qed.
Lemma update_add_sum p r : forall d, (sum_for p (update_add d r) == sum_for p d + rate_for p r)%Q.
Proof.
  induction r as [|q r IH]; intros d; [cbn; lra|]. rewrite update_add_step, IH, rate_for_cons. destruct (snd q) as [v|]; [|destruct (Qeq_bool p (fst q)); lra].
  destruct (dget Qeq_bool (fst q) d) as [x|] eqn:E; rewrite sum_for_set; destruct (Qeq_bool p (fst q)) eqn:Ep; try lra.
  - unfold sum_for. rewrite (dget_ext Qeq_bool qeqb_sym qeqb_trans p (fst q) d Ep), E. lra.
  - unfold sum_for. rewrite (dget_ext Qeq_bool qeqb_sym qeqb_trans p (fst q) d Ep), E. lra.
Qed.
Lemma has_rate_cons p q r : has_rate p (q :: r) <-> (Qeq_bool p (fst q) = true /\ snd q <> None) \/ has_rate p r.
Proof.
  unfold has_rate. split.
  - intros (k & v & [H|H] & E); [left|right; eauto]. subst q. cbn [fst snd]. split; [apply Qeq_bool_iff; auto | congruence].
  - intros [[H1 H2]|(k & v & H & E)]; [|exists k, v; split; auto; right; auto]. destruct q as [k [v|]]; [|cbn [snd] in H2; congruence].
    exists k, v. split; [left; auto | apply Qeq_bool_iff; auto].
Qed.
Lemma update_add_has p r : forall d, dget Qeq_bool p (update_add d r) <> None <-> dget Qeq_bool p d <> None \/ has_rate p r.
Proof.
  induction r as [|q r IH]; intros d.
  - cbn. unfold has_rate. split; auto. intros [H|(k & v & [] & _)]; auto.
  - rewrite update_add_step, IH, has_rate_cons. destruct (snd q) as [v|]; [|intuition congruence].
    assert (E : forall x, dget Qeq_bool p (dset Qeq_bool (fst q) x d) <> None <-> dget Qeq_bool p d <> None \/ Qeq_bool p (fst q) = true).
    { intros x. rewrite (dget_set Qeq_bool qeqb_sym qeqb_trans). destruct (Qeq_bool p (fst q)); intuition congruence. }
    destruct (dget Qeq_bool (fst q) d); rewrite E; intuition congruence.
Qed.

Section Ewma.
  Context {A : Type} (rates : A -> rates_map).
  Definition upd_stat (sm : list (string * A)) (d : list (Q * Q)) := fold_left (fun d p => update_add d (rates (snd p))) sm d.
  Definition upd_name (nm : list (string * list (string * A))) d := fold_left (fun d p => upd_stat (snd p) d) nm d.
  Definition upd_all (m : @es_map A) d := fold_left (fun d p => upd_name (snd p) d) m d.
  Lemma fold_fun {P V} (key : P -> string) (val : P -> V) (up : P -> list (Q * Q) -> list (Q * Q)) l : forall d0 (f0 : list (Q * Q) -> list (Q * Q)),
    fst (fold_left (fun acc p => (dset String.eqb (key p) (val p) (fst acc), fun d : list (Q * Q) => up p (snd acc d))) l (d0, f0)) = build key val l d0 /\
    forall d, snd (fold_left (fun acc p => (dset String.eqb (key p) (val p) (fst acc), fun d : list (Q * Q) => up p (snd acc d))) l (d0, f0)) d = fold_left (fun d p => up p d) l (f0 d).
  Proof. induction l as [|p l IH]; intros d0 f0; [auto|]. cbn [fold_left fst snd]. apply (IH (dset String.eqb (key p) (val p) d0) (fun d => up p (f0 d))). Qed.
  Lemma ev_name_snd sm d : snd (ev_name rates sm) d = upd_stat sm d.
  Proof. unfold ev_name. destruct (fold_fun fst (fun p => Leaf (inr (rates (snd p)) : list (Q * Q) + rates_map)) (fun p d => update_add d (rates (snd p))) sm [] (fun d => d)) as [_ H]. apply H. Qed.
  Lemma ev_name_fst sm : fst (ev_name rates sm) = build fst (fun p => Leaf (inr (rates (snd p)))) sm [].
  Proof. unfold ev_name. destruct (fold_fun fst (fun p => Leaf (inr (rates (snd p)) : list (Q * Q) + rates_map)) (fun p d => update_add d (rates (snd p))) sm [] (fun d => d)) as [H _]. apply H. Qed.
  Lemma fold_ext_l {X Y} (f g : X -> Y -> X) l : (forall x y, f x y = g x y) -> forall x, fold_left f l x = fold_left g l x.
  Proof. intros H. induction l as [|y l IH]; intros x; auto. simpl. rewrite H. auto. Qed.
  Lemma ev_logger_snd nm d : snd (ev_logger rates nm) d = upd_name nm d.
  Proof.
    unfold ev_logger. destruct (fold_fun fst (fun p => ev_name_tree rates (snd p)) (fun p d => snd (ev_name rates (snd p)) d) nm [] (fun d => d)) as [_ H]. rewrite H.
    apply fold_ext_l. intros x y. apply ev_name_snd.
  Qed.
  Lemma ev_logger_fst nm : fst (ev_logger rates nm) = build fst (fun p => ev_name_tree rates (snd p)) nm [].
  Proof. unfold ev_logger. destruct (fold_fun fst (fun p => ev_name_tree rates (snd p)) (fun p d => snd (ev_name rates (snd p)) d) nm [] (fun d => d)) as [H _]. apply H. Qed.
  Lemma es_get_values_eq m : es_get_values rates m = Node (("__all__", Leaf (inl (upd_all m []))) :: build fst (fun p => ev_logger_tree rates (snd p)) m []).
  Proof.
    unfold es_get_values. pose proof (fold_fun fst (fun p => ev_logger_tree rates (snd p)) (fun p d => snd (ev_logger rates (snd p)) d) m [] (fun d => d)) as [H1 H2].
    destruct (fold_left _ m _) as [dd f]. cbn [fst snd] in *. rewrite H1, H2. do 5 f_equal. apply fold_ext_l. intros x y. apply ev_logger_snd.
  Qed.
  Definition str_keyed (m : @es_map A) : Prop :=
    ndk String.eqb m /\ forall k v, In (k, v) m -> k <> "__all__" /\ ndk String.eqb v /\
      forall n sm, In (n, sm) v -> n <> "__all__" /\ ndk String.eqb sm /\ forall st a, In (st, a) sm -> st <> "__all__".
  Lemma all_head {V} (x : V) d k : k <> "__all__" -> dget String.eqb k (("__all__", x) :: d) = dget String.eqb k d.
  Proof. intros H. cbn [dget]. destruct (String.eqb_spec k "__all__"); congruence. Qed.
  Lemma ewma_entries m : str_keyed m ->
    entry (es_get_values rates m) ["__all__"] = Some (inl (upd_all m [])) /\
    forall k nm, In (k, nm) m ->
      entry (es_get_values rates m) [k; "__all__"] = Some (inl (upd_name nm [])) /\
      forall n sm, In (n, sm) nm ->
        entry (es_get_values rates m) [k; n; "__all__"] = Some (inl (upd_stat sm [])) /\
        forall st a, In (st, a) sm -> entry (es_get_values rates m) [k; n; st] = Some (inr (rates a)).
  Proof.
    intros (W1 & W3). rewrite es_get_values_eq. unfold entry. split; [reflexivity|].
    intros k nm Hk. destruct (W3 k nm Hk) as (Rk & Nk & Hn).
    assert (E1 : forall rest, path (Node (("__all__", Leaf (inl (upd_all m []))) :: build fst (fun p => ev_logger_tree rates (snd p)) m [])) (k :: rest) = path (ev_logger_tree rates nm) rest).
    { intros rest. cbn [path]. rewrite all_head by auto. rewrite (build_get _ m k nm W1 Hk). reflexivity. }
    rewrite E1. unfold ev_logger_tree. rewrite ev_logger_snd, ev_logger_fst. split; [reflexivity|].
    intros n sm Hin. destruct (Hn n sm Hin) as (Rn & Nn & Hs).
    assert (E2 : forall rest, path (ev_logger_tree rates nm) (n :: rest) = path (ev_name_tree rates sm) rest).
    { intros rest. unfold ev_logger_tree. rewrite ev_logger_fst. cbn [path]. rewrite all_head by auto. rewrite (build_get _ nm n sm Nk Hin). reflexivity. }
    rewrite E1, E2. unfold ev_name_tree. rewrite ev_name_snd, ev_name_fst. split; [reflexivity|].
    intros st a Ha. rewrite E1, E2. unfold ev_name_tree. rewrite ev_name_fst. cbn [path]. rewrite all_head by (eapply Hs; eauto). rewrite (build_get _ sm st a Nn Ha). reflexivity.
  Qed.

  (** Sums and reported periods of the three levels. *)
  Lemma upd_stat_sum p sm : forall d, (sum_for p (upd_stat sm d) == sum_for p d + qsum (map (fun q => rate_for p (rates (snd q))) sm))%Q.
  Proof. unfold upd_stat. induction sm as [|q sm IH]; intros d; [cbn; lra|]. cbn [fold_left map]. rewrite IH, update_add_sum. unfold qsum. cbn [fold_right]. lra. Qed.
  Lemma upd_name_sum p nm : forall d, (sum_for p (upd_name nm d) == sum_for p d + qsum (map (fun q => sum_for p (upd_stat (snd q) [])) nm))%Q.
  Proof.
    unfold upd_name. induction nm as [|q nm IH]; intros d; [cbn; lra|]. cbn [fold_left map]. rewrite IH, upd_stat_sum. unfold qsum at 3. cbn [fold_right]. rewrite upd_stat_sum.
    change (sum_for p []) with 0%Q. unfold qsum. lra.
  Qed.
  Lemma upd_all_sum p m : forall d, (sum_for p (upd_all m d) == sum_for p d + qsum (map (fun q => sum_for p (upd_name (snd q) [])) m))%Q.
  Proof.
    unfold upd_all. induction m as [|q m IH]; intros d; [cbn; lra|]. cbn [fold_left map]. rewrite IH, upd_name_sum. unfold qsum at 3. cbn [fold_right]. rewrite upd_name_sum.
    change (sum_for p []) with 0%Q. unfold qsum. lra.
  Qed.
  Lemma upd_stat_has p sm : forall d, dget Qeq_bool p (upd_stat sm d) <> None <-> dget Qeq_bool p d <> None \/ exists st a, In (st, a) sm /\ has_rate p (rates a).
  Proof.
    unfold upd_stat. induction sm as [|[st a] sm IH]; intros d; [cbn; firstorder|]. cbn [fold_left snd]. rewrite IH, update_add_has. split.
    - intros [[H|H]|(st' & a' & H & H')]; auto; right; [exists st, a; split; auto; left; auto | exists st', a'; split; auto; right; auto].
    - intros [H|(st' & a' & [H|H] & H')]; auto; [inversion H; subst; auto | right; eauto].
  Qed.
  Lemma upd_name_has p nm : forall d, dget Qeq_bool p (upd_name nm d) <> None <-> dget Qeq_bool p d <> None \/ exists n sm st a, In (n, sm) nm /\ In (st, a) sm /\ has_rate p (rates a).
  Proof.
    unfold upd_name. induction nm as [|[n sm] nm IH]; intros d; [cbn; firstorder|]. cbn [fold_left snd]. rewrite IH, upd_stat_has. split.
    - intros [[H|(st & a & H)]|(n' & sm' & st' & a' & H & H')]; auto; right; [exists n, sm, st, a; split; auto; left; auto | exists n', sm', st', a'; split; auto; right; auto].
    - intros [H|(n' & sm' & st' & a' & [H|H] & H')]; auto; [inversion H; subst; eauto | right; eauto 8].
  Qed.
  Lemma upd_all_has p m : forall d, dget Qeq_bool p (upd_all m d) <> None <-> dget Qeq_bool p d <> None \/ exists l nm n sm st a, In (l, nm) m /\ In (n, sm) nm /\ In (st, a) sm /\ has_rate p (rates a).
  Proof.
    unfold upd_all. induction m as [|[l nm] m IH]; intros d; [cbn; firstorder|]. cbn [fold_left snd]. rewrite IH, upd_name_has. split.
    - intros [[H|(n & sm & st & a & H)]|(l' & nm' & n' & sm' & st' & a' & H & H')]; auto; right; [exists l, nm, n, sm, st, a; split; auto; left; auto | exists l', nm', n', sm', st', a'; split; auto; right; auto].
    - intros [H|(l' & nm' & n' & sm' & st' & a' & [H|H] & H')]; auto; [inversion H; subst; eauto 9 | right; eauto 10].
  Qed.
End Ewma.

Section EwmaHistory.
  Context {A : Type} (rates : A -> rates_map) (new : A) (add : A -> Q -> A).
  Notation kof := (fun e : end_ev => snd (ee_logger e)).
  Notation idev := (fun e : end_ev => e).
  Notation upd := (qs_upd add).
  Notation nw := (fun _ : end_ev => new).
  Lemma es_run_eq evs : es_run new add evs = run3 String.eqb kof idev nw upd evs.
  Proof. reflexivity. Qed.
  Lemma es_str_keyed evs : no_reserved evs -> str_keyed (es_run new add evs).
  Proof.
    intros Hr. rewrite es_run_eq. destruct (run3_wf String.eqb String.eqb_refl String.eqb_sym string_eqb_trans kof idev nw upd evs) as [W1 W2].
    pose proof (run3_keys String.eqb String.eqb_refl kof idev nw upd evs) as HK. split; auto.
    intros k v H. destruct (HK k v H) as [(e & He & Ek) Hn]. split; [rewrite <- Ek; apply Hr; auto|]. destruct (W2 k v H) as [N1 N2]. split; auto.
    intros n sm Hin. destruct (Hn n sm Hin) as [(e' & He' & En) Hs]. split; [rewrite <- En; apply Hr; auto|]. split; [eapply N2; eauto|].
    intros st a Hst. destruct (Hs st a Hst) as (e'' & He'' & <-). apply Hr; auto.
  Qed.
  Notation t evs := (es_get_values rates (es_run new add evs)).
  Theorem ewma_sums evs : no_reserved evs ->
    (exists d, entry (t evs) ["__all__"] = Some (inl d) /\
      forall p, (sum_for p d == qsum (map (fun l => sum_for p (sums_at (t evs) [l; "__all__"])) (logger_names evs)))%Q) /\
    forall e, In e evs ->
      (exists d, entry (t evs) [snd (ee_logger e); "__all__"] = Some (inl d) /\
        forall p, (sum_for p d == qsum (map (fun n => sum_for p (sums_at (t evs) [snd (ee_logger e); n; "__all__"])) (names_in (snd (ee_logger e)) evs)))%Q) /\
      (exists d, entry (t evs) [snd (ee_logger e); ee_name e; "__all__"] = Some (inl d) /\
        forall p, (sum_for p d == qsum (map (fun st => rate_for p (rates_at (t evs) [snd (ee_logger e); ee_name e; st])) (statuses_in (snd (ee_logger e)) (ee_name e) evs)))%Q /\
          (dget Qeq_bool p d <> None <-> exists st, In st (statuses_in (snd (ee_logger e)) (ee_name e) evs) /\ has_rate p (rates_at (t evs) [snd (ee_logger e); ee_name e; st]))) /\
      entry (t evs) [snd (ee_logger e); ee_name e; ee_status e] =
        Some (inr (rates (fold_left add (values_of (of_status (snd (ee_logger e)) (ee_name e) (ee_status e)) evs) new))).
  Proof.
    intros Hr. pose proof (es_str_keyed evs Hr) as W. destruct (ewma_entries rates _ W) as [G1 G2].
    assert (WR : forall e, In e evs -> _) by (exact (path_of String.eqb String.eqb_refl String.eqb_sym string_eqb_trans kof idev nw upd evs)). rewrite <- es_run_eq in WR.
    split.
    - eexists. split; [exact G1|]. intros p. rewrite upd_all_sum. unfold sum_for at 1. cbn [dget]. rewrite Qplus_0_l.
      assert (E1 : map (fun q => sum_for p (upd_name rates (snd q) [])) (es_run new add evs) = map (fun l => sum_for p (sums_at (t evs) [l; "__all__"])) (map fst (es_run new add evs))).
      { rewrite map_map. apply map_ext_in. intros [k nm] Hin. cbn [fst snd]. unfold sums_at. destruct (G2 k nm Hin) as [-> _]. reflexivity. }
      rewrite E1. apply qsum_perm, Permutation_map. unfold logger_names. apply keys_perm; [apply W|].
      intros k. rewrite es_run_eq, (logger_get String.eqb String.eqb_sym string_eqb_trans kof idev nw upd).
      assert (H : filter (same_logger String.eqb kof k) evs <> [] <-> In k (map kof evs)).
      { rewrite filter_ne_iff, in_map_iff. unfold same_logger. split; intros (x & H1 & H2); exists x; [rewrite String.eqb_eq in H2|subst; rewrite String.eqb_refl]; auto. }
      rewrite <- H. destruct (filter (same_logger String.eqb kof k) evs); intuition congruence.
    - intros e He. destruct (WR e He) as (k & K1 & K2 & K3 & e0 & l & K4 & K5). apply String.eqb_eq in K2. subst k.
      change (filter (same_logger String.eqb kof (snd (ee_logger e))) evs) with (filter (of_logger (snd (ee_logger e))) evs) in *.
      destruct (G2 _ _ K1) as [H1 H2]. destruct (H2 _ _ K3) as [H3 H4]. pose proof (H4 _ _ K5) as H5.
      split; [|split].
      + eexists. split; [exact H1|]. intros p. rewrite upd_name_sum. unfold sum_for at 1. cbn [dget]. rewrite Qplus_0_l.
        match goal with |- (qsum (map _ ?nm) == _)%Q => set (nm0 := nm) in * end.
        assert (E1 : map (fun q => sum_for p (upd_stat rates (snd q) [])) nm0 = map (fun n => sum_for p (sums_at (t evs) [snd (ee_logger e); n; "__all__"])) (map fst nm0)).
        { rewrite map_map. apply map_ext_in. intros [n sm] Hin. cbn [fst snd]. unfold sums_at. destruct (H2 n sm Hin) as [-> _]. reflexivity. }
        rewrite E1. apply qsum_perm, Permutation_map. unfold nm0. rewrite name_keys. reflexivity.
      + eexists. split; [exact H3|]. intros p.
        match goal with |- context [upd_stat rates ?sm []] => set (sm0 := sm) in * end.
        assert (KP : Permutation (map fst sm0) (statuses_in (snd (ee_logger e)) (ee_name e) evs)).
        { unfold sm0. rewrite stat_keys. unfold statuses_in. rewrite filter_filter_and. reflexivity. }
        assert (Er : forall st a, In (st, a) sm0 -> rates_at (t evs) [snd (ee_logger e); ee_name e; st] = rates a) by (intros st a Hin; unfold rates_at; rewrite (H4 st a Hin); reflexivity).
        split.
        * rewrite upd_stat_sum. unfold sum_for at 1. cbn [dget]. rewrite Qplus_0_l.
          assert (E1 : map (fun q => rate_for p (rates (snd q))) sm0 = map (fun st => rate_for p (rates_at (t evs) [snd (ee_logger e); ee_name e; st])) (map fst sm0)).
          { rewrite map_map. apply map_ext_in. intros [st a] Hin. cbn [fst snd]. rewrite (Er st a Hin). reflexivity. }
          rewrite E1. apply qsum_perm, Permutation_map, KP.
        * rewrite upd_stat_has. cbn [dget]. split.
          -- intros [H|(st & a & Hin & Hh)]; [congruence|]. exists st. split; [|rewrite (Er st a Hin); auto].
             apply (Permutation_in _ KP). apply in_map_iff. exists (st, a). auto.
          -- intros (st & Hin & Hh). right. apply (Permutation_in _ (Permutation_sym KP)), in_map_iff in Hin. destruct Hin as ([st' a] & Es & Hin). cbn [fst] in Es. subst st'.
             exists st, a. split; auto. rewrite <- (Er st a Hin). auto.
      + rewrite H5. do 3 f_equal. rewrite qs_upd_fold. unfold values_of. rewrite filter_true, <- K4, !filter_filter_and. do 2 f_equal. apply filter_ext. intros x. unfold of_status, of_name, of_logger, named, with_status. rewrite andb_assoc. reflexivity.
  Qed.
End EwmaHistory.
