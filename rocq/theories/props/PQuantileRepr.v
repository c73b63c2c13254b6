(** C107, continued: printing a QuantileSink. *)
From Coq Require Import Lqa Permutation.
From Verif Require Import model.PyBase model.Levels model.Quantile model.Sinks model.Reprs spec.QuantileSpec spec.SinkSpec
  proof.DictLemmas proof.QuantileProofs proof.QuantileProofs2 proof.SinkProofs2 props.PSinks.
Open Scope nat_scope.

Section Printing.
Context (rnd : Q -> Q).
Let acc_of (values : list Q) : reservoir := fold_left (sink_add rnd) values (r_new None).
Lemma acc_facts values : sorted_ok (acc_of values) /\ Permutation (r_data (acc_of values)) (map rnd values) /\ b_count (r_base (acc_of values)) = length values.
Proof.
  destruct (uncapped_run rnd (map (fun v => RAdd v 0) values)) as (s & E & S & _ & P & D). rewrite (sink_adds rnd values (r_new None) eq_refl) in E. injection E as E. fold (acc_of values) in E. subst s.
  assert (X : added (map (fun v => RAdd v 0) values) = values). { unfold added. clear. induction values as [|v vs IH]; cbn; [reflexivity|]. f_equal. exact IH. }
  rewrite X in P, D. split; [exact S|]. split; [exact P|]. apply D.
Qed.
Lemma half : in01 (1#2). Proof. split; reflexivity. Qed.
Lemma median_none : snd (r_get_quantile (acc_of []) (1#2)) = IndexError.
Proof. apply quantile_empty; [reflexivity|exact half]. Qed.
Lemma median_some values : values <> [] -> exists v, snd (r_get_quantile (acc_of values) (1#2)) = Ok v /\ linear_quantile (map rnd values) (1#2) v.
Proof.
  intros N. destruct (acc_facts values) as (S & P & _). destruct (quantile_value (acc_of values) (1#2) S) as (v & E & L); [|exact half|].
  - intros Z. rewrite Z in P. apply Permutation_nil in P. destruct values; [congruence|discriminate].
  - exists v. split; [exact E|]. eapply linear_perm; [exact P|exact L].
Qed.
Lemma median_either s : (exists v, snd (r_get_quantile s (1#2)) = Ok v) \/ snd (r_get_quantile s (1#2)) = IndexError.
Proof.
  unfold r_get_quantile. change (negb (qlt 0 (1#2) && qlt (1#2) 1)) with false. cbv iota zeta. cbn [snd].
  destruct (_ =? _)%Z.
  - destruct (py_nth _ _); eauto.
  - destruct (py_nth _ _); [|right; reflexivity]. cbn [rbind]. destruct (py_nth _ _); [|right; reflexivity]. cbn [rbind]. eauto.
Qed.
Lemma seq_all {A} (l : list (pyres A)) : (forall r, In r l -> exists a, r = Ok a) -> exists d, seq_res l = Ok d.
Proof.
  induction l as [|r l IH]; intros H; cbn [seq_res]; [eauto|]. destruct (H r (or_introl eq_refl)) as (a & ->). destruct IH as (d & E); [intros; apply H; right; auto|]. cbn [rbind]. rewrite E. cbn [rbind]. eauto.
Qed.
Lemma seq_one {A} (l : list (pyres A)) : (forall r, In r l -> (exists a, r = Ok a) \/ r = IndexError) -> In IndexError l -> seq_res l = IndexError.
Proof.
  induction l as [|r l IH]; intros H I; [contradiction|]. cbn [seq_res]. destruct (H r (or_introl eq_refl)) as [(a & ->)| ->]; [|reflexivity]. cbn [rbind].
  destruct I as [I|I]; [discriminate|]. rewrite IH; [reflexivity|intros; apply H; right; auto|exact I].
Qed.
Lemma seq_either {A} (l : list (pyres A)) : (forall r, In r l -> (exists a, r = Ok a) \/ r = IndexError) -> (exists d, seq_res l = Ok d) \/ seq_res l = IndexError.
Proof.
  induction l as [|r l IH]; intros H; cbn [seq_res]; [eauto|]. destruct (H r (or_introl eq_refl)) as [(a & ->)| ->]; [|right; reflexivity]. cbn [rbind].
  destruct IH as [(d & E)|E]; [intros; apply H; right; auto| |]; rewrite E; cbn [rbind]; eauto.
Qed.
Definition entry_of (round4 : Q -> Q) (a : reservoir) : pyres (nat * Q) := let? v := snd (r_get_quantile a (1#2)) in Ok (b_count (r_base a), round4 v).
Definition group_of (round4 : Q -> Q) (g : list (string * reservoir)) := seq_res (map (fun q => let? e := entry_of round4 (snd q) in Ok (fst q, e)) g).
Lemma shown_eq round4 m : qs_shown round4 m = seq_res (map (fun p => let? l := group_of round4 (snd p) in Ok (fst p, l)) m).
Proof. reflexivity. Qed.
Lemma entry_either round4 a : (exists v, entry_of round4 a = Ok v) \/ entry_of round4 a = IndexError.
Proof. unfold entry_of. destruct (median_either a) as [(v & ->)| ->]; cbn [rbind]; eauto. Qed.
Lemma group_either round4 g : (exists v, group_of round4 g = Ok v) \/ group_of round4 g = IndexError.
Proof. apply seq_either. intros r I. apply in_map_iff in I. destruct I as (q & <- & _). destruct (entry_either round4 (snd q)) as [(v & ->)| ->]; cbn [rbind]; eauto. Qed.
Let sink_after (evs : list end_ev) := fold_left (qs_on_end (r_new None) (sink_add rnd)) evs [].
Lemma keyed evs : ndk String.eqb (sink_after evs) /\ forall l g, In (l, g) (sink_after evs) -> ndk String.eqb g.
Proof.
  unfold sink_after. induction evs as [|e evs [I1 I2]] using rev_ind; [split; [exact I|intros l g []]|]. rewrite fold_left_app. cbn [fold_left]. set (m := fold_left _ evs []) in *.
  unfold qs_on_end, dupd at 1. split.
  - apply (ndk_set String.eqb String.eqb_refl String.eqb_sym string_eqb_trans); auto.
  - intros l g H. unfold dupd at 1 in H. apply in_dset in H. destruct H as [[-> _]|H]; [|exact (I2 l g H)].
    unfold dupd. apply (ndk_set String.eqb String.eqb_refl String.eqb_sym string_eqb_trans); auto.
    destruct (dget String.eqb (snd (ee_logger e)) m) as [g'|] eqn:G; [|exact I]. apply dget_in in G. destruct G as (k & G & _). exact (I2 k g' G).
    all: exact String.eqb_refl.
Qed.
Lemma seen_group l n evs : existsb (of_name l n) evs = true <-> exists e, In e evs /\ snd (ee_logger e) = l /\ ee_name e = n.
Proof.
  rewrite existsb_exists. unfold of_name, of_logger. split; intros (e & I & H); exists e; split; auto.
  - apply andb_prop in H. destruct H as [H1 H2]. apply String.eqb_eq in H1, H2. auto.
  - destruct H as [<- <-]. rewrite !String.eqb_refl. reflexivity.
Qed.

(** If each group (logger name and action name) of a history has got a value, a QuantileSink prints,
    for each group and nothing else, the number of its values and their rounded median. *)
Theorem C107_quantile_sink : forall round4 evs,
  (forall e, In e evs -> values_of (of_name (snd (ee_logger e)) (ee_name e)) evs <> []) ->
  exists d, qs_shown round4 (fold_left (qs_on_end (r_new None) (sink_add rnd)) evs []) = Ok d /\
  forall l n, let values := values_of (of_name l n) evs in
    if existsb (of_name l n) evs
    then exists group v, dget String.eqb l d = Some group /\ dget String.eqb n group = Some (length values, round4 v) /\ linear_quantile (map rnd values) (1#2) v
    else match dget String.eqb l d with Some group => dget String.eqb n group = None | None => True end.
Proof.
  intros round4 evs H. fold (sink_after evs). rewrite shown_eq. destruct (keyed evs) as [K1 K2].
  assert (G : forall l g n a, In (l, g) (sink_after evs) -> In (n, a) g -> exists values, values <> [] /\ a = acc_of values).
  { intros l g n a I1 I2. pose proof (C42_groups reservoir (r_new None) (sink_add rnd) evs l n) as E. fold (sink_after evs) in E.
    rewrite (dget_string_ndk l _ g K1 I1), (dget_string_ndk n _ a (K2 l g I1) I2) in E.
    destruct (existsb (of_name l n) evs) eqn:X; [|discriminate]. injection E as ->. apply seen_group in X. destruct X as (e & I & <- & <-). eexists. split; [exact (H e I)|reflexivity]. }
  destruct (seq_all (map (fun p => let? l := group_of round4 (snd p) in Ok (fst p, l)) (sink_after evs))) as (d & E).
  { intros r I. apply in_map_iff in I. destruct I as ([l g] & <- & I). cbn [fst snd]. destruct (seq_all (map (fun q => let? e := entry_of round4 (snd q) in Ok (fst q, e)) g)) as (x & E).
    - intros r J. apply in_map_iff in J. destruct J as ([n a] & <- & J). cbn [fst snd]. destruct (G l g n a I J) as (values & N & ->). unfold entry_of. destruct (median_some values N) as (v & -> & _). cbn [rbind]. eauto.
    - unfold group_of. rewrite E. cbn [rbind]. eauto. }
  exists d. split; [exact E|]. intros l n. cbv zeta. pose proof (C42_groups reservoir (r_new None) (sink_add rnd) evs l n) as F. fold (sink_after evs) in F.
  pose proof (seq_res_dget (group_of round4) _ _ E l) as Hl. destruct (dget String.eqb l (sink_after evs)) as [g|].
  - destruct Hl as (group & Hg & Hd). pose proof (seq_res_dget (entry_of round4) _ _ Hg n) as Hn. destruct (existsb (of_name l n) evs) eqn:X; rewrite F in Hn.
    + destruct Hn as (x & Hx & Hn). apply seen_group in X. destruct X as (e & I & <- & <-). specialize (H e I). set (values := values_of _ evs) in *. fold (acc_of values) in Hx.
      destruct (median_some values H) as (v & Ev & L). unfold entry_of in Hx. rewrite Ev in Hx. cbn [rbind] in Hx. injection Hx as <-. exists group, v. split; [exact Hd|]. split; [|exact L]. rewrite Hn. destruct (acc_facts values) as (_ & _ & ->). reflexivity.
    + rewrite Hd. exact Hn.
  - destruct (existsb (of_name l n) evs); [discriminate|]. rewrite Hl. exact I.
Qed.
(** If the getter raised for all events of a group so far, printing the sink raises IndexError. *)
Theorem C107_quantile_sink_raises : forall round4 evs e, In e evs -> values_of (of_name (snd (ee_logger e)) (ee_name e)) evs = [] ->
  qs_shown round4 (fold_left (qs_on_end (r_new None) (sink_add rnd)) evs []) = IndexError.
Proof.
  intros round4 evs e I V. fold (sink_after evs). rewrite shown_eq. pose proof (C42_groups reservoir (r_new None) (sink_add rnd) evs (snd (ee_logger e)) (ee_name e)) as F. fold (sink_after evs) in F.
  rewrite (proj2 (seen_group _ _ evs) (ex_intro _ e (conj I (conj eq_refl eq_refl)))), V in F. destruct (dget String.eqb (snd (ee_logger e)) (sink_after evs)) as [g|] eqn:G; [|discriminate].
  apply dget_in in G. destruct G as (l & G & _). apply dget_in in F. destruct F as (n & F & _).
  apply seq_one.
  - intros r J. apply in_map_iff in J. destruct J as (q & <- & _). destruct (group_either round4 (snd q)) as [(v & ->)| ->]; cbn [rbind]; eauto.
  - apply in_map_iff. exists (l, g). split; [|exact G]. cbn [fst snd]. replace (group_of round4 g) with (@IndexError (list (string * (nat * Q)))); [reflexivity|]. symmetry. apply seq_one.
    + intros r J. apply in_map_iff in J. destruct J as (q & <- & _). destruct (entry_either round4 (snd q)) as [(v & ->)| ->]; cbn [rbind]; eauto.
    + apply in_map_iff. exists (n, fold_left (sink_add rnd) [] (r_new None)). split; [|exact F]. cbn [fst snd]. unfold entry_of. change (fold_left (sink_add rnd) [] (r_new None)) with (acc_of []). rewrite median_none. reflexivity.
Qed.
End Printing.

Definition whole (q : Q) : Q := q.
Example C107_quantile_example : (forall e, In e (map snd example_events) -> values_of (of_name (snd (ee_logger e)) (ee_name e)) (map snd example_events) <> []) /\
  qs_shown whole (fold_left (qs_on_end (r_new None) (sink_add whole)) (map snd example_events) []) = Ok [("web", [("get", (3, 2 # 1)); ("put", (1, 5 # 1))]); ("db", [("read", (1, 3 # 1))])].
Proof. split; [|vm_compute; reflexivity]. intros e H. cbn in H. repeat (destruct H as [<-|H]); try contradiction; vm_compute; discriminate. Qed.
Example C107_quantile_example_raises :
  qs_shown whole (fold_left (qs_on_end (r_new None) (sink_add whole)) (map snd example_events ++ [mkEnd (0, "web") "post" "success" None]) []) = IndexError.
Proof. vm_compute. reflexivity. Qed.

Print Assumptions C107_quantile_sink.
Print Assumptions C107_quantile_sink_raises.
