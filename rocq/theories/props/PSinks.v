(** Properties of the statistics sinks: C39-C45, C65. *)
From Coq Require Import Lqa NArith.
From Verif Require Import model.PyBase model.Quantile model.Sinks spec.QuantileSpec spec.SinkSpec
  proof.SinkProofs proof.SinkProofs2 proof.SinkProofs3 proof.SinkProofs4 proof.SinkProofs5 proof.CounterProofs.
Open Scope nat_scope.

(** C39 *)
Theorem C39_total_and_recent : forall sample_size created ts,
  let s := fold_left ra_add ts (ra_new sample_size created) in
  ra_total s = length ts /\ ra_times s = most_recent sample_size ts /\ ra_created s = created.
Proof. intros n c ts s. destruct (ra_adds ts n c) as (H1 & H2 & H3 & _). auto. Qed.
Print Assumptions C39_total_and_recent.
Example C39_example : let s := fold_left ra_add [5; 6; 9; 12]%Q (ra_new (Some 3) 1%Q) in
  ra_total s = 4 /\ ra_times s = [6; 9; 12]%Q.
Proof. vm_compute. auto. Qed.

(** C40.  [ts] are the timestamps added so far, in order.  A window that starts
    between two retained timestamps counts exactly the events at or after it. *)
Theorem C40_window_rate : forall ts sample_size created start end_ now t1 t2,
  qasc ts -> (created < start)%Q -> ~ (start == 0)%Q -> ~ (end_ == 0)%Q -> ~ (end_ == start)%Q ->
  In t1 (most_recent sample_size ts) -> (t1 < start)%Q ->
  In t2 (most_recent sample_size ts) -> (start <= t2)%Q ->
  ra_get_rate (fold_left ra_add ts (ra_new sample_size created)) (Some start) (Some end_) now =
  Ok (inject_Z (Z.of_nat (count_if (fun t => Qle_bool start t) ts)) / (end_ - start))%Q.
Proof. exact get_rate_window. Qed.
Print Assumptions C40_window_rate.
Example C40_window_example :
  ra_get_rate (fold_left ra_add [5; 6; 9; 12]%Q (ra_new (Some 3) 1%Q)) (Some 8%Q) (Some 16%Q) 20%Q = Ok (2 / (16 - 8))%Q.
Proof. vm_compute. reflexivity. Qed.
(** From the creation on: the exact total, whatever was discarded. *)
Theorem C40_lifetime_rate : forall ts sample_size created start end_ now,
  most_recent sample_size ts <> [] -> (or_default start created <= created)%Q -> ~ (or_default end_ now == or_default start created)%Q ->
  ra_get_rate (fold_left ra_add ts (ra_new sample_size created)) start end_ now =
  Ok (inject_Z (Z.of_nat (length ts)) / (or_default end_ now - or_default start created))%Q.
Proof.
  intros ts n c start en now H1. apply get_rate_lifetime; auto. intros ->. apply H1. destruct n; [apply skipn_nil | auto].
Qed.
Print Assumptions C40_lifetime_rate.
Example C40_lifetime_example :
  ra_get_rate (fold_left ra_add [5; 6; 9; 12]%Q (ra_new (Some 3) 1%Q)) None (Some 9%Q) 20%Q = Ok (4 / (9 - 1))%Q.
Proof. vm_compute. reflexivity. Qed.
(** All retained timestamps inside the window: they are measured from the oldest of
    them, since earlier events of the window may have been discarded. *)
Theorem C40_truncated_window : forall ts sample_size created start end_ now first rest,
  qasc ts -> (created < start)%Q -> ~ (start == 0)%Q -> ~ (end_ == 0)%Q ->
  most_recent sample_size ts = first :: rest -> (start <= first)%Q -> ~ (end_ == first)%Q ->
  ra_get_rate (fold_left ra_add ts (ra_new sample_size created)) (Some start) (Some end_) now =
  Ok (inject_Z (Z.of_nat (length (first :: rest))) / (end_ - first))%Q.
Proof. exact get_rate_all_after. Qed.
Print Assumptions C40_truncated_window.
Example C40_truncated_example :
  ra_get_rate (fold_left ra_add [5; 6; 9; 12]%Q (ra_new (Some 2) 1%Q)) (Some (11 # 2)%Q) (Some 19%Q) 20%Q = Ok (2 / (19 - 9))%Q.
Proof. vm_compute. reflexivity. Qed.
(** No retained timestamp inside the window: the rate of the retained ones, or
    ZeroDivisionError if they all coincide. *)
Theorem C40_empty_window : forall ts sample_size created start end_ now first rest,
  qasc ts -> (created < start)%Q -> ~ (start == 0)%Q ->
  most_recent sample_size ts = first :: rest -> (last rest first < start)%Q ->
  ra_get_rate (fold_left ra_add ts (ra_new sample_size created)) (Some start) end_ now =
  if Qeq_bool (last rest first) first then ZeroDivisionError
  else Ok (inject_Z (Z.of_nat (length (first :: rest))) / (last rest first - first))%Q.
Proof. exact get_rate_none_after. Qed.
Print Assumptions C40_empty_window.
Example C40_empty_example :
  ra_get_rate (fold_left ra_add [5]%Q (ra_new (Some 2) 1%Q)) (Some 7%Q) (Some 9%Q) 20%Q = ZeroDivisionError /\
  ra_get_rate (fold_left ra_add [5; 6]%Q (ra_new (Some 2) 1%Q)) (Some 7%Q) (Some 9%Q) 20%Q = Ok (2 / (6 - 5))%Q.
Proof. vm_compute. auto. Qed.
(** Nothing retained (nothing added, or sample_size 0): the rate is 0. *)
Theorem C40_no_events : forall ts sample_size created start end_ now, most_recent sample_size ts = [] ->
  ra_get_rate (fold_left ra_add ts (ra_new sample_size created)) start end_ now = Ok 0%Q.
Proof. intros ts n c st en now H. destruct (C39_total_and_recent n c ts) as (_ & E & _). unfold ra_get_rate. rewrite H in E. rewrite E. reflexivity. Qed.
Print Assumptions C40_no_events.
Example C40_no_events_example : most_recent (Some 3) (@nil Q) = [] /\ ra_get_rate (ra_new (Some 3) 1%Q) (Some 2%Q) None 5%Q = Ok 0%Q.
Proof. vm_compute. auto. Qed.
(** The end of the window does not limit the count: events after [end_time] are
    counted as well. *)
Theorem C40_events_after_end_excluded_refuted : exists ts start end_,
  qasc ts /\ (1 < start)%Q /\ (start < end_)%Q /\
  count_if (fun t => Qle_bool start t && Qle_bool t end_) ts = 1 /\
  ra_get_rate (fold_left ra_add ts (ra_new None 1%Q)) (Some start) (Some end_) 20%Q = Ok (3 / (end_ - start))%Q.
Proof.
  exists [2; 4; 8; 9]%Q, 3%Q, 5%Q. repeat split; try reflexivity; cbn [In]; intros y H; intuition subst; lra.
Qed.
Print Assumptions C40_events_after_end_excluded_refuted.

(** C41.  [evs] pairs every end event with the clock at that time.  An event whose
    getter raised is not counted. *)
Theorem C41_totals : forall sample_size created evs,
  let es := map snd evs in
  distinct_names es -> no_reserved es ->
  let t := rs_total_counts (rs_run sample_size created evs) in
  entry t ["__all__"] = Some (count_if answered es) /\
  forall e, In e es ->
    entry t [snd (ee_logger e); "__all__"] = Some (count_if answered (filter (of_logger (snd (ee_logger e))) es)) /\
    entry t [snd (ee_logger e); ee_name e; "__all__"] = Some (count_if answered (filter (of_name (snd (ee_logger e)) (ee_name e)) es)) /\
    entry t [snd (ee_logger e); ee_name e; ee_status e] =
      Some (count_if answered (filter (of_status (snd (ee_logger e)) (ee_name e) (ee_status e)) es)).
Proof. intros size t0 evs. cbv zeta. apply rs_totals. Qed.
Print Assumptions C41_totals.
Definition ev_at (id : nat) (l n st : string) (v : Q) : end_ev := mkEnd (id, l) n st (Some v).
Definition example_events : list (Q * end_ev) :=
  [(1%Q, ev_at 0 "web" "get" "success" 1); (2%Q, ev_at 0 "web" "get" "failure" 2);
   (3%Q, ev_at 1 "db" "read" "success" 3); (4%Q, ev_at 0 "web" "get" "success" 4); (5%Q, ev_at 0 "web" "put" "success" 5)]%Q.
Example C41_example :
  let t := rs_total_counts (rs_run (Some 1) 0%Q example_events) in
  entry t ["__all__"] = Some 5 /\ entry t ["web"; "__all__"] = Some 4 /\ entry t ["web"; "get"; "success"] = Some 2 /\ entry t ["db"; "__all__"] = Some 1.
Proof. vm_compute. auto. Qed.
Lemma example_hyps : distinct_names (map snd example_events) /\ no_reserved (map snd example_events).
Proof.
  split.
  - intros e e' H H'. cbn in H, H'.
    repeat (destruct H as [<-|H]); try contradiction; repeat (destruct H' as [<-|H']); try contradiction; cbn; split; congruence.
  - intros e H. cbn in H. repeat (destruct H as [<-|H]); try contradiction; cbn; repeat split; discriminate.
Qed.
(** Two loggers of the same name: one replaces the other, and the overall total is
    no longer the sum of the groups. *)
Theorem C41_same_named_loggers_refuted : exists evs,
  no_reserved (map snd evs) /\
  let t := rs_total_counts (rs_run None 0%Q evs) in
  entry t ["__all__"] = Some 2 /\ logger_names (map snd evs) = ["web"] /\ entry t ["web"; "__all__"] = Some 1.
Proof.
  exists [(1%Q, ev_at 0 "web" "get" "success" 1); (2%Q, ev_at 1 "web" "get" "success" 2)].
  split; [intros e H; cbn in H; repeat (destruct H as [<-|H]); try contradiction; cbn; repeat split; discriminate|]. vm_compute. auto.
Qed.
Print Assumptions C41_same_named_loggers_refuted.

(** C65.  get_rates: every member is the rate of the accumulator that received the
    values of its events, created when the first of them ended; every '__all__' is
    the sum of the entries one level below. *)
Theorem C65_rates_are_grouped_sums : forall sample_size created evs start end_ now t,
  let es := map snd evs in
  distinct_names es -> no_reserved es ->
  rs_get_rates (rs_run sample_size created evs) start end_ now = Some t ->
  (exists v, entry t ["__all__"] = Some v /\ (v == qsum (map (fun l => rate_at t [l; "__all__"]) (logger_names es)))%Q) /\
  forall e, In e es ->
    let l := snd (ee_logger e) in
    (exists v, entry t [l; "__all__"] = Some v /\
      (v == qsum (map (fun n => rate_at t [l; n; "__all__"]) (names_in l es)))%Q) /\
    (exists v, entry t [l; ee_name e; "__all__"] = Some v /\
      (v == qsum (map (fun st => rate_at t [l; ee_name e; st]) (statuses_in l (ee_name e) es)))%Q) /\
    (exists first rest v, filter (fun p => of_status l (ee_name e) (ee_status e) (snd p)) evs = first :: rest /\
      entry t [l; ee_name e; ee_status e] = Some v /\
      ra_get_rate (fold_left ra_add (values_of (of_status l (ee_name e) (ee_status e)) es) (ra_new sample_size (fst first))) (Some start) (Some end_) now = Ok v).
Proof.
  intros size t0 evs start en now t es Hd Hr Ht. unfold rs_get_rates in Ht. rewrite rs_run_eq in Ht. cbn [rs_map] in Ht.
  destruct (forallb _ _) eqn:Ef; [|discriminate]. injection Ht as Ht.
  destruct (group_sums (rs_fresh size) rs_upd (fun a => ok_value (ra_get_rate a (Some start) (Some en) now)) evs Hd Hr) as [G1 G2]. rewrite Ht in *.
  split; [exact G1|]. intros e He l. destruct (G2 e He) as (H1 & H2 & te & r & F1 & F2 & H3). split; [exact H1|]. split; [exact H2|].
  exists te, r. eexists. split; [exact F2|]. split; [exact H3|].
  assert (Ea : fold_left rs_upd (te :: r) (rs_fresh size te) = fold_left ra_add (values_of (of_status l (ee_name e) (ee_status e)) es) (ra_new size (fst te))).
  { rewrite rs_upd_fold. unfold values_of, es, l. rewrite F1, filter_true. reflexivity. }
  rewrite <- Ea. rewrite forallb_forall in Ef.
  assert (Hin : In (ra_get_rate (fold_left rs_upd (te :: r) (rs_fresh size te)) (Some start) (Some en) now) (rs_leaf_rates (mkRS size (run3 logger_eqb (fun p : Q * end_ev => ee_logger (snd p)) snd (rs_fresh size) rs_upd evs) t0) start en now)).
  { unfold rs_leaf_rates. cbn [rs_map]. apply in_map_iff in He. destruct He as (tx & Et & He).
    destruct (path_of logger_eqb DictLemmas.logger_eqb_refl DictLemmas.logger_eqb_sym DictLemmas.logger_eqb_trans (fun p : Q * end_ev => ee_logger (snd p)) snd (rs_fresh size) rs_upd evs tx He) as (k & K1 & K2 & K3 & e0 & l0 & K4 & K5).
    cbv beta in *. rewrite (same_logger_name snd evs tx Hd He) in *. rewrite Et in *. rewrite !filter_filter_and in K4.
    assert (E0 : te :: r = e0 :: l0).
    { rewrite <- F2, <- K4. apply filter_ext. intros x. unfold of_status, of_name. rewrite <- andb_assoc. reflexivity. }
    injection E0 as -> ->.
    apply in_flat_map. eexists. split; [exact K1|]. cbn [snd]. apply in_flat_map. eexists. split; [exact K3|]. cbn [snd]. apply in_map_iff. eexists. split; [|exact K5]. reflexivity. }
  specialize (Ef _ Hin). destruct (ra_get_rate _ _ _ _) as [v| | |]; try discriminate. reflexivity.
Qed.
Print Assumptions C65_rates_are_grouped_sums.
Example C65_example : exists t, rs_get_rates (rs_run None 0%Q example_events) (1 # 2)%Q 11%Q 20%Q = Some t /\
  (rate_at t ["__all__"] == rate_at t ["web"; "__all__"] + rate_at t ["db"; "__all__"])%Q /\ (rate_at t ["web"; "get"; "success"] == 4 # 21)%Q.
Proof. eexists. split; [vm_compute; reflexivity|]. split; vm_compute; reflexivity. Qed.

(** C42.  For every accumulator type: the accumulator under a logger name and an
    action name has received exactly the values of the end events with these names,
    in order; there is none if there was no such event. *)
Theorem C42_groups : forall (A : Type) (new : A) (add : A -> Q -> A) evs l n,
  match dget String.eqb l (fold_left (qs_on_end new add) evs []) with Some d => dget String.eqb n d | None => None end =
  if existsb (of_name l n) evs then Some (fold_left add (values_of (of_name l n) evs) new) else None.
Proof. intros A new add evs l n. exact (qs_lookup new add evs l n). Qed.
Print Assumptions C42_groups.
Example C42_example :
  match dget String.eqb "web" (fold_left (qs_on_end [] (fun a v => a ++ [v])) (map snd example_events) []) with Some d => dget String.eqb "get" d | None => None end = Some [1; 2; 4]%Q.
Proof. vm_compute. reflexivity. Qed.
(** If the getter raises on the first event of a group, the group has an empty
    accumulator and reading the whole sink raises. *)
Theorem C42_to_dict_after_getter_failure_refuted : exists e,
  forall rnd draw q_points,
  match qs_to_dict q_points (qs_on_end (r_new None) (fun a v => match r_add rnd draw a v with Ok a => a | _ => a end) [] e) with
  | Ok _ => False | _ => True end.
Proof. exists (mkEnd (0, "web") "get" "success" None). intros. exact I. Qed.
Print Assumptions C42_to_dict_after_getter_failure_refuted.

(** What to_dict reports for a group, with reservoirs: the number of values, and the
    trimean and quantiles of a reservoir that was given these values. *)
Section Report.
Context (rnd : Q -> Q).
Definition sink_add (a : reservoir) (v : Q) : reservoir := match r_add rnd 0 a v with Ok a => a | _ => a end.
Lemma sink_adds vs : forall a, r_cap a = None -> r_run rnd a (map (fun v => RAdd v 0) vs) = Ok (fold_left sink_add vs a).
Proof.
  induction vs as [|v vs IH]; intros a H; cbn [map r_run fold_left]; auto.
  assert (E : r_add rnd 0 a v = Ok (sink_add a v)) by (unfold sink_add, r_add; rewrite H; reflexivity). rewrite E. cbn. apply IH. unfold sink_add, r_add. rewrite H. reflexivity.
Qed.
Lemma seq_res_dget {A B : Type} (f : A -> pyres B) (m : list (string * A)) d :
  seq_res (map (fun p => let? b := f (snd p) in Ok (fst p, b)) m) = Ok d ->
  forall k, match dget String.eqb k m with
            | Some a => exists b, f a = Ok b /\ dget String.eqb k d = Some b
            | None => dget String.eqb k d = None
            end.
Proof.
  revert d. induction m as [|[k' a] m IH]; intros d H k; cbn [map seq_res fst snd] in H.
  - injection H as <-. reflexivity.
  - destruct (f a) as [b| | |] eqn:Ef; try discriminate. cbn [rbind] in H. 
    destruct (seq_res (map (fun p => let? b := f (snd p) in Ok (fst p, b)) m)) as [rest| | |] eqn:Er; try discriminate. injection H as <-.
    cbn [dget]. destruct (String.eqb k k'); [exists b; auto|]. apply IH. reflexivity.
Qed.
Theorem C42_report : forall q_points evs d,
  qs_to_dict q_points (fold_left (qs_on_end (r_new None) sink_add) evs []) = Ok d ->
  forall l n,
  let values := values_of (of_name l n) evs in
  if existsb (of_name l n) evs
  then exists group t qs s, dget String.eqb l d = Some group /\ dget String.eqb n group = Some (length values, t, qs) /\
         r_run rnd (r_new None) (map (fun v => RAdd v 0) values) = Ok s /\
         snd (trimean r_get_quantile s) = Ok t /\ snd (r_get_quantiles s q_points) = Ok qs
  else match dget String.eqb l d with Some group => dget String.eqb n group = None | None => True end.
Proof.
  intros q_points evs d H l n values. unfold qs_to_dict in H.
  pose proof (C42_groups reservoir (r_new None) sink_add evs l n) as G.
  pose proof (seq_res_dget (fun x => seq_res (map (fun q => let? e := qs_entry q_points (snd q) in Ok (fst q, e)) x)) _ _ H l) as Hl. cbv beta in Hl.
  destruct (dget String.eqb l (fold_left (qs_on_end (r_new None) sink_add) evs [])) as [grp|].
  - destruct Hl as (group & Hg & Hd). pose proof (seq_res_dget (qs_entry q_points) _ _ Hg n) as Hn.
    destruct (existsb (of_name l n) evs); rewrite G in Hn.
    + destruct Hn as (e & He & Hn). fold values in He. set (acc := fold_left sink_add values (r_new None)) in *.
      unfold qs_entry in He. destruct (snd (trimean r_get_quantile acc)) as [t| | |] eqn:Et; try discriminate. cbn [rbind] in He.
      destruct (snd (r_get_quantiles acc q_points)) as [qs| | |] eqn:Eq; try discriminate. cbn [rbind] in He. injection He as <-.
      exists group, t, qs, acc. assert (R : r_run rnd (r_new None) (map (fun v => RAdd v 0) values) = Ok acc) by (apply sink_adds; reflexivity).
      repeat split; auto. rewrite Hn. do 3 f_equal.
      destruct (QuantileProofs.uncapped_run rnd (map (fun v => RAdd v 0) values)) as (s & E & _ & _ & _ & D & _). rewrite R in E. injection E as <-. rewrite D. unfold added.
      f_equal. clear. induction values as [|v vs IH]; cbn; [reflexivity|]. f_equal. exact IH.
    + rewrite Hd. exact Hn.
  - destruct (existsb (of_name l n) evs); [discriminate|]. rewrite Hl. exact I.
Qed.
End Report.
Print Assumptions C42_report.
Example C42_report_example : exists d t qs,
  qs_to_dict [(1 # 4); (1 # 2)]%Q (fold_left (qs_on_end (r_new None) (sink_add (fun x => x))) (map snd example_events) []) = Ok d /\
  match dget String.eqb "web" d with Some g => dget String.eqb "get" g | None => None end = Some (3, t, qs).
Proof. do 3 eexists. split; vm_compute; reflexivity. Qed.

(** C43.  For every accumulator type and every history.  [inl] is a dict of sums,
    [inr] the rates a member reports. *)
Theorem C43_sums_over_members : forall (A : Type) (rates : A -> rates_map) (new : A) (add : A -> Q -> A) evs,
  no_reserved evs ->
  let t := es_get_values rates (es_run new add evs) in
  (exists d, entry t ["__all__"] = Some (inl d) /\
    forall p, (sum_for p d == qsum (map (fun l => sum_for p (sums_at t [l; "__all__"])) (logger_names evs)))%Q) /\
  forall e, In e evs ->
    let l := snd (ee_logger e) in
    (exists d, entry t [l; "__all__"] = Some (inl d) /\
      forall p, (sum_for p d == qsum (map (fun n => sum_for p (sums_at t [l; n; "__all__"])) (names_in l evs)))%Q) /\
    (exists d, entry t [l; ee_name e; "__all__"] = Some (inl d) /\
      forall p, (sum_for p d == qsum (map (fun st => rate_for p (rates_at t [l; ee_name e; st])) (statuses_in l (ee_name e) evs)))%Q /\
        (dget Qeq_bool p d <> None <-> exists st, In st (statuses_in l (ee_name e) evs) /\ has_rate p (rates_at t [l; ee_name e; st]))) /\
    entry t [l; ee_name e; ee_status e] =
      Some (inr (rates (fold_left add (values_of (of_status l (ee_name e) (ee_status e)) evs) new))).
Proof. intros A rates new add evs Hr. exact (ewma_sums rates new add evs Hr). Qed.
Print Assumptions C43_sums_over_members.
Example C43_example :
  let t := es_get_values (fun a : list Q => [(1%Q, Some (qsum a)); (5%Q, match a with [_] => None | _ => Some 1%Q end)]) (es_run [] (fun a v => a ++ [v]) (map snd example_events)) in
  (sum_for 1 (sums_at t ["web"; "__all__"]) == 12)%Q /\ (sum_for 1 (sums_at t ["__all__"]) == 15)%Q /\
  dget Qeq_bool 5%Q (sums_at t ["db"; "__all__"]) = None /\ no_reserved (map snd example_events).
Proof. split; [vm_compute; reflexivity|]. split; [vm_compute; reflexivity|]. split; [vm_compute; reflexivity | apply example_hyps]. Qed.

(** C44.  [width] is [int(1 / threshold)].  Keys are what the getter returned. *)
Theorem C44_counts : forall width evs e,
  (1 <= width)%N -> distinct_names evs -> no_reserved_keys evs -> In e evs ->
  exists d, dget String.eqb (snd (ee_logger e)) (cs_to_dict (cs_run width evs)) = Some d /\
    let mine := filter (of_logger (snd (ee_logger e))) evs in
    dget String.eqb "__all__" d = Some (N.of_nat (length mine)) /\
    (forall k, k <> "__all__" -> k <> "__missing__" ->
      (shown k d <= ncount (fun x => String.eqb k (ee_name x)) mine)%N /\
      (ncount (fun x => String.eqb k (ee_name x)) mine <= shown k d + N.of_nat (length mine) / width)%N) /\
    (** the counts shown, with '__missing__', add up to the total *)
    exists keys, NoDup keys /\ (forall k, In k keys -> k <> "__all__" /\ k <> "__missing__" /\ dget String.eqb k d <> None) /\
      (forall k, k <> "__all__" -> k <> "__missing__" -> dget String.eqb k d <> None -> In k keys) /\
      (shown "__missing__" d + nsum (map (fun k => shown k d) keys) = N.of_nat (length mine))%N.
Proof.
  intros w evs e Hw Hd Hr He. exists (cs_logger_dict (tc_run w (map ee_name (filter (of_logger (snd (ee_logger e))) evs)))).
  split; [apply cs_dict_of; auto|]. set (mine := filter (of_logger (snd (ee_logger e))) evs). cbv zeta.
  assert (R : forall k, In k (map ee_name mine) -> k <> "__all__" /\ k <> "__missing__").
  { intros k Hk. apply in_map_iff in Hk. destruct Hk as (x & <- & Hx). apply filter_In in Hx. apply Hr. apply Hx. }
  destruct (counter_dict w (map ee_name mine) Hw) as (H1 & H2 & H3 & H4 & H5 & H6 & H7);
    [intros H; destruct (R _ H); congruence | intros H; destruct (R _ H); congruence|].
  rewrite map_length in *. split; [exact H1|].
  assert (EC : forall k, kcount k (map ee_name mine) = ncount (fun x => String.eqb k (ee_name x)) mine).
  { intros k. unfold kcount, ncount, count_if. rewrite filter_map_swap, map_length. reflexivity. }
  split; [intros k A B; rewrite <- EC; apply H2; auto|].
  exists (map fst (tc_map (tc_run w (map ee_name mine)))). split; auto. split; [|split].
  - intros k Hk. destruct (R k (H7 k Hk)) as [R1 R2]. split; auto. split; auto.
    apply in_map_iff in Hk. destruct Hk as ([k' [n dd]] & Ek & Hk). cbn [fst] in Ek. subst k'.
    destruct (tc_inv w (map ee_name mine) Hw) as (_ & _ & _ & N0 & _).
    pose proof (dget_string_ndk k _ _ N0 Hk) as G. intros Hnone.
    assert (Hs : dget String.eqb k (cs_logger_dict (tc_run w (map ee_name mine))) = Some n).
    { unfold cs_logger_dict. rewrite (DictLemmas.dget_set String.eqb String.eqb_sym DictLemmas.string_eqb_trans).
      destruct (String.eqb_spec k "__all__"); [congruence|]. pose proof (dget_map_fst (tc_map (tc_run w (map ee_name mine))) k) as Gm. rewrite G in Gm.
      destruct (tc_uncommon (tc_run w (map ee_name mine)) =? 0)%N; auto.
      rewrite (DictLemmas.dget_set String.eqb String.eqb_sym DictLemmas.string_eqb_trans). destruct (String.eqb_spec k "__missing__"); congruence. }
    congruence.
  - intros k A B C. destruct (in_dec string_dec k (map fst (tc_map (tc_run w (map ee_name mine))))) as [|Hn]; auto. exfalso. apply C. apply H6; auto.
  - rewrite <- H4. exact H3.
Qed.
Print Assumptions C44_counts.
Definition counter_events : list end_ev :=
  map (fun n => mkEnd (0, "web") n "success" None) ["a"; "a"; "b"; "a"; "c"; "a"]%string.
Example C44_example : cs_to_dict (cs_run 3 counter_events) = [("web", [("a", 4); ("__missing__", 2); ("__all__", 6)])]%N.
Proof. vm_compute. reflexivity. Qed.
Example C44_example_hyps : distinct_names counter_events /\ no_reserved_keys counter_events.
Proof.
  split; [intros e e' H H'; cbn in H, H'; repeat (destruct H as [<-|H]); try contradiction; repeat (destruct H' as [<-|H']); try contradiction; cbn; tauto|].
  intros e H. cbn in H. repeat (destruct H as [<-|H]); try contradiction; cbn; repeat split; discriminate.
Qed.
(** The undercount can exceed [threshold * total] when 1/threshold is not an
    integer: for threshold 2/5 the width is 2. *)
Theorem C44_undercount_within_threshold_refuted : exists evs,
  distinct_names evs /\ no_reserved_keys evs /\
  Qfloor (1 / (2 # 5)) = 2%Z /\ length evs = 2 /\
  cs_to_dict (cs_run 2 evs) = [("web", [("__missing__", 2%N); ("__all__", 2%N)])] /\
  count_if (fun e => String.eqb "a" (ee_name e)) evs = 1 /\ ~ (1 <= (2 # 5) * 2)%Q.
Proof.
  exists (map (fun n => mkEnd (0, "web") n "success" None) ["a"; "b"]%string).
  split; [intros e e' H H'; cbn in H, H'; repeat (destruct H as [<-|H]); try contradiction; repeat (destruct H' as [<-|H']); try contradiction; cbn; tauto|].
  split; [intros e H; cbn in H; repeat (destruct H as [<-|H]); try contradiction; cbn; repeat split; discriminate|].
  split; [reflexivity|]. split; [reflexivity|]. split; [vm_compute; reflexivity|]. split; [reflexivity|]. lra.
Qed.
Print Assumptions C44_undercount_within_threshold_refuted.

(** C45.  [evs] is any history of hook calls, each with its kind. *)
Definition kind_eqb (a b : ev_kind) : bool :=
  match a, b with KBegin, KBegin | KWarn, KWarn | KEnd, KEnd | KComment, KComment => true | _, _ => false end.
Definition of_kind {A} (k : ev_kind) (evs : list (ev_kind * A)) : list A := map snd (filter (fun p => kind_eqb k (fst p)) evs).
Theorem C45_sink_keeps_most_recent : forall (A : Type) limit (evs : list (ev_kind * A)),
  let s := fold_left (fun s p => ag_on s (fst p) (snd p)) evs (ag_new limit) in
  ag_begins s = most_recent limit (of_kind KBegin evs) /\ ag_warns s = most_recent limit (of_kind KWarn evs) /\
  ag_ends s = most_recent limit (of_kind KEnd evs) /\ ag_comments s = most_recent limit (of_kind KComment evs).
Proof.
  intros A limit evs. cbv zeta.
  assert (H : let s := fold_left (fun s p => ag_on s (fst p) (snd p)) evs (ag_new limit) in ag_limit s = limit /\
    ag_begins s = most_recent limit (of_kind KBegin evs) /\ ag_warns s = most_recent limit (of_kind KWarn evs) /\
    ag_ends s = most_recent limit (of_kind KEnd evs) /\ ag_comments s = most_recent limit (of_kind KComment evs)); [|apply H].
  cbv zeta. induction evs as [|[k e] evs IH] using rev_ind.
  - cbn. destruct limit; auto.
  - rewrite fold_left_app. cbn [fold_left]. destruct IH as (I0 & I1 & I2 & I3 & I4). set (s := fold_left _ evs _) in *.
    assert (F : forall j, of_kind j (evs ++ [(k, e)]) = of_kind j evs ++ (if kind_eqb j k then [e] else [])).
    { intros j. unfold of_kind. rewrite filter_app, map_app. cbn [filter fst]. destruct (kind_eqb j k); reflexivity. }
    rewrite !F. destruct k; cbn [ag_on fst snd ag_limit ag_begins ag_warns ag_ends ag_comments kind_eqb]; rewrite ?app_nil_r, I0, ?I1, ?I2, ?I3, ?I4, ?dq_append_recent; auto.
Qed.
Print Assumptions C45_sink_keeps_most_recent.
Theorem C45_emitter_keeps_most_recent : forall (A B : Type) limit (evs : list (ev_kind * (A * B))),
  let s := fold_left (fun s p => ae_on s (fst p) (fst (snd p)) (snd (snd p))) evs (ae_new limit) in
  ae_entries s = most_recent limit (map (fun p => snd (snd p)) evs) /\ ae_items s = most_recent limit (map snd evs).
Proof.
  intros A B limit evs. cbv zeta.
  assert (H : let s := fold_left (fun s p => ae_on s (fst p) (fst (snd p)) (snd (snd p))) evs (ae_new limit) in
    ae_limit s = limit /\ ae_items s = most_recent limit (map snd evs)).
  { cbv zeta. induction evs as [|[k [a b]] evs IH] using rev_ind; [cbn; destruct limit; auto|].
    rewrite fold_left_app, map_app. cbn [fold_left map fst snd]. destruct IH as (I0 & I1). set (s := fold_left _ evs _) in *.
    cbn [ae_on ae_limit ae_items]. rewrite I0, I1, dq_append_recent. auto. }
  destruct H as [_ H]. split; auto. unfold ae_entries. rewrite H. unfold most_recent. destruct limit as [n|]; [|rewrite map_map; auto].
  rewrite !map_length. clear. assert (E : forall j (l : list (A * B)), map snd (skipn j l) = skipn j (map snd l)).
  { induction j as [|j IH]; intros [|x l]; auto. simpl. apply IH. }
  rewrite E, map_map. reflexivity.
Qed.
Print Assumptions C45_emitter_keeps_most_recent.
(** With calls of clear in between: exactly the most recent entries since the last
    clear.  [None] is a clear. *)
Fixpoint since_clear {A} (h : list (option A)) : list A :=
  match h with
  | [] => []
  | Some x :: r => if existsb (fun y => match y with None => true | Some _ => false end) r then since_clear r else x :: since_clear r
  | None :: r => since_clear r
  end.
Theorem C45_clear : forall (A B : Type) limit (h : list (option (ev_kind * (A * B)))),
  let s := fold_left (fun s o => match o with Some p => ae_on s (fst p) (fst (snd p)) (snd (snd p)) | None => ae_clear s end) h (ae_new limit) in
  ae_items s = most_recent limit (map snd (since_clear h)) /\ ae_entries s = most_recent limit (map (fun p => snd (snd p)) (since_clear h)).
Proof.
  intros A B limit h. cbv zeta.
  set (step := fun (s : agg_emitter A B) (o : option (ev_kind * (A * B))) => match o with Some p => ae_on s (fst p) (fst (snd p)) (snd (snd p)) | None => ae_clear s end).
  assert (K : forall x l, since_clear (l ++ [x]) = match x with Some y => since_clear l ++ [y] | None => @nil (ev_kind * (A * B)) end).
  { intros x l. induction l as [|[y|] l IH]; cbn [app since_clear]; [destruct x; reflexivity| |].
    - rewrite existsb_app, IH. cbn [existsb]. destruct x as [z|]; [rewrite orb_false_r; destruct (existsb _ l); reflexivity|]. rewrite orb_true_r. reflexivity.
    - exact IH. }
  assert (H : ae_limit (fold_left step h (ae_new limit)) = limit /\ ae_items (fold_left step h (ae_new limit)) = most_recent limit (map snd (since_clear h))).
  { induction h as [|x h IH] using rev_ind; [cbn; destruct limit; auto|]. rewrite fold_left_app, K. cbn [fold_left]. destruct IH as [I0 I1].
    set (s := fold_left step h (ae_new limit)) in *. destruct x as [[k [a b]]|]; cbn [step ae_on ae_clear ae_limit ae_items fst snd map].
    - rewrite map_app. cbn [map snd]. rewrite I0, I1, dq_append_recent. auto.
    - split; [auto|]. destruct limit as [n|]; [|reflexivity]. cbn. destruct n; reflexivity. }
  destruct H as [_ H]. split; auto. unfold ae_entries. rewrite H. unfold most_recent. destruct limit as [n|]; [|rewrite map_map; auto].
  rewrite !map_length. clear. assert (E : forall j (l : list (A * B)), map snd (skipn j l) = skipn j (map snd l)).
  { induction j as [|j IH]; intros [|x l]; auto. simpl. apply IH. }
  rewrite E, map_map. reflexivity.
Qed.
Print Assumptions C45_clear.
Example C45_clear_example :
  ae_entries (fold_left (fun s o => match o with Some p => ae_on s (fst p) (fst (snd p)) (snd (snd p)) | None => ae_clear s end)
    [Some (KBegin, (1, "a")); Some (KEnd, (2, "b")); None; Some (KEnd, (3, "c")); Some (KEnd, (4, "d")); Some (KEnd, (5, "e"))] (ae_new (Some 2))) = ["d"; "e"].
Proof. vm_compute. reflexivity. Qed.
Example C45_example :
  let s := fold_left (fun s p => ag_on s (fst p) (snd p)) [(KBegin, 1); (KEnd, 2); (KBegin, 3); (KComment, 4); (KBegin, 5)] (ag_new (Some 2)) in
  ag_begins s = [3; 5] /\ ag_ends s = [2] /\ ag_warns s = [] /\
  ae_entries (fold_left (fun s p => ae_on s (fst p) (fst (snd p)) (snd (snd p))) [(KBegin, (1, "a")); (KEnd, (2, "b")); (KEnd, (3, "c"))] (ae_new (Some 2))) = ["b"; "c"].
Proof. vm_compute. auto. Qed.
