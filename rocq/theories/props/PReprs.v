(** C107: printing loggers, sinks and accumulators. *)
From Coq Require Import Lqa.
From Verif Require Import model.PyBase model.Quantile model.Sinks model.Json model.Template model.Format model.Fields model.Ewma model.Reprs
  spec.QuantileSpec spec.SinkSpec spec.ReprSpec proof.SinkProofs proof.ReprProofs props.PSinks.
Open Scope nat_scope.

(** ** Loggers *)
Lemma items_texts ts : items_repr (map SText ts) = SText (flat_map (fun t => lit ", " ++ t) ts).
Proof. induction ts as [|t ts IH]; [reflexivity|]. cbn [map items_repr flat_map]. rewrite IH, app_assoc. reflexivity. Qed.
Lemma joined_flat t ts : joined (lit ", ") (t :: ts) = t ++ flat_map (fun t => lit ", " ++ t) ts.
Proof. revert t. induction ts as [|u ts IH]; intros t; [symmetry; apply app_nil_r|]. change (joined (lit ", ") (t :: u :: ts)) with (t ++ lit ", " ++ joined (lit ", ") (u :: ts)). rewrite IH. cbn [flat_map]. rewrite <- app_assoc. reflexivity. Qed.
Lemma list_texts ts : list_repr (map SText ts) = SText (lit "[" ++ joined (lit ", ") ts ++ lit "]").
Proof. destruct ts as [|t ts]; [reflexivity|]. cbn [map list_repr]. rewrite items_texts, joined_flat, <- app_assoc. reflexivity. Qed.
(** If all sinks print, so does the logger: with its name and all sinks in their order. *)
Theorem C107_logger : forall quote fallback name now sinks ts, Forall2 (prints now) sinks ts ->
  logger_repr quote fallback name now sinks = SText (lit "<Logger name=" ++ quote name ++ lit " sinks=[" ++ joined (lit ", ") ts ++ lit "]>").
Proof.
  intros quote fallback name now sinks ts H. unfold logger_repr.
  assert (E : map (sink_repr now) sinks = map SText ts) by (induction H; cbn [map]; [reflexivity|]; unfold prints in H; congruence).
  rewrite E, list_texts, <- !app_assoc. reflexivity.
Qed.
Lemma list_cases l : (exists ts, l = map SText ts) \/ (exists ts o r, l = map SText ts ++ o :: r /\ (o = SRaises \/ o = SInterrupt)).
Proof.
  induction l as [|o l IH]; [left; exists []; reflexivity|]. destruct o as [t| |].
  - destruct IH as [(ts & ->)|(ts & o & r & -> & H)]; [left; exists (t :: ts); reflexivity|right; exists (t :: ts), o, r; auto].
  - right. exists [], SRaises, l. auto.
  - right. exists [], SInterrupt, l. auto.
Qed.
Lemma list_stops ts o r : o = SRaises \/ o = SInterrupt -> list_repr (map SText ts ++ o :: r) = o.
Proof.
  intros H. assert (I : forall ts, items_repr (map SText ts ++ o :: r) = o).
  { intros us. induction us as [|u us IH]; cbn [map app items_repr]; [destruct H as [-> | ->]; reflexivity|]. rewrite IH. destruct H as [-> | ->]; reflexivity. }
  destruct ts as [|t ts]; cbn [map app list_repr]; [|rewrite I]; destruct H as [-> | ->]; reflexivity.
Qed.
(** If printing a sink raises an Exception, the logger prints the way any object does. *)
Theorem C107_logger_fallback : forall quote fallback name now before s after ts, Forall2 (prints now) before ts -> sink_repr now s = SRaises ->
  logger_repr quote fallback name now (before ++ s :: after) = SText fallback.
Proof.
  intros quote fallback name now before s after ts H E. unfold logger_repr. rewrite map_app. cbn [map]. rewrite E.
  replace (map (sink_repr now) before) with (map SText ts) by (clear E; induction H; cbn [map]; [reflexivity|]; unfold prints in H; congruence).
  rewrite list_stops by auto. reflexivity.
Qed.
(** So no Exception comes out of printing a logger, whatever its sinks do. *)
Theorem C107_logger_never_raises : forall quote fallback name now sinks, logger_repr quote fallback name now sinks <> SRaises /\
  (Forall (uninterrupted now) sinks -> exists t, logger_repr quote fallback name now sinks = SText t).
Proof.
  intros quote fallback name now sinks. unfold logger_repr. split; [destruct (list_repr _); discriminate|]. intros F.
  destruct (list_cases (map (sink_repr now) sinks)) as [(ts & E)|(ts & o & r & E & H)]; rewrite E.
  - rewrite list_texts. eauto.
  - rewrite (list_stops _ _ _ H). destruct H as [-> | ->]; [eauto|]. exfalso.
    assert (I : In SInterrupt (map (sink_repr now) sinks)) by (rewrite E; apply in_or_app; right; left; reflexivity).
    apply in_map_iff in I. destruct I as (s & Hs & I). rewrite Forall_forall in F. exact (F s I Hs).
Qed.

(** ** Aggregates *)
Lemma recent_kept {A} limit (l : list A) : length (most_recent limit l) = kept limit (length l).
Proof. destruct limit as [m|]; [|reflexivity]. unfold most_recent, kept. rewrite skipn_length. lia. Qed.
Lemma kind_count {A} k (evs : list (ev_kind * A)) : length (of_kind k evs) = of_this_kind k evs.
Proof. unfold of_kind, of_this_kind, count_if. rewrite map_length. reflexivity. Qed.
(** An AggregateSink prints how many events of each kind it still holds. *)
Theorem C107_aggregate : forall (A : Type) limit (evs : list (ev_kind * A)),
  let has k := str_of_N (N.of_nat (kept limit (of_this_kind k evs))) in
  agg_repr (fold_left (fun s p => ag_on s (fst p) (snd p)) evs (ag_new limit)) =
  lit "<AggregateSink limit=" ++ match limit with Some n => str_of_N (N.of_nat n) | None => lit "None" end ++ lit " begins=" ++ has KBegin ++ lit " ends=" ++ has KEnd
  ++ lit " warns=" ++ has KWarn ++ lit " comments=" ++ has KComment ++ lit ">".
Proof.
  intros A limit evs. cbv zeta. unfold agg_repr, num. destruct (C45_sink_keeps_most_recent A limit evs) as (B & W & E & C). rewrite B, W, E, C, !recent_kept, !kind_count.
  assert (L : forall evs s, ag_limit (fold_left (fun s (p : ev_kind * A) => ag_on s (fst p) (snd p)) evs s) = ag_limit s).
  { clear. induction evs as [|[k e] evs IH]; intros s; [reflexivity|]. cbn [fold_left fst snd]. rewrite IH. destruct k; reflexivity. }
  rewrite L. reflexivity.
Qed.
(** So does an AggregateEmitter. *)
Theorem C107_aggregate_emitter : forall (A B : Type) limit (evs : list (ev_kind * (A * B))),
  agg_emitter_repr (fold_left (fun s p => ae_on s (fst p) (fst (snd p)) (snd (snd p))) evs (ae_new limit)) =
  lit "<AggregateEmitter limit=" ++ match limit with Some n => str_of_N (N.of_nat n) | None => lit "None" end ++ lit " entry_count="
  ++ str_of_N (N.of_nat (kept limit (length evs))) ++ lit ">".
Proof.
  intros A B limit evs. unfold agg_emitter_repr, num. set (s := fold_left _ evs _).
  assert (L : ae_limit s = limit /\ ae_items s = most_recent limit (map snd evs)).
  { unfold s. clear. induction evs as [|[k [e t]] evs [I0 I1]] using rev_ind; [cbn; destruct limit; auto|]. rewrite fold_left_app, map_app. cbn [fold_left fst snd map ae_on ae_limit ae_items]. rewrite I0, I1, dq_append_recent. auto. }
  destruct L as [-> ->]. rewrite recent_kept, map_length. reflexivity.
Qed.

(** ** Rates *)
Lemma qdiv_zero a b : (b == 0)%Q -> qdiv a b = ZeroDivisionError.
Proof. intros H. unfold qdiv. apply Qeq_bool_iff in H. rewrite H. reflexivity. Qed.
Lemma qdiv_ok a b : ~ (b == 0)%Q -> qdiv a b = Ok (a / b)%Q.
Proof. intros H. unfold qdiv. destruct (Qeq_bool b 0) eqn:E; [apply Qeq_bool_iff in E; contradiction|reflexivity]. Qed.
(** A RateAccumulator prints its count and its rate since it was made; within the clock tick it was
    made in it raises ZeroDivisionError. *)
Theorem C107_rate_accumulator : forall ts sample_size created now, sample_size <> Some 0 ->
  ra_repr now (fold_left ra_add ts (ra_new sample_size created)) =
  match ts with
  | [] => Ok (lit "<RateAccumulator rate=0.0000 count=0>")
  | _ => if Qeq_bool now created then ZeroDivisionError
         else let rate := (inject_Z (Z.of_nat (length ts)) / (now - created))%Q in
              Ok (lit "<RateAccumulator rate=" ++ fixed 4 (Qnum rate) (Qden rate) ++ lit " count=" ++ str_of_N (N.of_nat (length ts)) ++ lit ">")
  end.
Proof.
  intros ts n c now NZ. destruct (ra_adds ts n c) as (T & N & C & _). unfold ra_repr, ra_get_rate. rewrite T, N, C. cbn [or_default].
  destruct ts as [|t ts]; [destruct n; reflexivity|]. destruct (most_recent n (t :: ts)) as [|f r] eqn:E.
  { apply (f_equal (@length Q)) in E. rewrite recent_kept in E. destruct n as [[|n]|]; [congruence|discriminate|discriminate]. }
  replace (Qle_bool c c) with true by (symmetry; apply Qle_bool_iff; lra).
  destruct (Qeq_bool now c) eqn:B.
  - rewrite qdiv_zero by (apply Qeq_bool_iff in B; lra). reflexivity.
  - rewrite qdiv_ok. { reflexivity. } intros H. rewrite (proj2 (Qeq_bool_iff now c)) in B; [discriminate|lra].
Qed.
(** A RateSink prints how many events it was given a time for, and that number divided by its age. *)
Theorem C107_rate_sink : forall sample_size created evs now,
  sample_size <> Some 0 -> not_before created evs -> ~ (created == 0)%Q -> ~ (now == 0)%Q -> ~ (now == created)%Q ->
  let n := count_if answered (map snd evs) in
  exists rate, (rate == inject_Z (Z.of_nat n) / (now - created))%Q /\
    rs_repr now (rs_run sample_size created evs) =
    Ok (lit "<RateSink total_rate=" ++ fixed 4 (Qnum rate) (Qden rate) ++ lit " total_count=" ++ str_of_N (N.of_nat n) ++ lit ">").
Proof.
  intros size c evs now NZ NB Hc Hn D. cbv zeta. destruct (accs_run size c NZ evs NB) as (_ & C & F & T). set (s := rs_run size c evs) in *.
  assert (D' : ~ (now - c == 0)%Q) by lra.
  assert (R : Forall (fun a => exists r, ra_get_rate a (Some c) (Some now) now = Ok r /\ (r == inject_Z (Z.of_nat (ra_total a)) / (now - c))%Q) (accs (rs_map s))).
  { apply Forall_forall. intros a I. rewrite Forall_forall in F. rewrite (acc_rate c now a (F a I) Hc Hn). destruct (ra_total a) as [|k] eqn:E; cbn [Nat.eqb].
    - exists 0%Q. split; [reflexivity|]. cbn [Z.of_nat]. unfold Qdiv. change (inject_Z 0) with 0%Q. lra.
    - rewrite qdiv_ok by exact D'. eexists. split; [reflexivity|]. reflexivity. }
  unfold rs_repr, rs_get_rates. rewrite C, leaf_rates_accs.
  replace (forallb _ _) with true.
  2:{ symmetry. apply forallb_forall. intros r I. apply in_map_iff in I. destruct I as (a & <- & I). rewrite Forall_forall in R. destruct (R a I) as (r & -> & _). reflexivity. }
  unfold rs_total_counts. rewrite !all_entry_group, fold_all_nat, T. eexists. split; [|reflexivity].
  rewrite fold_all_q. rewrite <- T. unfold total_of. clear - R. induction R as [|a l (r & E & Q) R IH]; cbn [map qsum list_sum fold_right].
  - change (inject_Z (Z.of_nat 0)) with 0%Q. unfold Qdiv. lra.
  - fold (list_sum (map ra_total l)). fold (qsum (map (fun a => ok_value (ra_get_rate a (Some c) (Some now) now)) l)). rewrite IH, E. cbn [ok_value]. rewrite Q, Nat2Z.inj_add, inject_Z_plus. unfold Qdiv. lra.
Qed.
(** In the clock tick the sink was made in, printing it raises ZeroDivisionError as soon as it was
    given a time. *)
Theorem C107_rate_sink_young : forall sample_size created evs now,
  sample_size <> Some 0 -> not_before created evs -> ~ (created == 0)%Q -> (now == created)%Q ->
  (rs_repr now (rs_run sample_size created evs) = ZeroDivisionError <-> exists e, In e (map snd evs) /\ answered e = true) /\
  ((forall e, In e (map snd evs) -> answered e = false) -> rs_repr now (rs_run sample_size created evs) = Ok (lit "<RateSink total_rate=0.0000 total_count=0>")).
Proof.
  intros size c evs now NZ NB Hc D. destruct (accs_run size c NZ evs NB) as (_ & C & F & T). set (s := rs_run size c evs) in *.
  assert (Hn : ~ (now == 0)%Q) by (rewrite D; exact Hc).
  assert (Z0 : (forall e, In e (map snd evs) -> answered e = false) -> rs_repr now s = Ok (lit "<RateSink total_rate=0.0000 total_count=0>")).
  { intros NO. rewrite (count_none answered _ NO) in T.
    assert (R : forall a, In a (accs (rs_map s)) -> ra_get_rate a (Some c) (Some now) now = Ok 0%Q).
    { intros a I. rewrite Forall_forall in F. rewrite (acc_rate c now a (F a I) Hc Hn).
      assert (E : ra_total a = 0). { apply in_split in I. destruct I as (l1 & l2 & E). rewrite E in T. unfold total_of in T. rewrite map_app, list_sum_app in T. cbn [map list_sum fold_right] in T. lia. }
      rewrite E. reflexivity. }
    unfold rs_repr, rs_get_rates. rewrite C, leaf_rates_accs.
    replace (forallb _ _) with true by (symmetry; apply forallb_forall; intros r I; apply in_map_iff in I; destruct I as (a & <- & I); rewrite (R a I); reflexivity).
    unfold rs_total_counts. rewrite !all_entry_group, fold_all_nat, T.
    assert (X : forall P (f : P -> Q) l, (forall p, In p l -> f p = 0%Q) -> fold_left (fun t p => t + f p)%Q l 0%Q = 0%Q).
    { intros P f l H. induction l as [|p l IH]; [reflexivity|]. cbn [fold_left]. rewrite (H p) by (left; reflexivity). change (0 + 0)%Q with 0%Q. apply IH. intros; apply H; right; auto. }
    replace (SinkProofs2.fold_all _ _ _ _) with 0%Q; [reflexivity|]. symmetry. unfold SinkProofs2.fold_all. apply X. intros [k nm] I1. unfold SinkProofs2.fold_names. apply X. intros [k' sm] I2. unfold SinkProofs2.fold_leaves. apply X. intros [k'' a] I3. cbn [snd] in *.
    rewrite R; [reflexivity|]. unfold accs. apply in_flat_map. exists (k, nm). split; [exact I1|]. apply in_flat_map. exists (k', sm). split; [exact I2|]. apply in_flat_map. exists (k'', a). split; [exact I3|]. left. reflexivity. }
  split; [|exact Z0]. destruct (existsb answered (map snd evs)) eqn:X.
  - apply existsb_exists in X. split; [intros _; exact X|]. intros _. destruct X as (e & I & A).
    assert (P : 0 < total_of (accs (rs_map s))). { rewrite T. unfold count_if. assert (Y : In e (filter answered (map snd evs))) by (apply filter_In; auto). destruct (filter answered (map snd evs)); [contradiction|cbn; lia]. }
    assert (Y : exists a, In a (accs (rs_map s)) /\ ra_total a <> 0).
    { clear - P. induction (accs (rs_map s)) as [|a l IH]; [cbn in P; lia|]. destruct (Nat.eq_dec (ra_total a) 0) as [E|E]; [|exists a; split; [left; auto|exact E]].
      destruct IH as (b & H & N). { unfold total_of in *. cbn [map list_sum fold_right] in P. rewrite E in P. exact P. } exists b. split; [right; exact H|exact N]. }
    destruct Y as (a & Ia & N). unfold rs_repr, rs_get_rates. rewrite C, leaf_rates_accs. replace (forallb _ _) with false; [reflexivity|]. symmetry. apply not_true_is_false. intros H.
    rewrite forallb_forall in H. specialize (H _ (in_map (fun a => ra_get_rate a (Some c) (Some now) now) _ _ Ia)). cbv beta in H. rewrite Forall_forall in F. rewrite (acc_rate c now a (F a Ia) Hc Hn) in H. apply Nat.eqb_neq in N. rewrite N in H. rewrite qdiv_zero in H by lra. discriminate.
  - assert (NO : forall e, In e (map snd evs) -> answered e = false).
    { intros e I. destruct (answered e) eqn:A; auto. assert (existsb answered (map snd evs) = true) by (apply existsb_exists; eauto). congruence. }
    split; [intros H; rewrite Z0 in H by exact NO; discriminate|]. intros (e & I & A). rewrite (NO e I) in A. discriminate.
Qed.

(** So a logger with a rate sink that young prints the way any object does. *)
Theorem C107_logger_young : forall quote fallback name sample_size created evs now before after ts,
  sample_size <> Some 0 -> not_before created evs -> ~ (created == 0)%Q -> (now == created)%Q -> (exists e, In e (map snd evs) /\ answered e = true) ->
  Forall2 (prints now) before ts ->
  logger_repr quote fallback name now (before ++ PRate (rs_run sample_size created evs) :: after) = SText fallback.
Proof.
  intros quote fallback name size c evs now before after ts NZ NB Hc D A H. apply (C107_logger_fallback quote fallback name now before _ after ts H).
  cbn [sink_repr]. rewrite (proj2 (proj1 (C107_rate_sink_young size c evs now NZ NB Hc D)) A). reflexivity.
Qed.

(** A logger whose sinks are AggregateSinks, and RateSinks made before this clock tick, shows them
    all, each with its own text. *)
Definition own_text (now : Q) (s : psink) (t : text) : Prop :=
  match s with PAgg a => t = agg_repr a | PRate r => rs_repr now r = Ok t | POther _ => False end.
Definition aggregate_or_older (now : Q) (s : psink) : Prop :=
  (exists a, s = PAgg a) \/
  (exists sample_size created evs, s = PRate (rs_run sample_size created evs) /\ sample_size <> Some 0 /\ not_before created evs /\ ~ (created == 0)%Q /\ ~ (now == created)%Q).
Theorem C107_logger_with_sinks : forall quote fallback name now sinks, ~ (now == 0)%Q -> Forall (aggregate_or_older now) sinks ->
  exists ts, Forall2 (own_text now) sinks ts /\
  logger_repr quote fallback name now sinks = SText (lit "<Logger name=" ++ quote name ++ lit " sinks=[" ++ joined (lit ", ") ts ++ lit "]>").
Proof.
  intros quote fallback name now sinks Hn F.
  assert (X : exists ts, Forall2 (own_text now) sinks ts /\ Forall2 (prints now) sinks ts).
  { induction F as [|s sinks H F (ts & X1 & X2)]; [exists []; split; constructor|]. destruct H as [(a & ->)|(n & c & evs & -> & NZ & NB & Hc & D)].
    - exists (agg_repr a :: ts). split; constructor; auto; reflexivity.
    - destruct (C107_rate_sink n c evs now NZ NB Hc Hn D) as (r & _ & E). eexists (_ :: ts). split; constructor; auto; [exact E|]. unfold prints, sink_repr. rewrite E. reflexivity. }
  destruct X as (ts & X1 & X2). exists ts. split; [exact X1|]. apply C107_logger, X2.
Qed.

(** ** An EWMAAccumulator *)
(** Printing can change what is read afterwards: 10 was added; one second later it is printed, or it
    is not; two seconds later the rate is 10, or it is 5. *)
Theorem C107_printing_is_harmless_refuted : forall show, exists s0 s1 t a b, ew_new [60%R] 5 0 = Some s0 /\
  ew_repr show 1 1 (ew_add s0 10) = Some (s1, t) /\
  ew_read 2 2 (ew_add s0 10) = Some a /\ ew_rates a = [(60%R, Some 5%R)] /\ ew_read 2 2 s1 = Some b /\ ew_rates b = [(60%R, Some 10%R)].
Proof.
  intros show. unfold ew_new. destruct (Rlt_dec 0 5) as [_|N]; [|exfalso; apply N; Lra.lra].
  exists (mkEwma 5 [(60%R, None)] 0 0 true), (mkEwma 5 [(60%R, Some 10%R)] 0 1 false). do 3 eexists. split; [cbn [period_map]; destruct (in_dec Req_EM_T 60%R []) as [I|_]; [destruct I|reflexivity]|].
  assert (U : forall x, x <> 0%R -> (x < 5)%R -> ew_read x x (ew_add (mkEwma 5 [(60%R, None)] 0 0 true) 10) = Some (mkEwma 5 [(60%R, Some (10 / x)%R)] 0 x false)).
  { intros x NZ L. unfold ew_read, ew_add, ew_update. cbn [ew_interval ew_last ew_force ew_uncounted ew_rates]. destruct (Rle_dec 5 (x - 0)) as [H|_]; [exfalso; Lra.lra|].
    cbn [ew_steps ew_step]. destruct (Req_EM_T (x - 0) 0) as [H|_]; [exfalso; Lra.lra|]. replace (x - 0)%R with x by Lra.lra. replace (0 + 10)%R with 10%R by Lra.lra. reflexivity. }
  unfold ew_repr. rewrite (U 1%R), (U 2%R) by Lra.lra. replace (10 / 1)%R with 10%R by Lra.lra.
  split; [reflexivity|]. split; [reflexivity|]. split; [cbn [ew_rates]; do 3 f_equal; Lra.lra|]. split; [|shelve].
  unfold ew_read. cbn [ew_interval ew_last ew_force]. destruct (Rle_dec 5 (2 - 1)) as [H|_]; [exfalso; Lra.lra|reflexivity].
  Unshelve. reflexivity.
Qed.

(** ** Examples *)
Definition an_agg : agg_sink nat := fold_left (fun s p => ag_on s (fst p) (snd p)) [(KBegin, 0); (KEnd, 1); (KBegin, 2); (KBegin, 3)] (ag_new (Some 2)).
Definition a_rate_sink : rate_sink := rs_run (Some 1) 1%Q example_events.
Definition quoted (t : text) : text := lit "'" ++ t ++ lit "'".
Example C107_example : logger_repr quoted (lit "<Logger object>") (lit "web") 5%Q [PAgg an_agg; PRate a_rate_sink; POther (SText (lit "S"))] =
  SText (lit "<Logger name='web' sinks=[<AggregateSink limit=2 begins=2 ends=1 warns=0 comments=0>, <RateSink total_rate=1.2500 total_count=5>, S]>").
Proof. vm_compute. reflexivity. Qed.
Example C107_example_fallback : logger_repr quoted (lit "<Logger object>") (lit "web") 1%Q [PAgg an_agg; PRate a_rate_sink; POther SInterrupt] = SText (lit "<Logger object>") /\
  sink_repr 1%Q (PRate a_rate_sink) = SRaises.
Proof. split; vm_compute; reflexivity. Qed.
Example C107_example_history : not_before 1%Q example_events /\ count_if answered (map snd example_events) = 5.
Proof. split; [|reflexivity]. intros t e H. cbn in H. repeat (destruct H as [[= <- <-]|H]); try contradiction; lra. Qed.

Example C107_example_older : Forall (aggregate_or_older 5%Q) [PAgg an_agg; PRate a_rate_sink].
Proof.
  constructor; [left; eexists; reflexivity|]. constructor; [right|constructor]. exists (Some 1), 1%Q, example_events. split; [reflexivity|]. split; [discriminate|]. split; [apply C107_example_history|]. split; lra.
Qed.

Print Assumptions C107_logger.
Print Assumptions C107_logger_fallback.
Print Assumptions C107_logger_never_raises.
Print Assumptions C107_aggregate.
Print Assumptions C107_aggregate_emitter.
Print Assumptions C107_rate_accumulator.
Print Assumptions C107_rate_sink.
Print Assumptions C107_rate_sink_young.
Print Assumptions C107_logger_young.
Print Assumptions C107_logger_with_sinks.
Print Assumptions C107_printing_is_harmless_refuted.
