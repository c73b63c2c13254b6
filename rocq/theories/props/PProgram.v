(** Whole programs and what the sinks see of them: C89, C90. *)
From Verif Require Import model.PyBase model.Quantile model.Sinks spec.SinkSpec model.Core spec.CoreSpec spec.CoreExamples
  spec.ProgramSpec model.StatFeed spec.StatSpec
  proof.CoreLib proof.CoreWith proof.CoreDispatch proof.CoreAsync proof.CoreFinal proof.ProgramProofs proof.StatFeedProofs props.PDispatch props.PSinks.
Open Scope nat_scope.

(** C89.  In synchronous mode a program ends the way [log_of] says, every sink has
    received exactly the lines of its logger that it has hooks for, in order, and the
    active actions are those from before. *)
Theorem C89_program_log : forall cfg describe s w l sk,
  reach cfg w -> all_quiet cfg -> (forall x, cf_describe cfg x = Ok (describe x)) ->
  (forall l, lg_async (w_logs w l) = false /\ lg_queue (w_logs w l) = []) ->
  scoped [] s -> In sk (lg_sinks (w_logs w l)) ->
  let n := length (w_acts w) in
  let w' := fst (eval cfg None s w) in
  snd (eval cfg None s w) = ends_with describe (w_active w) s n /\
  (forall l, w_active w' l = w_active w l) /\
  exists t, w_trace w' = w_trace w ++ t /\
    lines_seen w' l (received l sk t) = lines_for cfg l sk (lines_of describe (w_active w) s n).
Proof.
  intros cfg describe s w l sk HR HA HD HM HS Hin n w'.
  destruct (program_log cfg describe s w HR HA HD HM HS) as (H1 & H2 & _ & _ & t & evs & H4 & H5 & H6 & _). fold w' in H2, H4, H6.
  split; [exact H1|]. split; [exact H2|]. exists t. split; [exact H4|].
  unfold lines_seen. rewrite received_handed, H5, received_evs; [|apply (wi_hooks _ _ (reach_winv cfg w HR))|exact Hin].
  rewrite seen_evs, H6. reflexivity.
Qed.
Print Assumptions C89_program_log.

(** In asynchronous mode, after a flush, if nothing was dropped: the same lines, but
    exception events do not wait for the flush. *)
Definition is_exc_line (n : line) : bool := match n_kind n with KExc => true | _ => false end.
Theorem C89_program_log_async : forall cfg describe setup s l sk,
  all_quiet cfg -> (forall x, cf_describe cfg x = Ok (describe x)) ->
  (forall o, In o setup -> is_setup o) -> scoped [] s ->
  let w0 := run_ops cfg setup (init (fun _ => true)) in
  let w' := fst (flush cfg l (fst (eval cfg None s w0))) in
  In sk (lg_sinks (w_logs w0 l)) -> lg_dropped (w_logs w' l) = 0 ->
  let ls := lines_for cfg l sk (lines_of describe (fun _ => None) s 0) in
  let seen := lines_seen w' l (received l sk (w_trace w')) in
  filter (fun n => negb (is_exc_line n)) seen = filter (fun n => negb (is_exc_line n)) ls /\
  filter is_exc_line seen = filter is_exc_line ls /\
  snd (eval cfg None s w0) = ends_with describe (fun _ => None) s 0.
Proof.
  intros cfg describe setup s l sk HA HD HO HS w0 w' Hin Hdrop ls seen.
  pose proof HA as (HQ & HP & HN & _).
  assert (Hk : forall c, In c [CRun s] -> keeps_config c) by (intros c [<-|[]]; exact I).
  pose proof (setup_sim cfg setup HO _ _ (init_sim cfg)) as HS0. fold w0 in HS0.
  set (v0 := run_ops cfg setup (init (fun _ => false))) in *.
  assert (HR : reach cfg v0) by (apply reach_run_ops, reach_init).
  assert (Hin' : In sk (lg_sinks (w_logs v0 l))) by (rewrite <- (sm_sinks _ _ _ HS0); exact Hin).
  destruct (setup_blank cfg setup HO (init (fun _ => false))) as (T0 & A0 & C0). fold v0 in T0, A0, C0. cbn in T0, A0, C0.
  destruct (C89_program_log cfg describe s v0 l sk HR HA HD ltac:(intro l0; split; [apply (sm_sync _ _ _ HS0)|apply (sm_empty _ _ _ HS0)]) HS Hin') as (R1 & _ & t & R2 & R3).
  rewrite A0, C0 in R1, R3. rewrite T0 in R2. cbn [length app] in R1, R2, R3. set (v' := fst (eval cfg None s v0)) in *.
  destruct (agree_eval cfg HQ HP HN s None v0 w0 HS0) as [HS1 ER]. fold v' in HS1.
  destruct (C10_async_same_as_sync cfg setup [CRun s] l sk HA HO Hk) as [P1 P2].
  { cbn [run_cmds do_cmd]. fold v0. fold v'. destruct (program_log cfg describe s v0 HR HA HD ltac:(intro l0; split; [apply (sm_sync _ _ _ HS0)|apply (sm_empty _ _ _ HS0)]) HS) as (_ & _ & _ & E & _).
    fold v' in E. rewrite (proj1 (E l)). exact Hin'. }
  { exact Hdrop. }
  cbn [run_cmds do_cmd] in P1, P2. fold v0 w0 v' w' in P1, P2.
  assert (EA : w_acts w' = w_acts v').
  { destruct (flush_quiet cfg HQ HP l (fst (eval cfg None s w0)) (sm_ha _ _ _ HS1) (sm_noexc _ _ _ HS1 l)) as (x & E & Ea & _).
    unfold w'. rewrite E. cbn [fst]. rewrite Ea. apply (sm_acts _ _ _ HS1). }
  assert (EL : forall ps, lines_seen w' l ps = lines_seen v' l ps) by (intro ps; unfold lines_seen, line_seen; rewrite EA; reflexivity).
  assert (FM : forall (f : kind * event -> bool) (g : line -> bool) ps, (forall p, f p = g (line_seen v' l p)) -> filter g (lines_seen v' l ps) = lines_seen v' l (filter f ps)).
  { intros f g ps H. unfold lines_seen. induction ps as [|p ps IH]; [reflexivity|]. cbn [map filter]. rewrite H. destruct (g (line_seen v' l p)); cbn [map]; rewrite IH; reflexivity. }
  unfold seen. rewrite EL. unfold ls. rewrite <- R3, <- R2.
  rewrite (FM plain) by (intros [[] ?]; reflexivity). rewrite (FM plain) by (intros [[] ?]; reflexivity).
  rewrite (FM is_exc) by (intros [[] ?]; reflexivity). rewrite (FM is_exc) by (intros [[] ?]; reflexivity).
  rewrite P1, P2. split; [reflexivity|]. split; [reflexivity|]. rewrite ER. exact R1.
Qed.
Print Assumptions C89_program_log_async.

(** Begin and end lines are nested like the blocks. *)
Theorem C89_nested : forall cfg describe s w l sk,
  reach cfg w -> all_quiet cfg -> (forall x, cf_describe cfg x = Ok (describe x)) ->
  (forall l, lg_async (w_logs w l) = false /\ lg_queue (w_logs w l) = []) ->
  scoped [] s -> In sk (lg_sinks (w_logs w l)) ->
  cf_has cfg sk KBegin = true -> cf_has cfg sk KEnd = true ->
  let w' := fst (eval cfg None s w) in
  exists t, w_trace w' = w_trace w ++ t /\ nested (brackets (lines_seen w' l (received l sk t))).
Proof.
  intros cfg describe s w l sk HR HA HD HM HS Hin HB HE w'.
  destruct (C89_program_log cfg describe s w l sk HR HA HD HM HS Hin) as (_ & _ & t & Ht & E).
  exists t. split; [exact Ht|]. fold w' in E. rewrite E. unfold lines_of. apply log_nested; assumption.
Qed.
Print Assumptions C89_nested.

(** A block with a nested block whose exception is handled, warnings, a comment, data and a final raise. *)
Definition program89 : stmt :=
  SSeq (SWithNew 0 0 20 "top" [] (Some false) None busy_body)
       (SWithNew 3 0 40 "next" [("k", 1%Z)]%string None None (SSeq (SWithNew 4 1 20 "inner" [] None None SSkip) (SSuccess 3 (Some "fine"%string) []))).
Example C89_reached :
  scoped [] program89 /\ (forall l, lg_async (w_logs (w_sync quiet_cfg) l) = false /\ lg_queue (w_logs (w_sync quiet_cfg) l) = []) /\
  In 1 (lg_sinks (w_logs (w_sync quiet_cfg) 0)) /\
  map (fun n => (n_kind n, n_act n, n_parent n, n_status n, n_msg n)) (lines_for quiet_cfg 0 1 (lines_of (fun _ => "boom"%string) (fun _ => None) program89 0)) =
  [(KBegin, 0, None, None, "top beginning"); (KWarn, 0, None, None, "careful");
   (KBegin, 1, Some 0, None, "child beginning");
   (KExc, 1, Some 0, None, "child raised exception: boom"); (KEnd, 1, Some 0, Some Exception_, "child raised exception: boom");
   (KExc, 0, None, None, "top raised exception: boom");
   (KComment, 2, Some 0, None, "hi");
   (KExc, 0, None, None, "top raised exception: boom - ({data_map_repr})");
   (KEnd, 0, None, Some Exception_, "top raised exception: boom - ({data_map_repr})");
   (KBegin, 3, None, None, "next beginning"); (KEnd, 3, None, Some Success, "fine")]%string.
Proof.
  split; [cbn; intuition discriminate|]. split; [intro l; unfold w_sync; cbn; destruct l as [|[|l]]; split; reflexivity|].
  split; [left; reflexivity|]. vm_compute. reflexivity.
Qed.
Example C89_nested_example : nested (brackets (lines_for quiet_cfg 0 1 (lines_of (fun _ => "boom"%string) (fun _ => None) program89 0))).
Proof.
  vm_compute. apply (nested_block 0 [(KBegin, 1); (KEnd, 1)] [(KBegin, 3); (KEnd, 3)]);
    [apply (nested_block 1 [] [])|apply (nested_block 3 [] [])]; constructor.
Qed.
Example C89_async_reached :
  let w' := fst (flush quiet_cfg 0 (fst (eval quiet_cfg None program89 (w_async quiet_cfg)))) in
  lg_dropped (w_logs w' 0) = 0 /\ In 1 (lg_sinks (w_logs (w_async quiet_cfg) 0)) /\ length (received 0 1 (w_trace w')) = 11.
Proof. vm_compute. auto. Qed.

(** C90.  A RateSink registered on any of the loggers: its totals are the numbers of
    end lines, grouped by logger, name and status.  [evs]: the end events handed to the
    sink during the program, each with the clock at that moment. *)
Theorem C90_rate_totals : forall cfg describe names getter s w sk size created evs t,
  reach cfg w -> all_quiet cfg -> (forall x, cf_describe cfg x = Ok (describe x)) ->
  (forall l, lg_async (w_logs w l) = false /\ lg_queue (w_logs w l) = []) ->
  scoped [] s -> cf_has cfg sk KEnd = true -> proper_names names ->
  let w' := fst (eval cfg None s w) in
  w_trace w' = w_trace w ++ t -> map snd evs = fed names getter w' sk t ->
  let ls := ended w sk (lines_of describe (w_active w) s (length (w_acts w))) in
  (forall n, In n ls -> n_name n <> "__all__"%string) ->
  let totals := rs_total_counts (rs_run size created evs) in
  entry totals ["__all__"%string] = Some (length ls) /\
  forall n, In n ls ->
    entry totals [names (n_log n); "__all__"%string] = Some (count_if (same_logger n) ls) /\
    entry totals [names (n_log n); n_name n; "__all__"%string] = Some (count_if (same_name n) ls) /\
    entry totals [names (n_log n); n_name n; outcome_text n] = Some (count_if (same_status n) ls).
Proof.
  intros cfg describe names getter s w sk size created evs t HR HA HD HM HS HE HP w' Ht Hevs ls Hres totals.
  pose proof (fed_lines cfg describe names getter s w sk t HR HA HD HM HS HE Ht) as HF. fold w' ls in HF. rewrite <- Hevs in HF.
  destruct (C41_totals size created evs (matches_distinct _ _ _ HP HF) (matches_reserved _ _ _ HP Hres HF)) as [T1 T2].
  fold totals in T1, T2. split.
  - rewrite T1. f_equal. unfold count_if. rewrite (all_answered _ _ _ HF). eapply Forall2_len; exact HF.
  - intros n Hn. destruct (matches_in' _ _ _ _ HF Hn) as (e & He & (M1 & M2 & M3 & M4)). specialize (T2 e He). rewrite M1, M2, M3 in T2. cbn [snd] in T2.
    assert (Hc : forall y, In y ls -> n_status y <> None) by (intros y Hy; exact (ended_concluded _ _ _ _ _ _ _ Hy)).
    rewrite (status_is n (Hc n Hn)) in T2.
    destruct T2 as (T2 & T3 & T4). rewrite T2, T3, T4. rewrite !(count_answered _ _ _ _ HF).
    split; [|split]; f_equal; (eapply Forall2_count; [exact HF|]); intros e' n' Hm' Hi.
    + destruct Hm' as (N1 & _). unfold of_logger, same_logger. rewrite N1. cbn [snd]. apply name_eqb, HP.
    + apply of_name_is; assumption.
    + apply of_status_is; auto.
Qed.
Print Assumptions C90_rate_totals.

(** A QuantileSink: one accumulator per logger and name that ended, with one value per
    end line. *)
Theorem C90_quantile_groups : forall cfg describe names getter s w sk t (A : Type) (new : A) (add : A -> Q -> A),
  reach cfg w -> all_quiet cfg -> (forall x, cf_describe cfg x = Ok (describe x)) ->
  (forall l, lg_async (w_logs w l) = false /\ lg_queue (w_logs w l) = []) ->
  scoped [] s -> cf_has cfg sk KEnd = true -> proper_names names ->
  let w' := fst (eval cfg None s w) in
  w_trace w' = w_trace w ++ t ->
  let ls := ended w sk (lines_of describe (w_active w) s (length (w_acts w))) in
  let group l n := match dget String.eqb l (fold_left (qs_on_end new add) (fed names getter w' sk t) []) with Some d => dget String.eqb n d | None => None end in
  (forall n, In n ls -> exists vs, group (names (n_log n)) (n_name n) = Some (fold_left add vs new) /\ length vs = count_if (same_name n) ls) /\
  (forall l n, group l n <> None -> exists m, In m ls /\ names (n_log m) = l /\ n_name m = n).
Proof.
  intros cfg describe names getter s w sk t A new add HR HA HD HM HS HE HP w' Ht ls group.
  pose proof (fed_lines cfg describe names getter s w sk t HR HA HD HM HS HE Ht) as HF. fold w' ls in HF.
  assert (HG := C42_groups A new add (fed names getter w' sk t)). split.
  - intros n Hn. destruct (matches_in' _ _ _ _ HF Hn) as (e & He & Hm). unfold group. rewrite HG.
    replace (existsb _ _) with true.
    + eexists. split; [reflexivity|]. rewrite (values_count _ _ _ _ HF). eapply Forall2_count; [exact HF|]. intros. apply of_name_is; assumption.
    + symmetry. apply existsb_exists. exists e. split; [exact He|]. rewrite (of_name_is names e n n HP Hm).
      unfold same_name, same_logger. rewrite Nat.eqb_refl, String.eqb_refl. reflexivity.
  - intros l n Hg. unfold group in Hg. rewrite HG in Hg. destruct (existsb _ _) eqn:E; [|contradiction].
    apply existsb_exists in E. destruct E as (e & He & Ho). destruct (matches_in _ _ _ _ HF He) as (m & Hm & (M1 & M2 & _)).
    exists m. split; [exact Hm|]. unfold of_name, of_logger in Ho. rewrite M1, M2 in Ho. apply andb_true_iff in Ho. destruct Ho as [O1 O2].
    apply String.eqb_eq in O1, O2. auto.
Qed.
Print Assumptions C90_quantile_groups.

(** A CounterSink: totals per logger are exact, counts per name never exceed the number
    of end lines and fall short by at most one per [width] (the threshold's inverse). *)
Theorem C90_counter : forall cfg describe names getter s w sk t width,
  reach cfg w -> all_quiet cfg -> (forall x, cf_describe cfg x = Ok (describe x)) ->
  (forall l, lg_async (w_logs w l) = false /\ lg_queue (w_logs w l) = []) ->
  scoped [] s -> cf_has cfg sk KEnd = true -> proper_names names -> (1 <= width)%N ->
  let w' := fst (eval cfg None s w) in
  w_trace w' = w_trace w ++ t ->
  let ls := ended w sk (lines_of describe (w_active w) s (length (w_acts w))) in
  (forall n, In n ls -> n_name n <> "__all__"%string /\ n_name n <> "__missing__"%string) ->
  forall n, In n ls -> exists d,
    dget String.eqb (names (n_log n)) (cs_to_dict (cs_run width (fed names getter w' sk t))) = Some d /\
    let mine := count_if (same_logger n) ls in
    dget String.eqb "__all__"%string d = Some (N.of_nat mine) /\
    (shown (n_name n) d <= N.of_nat (count_if (same_name n) ls) <= shown (n_name n) d + N.of_nat mine / width)%N.
Proof.
  intros cfg describe names getter s w sk t width HR HA HD HM HS HE HP Hw w' Ht ls Hres n Hn.
  pose proof (fed_lines cfg describe names getter s w sk t HR HA HD HM HS HE Ht) as HF. fold w' ls in HF.
  destruct (matches_in' _ _ _ _ HF Hn) as (e & He & Hm).
  assert (Hk : no_reserved_keys (fed names getter w' sk t)).
  { intros x Hx. destruct (matches_in _ _ _ _ HF Hx) as (m & Hm' & (_ & -> & _)). apply Hres, Hm'. }
  destruct (C44_counts width _ e Hw (matches_distinct _ _ _ HP HF) Hk He) as (d & D1 & D2 & D3 & _).
  destruct Hm as (M1 & M2 & _). rewrite M1 in D1, D2, D3. cbn [snd] in D1, D2, D3. exists d. split; [exact D1|]. cbv zeta.
  assert (C1 : length (filter (of_logger (names (n_log n))) (fed names getter w' sk t)) = count_if (same_logger n) ls).
  { change (count_if (of_logger (names (n_log n))) (fed names getter w' sk t) = count_if (same_logger n) ls). eapply Forall2_count; [exact HF|].
    intros e' n' (N1 & _) _. unfold of_logger, same_logger. rewrite N1. cbn [snd]. apply name_eqb, HP. }
  split; [rewrite D2, C1; reflexivity|]. destruct (Hres n Hn) as [R1 R2]. specialize (D3 (n_name n) R1 R2). rewrite C1 in D3.
  assert (C2 : ncount (fun x => String.eqb (n_name n) (ee_name x)) (filter (of_logger (names (n_log n))) (fed names getter w' sk t)) = N.of_nat (count_if (same_name n) ls)).
  { unfold ncount. f_equal. transitivity (count_if (of_name (names (n_log n)) (n_name n)) (fed names getter w' sk t)).
    - unfold count_if, of_name. generalize (fed names getter w' sk t). intro es. induction es as [|x es IH]; [reflexivity|]. cbn.
      destruct (of_logger _ x); cbn; [|exact IH]. destruct (String.eqb (n_name n) (ee_name x)); cbn; rewrite IH; reflexivity.
    - eapply Forall2_count; [exact HF|]. intros. apply of_name_is; assumption. }
  rewrite C2 in D3. exact D3.
Qed.
Print Assumptions C90_counter.

(** In asynchronous mode, after flushing a logger, if nothing was dropped, that logger
    has fed each of its sinks the same end events in the same order, so any statistics
    of them are the same.  (Any program, not only [scoped] ones.) *)
Theorem C90_async_same_events : forall cfg names getter setup s l sk,
  all_quiet cfg -> (forall o, In o setup -> is_setup o) ->
  let v' := fst (eval cfg None s (run_ops cfg setup (init (fun _ => false)))) in
  let w' := fst (flush cfg l (fst (eval cfg None s (run_ops cfg setup (init (fun _ => true)))))) in
  In sk (lg_sinks (w_logs v' l)) -> lg_dropped (w_logs w' l) = 0 ->
  fed names getter w' sk (calls_of l (w_trace w')) = fed names getter v' sk (calls_of l (w_trace v')).
Proof.
  intros cfg names getter setup s l sk HA HO v' w' Hin Hdrop. pose proof HA as (HQ & HP & HN & _).
  assert (Hk : forall c, In c [CRun s] -> keeps_config c) by (intros c [<-|[]]; exact I).
  destruct (C10_async_same_as_sync cfg setup [CRun s] l sk HA HO Hk Hin Hdrop) as [P1 _].
  cbn [run_cmds do_cmd] in P1. fold v' w' in P1.
  destruct (agree_eval cfg HQ HP HN s None _ _ (setup_sim cfg setup HO _ _ (init_sim cfg))) as [HS1 _].
  assert (EA : w_acts w' = w_acts v').
  { destruct (flush_quiet cfg HQ HP l _ (sm_ha _ _ _ HS1) (sm_noexc _ _ _ HS1 l)) as (x & E & Ea & _).
    unfold w'. rewrite E. cbn [fst]. rewrite Ea. apply (sm_acts _ _ _ HS1). }
  rewrite !fed_received, end_of_plain, P1, <- end_of_plain. apply flat_map_ext. intros [k e].
  unfold end_of, end_seen. rewrite EA. reflexivity.
Qed.
Print Assumptions C90_async_same_events.

Fixpoint names90 (l : nat) : string := match l with O => "web" | S l => "l" ++ names90 l end%string.
Lemma names90_proper : proper_names names90.
Proof.
  split; [|intros [|l]; discriminate]. induction l as [|l IH]; intros [|l'] H; try discriminate; [reflexivity|]. cbn in H. injection H as H. f_equal. apply IH, H.
Qed.
(** Sink 1 on loggers 0 and 1. *)
Definition w90 : world := run_ops quiet_cfg [OpAddSink 0 1; OpAddSink 1 1] (init (fun _ => false)).
Example C90_example :
  proper_names names90 /\ reach quiet_cfg w90 /\ cf_has quiet_cfg 1 KEnd = true /\
  let w' := fst (eval quiet_cfg None program89 w90) in
  let ls := ended w90 1 (lines_of (fun _ => "boom"%string) (w_active w90) program89 0) in
  map (fun n => (n_log n, n_name n, outcome_text n)) ls =
    [(0, "child", "exception"); (0, "top", "exception"); (1, "inner", "success"); (0, "next", "success")]%string /\
  let evs := map (fun e => (0%Q, e)) (fed names90 end_time w' 1 (w_trace w')) in
  let totals := rs_total_counts (rs_run None 0%Q evs) in
  entry totals ["__all__"]%string = Some 4 /\ entry totals [names90 0; "__all__"]%string = Some 3 /\
  entry totals [names90 1; "inner"; "success"]%string = Some 1.
Proof.
  split; [exact names90_proper|]. split; [apply reach_run_ops, reach_init|]. split; [reflexivity|]. vm_compute. auto.
Qed.
