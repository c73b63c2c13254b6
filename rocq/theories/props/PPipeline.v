(** C78: what is in the log file. *)
From Verif Require Import model.PyBase model.Core model.Sensible model.Emitters model.Pipeline spec.CoreSpec spec.CallSpec spec.EmitterSpec spec.PipelineSpec
  proof.CoreLib proof.CoreTrans proof.CoreInv proof.CoreWith proof.CoreDispatch proof.CoreFinal proof.CoreAsync spec.CoreExamples
  proof.PipelineProofs props.PEmit.
Open Scope nat_scope.

(** Whatever the calls, the lines of the file are those of the events the sink was given, in
    the order it was given them: one for each event it subscribes to and all filters let
    through, nothing else. *)
Theorem C78_lines : forall cfg ap os w l s cap n sep enc, reach cfg w -> unchanging ap ->
  let '(w', es) := run_logged cfg ap l s os w in
  w' = run_ops cfg os w /\
  (exists new, w_trace w' = w_trace w ++ new /\ log_lines ap (show w') (received l s new) es) /\
  (file_name n -> encodable (file_emitter n sep enc) es ->
   file_after cap n sep enc es = lines (file_emitter n sep enc) es).
Proof.
  intros cfg ap os w l s cap n sep enc HR HU. pose proof (reach_winv cfg w HR) as HW.
  pose proof (logged_txt cfg ap l s os HU w HW) as HT. pose proof (logged_world cfg ap l s os w) as HF.
  destruct (run_logged cfg ap l s os w) as [w' es]. cbn [fst snd] in *. subst w'. split; [reflexivity|]. split.
  - destruct (run_grows cfg os w HW) as ([new E] & _). exists new. split; [exact E|]. rewrite HT, E, skipn_grow. apply txt_lines.
  - intros Hn He. pose proof (C51_no_incident_partial cap n sep enc es Hn He) as H. unfold file_after.
    destruct (fs_run _ _ _ _) as [[a b] c]. exact H.
Qed.
Print Assumptions C78_lines.

(** The asynchronous program, flushed at the end, leaves the same file as the synchronous one,
    byte for byte, when nothing was dropped. *)
Theorem C78_same_file : forall cfg ap setup os l s cap n sep enc,
  all_quiet cfg -> unchanging ap ->
  (forall o, In o setup -> is_setup o) -> (forall o, In o os -> keeps_config (CCall o)) ->
  let '(ws, sync_entries) := run_logged cfg ap l s (setup ++ os) (init (fun _ => false)) in
  let '(wa, async_entries) := run_logged cfg ap l s (setup ++ os ++ [OpFlush l]) (init (fun _ => true)) in
  In s (lg_sinks (w_logs ws l)) -> lg_dropped (w_logs wa l) = 0 ->
  async_entries = sync_entries /\
  file_after cap n sep enc async_entries = file_after cap n sep enc sync_entries.
Proof.
  intros cfg ap setup os l s cap n sep enc (HQ & HP & HN & HL) HU H1 H2.
  pose proof (logged_txt cfg ap l s (setup ++ os) HU _ (init_winv cfg (fun _ => false))) as HS.
  pose proof (logged_world cfg ap l s (setup ++ os) (init (fun _ => false))) as HS'.
  pose proof (logged_txt cfg ap l s (setup ++ os ++ [OpFlush l]) HU _ (init_winv cfg (fun _ => true))) as HA.
  pose proof (logged_world cfg ap l s (setup ++ os ++ [OpFlush l]) (init (fun _ => true))) as HA'.
  destruct (run_logged cfg ap l s (setup ++ os) _) as [ws es]. destruct (run_logged cfg ap l s (setup ++ os ++ _) _) as [wa ea].
  cbn [fst snd] in *. subst ws wa. rewrite !run_ops_app in *. cbn [run_ops step] in *.
  intros Hin Hd.
  assert (Hk : forall c, In c (map CCall os) -> keeps_config c) by (intros c Hc; apply in_map_iff in Hc as (o & <- & Ho); apply H2, Ho).
  pose proof (async_same cfg HQ HP HN setup (map CCall os) l s H1 Hk) as HE. cbv zeta in HE. rewrite !cmds_ops in HE.
  pose proof (agree_cmds cfg HQ HP HN (map CCall os) Hk _ _ (setup_sim cfg setup H1 _ _ (init_sim cfg))) as HM. rewrite !cmds_ops in HM.
  destruct (HE Hin Hd) as [HE1 _].
  assert (E : ea = es); [|rewrite E; auto].
  rewrite HS, HA. cbn [init w_trace length skipn]. rewrite <- (txt_plain ap _ (received l s (w_trace (fst (Core.flush cfg l _))))), HE1, txt_plain.
  destruct (agree_flush cfg HQ HP l _ _ HM) as [HF _].
  assert (HW : winv cfg (run_ops cfg os (run_ops cfg setup (init (fun _ => false))))) by (apply run_grows, run_grows, init_winv).
  transitivity (txt ap (show (fst (Core.flush cfg l (run_ops cfg os (run_ops cfg setup (init (fun _ => false)))))))
    (received l s (w_trace (run_ops cfg os (run_ops cfg setup (init (fun _ => false))))))).
  - unfold txt, show, parent_depth. rewrite (sm_acts _ _ _ HF). reflexivity.
  - symmetry. apply txt_keep; auto; [apply (step_grows cfg (OpFlush l) _ HW)|apply (wi_act _ _ HW)|].
    intros k e Hi. eapply received_ok; eauto.
Qed.
Print Assumptions C78_same_file.

(** In synchronous mode every event a call publishes has its line as soon as the call returns,
    whatever filters and template look at (which events each call publishes is C70). *)
Theorem C78_published : forall cfg ap w w' l s evs, reach cfg w ->
  lg_async (w_logs w l) = false -> In s (lg_sinks (w_logs w l)) -> is_sink cfg s ap ->
  published cfg l evs w w' -> log_lines ap (seen w w') evs (entries ap l s w w').
Proof.
  intros cfg ap w w' l s evs HR HA Hs HK (HT & _). rewrite HA in HT.
  rewrite (entries_published cfg ap w w' l s evs (wi_hooks _ _ (reach_winv cfg w HR)) Hs HK HT). apply txt_lines.
Qed.
Print Assumptions C78_published.

(** A sink that subscribes to everything, lets actions of level info and up through, and writes
    the message. *)
Definition ascii_codes (s : string) : Emitters.text := map (fun c => N.of_nat (Ascii.nat_of_ascii c)) (String.list_ascii_of_string s).
Definition info_filter : kind -> shown -> bool := fun _ x => match snd (fst x) with Some a => (20 <=? a_level a)%Z | None => false end.
Definition msg_sink : appender := mkApp ["begin"; "warn"; "end"; "comment"]%string [info_filter] (fun _ x => ascii_codes (e_msg (fst (fst x)))).
(** A sink that writes the data of the action. *)
Definition data_sink : appender := mkApp ["warn"]%string [] (fun _ x =>
  match snd (fst x) with Some a => map (fun p => Z.to_N (snd p)) (a_data a) | None => [] end).
Lemma msg_unchanging : unchanging msg_sink.
Proof. intros k e a b d H1 H2 H3 H4 H5 H6. split; [|reflexivity]. intros f [<-|[]]. unfold info_filter. cbn. rewrite H3. reflexivity. Qed.
Definition setup78 : list op := [OpAddSink 0 1].
Definition calls78 : list op := [OpNew 0 20 "job" [("k", 65%Z)]%string None None; OpWarn 0 "w1" []; OpSet 0 "k" 66%Z;
  OpNew 0 10 "low" [] None None; OpBegin 1 None []; OpWarn 0 "w2" []].
Lemma quiet78 : all_quiet quiet_cfg /\ (forall o, In o setup78 -> is_setup o) /\ (forall o, In o calls78 -> keeps_config (CCall o)).
Proof.
  split; [exact quiet_all|]. split; intros o H; cbn in H; repeat (destruct H as [<-|H]; [exact I|]); destruct H.
Qed.
Lemma file78 : file_name "app.log".
Proof. unfold file_name; cbn; intuition discriminate. Qed.
Example C78_nonvacuous :
  snd (run_logged quiet_cfg msg_sink 0 1 (setup78 ++ calls78) (init (fun _ => false))) = [ascii_codes "w1"; ascii_codes "w2"] /\
  snd (run_logged quiet_cfg msg_sink 0 1 (setup78 ++ calls78 ++ [OpFlush 0]) (init (fun _ => true))) = [ascii_codes "w1"; ascii_codes "w2"] /\
  lg_sinks (w_logs (run_ops quiet_cfg (setup78 ++ calls78) (init (fun _ => false))) 0) = [1] /\
  lg_dropped (w_logs (run_ops quiet_cfg (setup78 ++ calls78 ++ [OpFlush 0]) (init (fun _ => true))) 0) = 0 /\
  file_after 4 "app.log" [10%N] (fun t => Some t) [ascii_codes "w1"; ascii_codes "w2"] = [119; 49; 10; 119; 50; 10]%N.
Proof. repeat (split; [vm_compute; reflexivity|]). vm_compute; reflexivity. Qed.

(** A template that shows data of the action: the asynchronous file can differ, because the
    line is formatted when the event is flushed and not when it happened. *)
Theorem C78_same_file_data_refuted : exists cfg ap setup os l s cap n sep enc,
  all_quiet cfg /\ (forall o, In o setup -> is_setup o) /\ (forall o, In o os -> keeps_config (CCall o)) /\
  let '(ws, sync_entries) := run_logged cfg ap l s (setup ++ os) (init (fun _ => false)) in
  let '(wa, async_entries) := run_logged cfg ap l s (setup ++ os ++ [OpFlush l]) (init (fun _ => true)) in
  In s (lg_sinks (w_logs ws l)) /\ lg_dropped (w_logs wa l) = 0 /\
  file_after cap n sep enc sync_entries = [65; 10; 66; 10]%N /\ file_after cap n sep enc async_entries = [66; 10; 66; 10]%N.
Proof.
  exists quiet_cfg, data_sink, setup78, calls78, 0, 1, 8, "app.log"%string, [10%N], (fun t => Some t).
  destruct quiet78 as (Q1 & Q2 & Q3). split; [exact Q1|]. split; [exact Q2|]. split; [exact Q3|].
  set (A := run_logged _ _ _ _ _ (init (fun _ => false))). set (B := run_logged _ _ _ _ _ (init (fun _ => true))).
  assert (EA : A = (fst A, [[65%N]; [66%N]])) by (vm_compute; reflexivity).
  assert (EB : B = (fst B, [[66%N]; [66%N]])) by (vm_compute; reflexivity).
  rewrite EA, EB. split; [left; vm_compute; reflexivity|]. split; [vm_compute; reflexivity|]. split; vm_compute; reflexivity.
Qed.
Print Assumptions C78_same_file_data_refuted.
