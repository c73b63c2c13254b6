(** Log files of whole programs: C91. *)
From Verif Require Import model.PyBase model.Core model.Levels model.Timestamps model.Sensible model.Pipeline model.Format model.Fields spec.CoreSpec spec.PipelineSpec spec.EmitterSpec spec.CoreExamples
  spec.ProgramSpec spec.StatSpec spec.ProgramFileSpec proof.FieldLines
  proof.CoreLib proof.CoreInv proof.CoreWith proof.CoreDispatch proof.CoreAsync proof.CoreFinal proof.ProgramProofs props.PDispatch props.PEmit props.PProgram.
From Verif Require model.Emitters.
Open Scope nat_scope.
Local Opaque parent_depth show seen.

Local Transparent show.
Lemma lines_made ap w l keep text_of : line_based ap w keep text_of ->
  forall evs ts, (forall k e, In (k, e) evs -> okev w l k e) -> (forall k e, In (k, e) evs -> subscribed ap k) ->
  log_lines ap (show w) evs ts -> ts = map text_of (filter keep (lines_seen w l evs)).
Proof.
  intros HB evs ts HO HS H.
  assert (M : forall k e a, okev w l k e -> nth_error (w_acts w) (e_act e) = Some a -> line_seen w l (k, e) = line_made e a).
  { intros k e a (Hk & _ & a' & Ha' & Hl) Ha. assert (a' = a) by congruence. subst a'. unfold line_seen, line_made. cbn [fst snd]. rewrite Ha, Hl, Hk. reflexivity. }
  induction H as [|k e es ts Hw HL IH|k e es ts Hw HL IH]; [reflexivity| |];
    specialize (IH ltac:(intros; eapply HO; right; eassumption) ltac:(intros; eapply HS; right; eassumption));
    pose proof (HO k e (or_introl eq_refl)) as Hok; pose proof Hok as (Hk & _ & a & Ha & Hl);
    destruct (HB e a Ha) as [B1 B2]; rewrite Hk in B1, B2; unfold lines_seen; cbn [map filter]; rewrite (M k e a Hok Ha); unfold show in Hw |- *.
  - rewrite Ha in Hw |- *. rewrite B2. destruct Hw as [_ Hf]. apply B1 in Hf. 
    rewrite Hf. cbn [map]. f_equal. exact IH.
  - rewrite Ha in Hw.
    destruct (keep (line_made e a)) eqn:Ek; [|exact IH]. exfalso. apply Hw. split; [exact (HS k e (or_introl eq_refl))|]. apply B1. reflexivity.
Qed.

Local Opaque show.
Lemma file_of cap n sep enc es : file_name n -> encodable (Emitters.file_emitter n sep enc) es ->
  file_after cap n sep enc es = lines (Emitters.file_emitter n sep enc) es.
Proof.
  intros Hn He. pose proof (C51_no_incident_partial cap n sep enc es Hn He) as H. unfold file_after.
  destruct (Emitters.fs_run _ _ _ _) as [[a b] c]. exact H.
Qed.

Lemma got_ok cfg w l sk k e : reach cfg w -> In (k, e) (received l sk (w_trace w)) -> okev w l k e.
Proof.
  intros HR H. apply (wi_occ _ _ (reach_winv cfg w HR)). right. exists sk. unfold received in H. apply in_flat_map in H. destruct H as (o & Ho & H).
  destruct o as [l' k' s' e'| |]; try contradiction. destruct (Nat.eqb l' l && Nat.eqb s' sk) eqn:E; [|contradiction]. destruct H as [H|[]]. injection H as -> ->.
  apply andb_true_iff in E. destruct E as [E1 E2]. apply Nat.eqb_eq in E1, E2. subst. exact Ho.
Qed.
Lemma sync_received cfg describe s w l sk ap :
  reach cfg w -> all_quiet cfg -> (forall x, cf_describe cfg x = Ok (describe x)) ->
  (forall l, lg_async (w_logs w l) = false /\ lg_queue (w_logs w l) = []) ->
  scoped [] s -> In sk (lg_sinks (w_logs w l)) -> is_sink cfg sk ap ->
  let w' := fst (eval cfg None s w) in
  exists t, w_trace w' = w_trace w ++ t /\
    lines_seen w' l (received l sk t) = lines_for cfg l sk (lines_of describe (w_active w) s (length (w_acts w))) /\
    (forall k e, In (k, e) (received l sk t) -> okev w' l k e /\ subscribed ap k).
Proof.
  intros HR HA HD HM HS Hin HK w'.
  destruct (program_log cfg describe s w HR HA HD HM HS) as (_ & _ & _ & _ & t & evs & H4 & H5 & H6 & H7). fold w' in H4, H6, H7.
  assert (ER : received l sk t = map snd (filter (fun q => Nat.eqb (fst q) l && cf_has cfg sk (fst (snd q))) evs)).
  { rewrite received_handed, H5. apply received_evs; [apply (wi_hooks _ _ (reach_winv cfg w HR))|exact Hin]. }
  exists t. split; [exact H4|]. split; [unfold lines_seen; rewrite ER, seen_evs, H6; reflexivity|].
  intros k e Hi. split.
  - apply (got_ok cfg w' l sk k e (reach_run cfg None s w HR)). rewrite H4, received_app. apply in_or_app. right. exact Hi.
  - rewrite ER in Hi. apply in_map_iff in Hi. destruct Hi as ([l' [k' e']] & E & Hi). cbn in E. injection E as -> ->.
    apply filter_In in Hi. destruct Hi as [_ Hb]. cbn [fst snd] in Hb. apply andb_true_iff in Hb. apply HK, Hb.
Qed.

(** C91.  The entries the sink writes during the program are the texts of its lines, and
    the file holds them one after the other. *)
Theorem C91_program_file : forall cfg describe s w l sk ap keep text_of cap n sep enc,
  reach cfg w -> all_quiet cfg -> (forall x, cf_describe cfg x = Ok (describe x)) ->
  (forall l, lg_async (w_logs w l) = false /\ lg_queue (w_logs w l) = []) ->
  scoped [] s -> In sk (lg_sinks (w_logs w l)) -> is_sink cfg sk ap ->
  let w' := fst (eval cfg None s w) in
  line_based ap w' keep text_of ->
  let texts := map text_of (filter keep (lines_for cfg l sk (lines_of describe (w_active w) s (length (w_acts w))))) in
  exists t, w_trace w' = w_trace w ++ t /\
  forall es, log_lines ap (show w') (received l sk t) es ->
    es = texts /\
    (file_name n -> encodable (Emitters.file_emitter n sep enc) texts ->
     file_after cap n sep enc es = lines (Emitters.file_emitter n sep enc) texts).
Proof.
  intros cfg describe s w l sk ap keep text_of cap n sep enc HR HA HD HM HS Hin HK w' HB texts.
  destruct (sync_received cfg describe s w l sk ap HR HA HD HM HS Hin HK) as (t & Ht & E & HO). fold w' in Ht, E, HO.
  exists t. split; [exact Ht|]. intros es He.
  assert (X : es = texts).
  { unfold texts. rewrite <- E. apply (lines_made ap w' l keep text_of HB (received l sk t) es); [intros; eapply HO; eassumption|intros; eapply HO; eassumption|exact He]. }
  split; [exact X|]. rewrite X. apply file_of.
Qed.
Print Assumptions C91_program_file.

(** In asynchronous mode, after a flush, if nothing was dropped: the same file. *)
Theorem C91_program_file_async : forall cfg describe setup s l sk ap keep text_of cap n sep enc,
  all_quiet cfg -> (forall x, cf_describe cfg x = Ok (describe x)) ->
  (forall o, In o setup -> is_setup o) -> scoped [] s -> is_sink cfg sk ap ->
  let w0 := run_ops cfg setup (init (fun _ => true)) in
  let w' := fst (Core.flush cfg l (fst (eval cfg None s w0))) in
  In sk (lg_sinks (w_logs w0 l)) -> lg_dropped (w_logs w' l) = 0 ->
  line_based ap w' keep text_of ->
  let texts := map text_of (filter keep (lines_for cfg l sk (lines_of describe (fun _ => None) s 0))) in
  forall es, log_lines ap (show w') (received l sk (w_trace w')) es ->
    es = texts /\
    (file_name n -> encodable (Emitters.file_emitter n sep enc) texts ->
     file_after cap n sep enc es = lines (Emitters.file_emitter n sep enc) texts).
Proof.
  intros cfg describe setup s l sk ap keep text_of cap n sep enc HA HD HO HS HK w0 w' Hin Hdrop HB texts es He.
  pose proof HA as (HQ & HP & HN & _).
  assert (Hk : forall c, In c [CRun s] -> keeps_config c) by (intros c [<-|[]]; exact I).
  pose proof (setup_sim cfg setup HO _ _ (init_sim cfg)) as HS0. fold w0 in HS0.
  set (v0 := run_ops cfg setup (init (fun _ => false))) in *.
  assert (HR : reach cfg v0) by (apply reach_run_ops, reach_init).
  assert (Hin' : In sk (lg_sinks (w_logs v0 l))) by (rewrite <- (sm_sinks _ _ _ HS0); exact Hin).
  assert (HM : forall l, lg_async (w_logs v0 l) = false /\ lg_queue (w_logs v0 l) = []) by (intro l0; split; [apply (sm_sync _ _ _ HS0)|apply (sm_empty _ _ _ HS0)]).
  destruct (setup_blank cfg setup HO (init (fun _ => false))) as (T0 & A0 & C0). fold v0 in T0, A0, C0. cbn in T0, A0, C0.
  destruct (sync_received cfg describe s v0 l sk ap HR HA HD HM HS Hin' HK) as (t & Ht & E & HOw). rewrite A0, C0 in E. rewrite T0 in Ht. cbn [app length] in Ht, E. subst t.
  set (v' := fst (eval cfg None s v0)) in *.
  destruct (agree_eval cfg HQ HP HN s None v0 w0 HS0) as [HS1 _]. fold v' in HS1.
  destruct (C10_async_same_as_sync cfg setup [CRun s] l sk HA HO Hk) as [P1 P2].
  { cbn [run_cmds do_cmd]. fold v0. fold v'. destruct (program_log cfg describe s v0 HR HA HD HM HS) as (_ & _ & _ & X & _).
    fold v' in X. rewrite (proj1 (X l)). exact Hin'. }
  { exact Hdrop. }
  cbn [run_cmds do_cmd] in P1, P2. fold v0 w0 v' w' in P1, P2.
  assert (EA : w_acts w' = w_acts v').
  { destruct (flush_quiet cfg HQ HP l (fst (eval cfg None s w0)) (sm_ha _ _ _ HS1) (sm_noexc _ _ _ HS1 l)) as (x & Ex & Ea & _).
    unfold w'. rewrite Ex. cbn [fst]. rewrite Ea. apply (sm_acts _ _ _ HS1). }
  assert (NX : filter is_exc (received l sk (w_trace v')) = []).
  { destruct (filter is_exc (received l sk (w_trace v'))) as [|[k e] r] eqn:Ef; [reflexivity|]. exfalso.
    assert (Hi : In (k, e) (filter is_exc (received l sk (w_trace v')))) by (rewrite Ef; left; reflexivity).
    apply filter_In in Hi. destruct Hi as [Hi Hx]. destruct (HOw k e Hi) as [_ Hs]. destruct k; try discriminate Hx. exact Hs. }
  assert (All : forall ps, filter is_exc ps = [] -> filter plain ps = ps).
  { induction ps as [|p ps IH]; [reflexivity|]. unfold plain. cbn [filter]. destruct (is_exc p); [discriminate|]. intro Hf. cbn [negb]. f_equal. exact (IH Hf). }
  rewrite NX in P2. rewrite (All _ P2), (All _ NX) in P1.
  assert (HR' : reach cfg w') by (apply (reach_call cfg (OpFlush l)), reach_run, reach_run_ops, reach_init).
  assert (X : es = texts).
  { unfold texts. rewrite <- E.
    replace (lines_seen v' l (received l sk (w_trace v'))) with (lines_seen w' l (received l sk (w_trace w'))).
    - apply (lines_made ap w' l keep text_of HB (received l sk (w_trace w')) es); [| |exact He]; rewrite P1; intros k e Hi; destruct (HOw k e Hi) as [_ Hs]; [|exact Hs].
      rewrite <- P1 in Hi. exact (got_ok cfg w' l sk k e HR' Hi).
    - rewrite P1. unfold lines_seen, line_seen. rewrite EA. reflexivity. }
  split; [exact X|]. rewrite X. apply file_of.
Qed.
Print Assumptions C91_program_file_async.

(** A sink that writes status, level and name of every event of its logger. *)
Definition tpl91 (_ : kind) : text := lit "{status_str} {level_name}: {action_name}".
Definition sink91 (env : fenv) (fmt_nested : ftoken -> list fval -> option text) (fuel : nat) : appender :=
  sensible_sink env builtin_format fmt_nested fuel ["begin"; "warn"; "end"; "comment"]%string [] no_quoter tpl91.
Definition word (n : line) : string :=
  match n_kind n with
  | KBegin => "begin" | KWarn => "warning" | KComment => "comment" | KExc => "exception"
  | KEnd => outcome_text n
  end%string.
Definition text91 (level_of : Z -> level) (n : line) : text :=
  lit (word n) ++ lit " " ++ lit (lv_name (level_of (n_level n))) ++ lit ": " ++ lit (n_name n).
(** It is line-based as long as no action has data under these names. *)
Theorem C91_plain_sink : forall env fmt_nested fuel w,
  (forall a f, In a (w_acts w) -> In f ["status_str"; "level_name"; "action_name"]%string -> dget String.eqb f (a_data a) = None) ->
  line_based (sink91 env fmt_nested fuel) w (fun _ => true) (text91 (en_level env)).
Proof.
  intros env fnest fuel w HD e a Ha x. split; [split; [reflexivity|intros _ f []]|].
  pose proof (nth_error_In _ _ Ha) as Hin.
  assert (D : forall f, In f ["status_str"; "level_name"; "action_name"]%string -> dget text_eqb (lit f) (data_of x) = None).
  { intros f Hf. apply no_data_key. exact (HD a f Hin Hf). }
  unfold sink91, sensible_sink, ap_render, tpl91.
  assert (EF : make_formatter (field_table env builtin_format fnest fuel) no_quoter default_defaulter (lit "{status_str} {level_name}: {action_name}") =
    Some [CFld (mkTok (lit "status_str") (lit "s") None) (Some (lit "{status_str}")) QNone; CLit (lit " ");
          CFld (mkTok (lit "level_name") (lit "s") None) (Some (lit "{level_name}")) QNone; CLit (lit ": ");
          CFld (mkTok (lit "action_name") (lit "s") None) (Some (lit "{action_name}")) QNone]) by (vm_compute; reflexivity).
  rewrite EF. unfold render, field_segment.
  assert (R : forall f s q v, In (f, s, q) BUILTIN_FIELDS -> In f ["status_str"; "level_name"; "action_name"]%string ->
    getter env builtin_format fnest fuel f x = GVal v -> resolve VNone data_of (field_table env builtin_format fnest fuel) [] x (lit f) = Some v).
  { intros f s q v Hb Hf Hg. unfold resolve. cbn [dget]. rewrite (D f Hf).
    destruct (alone_field env builtin_format fnest fuel f s q x Hb) as (g & E1 & E2 & _). rewrite E1, E2, Hg. reflexivity. }
  assert (S1 : forall f, In f ["status_str"; "level_name"; "action_name"]%string -> is_positional (mkTok (lit f) (lit "s") None) = false /\ base_name (lit f) = lit f).
  { intros f Hf. cbn [In] in Hf. repeat (destruct Hf as [Hf|Hf]; [subst f; split; vm_compute; reflexivity|]). destruct Hf. }
  assert (S2 : forall f t, builtin_format (mkTok (lit f) (lit "s") None) (VText t) = Some t) by reflexivity.
  destruct (S1 "status_str"%string) as [P1 B1]; [cbn; tauto|].
  destruct (S1 "level_name"%string) as [P2 B2]; [cbn; tauto|].
  destruct (S1 "action_name"%string) as [P3 B3]; [cbn; tauto|].
  rewrite P1, P2, P3. cbn [tk_fname]. rewrite B1, B2, B3.
  rewrite (R "status_str"%string "s"%string (Some false) (VText (lit (event_status e))));
    [|cbn; tauto|cbn; tauto|destruct fuel; reflexivity].
  rewrite (R "level_name"%string "s"%string (Some false) (VText (lit (lv_name (en_level env (a_level a))))));
    [|cbn; tauto|cbn; tauto|destruct fuel; reflexivity].
  rewrite (R "action_name"%string "s"%string None (VText (lit (a_name a))));
    [|cbn; tauto|cbn; tauto|destruct fuel; reflexivity].
  rewrite !S2. unfold text91, line_made. cbn [n_level n_name]. rewrite !app_nil_r.
  replace (word _) with (event_status e); [reflexivity|].
  unfold event_status, word, outcome_text. cbn [n_kind n_status]. destruct (e_kind e); try reflexivity; destruct (e_status e) as [[]|]; reflexivity.
Qed.
Print Assumptions C91_plain_sink.

(** The program of C89, its log file and the same in asynchronous mode. *)
Definition cfg91 : config :=
  mkConfig Z.of_nat (fun _ k => match k with KExc => false | _ => true end) (fun _ _ _ _ _ => None) (fun _ _ _ => None) (fun _ _ => None)
           (fun _ => Ok "boom"%string).
Definition setup91 : list op := [OpAddSink 0 1; OpAddSink 1 1].
Definition level91 (z : Z) : level := if (z =? 20)%Z then DEBUG else if (z =? 90)%Z then CRITICAL else INFO.
Definition env91 : fenv := mkEnv (fun _ => lit "log") (fun _ => 0%Z) (fun _ => lit "guid") level91 (fun t => t)
  (fun _ => mkCp [] [] [] 0%Z) (fun _ => ([], [], [])) (fun _ => lit "json") (fun _ => lit "repr") 99%Z 0%Z 1000 utc (fun _ => 0%Z).
Definition ap91 : appender := sink91 env91 (fun _ _ => None) 3.
Lemma quiet91 : all_quiet cfg91.
Proof.
  split; [intros k t l s e; reflexivity|]. split; [intros; reflexivity|]. split; [intros; reflexivity|].
  intros x; eexists; reflexivity.
Qed.
Lemma is_sink91 : is_sink cfg91 1 ap91.
Proof. intros []; cbn; intuition discriminate. Qed.
Definition texts91 : list text := map lit
  ["begin debug: top"; "warning debug: top"; "begin debug: child"; "exception debug: child"; "comment critical: _comment";
   "exception debug: top"; "begin info: next"; "success info: next"]%string.
Example C91_example :
  let w := run_ops cfg91 setup91 (init (fun _ => false)) in
  let w' := fst (eval cfg91 None program89 w) in
  reach cfg91 w /\ (forall l, lg_async (w_logs w l) = false /\ lg_queue (w_logs w l) = []) /\ scoped [] program89 /\
  In 1 (lg_sinks (w_logs w 0)) /\ line_based ap91 w' (fun _ => true) (text91 level91) /\
  map (text91 level91) (filter (fun _ => true) (lines_for cfg91 0 1 (lines_of (fun _ => "boom"%string) (w_active w) program89 0))) = texts91.
Proof.
  cbn zeta.
  split; [apply reach_run_ops, reach_init|]. split; [intros [|[|l]]; split; reflexivity|].
  split; [exact (proj1 C89_reached)|]. split; [left; reflexivity|]. split.
  - apply (C91_plain_sink env91). intros a f Ha Hf.
    assert (X : forallb (fun a => forallb (fun f => match dget String.eqb f (a_data a) with None => true | _ => false end)
      ["status_str"; "level_name"; "action_name"]%string) (w_acts (fst (eval cfg91 None program89 (run_ops cfg91 setup91 (init (fun _ => false)))))) = true)
      by (vm_compute; reflexivity).
    rewrite forallb_forall in X. specialize (X a Ha). rewrite forallb_forall in X. specialize (X f Hf).
    destruct (dget String.eqb f (a_data a)); [discriminate|reflexivity].
  - vm_compute. reflexivity.
Qed.
Example C91_async_example :
  let w0 := run_ops cfg91 setup91 (init (fun _ => true)) in
  let w' := fst (Core.flush cfg91 0 (fst (eval cfg91 None program89 w0))) in
  (forall o, In o setup91 -> is_setup o) /\ In 1 (lg_sinks (w_logs w0 0)) /\ lg_dropped (w_logs w' 0) = 0 /\ length (received 0 1 (w_trace w')) = 8.
Proof.
  split; [intros o [<-|[<-|[]]]; exact I|]. vm_compute. auto.
Qed.
