(** C83 with the cache of Event.message. *)
From Verif Require Import proof.CoreLib proof.CoreTrans proof.CoreInv proof.CoreWith proof.CoreDispatch proof.CoreFinal proof.CoreAsync proof.CoreData proof.PipelineProofs.
From Verif Require Import model.PyBase model.Core model.Levels model.Sensible model.Timestamps model.Pipeline model.Format model.Fields model.MessageCache
  spec.CoreSpec spec.PipelineSpec spec.FormatSpec spec.FieldSpec spec.CoreExamples proof.FieldProofs proof.CacheProofs props.PFields.
Open Scope nat_scope.
Local Opaque parent_depth show seen.

(** Messages are rendered once and kept; other sinks that share the events may have rendered
    them before.  If no line shows what happens later, that is not seen: the lines are those
    of Fields.v, which renders messages each time. *)
Theorem C83_cached : forall cfg env fmt_named fmt_nested fuel on filters quoter templates others os w l s lines c,
  let ap := sensible_sink env fmt_named fmt_nested fuel on filters quoter templates in
  exc_quiet cfg -> reach cfg w ->
  (forall k e a t, In (k, e) (received l s (w_trace (run_ops cfg os w))) -> subscribed ap k ->
     nth_error (w_acts (run_ops cfg os w)) (e_act e) = Some a -> In t (templates k :: others k) -> line_ok cfg w os t e a) ->
  cached_run env fmt_named fmt_nested fuel on filters quoter templates others cfg l s os w no_messages lines c ->
  lines = snd (run_logged cfg ap l s os w).
Proof.
  intros cfg env fn fnest fuel on fs q tpl others os w l s lines c ap HX HR HL H.
  exact (run_cached cfg HX env fn fnest fuel on fs q tpl others os w l s HR HL lines c H).
Qed.
Print Assumptions C83_cached.

Lemma async_line_ok cfg setup os l s t k e a :
  let start := run_ops cfg setup (init (fun _ => false)) in
  let astart := run_ops cfg setup (init (fun _ => true)) in
  let vF := run_ops cfg (os ++ [OpFlush l]) astart in
  all_quiet cfg -> (forall o, In o setup -> is_setup o) -> (forall o, In o os -> keeps_config (CCall o)) ->
  In s (lg_sinks (w_logs (run_ops cfg os start) l)) -> lg_dropped (w_logs vF l) = 0 ->
  In (k, e) (received l s (w_trace vF)) -> k <> KExc -> nth_error (w_acts vF) (e_act e) = Some a ->
  (In (k, e) (received l s (w_trace (run_ops cfg os start))) -> nth_error (w_acts (run_ops cfg os start)) (e_act e) = Some a -> line_ok cfg start os t e a) ->
  line_ok cfg astart (os ++ [OpFlush l]) t e a.
Proof.
  intros start astart vF (HQ & HP & HN & HL) H1 H2 Hin Hd Hi Hke Ha HO.
  assert (Hk : forall c, In c (map CCall os) -> keeps_config c) by (intros c Hc; apply in_map_iff in Hc as (o & <- & Ho); apply H2, Ho).
  pose proof (async_same cfg HQ HP HN setup (map CCall os) l s H1 Hk) as HA. cbv zeta in HA. rewrite !cmds_ops in HA. fold start astart in HA.
  assert (EvF : vF = fst (Core.flush cfg l (run_ops cfg os astart))) by (unfold vF; rewrite run_ops_app; reflexivity).
  rewrite EvF in Hd. destruct (HA Hin Hd) as [HA1 _].
  assert (Hsim : forall os1, (forall o, In o os1 -> In o os) -> sim cfg (run_ops cfg os1 start) (run_ops cfg os1 astart)).
  { intros os1 Hs. rewrite <- !cmds_ops. apply agree_cmds; auto; [|apply setup_sim; auto; apply init_sim].
    intros c Hc. apply in_map_iff in Hc as (o & <- & Ho). apply H2, Hs, Ho. }
  pose proof (Hsim os (fun o H => H)) as HM. destruct (agree_flush cfg HQ HP l _ _ HM) as [HG _].
  assert (RS : reach cfg start) by (apply reach_run_ops; constructor).
  set (wF := run_ops cfg os start) in *.
  assert (Efl : forall r a, nth_error (w_acts wF) r = Some a -> nth_error (w_acts vF) r = Some a).
  { intros r b Hb. rewrite EvF, (sm_acts _ _ _ HG). destruct (pres_flush cfg action (fun a => a) r l wF b Hb) as (a' & -> & ->). reflexivity. }
  assert (Hlater : forall e o, later cfg astart (os ++ [OpFlush l]) e o -> later cfg start os e o \/ o = OpFlush l).
  { intros e0 o (p & p' & E & He & Ho). destruct p' as [|o' p' _] using rev_ind; [destruct Ho|].
    rewrite app_assoc in E. apply app_inj_tail in E as [E <-]. apply in_app_iff in Ho as [Ho|[<-|[]]]; [left|right; reflexivity].
    exists p, p'. split; [exact E|]. split; [|exact Ho]. rewrite <- (sm_hist _ _ _ (Hsim p ltac:(intros x Hx; rewrite E; apply in_app_iff; left; exact Hx))). exact He. }
  assert (Hi' : In (k, e) (received l s (w_trace wF))).
  { assert (Hf : In (k, e) (filter plain (received l s (w_trace vF)))) by (apply filter_In; split; [exact Hi|destruct k; try reflexivity; congruence]).
    rewrite EvF, HA1 in Hf. apply filter_In in Hf. apply Hf. }
  assert (Ha' : nth_error (w_acts wF) (e_act e) = Some a).
  { pose proof (received_ok cfg l s wF k e (reach_winv cfg wF (reach_run_ops cfg os start RS)) Hi') as Hr.
    destruct (nth_error (w_acts wF) (e_act e)) as [b|] eqn:Eb; [|apply nth_error_None in Eb; lia]. apply Efl in Eb. congruence. }
  destruct (HO Hi' Ha'). constructor; auto.
  - intros X o Hl. destruct (Hlater e o Hl) as [Y| ->]; [auto|reflexivity].
  - intros o nm v Hl Hw. destruct (Hlater e o Hl) as [Y| ->]; [eauto|destruct Hw].
  - intros X Y Hl. destruct (Hlater _ _ Hl) as [Z|Z]; [|discriminate]. eapply lo_char; eauto.
Qed.

(** So the file is the same in both modes, with the cache and with other sinks that share
    it. *)
Theorem C83_cached_same_file : forall cfg env fmt_named fmt_nested fuel on filters quoter templates others setup os l s cap n sep enc,
  let ap := sensible_sink env fmt_named fmt_nested fuel on filters quoter templates in
  let run := cached_run env fmt_named fmt_nested fuel on filters quoter templates others cfg l s in
  let start := run_ops cfg setup (init (fun _ => false)) in
  let async_start := run_ops cfg setup (init (fun _ => true)) in
  all_quiet cfg ->
  (forall o, In o setup -> is_setup o) -> (forall o, In o os -> keeps_config (CCall o)) ->
  (forall k e a t, In (k, e) (received l s (w_trace (run_ops cfg os start))) -> subscribed ap k ->
     nth_error (w_acts (run_ops cfg os start)) (e_act e) = Some a -> In t (templates k :: others k) -> line_ok cfg start os t e a) ->
  (forall f, In f filters -> exists flag, flag_filter f flag /\
     forall k e o v, In (k, e) (received l s (w_trace (run_ops cfg os start))) -> subscribed ap k ->
     later cfg start os e o -> ~ In (flag, v) (writes (e_act e) o)) ->
  In s (lg_sinks (w_logs (run_ops cfg os start) l)) ->
  lg_dropped (w_logs (run_ops cfg (os ++ [OpFlush l]) async_start) l) = 0 ->
  forall sync_entries async_entries c c',
  run os start no_messages sync_entries c ->
  run (os ++ [OpFlush l]) async_start no_messages async_entries c' ->
  async_entries = sync_entries /\
  file_after cap n sep enc async_entries = file_after cap n sep enc sync_entries.
Proof.
  intros cfg env fn fnest fuel on fs q tpl others setup os l s cap n sep enc ap run start astart HQ H1 H2 HO HF Hin Hd es ea c c' RS RA.
  assert (HX : exc_quiet cfg) by (destruct HQ as (HQ & _ & _ & HL); split; [apply HQ|exact HL]).
  apply (C83_cached cfg env fn fnest fuel on fs q tpl others os start l s es c HX) in RS; [|apply reach_run_ops; constructor|exact HO].
  apply (C83_cached cfg env fn fnest fuel on fs q tpl others (os ++ [OpFlush l]) astart l s ea c' HX) in RA; [|apply reach_run_ops; constructor|].
  2:{ intros k e a t Hi Hs Ha Ht. assert (Hk : k <> KExc) by (intros ->; exact Hs).
      apply (async_line_ok cfg setup os l s t k e a HQ H1 H2 Hin Hd Hi Hk Ha). intros Hi' Ha'. exact (HO k e a t Hi' Hs Ha' Ht). }
  pose proof (C83_same_file cfg env fn fnest fuel on fs q tpl setup os l s cap n sep enc HQ H1 H2
    (fun k e a Hi Hs Ha => HO k e a (tpl k) Hi Hs Ha (or_introl eq_refl)) HF) as SF.
  pose proof (logged_app cfg env fn fnest fuel on fs q tpl setup l s (init (fun _ => false)) os) as ES.
  pose proof (logged_app cfg env fn fnest fuel on fs q tpl setup l s (init (fun _ => true)) (os ++ [OpFlush l])) as EA.
  rewrite (logged_setup cfg env fn fnest fuel on fs q tpl l s setup H1) in ES, EA. cbn [app] in ES, EA.
  pose proof (logged_world cfg ap l s (setup ++ os) (init (fun _ => false))) as WS.
  pose proof (logged_world cfg ap l s (setup ++ os ++ [OpFlush l]) (init (fun _ => true))) as WA.
  fold ap in SF, ES, EA.
  destruct (run_logged cfg ap l s (setup ++ os) _) as [ws es']. destruct (run_logged cfg ap l s (setup ++ os ++ _) _) as [wa ea'].
  cbn [fst snd] in *. fold start in ES. fold astart in EA. fold ap in RS, RA. rewrite <- ES in RS. rewrite <- EA in RA. subst es ea.
  apply SF; [rewrite WS, run_ops_app; exact Hin|rewrite WA, run_ops_app; exact Hd].
Qed.
Print Assumptions C83_cached_same_file.

(** ** Examples: every message that a line reads is stored *)
Definition event_eq_dec (x y : event) : {x = y} + {x <> y}.
Proof. repeat decide equality. Defined.
Section Eager.
Variable env : fenv.
Variable fnest : ftoken -> list fval -> option text.
Variable fuel : nat.
Variable on : list string.
Variable fs : list sfilter.
Variable tpl : kind -> text.
Definition has (n : string) (t : text) : bool := existsb (text_eqb (lit n)) (field_names t).
Definition is_event (o : option event) (x : event) : bool := match o with Some y => if event_eq_dec y x then true else false | None => false end.
Definition readsb (a : action) (t : text) (e x : event) : bool :=
  has "event_message" t && is_event (Some e) x || has "begin_message" t && is_event (a_begin a) x || has "end_message" t && is_event (a_end a) x.
Definition store_all (t : text) (v : shown) (c : mcache) : mcache := fun x =>
  match v with
  | (e, Some a, d) => if readsb a t e x then stored env builtin_format fnest c fuel x a d else c x
  | _ => c x
  end.
Fixpoint eager_lines (c : mcache) (evs : list (kind * shown)) : list text * mcache :=
  match evs with
  | [] => ([], c)
  | (k, v) :: evs =>
    let ap := cached_sink env builtin_format fnest c fuel on fs no_quoter tpl in
    if ss_has (sink_of ap) k then
      let (ts, c') := eager_lines (store_all (tpl k) v c) evs in (map snd (ss_run (sink_of ap) [(k, v)]) ++ ts, c')
    else eager_lines c evs
  end.
Fixpoint eager_run (cfg : config) (l s : nat) (os : list op) (w : world) (c : mcache) : list text * mcache :=
  match os with
  | [] => ([], c)
  | o :: os =>
    let w1 := fst (step cfg o w) in
    let (ts, c1) := eager_lines c (map (fun p => (fst p, seen w w1 (snd p))) (to_sink l s (skipn (length (w_trace w)) (w_trace w1)))) in
    let (ts', c2) := eager_run cfg l s os w1 c1 in (ts ++ ts', c2)
  end.
Lemma is_event_eq o x : is_event o x = true -> o = Some x.
Proof. unfold is_event. destruct o as [y|]; [|discriminate]. destruct (event_eq_dec y x); [congruence|discriminate]. Qed.
Lemma readsb_reads a t e x : readsb a t e x = true -> reads_message a t e x.
Proof.
  unfold readsb, has. rewrite !orb_true_iff, !andb_true_iff, !existsb_exists. intros [[[(y & H1 & H2) H3]|[(y & H1 & H2) H3]]|[(y & H1 & H2) H3]]; apply text_eqb_iff in H2; subst y; apply is_event_eq in H3.
  - injection H3 as ->. apply rm_event. left. exact H1.
  - apply rm_begin; assumption.
  - apply rm_end; assumption.
Qed.
Lemma store_all_stores ts t v c : In t ts -> stores env builtin_format fnest fuel ts v c (store_all t v c).
Proof.
  intros Ht x. unfold store_all. destruct v as [[e [a|]] d]; [|left; reflexivity]. destruct (readsb a t e x) eqn:E; [|left; reflexivity].
  right. exists t, e, a, d. split; [reflexivity|]. split; [exact Ht|]. split; [apply readsb_reads, E|reflexivity].
Qed.
Lemma eager_lines_ok evs : forall c ts c', eager_lines c evs = (ts, c') -> cached_lines env builtin_format fnest fuel on fs no_quoter tpl (fun _ => []) c evs ts c'.
Proof.
  induction evs as [|[k v] evs IH]; intros c ts c' H; cbn [eager_lines] in H; [injection H as <- <-; constructor|].
  destruct (ss_has _ k) eqn:Es; [|constructor; [exact Es|apply IH, H]].
  destruct (eager_lines (store_all (tpl k) v c) evs) as [ts0 c0] eqn:El. injection H as <- <-.
  apply (cl_line _ _ _ _ _ _ _ _ _ c c (store_all (tpl k) v c)); [exact Es|intros x; left; reflexivity|apply store_all_stores; left; reflexivity|apply IH, El].
Qed.
Lemma eager_run_ok cfg l s os : forall w c ts c', eager_run cfg l s os w c = (ts, c') ->
  cached_run env builtin_format fnest fuel on fs no_quoter tpl (fun _ => []) cfg l s os w c ts c'.
Proof.
  induction os as [|o os IH]; intros w c ts c' H; cbn [eager_run] in H; [injection H as <- <-; constructor|].
  destruct (eager_lines c _) as [t1 c1] eqn:El. destruct (eager_run cfg l s os _ c1) as [t2 c2] eqn:Er. injection H as <- <-.
  eapply cr_cons; [apply eager_lines_ok, El|apply IH, Er].
Qed.
End Eager.
Example C83_cached_nonvacuous :
  let run os w := eager_run env83 (fun _ _ => None) 3 ["begin"; "warn"; "end"; "comment"]%string filters83 templates83 quiet_cfg 0 1 os w no_messages in
  fst (run calls83 start83) =
    map lit ["b+0.0000ms - job beginning"; "W slow 7"; "S+2.0000ms - 2.000ms - job succeeded - (data of size 2)";
             "b+3.0000ms - low beginning"; "s+3.0000ms - 0.000ms - done"]%string /\
  fst (run (calls83 ++ [OpFlush 0]) (run_ops quiet_cfg setup83 (init (fun _ => true)))) = fst (run calls83 start83) /\
  (forall k e a t, In (k, e) (received 0 1 (w_trace (run_ops quiet_cfg calls83 start83))) -> subscribed sink83 k ->
     nth_error (w_acts (run_ops quiet_cfg calls83 start83)) (e_act e) = Some a -> In t [templates83 k] -> line_ok quiet_cfg start83 calls83 t e a).
Proof.
  split; [vm_compute; reflexivity|]. split; [vm_compute; reflexivity|]. intros k e a t Hi Hs Ha [<-|[]].
  exact (proj1 (proj2 (proj2 (proj2 C83_nonvacuous))) k e a Hi Hs Ha).
Qed.

(** Where a line shows a message with data that changes later, the cache is seen: the end line
    shows the begin message as it was rendered first, not as it would be rendered now. *)
Definition stale83 : kind -> text := fun _ => lit "{begin_message}".
Theorem C83_cache_visible_refuted : exists os lines c,
  cached_run env83 builtin_format (fun _ _ => None) 3 ["begin"; "end"]%string [] no_quoter stale83 (fun _ => []) quiet_cfg 0 1 os start83 no_messages lines c /\
  lines = map lit ["for 1"; "for 1"]%string /\
  snd (run_logged quiet_cfg (sensible_sink env83 builtin_format (fun _ _ => None) 3 ["begin"; "end"]%string [] no_quoter stale83) 0 1 os start83) = map lit ["for 1"; "for 2"]%string.
Proof.
  set (os := [OpNew 0 70 "job" [("user", 1%Z)]%string None None; OpBegin 0 (Some "for {user}"%string) []; OpSet 0 "user" 2%Z; OpSuccess 0 None []]).
  exists os. eexists. eexists. split; [apply eager_run_ok; apply surjective_pairing|]. split; vm_compute; reflexivity.
Qed.
Print Assumptions C83_cache_visible_refuted.
