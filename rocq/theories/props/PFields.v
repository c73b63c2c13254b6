(** C83: what the built-in fields show, and when. *)
From Verif Require Import proof.CoreFinal proof.CoreAsync proof.CoreWith proof.CoreInv proof.CoreData proof.PipelineProofs proof.FieldProofs proof.FieldLines spec.CoreExamples.
From Verif Require Import model.PyBase model.Core model.Levels model.Sensible model.Timestamps model.Pipeline model.Format model.Fields
  spec.CoreSpec spec.PipelineSpec spec.FormatSpec spec.FieldSpec.
Open Scope nat_scope.
Local Opaque parent_depth show seen.

(** A SensibleSink with templates of built-in fields and SensibleFilters writes the same file
    in synchronous and asynchronous mode, byte for byte, provided that no line shows what
    happens later: see line_ok. *)
Theorem C83_same_file : forall cfg env fmt_named fmt_nested fuel on filters quoter templates setup os l s cap n sep enc,
  let ap := sensible_sink env fmt_named fmt_nested fuel on filters quoter templates in
  let start := run_ops cfg setup (init (fun _ => false)) in
  all_quiet cfg ->
  (forall o, In o setup -> is_setup o) -> (forall o, In o os -> keeps_config (CCall o)) ->
  (forall k e a, In (k, e) (received l s (w_trace (run_ops cfg os start))) -> subscribed ap k ->
     nth_error (w_acts (run_ops cfg os start)) (e_act e) = Some a -> line_ok cfg start os (templates k) e a) ->
  (forall f, In f filters -> exists flag, flag_filter f flag /\
     forall k e o v, In (k, e) (received l s (w_trace (run_ops cfg os start))) -> subscribed ap k ->
     later cfg start os e o -> ~ In (flag, v) (writes (e_act e) o)) ->
  let '(ws, sync_entries) := run_logged cfg ap l s (setup ++ os) (init (fun _ => false)) in
  let '(wa, async_entries) := run_logged cfg ap l s (setup ++ os ++ [OpFlush l]) (init (fun _ => true)) in
  In s (lg_sinks (w_logs ws l)) -> lg_dropped (w_logs wa l) = 0 ->
  async_entries = sync_entries /\
  file_after cap n sep enc async_entries = file_after cap n sep enc sync_entries.
Proof.
  intros cfg env fn fnest fuel on fs q tpl setup os l s cap n sep enc ap start (HQ & HP & HN & HL) H1 H2 HO HF.
  assert (HX : exc_quiet cfg) by (split; [apply HQ|exact HL]).
  pose proof (logged_app cfg env fn fnest fuel on fs q tpl setup l s (init (fun _ => false)) os) as ES.
  pose proof (logged_app cfg env fn fnest fuel on fs q tpl setup l s (init (fun _ => true)) (os ++ [OpFlush l])) as EA.
  rewrite (logged_setup cfg env fn fnest fuel on fs q tpl l s setup H1) in ES, EA. cbn [app] in ES, EA. fold ap in ES, EA. fold start in ES.
  pose proof (logged_world cfg ap l s (setup ++ os) (init (fun _ => false))) as WS.
  pose proof (logged_world cfg ap l s (setup ++ os ++ [OpFlush l]) (init (fun _ => true))) as WA.
  destruct (run_logged cfg ap l s (setup ++ os) _) as [ws es]. destruct (run_logged cfg ap l s (setup ++ os ++ _) _) as [wa ea].
  cbn [fst snd] in *. subst ws wa. rewrite !run_ops_app in *. fold start. cbn [run_ops step] in *. intros Hin Hd.
  set (astart := run_ops cfg setup (init (fun _ => true))) in *.
  assert (Hk : forall c, In c (map CCall os) -> keeps_config c) by (intros c Hc; apply in_map_iff in Hc as (o & <- & Ho); apply H2, Ho).
  pose proof (async_same cfg HQ HP HN setup (map CCall os) l s H1 Hk) as HA. cbv zeta in HA. rewrite !cmds_ops in HA. fold start astart in HA.
  destruct (HA Hin Hd) as [HA1 _].
  assert (Hsim : forall os1, (forall o, In o os1 -> In o os) -> sim cfg (run_ops cfg os1 start) (run_ops cfg os1 astart)).
  { intros os1 Hs. rewrite <- !cmds_ops. apply agree_cmds; auto; [|apply setup_sim; auto; apply init_sim].
    intros c Hc. apply in_map_iff in Hc as (o & <- & Ho). apply H2, Hs, Ho. }
  pose proof (Hsim os (fun o H => H)) as HM. destruct (agree_flush cfg HQ HP l _ _ HM) as [HG _].
  assert (RS : reach cfg start) by (apply reach_run_ops; constructor).
  assert (RA : reach cfg astart) by (apply reach_run_ops; constructor).
  set (wF := run_ops cfg os start) in *. set (vF := run_ops cfg (os ++ [OpFlush l]) astart).
  assert (EvF : vF = fst (Core.flush cfg l (run_ops cfg os astart))) by (unfold vF; rewrite run_ops_app; reflexivity).
  assert (Efl : forall r a, nth_error (w_acts wF) r = Some a -> nth_error (w_acts vF) r = Some a).
  { intros r a Ha. rewrite EvF, (sm_acts _ _ _ HG). destruct (pres_flush cfg action (fun a => a) r l wF a Ha) as (a' & -> & ->). reflexivity. }
  assert (Elen : forall r a, nth_error (w_acts vF) r = Some a -> r < length (w_acts wF) -> nth_error (w_acts wF) r = Some a).
  { intros r a Ha Hr. destruct (nth_error (w_acts wF) r) as [b|] eqn:Eb; [|apply nth_error_None in Eb; lia]. apply Efl in Eb. congruence. }
  assert (Hrec : forall k e, k <> KExc -> In (k, e) (received l s (w_trace vF)) -> In (k, e) (received l s (w_trace wF))).
  { intros k e Hke Hi. assert (Hf : In (k, e) (filter plain (received l s (w_trace vF)))) by (apply filter_In; split; [exact Hi|destruct k; try reflexivity; congruence]).
    rewrite EvF, HA1 in Hf. apply filter_In in Hf. apply Hf. }
  assert (Hlater : forall e o, later cfg astart (os ++ [OpFlush l]) e o -> later cfg start os e o \/ o = OpFlush l).
  { intros e o (p & p' & E & He & Ho). destruct p' as [|o' p' _] using rev_ind; [destruct Ho|].
    rewrite app_assoc in E. apply app_inj_tail in E as [E <-]. apply in_app_iff in Ho as [Ho|[<-|[]]]; [left|right; reflexivity].
    exists p, p'. split; [exact E|]. split; [|exact Ho]. rewrite <- (sm_hist _ _ _ (Hsim p ltac:(intros x Hx; rewrite E; apply in_app_iff; left; exact Hx))). exact He. }
  assert (E : ea = es); [|rewrite E; auto].
  rewrite ES, EA. unfold ap.
  rewrite (logged_fields cfg HX env fn fnest fuel on fs q tpl os start l s RS HO HF). fold wF.
  assert (TS : w_trace start = []) by (apply (setup_trace cfg setup H1)). assert (TA : w_trace astart = []) by (apply (setup_trace cfg setup H1)).
  rewrite (logged_fields cfg HX env fn fnest fuel on fs q tpl (os ++ [OpFlush l]) astart l s RA).
  - fold vF. fold ap. rewrite TS, TA. cbn [length skipn]. rewrite <- (txt_plain ap _ (received l s (w_trace vF))), EvF, HA1, <- EvF, txt_plain.
    apply txt_ext. intros k e Hi. pose proof (received_ok cfg l s wF k e (reach_winv cfg wF (reach_run_ops cfg os start RS)) Hi) as Hr.
    assert (Hd0 : parent_depth vF (e_act e) = parent_depth wF (e_act e)).
    { Local Transparent parent_depth. unfold parent_depth. Local Opaque parent_depth. symmetry. apply depth_keep; [|apply (wi_act _ _ (reach_winv cfg wF (reach_run_ops cfg os start RS)))|exact Hr].
      intros r a Ha. exists a. split; [apply Efl, Ha|apply same_static_refl]. }
    assert (Ev : show vF e = show wF e); [|rewrite Ev; reflexivity].
    Local Transparent show. unfold show. rewrite Hd0. destruct (nth_error (w_acts wF) (e_act e)) as [b|] eqn:Eb; [|apply nth_error_None in Eb; lia].
    apply Efl in Eb. rewrite Eb. reflexivity.
  - intros k e a Hi Hsub Ha. assert (Hke : k <> KExc) by (intros ->; exact Hsub). apply (Hrec k e Hke) in Hi.
    apply Elen in Ha; [|apply (received_ok cfg l s wF k e (reach_winv cfg wF (reach_run_ops cfg os start RS)) Hi)].
    destruct (HO k e a Hi Hsub Ha). constructor; auto.
    + intros X o Hl. destruct (Hlater e o Hl) as [Y| ->]; [auto|reflexivity].
    + intros o nm v Hl Hw. destruct (Hlater e o Hl) as [Y| ->]; [eauto|destruct Hw].
    + intros X Y Hl. destruct (Hlater _ _ Hl) as [Z|Z]; [|discriminate]. eapply lo_char; eauto.
  - intros f Hf. destruct (HF f Hf) as (flag & F1 & F2). exists flag. split; [exact F1|]. intros k e o v Hi Hsub Hl.
    assert (Hke : k <> KExc) by (intros ->; exact Hsub). apply (Hrec k e Hke) in Hi.
    destruct (Hlater e o Hl) as [Y| ->]; [eauto|intros []].
Qed.
Print Assumptions C83_same_file.

(** ** Deciding line_ok in examples *)
Definition all_names (t : text) (e : event) (a : action) : list text :=
  let N := names_in t in
  let has m := existsb (text_eqb (lit m)) N in
  let msg (b : bool) (o : option event) := if b then match o with Some x => names_in (lit (e_msg x)) | None => [] end else [] in
  N ++ msg (has "event_message" || has "event_message_raw")%string (Some e) ++ msg (has "begin_message"%string) (a_begin a) ++ msg (has "end_message"%string) (a_end a).
Definition hitsb (L : list text) (ns : list string) : bool := existsb (fun n => existsb (text_eqb (lit n)) L) ns.
Definition not_afterb (o : option event) (e : event) : bool := match o with Some b => Nat.leb (e_id b) (e_id e) | None => true end.
Definition in_histb (e : event) (w : world) : bool := existsb (fun h => match h with HEvent x => Nat.eqb (e_id x) (e_id e) | _ => false end) (w_hist w).
Fixpoint laters (cfg : config) (w : world) (os : list op) (e : event) : list op :=
  match os with [] => [] | o :: os' => if in_histb e w then os else laters cfg (fst (step cfg o w)) os' e end.
Definition is_enter (r : nat) (o : op) : bool := match o with OpEnter q => Nat.eqb q r | _ => false end.
Definition line_okb (cfg : config) (w : world) (os : list op) (t : text) (e : event) (a : action) : bool :=
  let L := all_names t e a in
  let ops := laters cfg w os e in
  let ws := flat_map (writes (e_act e)) ops in
  implb (hitsb L begin_fields) (not_afterb (a_begin a) e) && implb (hitsb L end_fields) (not_afterb (a_end a) e) &&
  implb (hitsb L exc_fields) (forallb (fun x => Nat.leb (e_id x) (e_id e)) (a_excs a)) &&
  implb (hitsb L data_fields) (match ws with [] => true | _ => false end) &&
  negb (existsb (fun p => existsb (text_eqb (lit (fst p))) L) ws) &&
  implb (hitsb L ["status_char"]%string && (kind_eqb (e_kind e) KEnd || hitsb (names_in t) ["end_message"]%string)) (negb (existsb (is_enter (e_act e)) ops)) &&
  negb (hitsb (skipn (length (names_in t)) L) message_fields).
Lemma text_in n L : existsb (text_eqb n) L = true <-> In n L.
Proof.
  rewrite existsb_exists. split; [intros (x & H & E); apply text_eqb_iff in E; congruence|]. intro H. exists n. split; [exact H|apply text_eqb_iff; reflexivity].
Qed.
Lemma has_in s (N : list text) : In (lit s) N -> existsb (text_eqb (lit s)) N = true.
Proof. apply text_in. Qed.
Lemma shown_names t e a x n : msg_shown t e a x -> In n (names_in (lit (e_msg x))) -> In n (skipn (length (names_in t)) (all_names t e a)).
Proof.
  intros H Hn. unfold all_names. rewrite skipn_app, skipn_all, Nat.sub_diag. cbn [app skipn]. apply in_app_iff. destruct H as [[H|H]|b H Hb|b H Hb].
  - left. rewrite (has_in _ _ H). exact Hn.
  - left. rewrite (has_in _ _ H), orb_true_r. exact Hn.
  - right. apply in_app_iff. left. rewrite (has_in _ _ H), Hb. exact Hn.
  - right. apply in_app_iff. right. rewrite (has_in _ _ H), Hb. exact Hn.
Qed.
Lemma line_names t e a n : in_line t e a n -> In n (all_names t e a).
Proof.
  intros [n' H|x n' H Hn]; [unfold all_names; apply in_app_iff; left; exact H|].
  rewrite <- (firstn_skipn (length (names_in t)) (all_names t e a)). apply in_app_iff. right. eapply shown_names; eauto.
Qed.
Lemma hits_b t e a ns : shows_any t e a ns -> hitsb (all_names t e a) ns = true.
Proof. intros (n & H1 & H2). unfold hitsb. apply existsb_exists. exists n. split; [exact H1|]. apply text_in, line_names, H2. Qed.
Lemma laters_in cfg os : forall w e o, later cfg w os e o -> In o (laters cfg w os e).
Proof.
  induction os as [|o' os IH]; intros w e o (p & p' & E & He & Ho).
  - destruct p; [|discriminate]. destruct p'; [destruct Ho|discriminate].
  - cbn [laters]. destruct p as [|o1 p].
    + cbn [run_ops app] in *. subst p'. assert (Hb : in_histb e w = true); [|rewrite Hb; exact Ho].
      apply existsb_exists. exists (HEvent e). split; [exact He|apply Nat.eqb_refl].
    + injection E as -> E. destruct (in_histb e w); [right; rewrite E; apply in_app_iff; right; exact Ho|].
      apply IH. exists p, p'. split; [exact E|]. split; [exact He|exact Ho].
Qed.
Lemma line_ok_b cfg w os t e a : line_okb cfg w os t e a = true -> line_ok cfg w os t e a.
Proof.
  unfold line_okb. rewrite !andb_true_iff. intros ((((((H1 & H2) & H3) & H4) & H5) & H6) & H7).
  assert (HW : forall o p, later cfg w os e o -> In p (writes (e_act e) o) -> In p (flat_map (writes (e_act e)) (laters cfg w os e))).
  { intros o p Hl Hp. apply in_flat_map. exists o. split; [apply laters_in, Hl|exact Hp]. }
  constructor.
  - intros H b Eb. rewrite (hits_b _ _ _ _ H), Eb in H1. apply Nat.leb_le. exact H1.
  - intros H b Eb. rewrite (hits_b _ _ _ _ H), Eb in H2. apply Nat.leb_le. exact H2.
  - intros H x Hx. rewrite (hits_b _ _ _ _ H) in H3. cbn [implb] in H3. rewrite forallb_forall in H3. apply Nat.leb_le, H3, Hx.
  - intros H o Hl. rewrite (hits_b _ _ _ _ H) in H4. cbn [implb] in H4. destruct (writes (e_act e) o) as [|p ps] eqn:E; [reflexivity|]. exfalso.
    specialize (HW o p Hl). rewrite E in HW. specialize (HW (or_introl eq_refl)). destruct (flat_map _ (laters _ _ _ _)); [destruct HW|discriminate].
  - intros o nm v Hl Hw Hi. apply negb_true_iff in H5. assert (X : existsb (fun p => existsb (text_eqb (lit (fst p))) (all_names t e a)) (flat_map (writes (e_act e)) (laters cfg w os e)) = true); [|congruence].
    apply existsb_exists. exists (nm, v). split; [eapply HW; eauto|]. apply text_in, line_names, Hi.
  - intros H K Hl. rewrite (hits_b _ _ _ _ H) in H6. cbn [andb] in H6.
    assert (X : kind_eqb (e_kind e) KEnd || hitsb (names_in t) ["end_message"]%string = true).
    { destruct K as [->|K]; [reflexivity|]. apply orb_true_iff. right. unfold hitsb. cbn [existsb]. rewrite (has_in _ _ K). reflexivity. }
    rewrite X in H6. cbn [implb] in H6. apply negb_true_iff in H6. assert (Y : existsb (is_enter (e_act e)) (laters cfg w os e) = true); [|congruence].
    apply existsb_exists. exists (OpEnter (e_act e)). split; [apply laters_in, Hl|apply Nat.eqb_refl].
  - intros x m Hx Hm Hn. apply negb_true_iff in H7. assert (X : hitsb (skipn (length (names_in t)) (all_names t e a)) message_fields = true); [|congruence].
    unfold hitsb. apply existsb_exists. exists m. split; [exact Hm|]. apply text_in. eapply shown_names; eauto.
Qed.
Definition lines_okb (cfg : config) (w : world) (os : list op) (tpl : kind -> text) (l s : nat) : bool :=
  let wF := run_ops cfg os w in
  forallb (fun p => match nth_error (w_acts wF) (e_act (snd p)) with Some a => line_okb cfg w os (tpl (fst p)) (snd p) a | None => true end)
    (filter plain (received l s (w_trace wF))).
Lemma lines_ok_b cfg w os tpl l s : lines_okb cfg w os tpl l s = true -> forall k e a,
  In (k, e) (received l s (w_trace (run_ops cfg os w))) -> k <> KExc -> nth_error (w_acts (run_ops cfg os w)) (e_act e) = Some a -> line_ok cfg w os (tpl k) e a.
Proof.
  unfold lines_okb. rewrite forallb_forall. intros H k e a Hi Hk Ha. specialize (H (k, e)). cbn [fst snd] in H. rewrite Ha in H.
  apply line_ok_b, H, filter_In. split; [exact Hi|destruct k; try reflexivity; congruence].
Qed.

(** The templates of playground.py, 14-15, a SensibleFilter from level info on, and actions
    with default messages; one of them has data, which its end line shows. *)
Definition env83 : fenv := mkEnv (fun _ => lit "log") (fun _ => 0%Z) (fun _ => lit "guid") (fun z => if (z =? 70)%Z then INFO else DEBUG) (fun t => t)
  (fun _ => mkCp [] [] [] 0%Z) (fun _ => ([], [], [])) (fun _ => lit "json") (fun d => lit "data of size " ++ str_of_N (N.of_nat (length d))) 99%Z 0%Z 1000 utc (fun _ => 0%Z).
Definition templates83 (k : kind) : text :=
  match k with
  | KBegin => lit "{status_char}+{import_delta_ms}ms - {begin_message}"
  | KEnd => lit "{status_char}+{import_delta_ms}ms - {duration_ms}ms - {end_message}"
  | _ => lit "{status_char} {event_message} {user}"
  end.
Definition args83 : filter_args := mkFArgs (Some (level_key INFO)) None None None None None false None None.
Definition filters83 : list sfilter := [make_filter (import_registry (fun l => l)) args83].
Definition sink83 : appender := sensible_sink env83 builtin_format (fun _ _ => None) 3 ["begin"; "warn"; "end"; "comment"]%string filters83 no_quoter templates83.
Definition setup83 : list op := [OpAddSink 0 1].
Definition calls83 : list op := [OpNew 0 70 "job" [("user", 7%Z)]%string None None; OpEnter 0; OpWarn 0 "slow" []; OpSet 0 "n" 3%Z; OpExit 0 None;
  OpNew 0 20 "low" [("verbose", 1%Z)]%string None None; OpBegin 1 None []; OpSuccess 1 (Some "done"%string) []; OpNew 0 20 "quiet" [] None None; OpBegin 2 None []].
Definition start83 : world := run_ops quiet_cfg setup83 (init (fun _ => false)).
Example C83_nonvacuous :
  all_quiet quiet_cfg /\ (forall o, In o setup83 -> is_setup o) /\ (forall o, In o calls83 -> keeps_config (CCall o)) /\
  (forall k e a, In (k, e) (received 0 1 (w_trace (run_ops quiet_cfg calls83 start83))) -> subscribed sink83 k ->
     nth_error (w_acts (run_ops quiet_cfg calls83 start83)) (e_act e) = Some a -> line_ok quiet_cfg start83 calls83 (templates83 k) e a) /\
  (forall f, In f filters83 -> exists flag, flag_filter f flag /\
     forall k e o v, In (k, e) (received 0 1 (w_trace (run_ops quiet_cfg calls83 start83))) -> subscribed sink83 k ->
     later quiet_cfg start83 calls83 e o -> ~ In (flag, v) (writes (e_act e) o)) /\
  lg_sinks (w_logs (run_ops quiet_cfg (setup83 ++ calls83) (init (fun _ => false))) 0) = [1] /\
  lg_dropped (w_logs (run_ops quiet_cfg (setup83 ++ calls83 ++ [OpFlush 0]) (init (fun _ => true))) 0) = 0 /\
  snd (run_logged quiet_cfg sink83 0 1 (setup83 ++ calls83) (init (fun _ => false))) =
    map lit ["b+0.0000ms - job beginning"; "W slow 7"; "S+2.0000ms - 2.000ms - job succeeded - (data of size 2)";
             "b+3.0000ms - low beginning"; "s+3.0000ms - 0.000ms - done"]%string /\
  snd (run_logged quiet_cfg sink83 0 1 (setup83 ++ calls83 ++ [OpFlush 0]) (init (fun _ => true))) =
  snd (run_logged quiet_cfg sink83 0 1 (setup83 ++ calls83) (init (fun _ => false))).
Proof.
  split; [exact quiet_all|]. split; [|split; [|split; [|split; [|split; [|split; [|split]]]]]]; try (vm_compute; reflexivity).
  - intros o [<-|[]]. exact I.
  - intros o H. cbn in H. repeat (destruct H as [<-|H]; [exact I|]). destruct H.
  - intros k e a Hi Hs. assert (Hk : k <> KExc) by (intros ->; exact Hs).
    apply (lines_ok_b quiet_cfg start83 calls83 templates83 0 1); [vm_compute; reflexivity|exact Hi|exact Hk].
  - intros f [<-|[]]. exists "verbose"%string. split; [exists (import_registry (fun l => l)), args83; split; [reflexivity|split; reflexivity]|].
    intros k e o v _ _ (p & p' & E & _ & Ho) Hw. assert (Hc : In o calls83) by (rewrite E; apply in_app_iff; right; exact Ho).
    unfold calls83 in Hc. cbn [In] in Hc. repeat (destruct Hc as [<-|Hc]; [unfold writes in Hw;
      try match type of Hw with context [if ?b then _ else _] => destruct b end; try destruct Hw as [[=]|[]]; try destruct Hw|]). destruct Hc.
Qed.

(** ** Letters *)
Lemma entered_iff cfg async os r a : nth_error (w_acts (run_ops cfg os (init async))) r = Some a ->
  (a_trans a = true <-> entered cfg (init async) os r).
Proof.
  intros Ha. split.
  - intros Ht.
    assert (D : forall os2 os1, (exists p q, os2 = p ++ OpEnter r :: q /\ r < length (w_acts (run_ops cfg (os1 ++ p) (init async)))) \/
      (forall p q, os2 = p ++ OpEnter r :: q -> length (w_acts (run_ops cfg (os1 ++ p) (init async))) <= r)).
    { induction os2 as [|o os2 IH]; intros os1; [right; intros [|? ?] q; discriminate|].
      assert (Do : (o = OpEnter r /\ r < length (w_acts (run_ops cfg os1 (init async)))) \/ (o = OpEnter r -> length (w_acts (run_ops cfg os1 (init async))) <= r)).
      { destruct (Nat.lt_ge_cases r (length (w_acts (run_ops cfg os1 (init async))))) as [H|H]; [|right; auto].
        destruct o; try (right; discriminate). destruct (Nat.eq_dec r0 r) as [->|Hr]; [left; split; [reflexivity|exact H]|right; congruence]. }
      destruct Do as [[-> Hl]|Do]; [left; exists [], os2; rewrite app_nil_r; split; [reflexivity|exact Hl]|].
      destruct (IH (os1 ++ [o])) as [(p & q & -> & Hl)|Hn].
      - left. exists (o :: p), q. rewrite <- app_assoc in Hl. split; [reflexivity|exact Hl].
      - right. intros [|o' p] q E; injection E as -> E; [rewrite app_nil_r; apply Do; reflexivity|].
        specialize (Hn p q E). rewrite <- app_assoc in Hn. exact Hn. }
    destruct (D os []) as [(p & q & E & Hl)|Hn]; [exists p, q; split; [exact E|exact Hl]|].
    exfalso. assert (X : a_trans a = false); [|congruence].
    refine (run_not_trans cfg r os (init async) (reach_init cfg async) _ Hn a Ha). intros b Hb. destruct r; discriminate.
  - intros (os1 & os2 & -> & Hl). rewrite run_ops_app in Ha. cbn [run_ops] in Ha.
    destruct (nth_error (w_acts (run_ops cfg os1 (init async))) r) as [b|] eqn:Eb; [|apply nth_error_None in Eb; lia].
    destruct (enter_trans cfg r _ b Eb) as (b' & E1 & E2). destruct (run_trans cfg r os2 _ b' E1 E2) as (b2 & E3 & E4).
    cbn [step] in Ha. congruence.
Qed.

(** The field status_char shows one letter for the kind of event, or for the outcome of the
    action, a capital if and only if the action was used as a context manager. *)
Theorem C83_status_char : forall cfg async os e a env fmt_nested fuel on filters k,
  let w := run_ops cfg os (init async) in
  In (HEvent e) (w_hist w) -> nth_error (w_acts w) (e_act e) = Some a -> dget String.eqb "status_char" (a_data a) = None ->
  exists c, letter (entered cfg (init async) os (e_act e)) (e_kind e) (e_status e) c /\
  ap_render (sensible_sink env builtin_format fmt_nested fuel on filters no_quoter (alone "status_char")) k (show w e) = lit c.
Proof.
  intros cfg async os e a env fnest fuel on fs k w He Ha Hd. exists (status_char e a).
  pose proof (entered_iff cfg async os (e_act e) a Ha) as HT. fold w in Ha. split.
  - unfold status_char. destruct (e_kind e) eqn:Ek; try constructor.
    assert (Hs : e_status e <> None) by (apply (reach_stat cfg w (reach_run_ops cfg os _ (reach_init cfg async)) e He Ek)).
    destruct (e_status e) as [[]|]; [..|congruence]; destruct (a_trans a) eqn:Et; cbn [end_char]; constructor;
      try (apply HT; reflexivity); intros X; apply HT in X; discriminate.
  - Local Transparent show. unfold show. Local Opaque show. rewrite Ha.
    rewrite (alone_line env builtin_format fnest fuel on fs k _ "status_char" "s" (Some false)); [|cbn; tauto|apply no_data_key, Hd].
    assert (E : getter env builtin_format fnest fuel "status_char" (e, Some a, parent_depth w (e_act e)) = gtext (lit (status_char e a))) by (destruct fuel; reflexivity).
    rewrite E. unfold gtext, builtin_format. reflexivity.
Qed.
Print Assumptions C83_status_char.
Example C83_status_char_nonvacuous :
  let w := run_ops quiet_cfg calls83 (init (fun _ => false)) in
  let ap := sensible_sink env83 builtin_format (fun _ _ => None) 3 [] [] no_quoter (alone "status_char") in
  map (fun h => match h with HEvent e => ap_render ap KEnd (show w e) | _ => [] end) (filter (fun h => match h with HEvent _ => true | _ => false end) (w_hist w)) =
    map lit ["b"; "W"; "S"; "b"; "s"; "b"]%string /\
  entered quiet_cfg (init (fun _ => false)) calls83 0 /\ ~ entered quiet_cfg (init (fun _ => false)) calls83 1.
Proof.
  split; [vm_compute; reflexivity|]. split.
  - exists (firstn 1 calls83), (skipn 2 calls83). split; [reflexivity|]. vm_compute. lia.
  - intros (p & q & E & _). assert (H : In (OpEnter 1) calls83) by (rewrite E; apply in_app_iff; right; left; reflexivity).
    unfold calls83 in H. cbn [In] in H. repeat (destruct H as [H|H]; [discriminate|]). destruct H.
Qed.

(** ** What the built-in fields do not do *)
(** The field warn_char shows its own name instead, in any line: there is no such attribute. *)
Theorem C83_warn_char_refuted : forall env fmt_named fmt_nested fuel on filters k e a d,
  dget String.eqb "warn_char" (a_data a) = None ->
  ap_render (sensible_sink env fmt_named fmt_nested fuel on filters no_quoter (alone "warn_char")) k (e, Some a, d) = lit "{warn_char}".
Proof.
  intros env fn fnest fuel on fs k e a d Hd.
  rewrite (alone_line env fn fnest fuel on fs k _ "warn_char" "s" (Some false)); [|cbn; tauto|apply no_data_key, Hd].
  assert (E : getter env fn fnest fuel "warn_char" (e, Some a, d) = GOther) by (destruct fuel; reflexivity).
  rewrite E. reflexivity.
Qed.
Print Assumptions C83_warn_char_refuted.

(** The field event_message_raw does not show the message as it was given. *)
Theorem C83_raw_refuted : exists env os e,
  let w := run_ops quiet_cfg os (init (fun _ => false)) in
  In (HEvent e) (w_hist w) /\
  ap_render (sensible_sink env builtin_format (fun _ _ => None) 3 [] [] no_quoter (alone "event_message_raw")) (e_kind e) (show w e) <> lit (e_msg e).
Proof.
  exists env83, [OpNew 0 70 "job" [] None None; OpBegin 0 (Some "pid {process_id}"%string) []].
  eexists. cbv zeta. split; [vm_compute; right; left; reflexivity|]. vm_compute. discriminate.
Qed.
Print Assumptions C83_raw_refuted.

(** Without line_ok the files differ: a begin line that shows the duration of the action. *)
Definition durations83 : appender := sensible_sink env83 builtin_format (fun _ _ => None) 3 ["begin"]%string [] no_quoter (alone "duration_ms").
Theorem C83_same_file_refuted : exists os,
  let '(ws, sync_entries) := run_logged quiet_cfg durations83 0 1 (setup83 ++ os) (init (fun _ => false)) in
  let '(wa, async_entries) := run_logged quiet_cfg durations83 0 1 (setup83 ++ os ++ [OpFlush 0]) (init (fun _ => true)) in
  In 1 (lg_sinks (w_logs ws 0)) /\ lg_dropped (w_logs wa 0) = 0 /\
  sync_entries = [lit "0.000"] /\ async_entries = [lit "1.000"].
Proof.
  exists [OpNew 0 70 "job" [] None None; OpEnter 0; OpExit 0 None].
  vm_compute. split; [left; reflexivity|]. repeat split.
Qed.
Print Assumptions C83_same_file_refuted.
