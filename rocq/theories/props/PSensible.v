(** Properties of filters, the sensible sink and the syslog emitter: C52-C54. *)
From Verif Require Import model.PyBase model.Levels model.Sensible spec.LevelSpec spec.SensibleSpec proof.LevelProofs.
Open Scope nat_scope.

Lemma get_level_means so custom k : get_level (registry_of so custom) k DEFAULT_LEVEL = means custom k.
Proof.
  unfold registry_of, import_registry. rewrite get_level_last. unfold means, known. rewrite get_level_last. unfold get_level. cbn [empty_registry rg_map dget].
  unfold last_registered. rewrite (app_assoc _ _ custom), (rev_app_distr _ custom), (find_app _ (rev custom)). destruct (find _ (rev custom)); reflexivity.
Qed.
Lemma true_key_truthy k : true_key k -> truthy (Some k) = true.
Proof.
  intros [H1 H2]. destruct k as [s|z|n]; cbn; auto.
  - destruct (String.eqb_spec s ""); auto. subst. contradiction.
  - destruct (Z.eqb_spec z 0); auto. subst. contradiction.
Qed.
Lemma level_or_max_base so custom s : valid s ->
  level_or_max (registry_of so custom) (match s with At k => Some k | _ => None end) = base_threshold custom s.
Proof.
  intros V. destruct s as [| |k]; unfold level_or_max, base_threshold; try apply get_level_means. rewrite (true_key_truthy _ V). apply get_level_means.
Qed.
Lemma kw_level_threshold so custom b s : valid b -> valid s ->
  kw_level (registry_of so custom) (level_or_max (registry_of so custom) (match b with At k => Some k | _ => None end)) (arg s) = threshold custom b s.
Proof.
  intros Vb Vs. rewrite level_or_max_base by auto. unfold kw_level. destruct s as [| |k]; cbn [arg threshold].
  - unfold level_or_max, level_key. cbn [truthy]. apply get_level_means.
  - unfold level_or_max. apply get_level_means.
  - unfold level_or_max. cbn [valid] in Vs. rewrite (true_key_truthy _ Vs). apply get_level_means.
Qed.
Lemma verbose_iff rg s block check flag ev : sf_verbose (make_filter rg (args_of s block check flag)) ev = true <-> verbose check flag ev.
Proof.
  unfold make_filter, args_of, verbose. cbn [sf_verbose fa_verbose_check fa_verbose_flag]. destruct check as [c|]; [reflexivity|]. unfold verbose_by_flag.
  destruct (dget _ _ (sv_data ev)) as [v|].
  - split; intros H.
    + exists v. split; auto. destruct (Z.eqb_spec v 0); [discriminate|auto].
    + destruct H as (v' & H1 & H2). injection H1 as <-. destruct (Z.eqb_spec v 0); [contradiction|auto].
  - split; [discriminate | intros (v & H & _); discriminate].
Qed.

Lemma filter_decisions : forall so custom s block check flag ev,
  all_valid s -> sv_kind ev <> KComment ->
  let f := make_filter (registry_of so custom) (args_of s block check flag) in
  f_on f (sv_kind ev) ev = true <->
  (exists x, applies s ev = Some x /\ (lv_value (threshold custom (st_base s) x) <= lv_value (sv_level ev))%Z)
  \/ (verbose check flag ev /\ sv_kind ev <> KExc).
Proof.
  intros so custom s block check flag ev (V0 & V1 & V2 & V3 & V4 & V5) Hk f.
  pose proof (verbose_iff (registry_of so custom) s block check flag ev) as Hv. fold f in Hv.
  assert (K : forall x, valid x -> kw_level (registry_of so custom) (level_or_max (registry_of so custom) (fa_base (args_of s block check flag))) (arg x) = threshold custom (st_base s) x)
    by (intros; apply kw_level_threshold; auto).
  assert (F : forall x (b r : bool) (P : Prop), (r = true <-> P) -> b = lv_ge (sv_level ev) (threshold custom (st_base s) x) -> r = (if b then true else if sf_verbose f ev then true else false) ->
    (r = true <-> (exists y, Some x = Some y /\ (lv_value (threshold custom (st_base s) y) <= lv_value (sv_level ev))%Z) \/ verbose check flag ev)).
  { intros x b r P _ Eb Er. rewrite Er. clear Er r P. destruct b; symmetry in Eb.
    - apply ge_value in Eb. split; auto. intros _. left. exists x. split; auto. lia.
    - split.
      + intros H. right. apply Hv. destruct (sf_verbose f ev); auto.
      + intros [(y & E & H)|H]; [|apply Hv in H; rewrite H; auto]. injection E as <-. assert (G : lv_ge (sv_level ev) (threshold custom (st_base s) x) = true) by (apply ge_value; lia). congruence. }
  unfold f_on, applies. destruct (sv_kind ev) eqn:Ek; try contradiction.
  - assert (E : sf_begin f = threshold custom (st_base s) (st_begin s)) by (apply K; auto). unfold f_on_begin. rewrite E.
    eapply iff_trans; [eapply (F (st_begin s)); [reflexivity | reflexivity | reflexivity]|]. split; (intros [H|H]; [left; exact H | right]); [split; [auto|discriminate] | tauto].
  - assert (E : sf_warn f = threshold custom (st_base s) (st_warn s)) by (apply K; auto). unfold f_on_warn. rewrite E.
    eapply iff_trans; [eapply (F (st_warn s)); [reflexivity | reflexivity | reflexivity]|]. split; (intros [H|H]; [left; exact H | right]); [split; [auto|discriminate] | tauto].
  - assert (E1 : sf_success f = threshold custom (st_base s) (st_success s)) by (apply K; auto).
    assert (E2 : sf_failure f = threshold custom (st_base s) (st_failure s)) by (apply K; auto).
    assert (E3 : sf_exception f = threshold custom (st_base s) (st_exception s)) by (apply K; auto).
    unfold f_on_end. rewrite E1, E2, E3. destruct (sv_status ev) as [[| |]|].
    + eapply iff_trans; [eapply (F (st_success s) (lv_ge (sv_level ev) (threshold custom (st_base s) (st_success s)))); [reflexivity | reflexivity | destruct (lv_ge _ _); reflexivity]|].
      split; (intros [H|H]; [left; exact H | right]); [split; [auto|discriminate] | tauto].
    + eapply iff_trans; [eapply (F (st_failure s) (lv_ge (sv_level ev) (threshold custom (st_base s) (st_failure s)))); [reflexivity | reflexivity | destruct (lv_ge _ _); reflexivity]|].
      split; (intros [H|H]; [left; exact H | right]); [split; [auto|discriminate] | tauto].
    + eapply iff_trans; [eapply (F (st_exception s) (lv_ge (sv_level ev) (threshold custom (st_base s) (st_exception s)))); [reflexivity | reflexivity | destruct (lv_ge _ _); reflexivity]|].
      split; (intros [H|H]; [left; exact H | right]); [split; [auto|discriminate] | tauto].
    + split.
      * intros H. right. split; [apply Hv; destruct (sf_verbose f ev); auto | discriminate].
      * intros [(x & H & _)|[H _]]; [discriminate | apply Hv in H; rewrite H; auto].
  - split; [discriminate|]. intros [(x & H & _)|[_ H]]; [discriminate | contradiction].
Qed.
Lemma new_filter_eq rg a extra f : new_filter rg a extra = Some f -> f = make_filter rg a.
Proof.
  unfold new_filter. destruct (fa_verbose_check a), (fa_verbose_flag a), extra; intros H; inversion H; reflexivity.
Qed.
(** C53.  [custom]: levels registered by the application (in any number); [extra]:
    unknown keywords given to the constructor. *)
Theorem C53_constructor : forall so custom s block check flag extra,
  new_filter (registry_of so custom) (args_of s block check flag) extra = None <->
  extra <> [] \/ (check <> None /\ flag <> None).
Proof.
  intros. unfold new_filter, args_of. cbn [fa_verbose_check fa_verbose_flag]. destruct check, flag, extra; split; intros H; try discriminate H; try reflexivity;
    try (left; discriminate); try (right; split; discriminate); destruct H as [H|[H1 H2]]; congruence.
Qed.
Print Assumptions C53_constructor.
Theorem C53_filter_decisions : forall so custom s block check flag extra f ev,
  all_valid s -> sv_kind ev <> KComment ->
  new_filter (registry_of so custom) (args_of s block check flag) extra = Some f ->
  f_on f (sv_kind ev) ev = true <->
  (exists x, applies s ev = Some x /\ (lv_value (threshold custom (st_base s) x) <= lv_value (sv_level ev))%Z)
  \/ (verbose check flag ev /\ sv_kind ev <> KExc).
Proof. intros so custom s block check flag extra f ev V K Hf. rewrite (new_filter_eq _ _ _ _ Hf). apply filter_decisions; auto. Qed.
Print Assumptions C53_filter_decisions.
Theorem C53_comments : forall rg s block check flag extra f ev,
  new_filter rg (args_of s block check flag) extra = Some f ->
  (f_on f KComment ev = true <-> block = false).
Proof. intros rg s block check flag extra f ev Hf. rewrite (new_filter_eq _ _ _ _ Hf). cbn. destruct block; cbn; split; congruence. Qed.
Print Assumptions C53_comments.
(** Raising the action's level never loses an event ... *)
Theorem C53_monotone_in_level : forall so custom s block check flag extra f ev l,
  all_valid s -> sv_kind ev <> KComment ->
  new_filter (registry_of so custom) (args_of s block check flag) extra = Some f ->
  let ev' := mkSev (sv_kind ev) l (sv_status ev) (sv_data ev) in
  (lv_value (sv_level ev) <= lv_value l)%Z -> (verbose check flag ev -> verbose check flag ev') ->
  f_on f (sv_kind ev) ev = true -> f_on f (sv_kind ev') ev' = true.
Proof.
  intros so custom s block check flag extra f ev l V Hk Hf ev' Hl Hv H. apply (C53_filter_decisions so custom s block check flag extra f ev' V Hk Hf). apply (C53_filter_decisions so custom s block check flag extra f ev V Hk Hf) in H.
  destruct H as [(x & H1 & H2)|[H1 H2]]; [left; exists x; cbn; split; [exact H1 | lia] | right; split; auto].
Qed.
Print Assumptions C53_monotone_in_level.
(** ... and raising the threshold that applies never gains one. *)
Theorem C53_antitone_in_threshold : forall so custom s s' block check flag extra extra' f f' ev,
  all_valid s -> all_valid s' -> sv_kind ev <> KComment ->
  (forall x', applies s' ev = Some x' -> exists x, applies s ev = Some x /\
    (lv_value (threshold custom (st_base s) x) <= lv_value (threshold custom (st_base s') x'))%Z) ->
  new_filter (registry_of so custom) (args_of s' block check flag) extra' = Some f' ->
  new_filter (registry_of so custom) (args_of s block check flag) extra = Some f ->
  f_on f' (sv_kind ev) ev = true -> f_on f (sv_kind ev) ev = true.
Proof.
  intros so custom s s' block check flag extra extra' f f' ev V V' Hk Hx Hf' Hf H. apply (C53_filter_decisions so custom s block check flag extra f ev V Hk Hf). apply (C53_filter_decisions so custom s' block check flag extra' f' ev V' Hk Hf') in H.
  destruct H as [(x' & H1 & H2)|H]; auto. destruct (Hx x' H1) as (x & Hx1 & Hx2). left. exists x. split; auto. lia.
Qed.
Print Assumptions C53_antitone_in_threshold.
(** A filter made without levels lets no built-in level through ... *)
Theorem C53_default_filter_blocks : forall so block flag f ev,
  In (sv_level ev) BUILTIN_LEVELS -> sv_kind ev <> KComment -> ~ verbose None flag ev ->
  new_filter (registry_of so []) (args_of (mkSettings Absent Absent Absent Absent Absent Absent) block None flag) [] = Some f ->
  f_on f (sv_kind ev) ev = false.
Proof.
  intros so block flag f ev Hl Hk Hv Hf. apply not_true_is_false. intros H.
  apply (C53_filter_decisions so [] (mkSettings Absent Absent Absent Absent Absent Absent) block None flag [] f ev ltac:(repeat split) Hk Hf) in H.
  destruct H as [(x & H1 & H2)|[H _]]; auto.
  assert (E : x = Absent) by (unfold applies in H1; cbn in H1; destruct (sv_kind ev), (sv_status ev) as [[]|]; congruence). subst x.
  change (lv_value (threshold [] (st_base (mkSettings Absent Absent Absent Absent Absent Absent)) Absent)) with 100%Z in H2.
  destruct Hl as [E|[E|[E|[]]]]; rewrite <- E in H2; cbn in H2; lia.
Qed.
Print Assumptions C53_default_filter_blocks.
(** ... and a misspelt level name silently means DEBUG: every begin event at DEBUG
    or above passes. *)
Theorem C53_unknown_level_is_debug : forall so custom k f ev,
  last_registered k (known custom) = None -> true_key k -> sv_kind ev = KBegin ->
  new_filter (registry_of so custom) (args_of (mkSettings (At k) Absent Absent Absent Absent Absent) false None None) [] = Some f ->
  (lv_value (means custom (KLev "debug")) <= lv_value (sv_level ev))%Z -> f_on f KBegin ev = true.
Proof.
  intros so custom k f ev H V Hk Hf Hl. rewrite <- Hk. eapply C53_filter_decisions; [| |exact Hf|].
  - repeat split; try exact I; apply V.
  - congruence.
  - left. exists Absent. unfold applies. rewrite Hk. split; [reflexivity|]. cbn [threshold base_threshold st_base]. unfold means at 2. rewrite H. exact Hl.
Qed.
Print Assumptions C53_unknown_level_is_debug.
Example C53_example : exists f,
  new_filter (registry_of (fun l => l) [Level "notice" 80]) (args_of (mkSettings (At (KStr "info")) Off (At (KStr "NOTICE")) Absent (At (KNum 20)) Absent) false None None) [] = Some f /\
  let ev k l st d := mkSev k l st d in
  f_on f KBegin (ev KBegin CRITICAL None []) = false /\ f_on f KBegin (ev KBegin DEBUG None [("verbose"%string, 1%Z)]) = true /\
  f_on f KWarn (ev KWarn INFO None []) = false /\ f_on f KWarn (ev KWarn (Level "notice" 80) None []) = true /\
  f_on f KEnd (ev KEnd INFO (Some Success) []) = true /\ f_on f KEnd (ev KEnd DEBUG (Some Success) []) = false /\
  f_on f KEnd (ev KEnd DEBUG (Some Failure) []) = true /\ f_on f KEnd (ev KEnd DEBUG (Some Exception_) []) = false.
Proof. eexists. split; [vm_compute; reflexivity|]. repeat split; vm_compute; reflexivity. Qed.

(** C54.  Filters, formatter and emitter are arbitrary objects. *)
Lemma ask_all {E} (fs : list (kind -> E -> option bool)) k ev :
  (exists bs, ask_filters fs k ev = Some bs /\ forallb (fun b => b) bs = true) <-> forall f, In f fs -> f k ev = Some true.
Proof.
  induction fs as [|f fs IH]; cbn [ask_filters].
  - split; [intros _ f []|]. intros _. exists []. auto.
  - split.
    + intros (bs & H1 & H2) g [<-|Hg].
      * destruct (f k ev) as [b|]; [|discriminate]. destruct (ask_filters fs k ev) as [bs'|]; [|discriminate]. injection H1 as <-. cbn in H2. apply andb_true_iff in H2. destruct H2. congruence.
      * destruct (f k ev) as [b|]; [|discriminate]. destruct (ask_filters fs k ev) as [bs'|]; [|discriminate]. injection H1 as <-. cbn in H2. apply andb_true_iff in H2.
        destruct IH as [IH _]. apply IH; auto. exists bs'. tauto.
    + intros H. rewrite (H f) by (cbn; auto). destruct IH as [_ IH]. destruct IH as (bs & E1 & E2); [intros g Hg; apply H; cbn; auto|]. rewrite E1. exists (true :: bs). auto.
Qed.
Theorem C54_unknown_subscription_rejected : forall E T on fs fmt emit,
  (exists s, @make_sink E T on fs fmt emit = Some s) <-> forall e, In e on -> In e EVENTS.
Proof.
  intros. unfold make_sink. destruct (existsb _ on) eqn:H.
  - split; [intros [s Hs]; discriminate|]. intros A. apply existsb_exists in H. destruct H as (e & H1 & H2). specialize (A e H1). exfalso.
    assert (X : existsb (String.eqb e) EVENTS = true) by (apply existsb_exists; exists e; split; [auto | apply String.eqb_refl]). rewrite X in H2. discriminate.
  - split; [|intros _; eauto]. intros _ e He. destruct (existsb (String.eqb e) EVENTS) eqn:X.
    + apply existsb_exists in X. destruct X as (y & Hy & Eq). apply String.eqb_eq in Eq. congruence.
    + exfalso. assert (Y : existsb (fun e => negb (existsb (String.eqb e) EVENTS)) on = true) by (apply existsb_exists; exists e; rewrite X; auto). congruence.
Qed.
Print Assumptions C54_unknown_subscription_rejected.
(** For one event: exactly one entry is emitted, with the text of the formatter, if
    the kind is subscribed (and not 'exception'), every filter accepts and the
    formatter returns; otherwise nothing is emitted. *)
Theorem C54_emits_exactly : forall E T on fs fmt emit s k (ev : E) out,
  @make_sink E T on fs fmt emit = Some s ->
  ss_run s [(k, ev)] = out ->
  (forall t, In (kind_name k) on -> k <> KExc -> (forall f, In f fs -> f k ev = Some true) -> fmt k ev = Some t -> out = [(k, ev, t)]) /\
  (out <> [] -> In (kind_name k) on /\ k <> KExc /\ (forall f, In f fs -> f k ev = Some true) /\ exists t, fmt k ev = Some t /\ out = [(k, ev, t)]).
Proof.
  intros E T on fs fmt emit s k ev out Hm Ho. unfold make_sink in Hm. destruct (existsb _ on); [discriminate|]. injection Hm as <-.
  cbn [ss_run] in Ho. rewrite app_nil_r in Ho.
  assert (Hh : ss_has (mkSink on fs fmt emit) k = true <-> In (kind_name k) on /\ k <> KExc).
  { assert (X : forall n, existsb (String.eqb n) on = true <-> In n on).
    { intros n. rewrite existsb_exists. split; [intros (y & Hy & Eq); apply String.eqb_eq in Eq; congruence | intros; exists n; split; [auto | apply String.eqb_refl]]. }
    destruct k; cbn [ss_has ss_events kind_name]; rewrite ?X; (split; [intros H; first [discriminate H | split; [exact H | discriminate]] | intros [H1 H2]; first [exact H1 | contradiction]]). }
  assert (Hon : (exists t, fst (ss_on (mkSink on fs fmt emit) k ev) = [(k, ev, t)] /\ fmt k ev = Some t /\ (forall f, In f fs -> f k ev = Some true)) \/
    (fst (ss_on (mkSink on fs fmt emit) k ev) = [] /\ ~ ((forall f, In f fs -> f k ev = Some true) /\ fmt k ev <> None))).
  { unfold ss_on. cbn [ss_filters ss_formatter]. pose proof (ask_all fs k ev) as A. destruct (ask_filters fs k ev) as [bs|] eqn:Ea.
    - destruct ((match fs with [] => false | _ => true end) && negb (forallb (fun b => b) bs)) eqn:Eb.
      + right. split; auto. intros [H _]. apply A in H. destruct H as (bs' & H1 & H2). injection H1 as <-. rewrite H2, andb_false_r in Eb. discriminate.
      + assert (F : forall f, In f fs -> f k ev = Some true).
        { destruct fs as [|f fs']; [intros f []|]. cbn [andb] in Eb. apply A. exists bs. split; auto. destruct (forallb (fun b => b) bs); [auto|discriminate]. }
        destruct (fmt k ev) as [t|]; [left; exists t; auto | right; split; auto; tauto].
    - right. split; auto. intros [H _]. apply A in H. destruct H as (bs & H & _). discriminate. }
  destruct (ss_has (mkSink on fs fmt emit) k) eqn:Eh.
  - destruct Hh as [Hh _]. specialize (Hh eq_refl). destruct Hon as [(t & H1 & H2 & H3)|[H1 H2]].
    + split; [intros t' _ _ _ Ht; congruence|]. intros _. repeat split; try tauto. exists t. split; [auto|congruence].
    + split; [|intros N; congruence]. intros t _ _ Hf Ht. exfalso. apply H2. split; auto. congruence.
  - split; [|intros N; congruence]. intros t H1 H2. exfalso. destruct Hh as [_ Hh]. specialize (Hh (conj H1 H2)). discriminate.
Qed.
Print Assumptions C54_emits_exactly.
(** Over a sequence of events the emissions are those of the single events, in
    order: later events are not influenced by earlier ones. *)
Theorem C54_sequence : forall E T (s : ssink E T) evs1 evs2, ss_run s (evs1 ++ evs2) = ss_run s evs1 ++ ss_run s evs2.
Proof. intros. induction evs1 as [|[k ev] r IH]; cbn [ss_run app]; auto. rewrite IH, app_assoc. reflexivity. Qed.
Print Assumptions C54_sequence.
(** Subscribing to 'exception' alone is accepted and emits nothing, ever. *)
Theorem C54_exception_subscription_refuted : forall E T fs fmt emit, exists s,
  @make_sink E T ["exception"%string] fs fmt emit = Some s /\ forall evs, ss_run s evs = [].
Proof.
  intros. eexists. split; [reflexivity|]. intros evs. induction evs as [|[k ev] r IH]; cbn [ss_run]; auto. rewrite IH. destruct k; reflexivity.
Qed.
Print Assumptions C54_exception_subscription_refuted.
Example C54_example : exists s : ssink nat string,
  make_sink ["end"; "begin"]%string [(fun _ n => Some (Nat.ltb n 5)); (fun _ n => if Nat.eqb n 3 then None else Some true)] (fun k n => Some (kind_name k)) (fun _ _ _ => true) = Some s /\
  ss_run s [(KBegin, 1); (KWarn, 1); (KEnd, 7); (KEnd, 3); (KEnd, 4)] = [(KBegin, 1, "begin"%string); (KEnd, 4, "end"%string)].
Proof. eexists. split; reflexivity. Qed.

(** C52 *)
Lemma builtin_means custom l : builtins_untouched custom -> In l BUILTIN_LEVELS -> means custom (KLev (lv_name l)) = l.
Proof.
  intros Hs Hl. unfold means, known, last_registered. rewrite (app_assoc _ _ custom), (rev_app_distr _ custom), (find_app _ (rev custom)).
  assert (N : find (fun x => existsb (lkey_eqb (KLev (lv_name l))) (aliases x)) (rev custom) = None).
  { destruct (find _ (rev custom)) as [y|] eqn:Ef; auto. apply find_some in Ef. destruct Ef as [Hy Ey]. exfalso. eapply eq_true_false_abs; [exact Ey|]. clear Ey. revert y Hy. intros x Hx. apply in_rev in Hx. cbn [aliases existsb lkey_eqb]. rewrite !orb_false_r. cbn [orb]. apply String.eqb_neq. intros E. apply (Hs x Hx). rewrite <- E.
    destruct Hl as [<-|[<-|[<-|[]]]]; cbn; auto. }
  rewrite N. destruct Hl as [<-|[<-|[<-|[]]]]; reflexivity.
Qed.
Lemma syslog_builtin so custom l k st d rank : builtins_untouched custom -> nth_error BUILTIN_LEVELS rank = Some l ->
  syslog_on (registry_of so custom) default_priority_map (mkSev k l st d) =
  match severity (k, st) with Some sev => Some (7 - Z.of_nat rank - Z.of_nat sev)%Z | None => None end.
Proof.
  intros Hs Hl. unfold syslog_on, syslog_priority. cbn [sv_kind sv_level sv_status]. rewrite !get_level_means. change (level_key l) with (KLev (lv_name l)).
  rewrite !builtin_means by (auto; eapply nth_error_In; eauto).
  destruct rank as [|[|[|n]]]; cbn in Hl; [injection Hl as <-..|destruct n; discriminate]; destruct k; try destruct st as [[]|]; reflexivity.
Qed.
(** A priority (7 = debug ... 3 = error) is defined for every begin, warn and end
    event at a built-in level, whatever other levels were registered; it is exactly
    one step more severe per level and per outcome. *)
Theorem C52_priorities : forall so custom l rank k st d,
  builtins_untouched custom -> nth_error [DEBUG; INFO; CRITICAL] rank = Some l ->
  syslog_on (registry_of so custom) default_priority_map (mkSev k l st d) =
  match severity (k, st) with Some sev => Some (7 - Z.of_nat rank - Z.of_nat sev)%Z | None => None end.
Proof. intros. apply syslog_builtin; auto. Qed.
Print Assumptions C52_priorities.
(** Hence at least as severe (numerically at most) for a higher level and a worse
    outcome. *)
Theorem C52_graded : forall so custom l1 l2 k1 st1 k2 st2 s1 s2 d1 d2 p1 p2,
  builtins_untouched custom -> In l1 BUILTIN_LEVELS -> In l2 BUILTIN_LEVELS ->
  (lv_value l1 <= lv_value l2)%Z -> severity (k1, st1) = Some s1 -> severity (k2, st2) = Some s2 -> s1 <= s2 ->
  syslog_on (registry_of so custom) default_priority_map (mkSev k1 l1 st1 d1) = Some p1 ->
  syslog_on (registry_of so custom) default_priority_map (mkSev k2 l2 st2 d2) = Some p2 -> (p2 <= p1)%Z.
Proof.
  intros so custom l1 l2 k1 st1 k2 st2 s1 s2 d1 d2 p1 p2 Hs H1 H2 Hl E1 E2 Hle P1 P2.
  apply In_nth_error in H1. apply In_nth_error in H2. destruct H1 as [r1 H1], H2 as [r2 H2].
  rewrite (syslog_builtin so custom l1 k1 st1 d1 r1 Hs H1), E1 in P1. rewrite (syslog_builtin so custom l2 k2 st2 d2 r2 Hs H2), E2 in P2. assert (Q1 : p1 = (7 - Z.of_nat r1 - Z.of_nat s1)%Z) by congruence. assert (Q2 : p2 = (7 - Z.of_nat r2 - Z.of_nat s2)%Z) by congruence. clear P1 P2.
  assert (r1 <= r2); [|lia].
  destruct r1 as [|[|[|r1]]]; cbn in H1; [injection H1 as <-..|destruct r1; discriminate]; destruct r2 as [|[|[|r2]]]; cbn in H2; try (injection H2 as <-); try (destruct r2; discriminate); unfold DEBUG, INFO, CRITICAL, Level in Hl; cbn [lv_value] in Hl; try lia.
Qed.
Print Assumptions C52_graded.
(** An event at any other registered level raises KeyError ... *)
Theorem C52_custom_level_key_error : forall so custom l k st d,
  builtins_untouched custom -> In l custom ->
  syslog_on (registry_of so custom) default_priority_map (mkSev k l st d) = None.
Proof.
  intros so custom l k st d Hs Hl.
  assert (E : lv_name (means custom (KLev (lv_name l))) = lv_name l).
  { unfold means, last_registered. destruct (find _ (rev (known custom))) as [y|] eqn:Ef.
    - apply find_some in Ef. destruct Ef as [_ Ey]. cbn [aliases existsb lkey_eqb] in Ey. rewrite !orb_false_r in Ey. cbn [orb] in Ey. apply String.eqb_eq in Ey. auto.
    - exfalso. pose proof (find_none _ _ Ef l) as N. cbn [aliases existsb lkey_eqb] in N. rewrite String.eqb_refl, !orb_true_l, ?orb_true_r in N. assert (Hin : In l (rev (known custom))) by (apply -> in_rev; unfold known; apply in_or_app; right; apply in_or_app; auto). specialize (N Hin). discriminate. }
  unfold syslog_on, syslog_priority. cbn [sv_kind sv_level sv_status]. rewrite !get_level_means. change (level_key l) with (KLev (lv_name l)). unfold level_key. rewrite !E.
  pose proof (Hs l Hl) as N. assert (X : dget lkey_eqb (KLev (lv_name l)) default_priority_map = None).
  { unfold default_priority_map, level_key, DEBUG, INFO, CRITICAL. cbn [dget lkey_eqb Level lv_name]. 
    destruct (String.eqb_spec (lv_name l) (lower "debug")) as [e|_]; [exfalso; apply N; rewrite e; cbn; auto|].
    destruct (String.eqb_spec (lv_name l) (lower "info")) as [e|_]; [exfalso; apply N; rewrite e; cbn; auto|].
    destruct (String.eqb_spec (lv_name l) (lower "critical")) as [e|_]; [exfalso; apply N; rewrite e; cbn; auto|]. reflexivity. }
  rewrite !X. destruct k; try destruct st; reflexivity.
Qed.
Print Assumptions C52_custom_level_key_error.
(** ... while one at a level never registered is reported like DEBUG. *)
Theorem C52_unregistered_level_like_debug : forall so custom l k st d,
  builtins_untouched custom -> ~ In (lv_name l) (map lv_name (known custom)) ->
  syslog_on (registry_of so custom) default_priority_map (mkSev k l st d) =
  syslog_on (registry_of so custom) default_priority_map (mkSev k DEBUG st d).
Proof.
  intros so custom l k st d Hs Hn. rewrite (syslog_builtin so custom DEBUG k st d 0 Hs eq_refl).
  assert (E : means custom (KLev (lv_name l)) = DEBUG).
  { unfold means, last_registered. destruct (find _ (rev (known custom))) as [y|] eqn:Ef; auto. exfalso. apply find_some in Ef. destruct Ef as [Hy Ey]. apply in_rev in Hy.
    cbn [aliases existsb lkey_eqb] in Ey. rewrite !orb_false_r in Ey. cbn [orb] in Ey. apply String.eqb_eq in Ey. apply Hn. rewrite Ey. apply in_map. auto. }
  unfold syslog_on, syslog_priority. cbn [sv_kind sv_level sv_status]. rewrite !get_level_means. change (level_key l) with (KLev (lv_name l)). rewrite !E.
  destruct k; try destruct st as [[]|]; reflexivity.
Qed.
Print Assumptions C52_unregistered_level_like_debug.
Example C52_example : builtins_untouched [Level "notice" 80] /\
  let rg := registry_of (fun l => l) [Level "notice" 80] in
  syslog_on rg default_priority_map (mkSev KEnd CRITICAL (Some Exception_) []) = Some 3%Z /\
  syslog_on rg default_priority_map (mkSev KWarn INFO None []) = Some 5%Z /\
  syslog_on rg default_priority_map (mkSev KComment INFO None []) = None /\
  syslog_on rg default_priority_map (mkSev KBegin (Level "notice" 80) None []) = None /\
  syslog_on rg default_priority_map (mkSev KBegin (Level "loud" 95) None []) = Some 7%Z.
Proof.
  split; [intros l [<-|[]] H; cbn in H; intuition discriminate|]. repeat split; vm_compute; reflexivity.
Qed.
