(** C13, C14, C60, C68, C69, C76: the context. *)
From Verif Require Import model.PyBase model.Core model.Context spec.CoreSpec spec.CoreExamples spec.ContextSpec
  proof.CoreLib proof.CoreTrans proof.CoreWith proof.CoreDispatch proof.ContextProofs.

(** A context after the history [os], started in any process. *)
Definition after (cfg : config) (os : list cop) (sig : handler) (n : nat) (async : nat -> bool) : cstate :=
  crun cfg os (c_init sig n (init async)).

Lemma after_good cfg os sig n async : good cfg (c_w (after cfg os sig n async)).
Proof. apply crun_good, init_good. Qed.
Lemma after_sorted cfg os sig n async : sorted_loggers (after cfg os sig n async) = registered [] os.
Proof. apply reg_sorted. apply crun_registered, init_reg. Qed.

(** C13: every registered logger is flushed, in order of registration, one failure
    does not stop the others, and the call itself does not raise. *)
Theorem C13_flush_each :
  forall cfg os sig n async, ordinary cfg ->
  let c := after cfg os sig n async in
  snd (ctx_flush cfg c) = Ok tt /\
  flushed_each cfg (registered [] os) (c_w c) (c_w (fst (ctx_flush cfg c))).
Proof.
  intros cfg os sig n async HO c. pose proof (flush_list_each cfg (registered [] os) HO (c_w c) (after_good cfg os sig n async)) as [H1 H2].
  unfold ctx_flush, c. rewrite after_sorted. fold c. destruct (flush_list cfg (registered [] os) (c_w c)). exact (conj H1 H2).
Qed.
Print Assumptions C13_flush_each.

(** A logger whose own hooks do not raise has its whole queue delivered, in order and
    to all its sinks, whatever the other loggers' hooks do. *)
Theorem C13_isolation :
  forall cfg os sig n async l, ordinary cfg -> logger_quiet cfg l -> In l (registered [] os) ->
  let c := after cfg os sig n async in
  let w' := c_w (fst (ctx_flush cfg c)) in
  lg_queue (w_logs w' l) = [] /\
  exists new, w_trace w' = w_trace (c_w c) ++ new /\
    by_logger l new = everyone cfg (c_w c) l (lg_queue (w_logs (c_w c) l)).
Proof.
  intros cfg os sig n async l HO HQ Hin c w'.
  pose proof (flush_list_quiet cfg (registered [] os) l HO HQ Hin (registered_nodup os [] ltac:(constructor)) (c_w c) (after_good cfg os sig n async)) as H.
  pose proof (ctx_flush_frame cfg c) as (_ & _ & _ & _ & _ & E & _). unfold w'. rewrite E. unfold c at 1 3. rewrite after_sorted. exact H.
Qed.
Print Assumptions C13_isolation.

(** Logger 0's sink 1 raises, logger 1's sinks do not. *)
Definition loud0_cfg (note_raises : bool) : config :=
  mkConfig Z.of_nat (fun _ _ => true)
           (fun _ l k s _ => if Nat.eqb l 0 && Nat.eqb s 1 then Some (mkExn 9 true) else None)
           (fun _ _ _ => None) (fun _ _ => if note_raises then Some boom else None) (fun _ => Ok "boom").
Definition two_loggers : list cop :=
  [CoCreate 0 (Some true); CoCreate 5 None; CoCreate 1 (Some true); CoRemove 5; CoCreate 5 None;
   CoCall (OpAddSink 0 1); CoCall (OpAddSink 1 2); CoRun (SComment 0 "a" []); CoRun (SComment 1 "b" [])].
Example C13_reached :
  ordinary (loud0_cfg false) /\ logger_quiet (loud0_cfg false) 1 /\ registered [] two_loggers = [0; 1; 5] /\
  (let c := after (loud0_cfg false) two_loggers SigDfl 3 (fun _ => false) in
   length (lg_queue (w_logs (c_w c) 0)) = 1 /\ length (lg_queue (w_logs (c_w c) 1)) = 1 /\
   snd (flush (loud0_cfg false) 0 (c_w c)) = Raise (mkExn 9 true)).
Proof.
  split; [split; [intros t l k s e x; cbn; destruct (_ && _); inversion 1; reflexivity|split; [discriminate|reflexivity]]|].
  split; [split; reflexivity|]. split; [reflexivity|]. vm_compute. auto.
Qed.

(** If the note handler raises too, later loggers are not flushed. *)
Theorem C13_note_refuted :
  exists cfg os sig n async l,
    logger_quiet cfg l /\ In l (registered [] os) /\
    (forall t l k s e x, cf_sink cfg t l k s e = Some x -> exn_ord x = true) /\ (forall t l h, cf_pre cfg t l h = None) /\
    let c := after cfg os sig n async in
    snd (ctx_flush cfg c) = Raise boom /\
    lg_queue (w_logs (c_w (fst (ctx_flush cfg c))) l) <> [].
Proof.
  exists (loud0_cfg true), two_loggers, SigDfl, 3, (fun _ => false), 1.
  split; [split; reflexivity|]. split; [vm_compute; auto|].
  split; [intros t l k s e x; cbn; destruct (_ && _); inversion 1; reflexivity|]. split; [reflexivity|].
  split; [vm_compute; reflexivity|]. vm_compute. discriminate.
Qed.
Print Assumptions C13_note_refuted.

(** C14: the loggers the context already has are made synchronous by enable_async. *)
Theorem C14_enable_refuted :
  forall cfg os sig n async main o, o_loggers o = true ->
  let c := after cfg os sig n async in
  snd (enable_async main o c) = Ok tt ->
  forall l, In l (registered [] os) -> lg_async (w_logs (c_w (fst (enable_async main o c))) l) = false.
Proof. intros cfg os sig n async main o Ho c Hr l Hin. apply enable_modes; auto. unfold c. rewrite after_sorted. exact Hin. Qed.
Print Assumptions C14_enable_refuted.

(** Loggers created after enable_async, and until disable_async, are asynchronous
    unless asked otherwise. *)
Theorem C14_created_later_partial :
  forall cfg c main o os l, snd (enable_async main o c) = Ok tt ->
  (forall m o', ~ In (CoDisable m o') os) ->
  let c' := crun cfg os (fst (enable_async main o c)) in
  lg_async (w_logs (c_w (create_logger l None c')) l) = true /\
  forall k e, k <> KExc ->
    w_trace (fst (log_event cfg l k e (c_w (create_logger l None c')))) = w_trace (c_w c').
Proof.
  intros cfg c main o os l Hr Hnd c'.
  assert (HA : c_async c' = true).
  { assert (H0 : c_async (fst (enable_async main o c)) = true).
    { unfold enable_async in *. pose proof (install_frame main (c_set_async true c)) as (_ & _ & _ & A & _). cbv zeta in A.
      destruct (o_sigterm o).
      - destruct (install_sigterm main (c_set_async true c)) as [c2 [x|e]]; [|discriminate]. destruct (o_actor o), (o_loggers o); cbn [fst]; match goal with |- context [register_exit ?x] => pose proof (register_frame x) as (_ & _ & _ & -> & _) end; exact A.
      - destruct (o_actor o), (o_loggers o); cbn [fst]; match goal with |- context [register_exit ?x] => pose proof (register_frame x) as (_ & _ & _ & -> & _) end; reflexivity. }
    unfold c'. clear c' Hr. revert H0 Hnd. generalize (fst (enable_async main o c)). induction os as [|x os IH]; intros c0 H0 Hnd; [exact H0|].
    cbn [crun]. apply IH; [|intros m o' Hin; apply (Hnd m o'); right; exact Hin].
    destruct x; cbn [cstep fst]; auto.
    - unfold create_logger, add_logger. destruct (existsb _ _); exact H0.
    - unfold add_logger. destruct (existsb _ _); exact H0.
    - unfold enable_async. pose proof (install_frame main0 (c_set_async true c0)) as (_ & _ & _ & A & _). cbv zeta in A.
      destruct (o_sigterm o0).
      + destruct (install_sigterm main0 (c_set_async true c0)) as [c2 [x|e]]; [|exact A]. destruct (o_actor o0), (o_loggers o0); cbn [fst]; match goal with |- context [register_exit ?x] => pose proof (register_frame x) as (_ & _ & _ & -> & _) end; exact A.
      + destruct (o_actor o0), (o_loggers o0); cbn [fst]; match goal with |- context [register_exit ?x] => pose proof (register_frame x) as (_ & _ & _ & -> & _) end; reflexivity.
    - destruct (Hnd main0 o0). left. reflexivity.
    - pose proof (ctx_flush_frame cfg c0) as (-> & _). exact H0.
    - destruct (c_sig c0); exact H0.
    - destruct (step cfg o0 (c_w c0)); exact H0.
    - destruct (eval cfg None s (c_w c0)); exact H0. }
  assert (HL : lg_async (w_logs (c_w (create_logger l None c')) l) = true).
  { unfold create_logger. cbn. rewrite upd_eq. exact HA. }
  split; [exact HL|]. intros k e Hk. rewrite log_event_async by auto. rewrite enqueue_T.
  unfold create_logger. cbn. unfold add_logger. destruct (existsb _ _); reflexivity.
Qed.
Print Assumptions C14_created_later_partial.

(** disable_async on the main thread: all loggers synchronous, and the queue of every
    logger whose hooks do not raise delivered and empty. *)
Theorem C14_disable_partial :
  forall cfg os sig n async o, ordinary cfg -> o_loggers o = true ->
  let c := after cfg os sig n async in
  let c' := fst (disable_async cfg true o c) in
  snd (disable_async cfg true o c) = Ok tt /\ c_async c' = false /\
  forall l, In l (registered [] os) ->
    lg_async (w_logs (c_w c') l) = false /\
    (logger_quiet cfg l -> lg_queue (w_logs (c_w c') l) = [] /\
     exists new, w_trace (c_w c') = w_trace (c_w c) ++ new /\
       by_logger l new = everyone cfg (c_w c) l (lg_queue (w_logs (c_w c) l))).
Proof.
  intros cfg os sig n async o HO Ho c c'.
  assert (Hs : sorted_loggers c = registered [] os) by apply after_sorted.
  destruct (disable_modes cfg true o c (after_good cfg os sig n async) HO Ho (or_introl eq_refl)) as (H1 & H2 & H3).
  { rewrite Hs. apply registered_nodup. constructor. }
  split; [exact H1|]. split; [exact H2|]. rewrite Hs in H3. exact H3.
Qed.
Print Assumptions C14_disable_partial.

(** A raising sink leaves the rest of its logger's queue stranded: the logger is
    synchronous and events wait in its queue. *)
Theorem C14_disable_refuted :
  exists cfg os sig n async l, ordinary cfg /\ In l (registered [] os) /\
    let c' := fst (disable_async cfg true all_opts (after cfg os sig n async)) in
    lg_async (w_logs (c_w c') l) = false /\ lg_queue (w_logs (c_w c') l) <> [].
Proof.
  exists (loud0_cfg false), (two_loggers ++ [CoRun (SComment 0 "c" [])]), SigDfl, 3, (fun _ => false), 0.
  split; [apply C13_reached|]. split; [vm_compute; auto|]. vm_compute. split; [reflexivity|discriminate].
Qed.
Print Assumptions C14_disable_refuted.

Example C14_reached :
  let c := after quiet_cfg (two_loggers ++ [CoEnable true all_opts; CoCreate 7 None]) SigDfl 0 (fun _ => false) in
  registered [] (two_loggers ++ [CoEnable true all_opts; CoCreate 7 None]) = [0; 1; 5; 7] /\
  snd (enable_async true all_opts (after quiet_cfg two_loggers SigDfl 0 (fun _ => false))) = Ok tt /\
  map (fun l => lg_async (w_logs (c_w c) l)) [0; 1; 5; 7] = [false; false; false; true] /\
  ordinary quiet_cfg /\ logger_quiet quiet_cfg 0 /\ length (lg_queue (w_logs (c_w c) 0)) = 1.
Proof.
  split; [reflexivity|]. split; [vm_compute; reflexivity|]. split; [vm_compute; reflexivity|].
  split; [split; [discriminate|split; [discriminate|reflexivity]]|]. split; [split; reflexivity|]. vm_compute. reflexivity.
Qed.

(** C60: a handler the application installed stays. *)
Theorem C60_application_handler_kept :
  forall cfg os c h, last_signal os = Some h -> h <> SigDfl -> h <> SigLithoxyl -> c_sig (crun cfg os c) = h.
Proof. intros cfg os c h HL H1 H2. apply last_signal_foreign; [exact HL|split; assumption]. Qed.
Print Assumptions C60_application_handler_kept.

(** Also one installed before lithoxyl was used. *)
Theorem C60_preexisting_handler_kept :
  forall cfg os c, no_signal os -> c_sig c <> SigDfl -> c_sig c <> SigLithoxyl -> c_sig (crun cfg os c) = c_sig c.
Proof. intros cfg os c HN H1 H2. destruct (crun_sig cfg os c HN) as [E|[[E _]|[E _]]]; congruence. Qed.
Print Assumptions C60_preexisting_handler_kept.

(** After disable_async lithoxyl's handler is not installed, and what was installed
    before the first enable_async is again in force. *)
Theorem C60_disable_restores :
  forall cfg os c o, o_sigterm o = true ->
  c_sig (fst (disable_async cfg true o (crun cfg os c))) <> SigLithoxyl /\
  (no_signal os -> c_sig c <> SigLithoxyl -> c_sig (fst (disable_async cfg true o (crun cfg os c))) = c_sig c).
Proof.
  intros cfg os c o Ho. rewrite disable_sig, Ho, uninstall_sig. split; [destruct (c_sig (crun cfg os c)); discriminate|].
  intros HN Hc. destruct (crun_sig cfg os c HN) as [E|[[E1 E2]|[E1 E2]]].
  - rewrite E. destruct (c_sig c); congruence.
  - rewrite E2. congruence.
  - congruence.
Qed.
Print Assumptions C60_disable_restores.

(** With the default action in force, enabling installs lithoxyl's handler. *)
Theorem C60_enable_installs :
  forall o c, o_sigterm o = true -> c_sig c = SigDfl -> c_sig (fst (enable_async true o c)) = SigLithoxyl.
Proof. intros o c Ho H. rewrite enable_sig, Ho, install_sig, H. reflexivity. Qed.
Print Assumptions C60_enable_installs.

Example C60_reached :
  last_signal [CoSignal SigIgn; CoEnable true all_opts; CoSignal (SigApp 4); CoDisable true all_opts; CoEnable true all_opts] = Some (SigApp 4) /\
  c_sig (after quiet_cfg [CoEnable true all_opts] SigDfl 0 (fun _ => false)) = SigLithoxyl /\
  no_signal [CoEnable true all_opts].
Proof. split; [reflexivity|]. split; [vm_compute; reflexivity|]. intros h [H|[]]; discriminate. Qed.

(** C68: with lithoxyl's handler and the list of exit functions of Python 2, SIGTERM runs
    the exit functions, last registered first, and then kills the process as it would
    have been killed without the handler... *)
Theorem C68_transparent_partial :
  forall hs, (forall h, In h hs -> ordinary_hook h = true) ->
  on_sigterm true SigLithoxyl hs = Some (rev hs, Killed 15) /\ on_sigterm true SigDfl hs = Some ([], Killed 15).
Proof.
  intros hs H. split; [|reflexivity]. cbn [on_sigterm]. unfold on_exit.
  assert (Z0 : count_hook is_reissue hs = 0).
  { unfold count_hook. induction hs as [|h hs IH]; auto. cbn. unfold is_reissue at 1. rewrite (H h) by (left; auto). apply IH. intros x Hx. apply H. right. auto. }
  assert (K : count_hook is_reissue (rev (hs ++ [HReissue])) = 1) by (rewrite count_rev, count_app, Z0; reflexivity).
  rewrite run_one by lia. rewrite K. rewrite filter_rev', filter_app. cbn [filter ordinary_hook app Nat.eqb]. rewrite app_nil_r. do 2 f_equal. f_equal.
  clear -H. induction hs as [|h hs IH]; auto. cbn. rewrite (H h) by (left; auto). rewrite IH; auto. intros x Hx. apply H. right. auto.
Qed.
Print Assumptions C68_transparent_partial.
(** ... but where atexit has no list (every Python 3) the process exits with status 143,
    having run the same functions. *)
Theorem C68_transparent_refuted :
  forall hs, on_sigterm false SigLithoxyl hs = Some (rev (filter ordinary_hook hs), Exited 143) /\
    on_sigterm false SigDfl hs = Some ([], Killed 15).
Proof.
  intros hs. split; [|reflexivity]. cbn [on_sigterm]. unfold on_exit. rewrite run_py3, filter_rev', filter_app. cbn. rewrite app_nil_r. reflexivity.
Qed.
Print Assumptions C68_transparent_refuted.

(** C76: once an enable_async has returned normally, the end of the process delivers what
    waits, whatever happened in between: by itself or by SIGTERM, in both kinds of
    interpreter.  Every exit function runs; lithoxyl's is one of them, once. *)
Theorem C76_exit_delivers :
  forall cfg os sig n async py2 (code : option nat), ordinary cfg ->
  was_enabled cfg os (c_init sig n (init async)) ->
  (py2 = true -> sigterms os + (if code then 0 else 1) <= 1) ->
  let c := after cfg os sig n async in
  let ran := fst (ending py2 (c_exits c) code) in
  let c' := hooks_effect cfg ran c in
  ran = rev (filter ordinary_hook (c_exits c)) /\
  length (filter (fun h => match h with HDisable => true | _ => false end) ran) = 1 /\
  c_async c' = false /\
  forall l, In l (registered [] os) ->
    lg_async (w_logs (c_w c') l) = false /\
    (logger_quiet cfg l -> lg_queue (w_logs (c_w c') l) = [] /\
     exists new, w_trace (c_w c') = w_trace (c_w c) ++ new /\
       by_logger l new = everyone cfg (c_w c) l (lg_queue (w_logs (c_w c) l))).
Proof.
  intros cfg os sig n async py2 code HO HE HS c ran c'.
  destruct (crun_exits cfg os (c_init sig n (init async)) eq_refl) as (_ & HR & _). cbn [c_init c_exits] in HR. fold (after cfg os sig n async) in HR. fold c in HR.
  assert (HR' : py2 = true -> count_hook is_reissue (c_exits c) + (if code then 0 else 1) <= 1) by (intros P; specialize (HS P); unfold count_hook in HR |- *; cbn in HR; destruct code; lia).
  assert (R : ran = rev (filter ordinary_hook (c_exits c))).
  { unfold ran, ending. destruct py2.
    - specialize (HR' eq_refl). destruct code as [k|]; cbn [on_sigterm]; unfold on_exit.
      + rewrite run_one by (rewrite count_rev; lia). cbn [fst]. apply filter_rev'.
      + rewrite run_one by (rewrite count_rev, count_app; cbn; lia). cbn [fst]. rewrite filter_rev', filter_app. cbn. rewrite app_nil_r. reflexivity.
    - destruct code as [k|]; cbn [on_sigterm]; unfold on_exit; rewrite run_py3; cbn [fst]; rewrite filter_rev'; auto.
      rewrite filter_app. cbn. rewrite app_nil_r. reflexivity. }
  assert (D : count_hook is_disable ran = 1).
  { rewrite R, count_rev, count_as_filter by (intros []; auto). apply enabled_exits; auto. }
  split; [exact R|]. split; [exact D|].
  assert (E : c' = fst (disable_async cfg true all_opts c)) by (apply effect_one; exact D).
  destruct (C14_disable_partial cfg os sig n async all_opts HO eq_refl) as (_ & H2 & H3).
  rewrite E. split; [exact H2|exact H3].
Qed.
Print Assumptions C76_exit_delivers.
(** On Python 2, with two SIGTERMs before the exit functions run, the process kills itself
    before lithoxyl's has run: what waits is lost. *)
Theorem C76_two_sigterms_refuted :
  exists cfg os sig n async l, ordinary cfg /\ logger_quiet cfg l /\ In l (registered [] os) /\
    was_enabled cfg os (c_init sig n (init async)) /\ sigterms os = 1 /\
    let c := after cfg os sig n async in
    c_sig c = SigLithoxyl /\ lg_queue (w_logs (c_w c) l) <> [] /\ on_sigterm true (c_sig c) (c_exits c) = Some ([], Killed 15).
Proof.
  exists quiet_cfg, [CoEnable true all_opts; CoCreate 0 None; CoRun (SComment 0 "a" []); CoSigterm], SigDfl, 0, (fun _ => false), 0.
  split; [split; [discriminate|split; [discriminate|reflexivity]]|]. split; [split; reflexivity|]. split; [vm_compute; auto|].
  split; [exists [], true, all_opts; eexists; split; [reflexivity|vm_compute; reflexivity]|]. split; [reflexivity|].
  vm_compute. repeat split. discriminate.
Qed.
Print Assumptions C76_two_sigterms_refuted.
(** If every enable_async raised (off the main thread) nothing is registered, although
    loggers created from then on are asynchronous. *)
Theorem C76_failed_enable_refuted :
  exists cfg os sig n async l, ordinary cfg /\ logger_quiet cfg l /\ In l (registered [] os) /\
    In (CoEnable false all_opts) os /\
    let c := after cfg os sig n async in
    c_exits c = [] /\ lg_queue (w_logs (c_w c) l) <> [].
Proof.
  exists quiet_cfg, [CoEnable false all_opts; CoCreate 0 None; CoRun (SComment 0 "a" [])], SigDfl, 0, (fun _ => false), 0.
  split; [split; [discriminate|split; [discriminate|reflexivity]]|]. split; [split; reflexivity|]. split; [vm_compute; auto|].
  split; [left; reflexivity|]. vm_compute. split; [reflexivity|discriminate].
Qed.
Print Assumptions C76_failed_enable_refuted.
Example C76_reached :
  let os := [CoAtexit 3; CoEnable true all_opts; CoCreate 0 None; CoAtexit 4; CoRun (SComment 0 "a" []); CoEnable true all_opts] in
  let c := after quiet_cfg os SigDfl 0 (fun _ => false) in
  ordinary quiet_cfg /\ logger_quiet quiet_cfg 0 /\ was_enabled quiet_cfg os (c_init SigDfl 0 (init (fun _ => false))) /\ sigterms os = 0 /\
  c_exits c = [HApp 3; HDisable; HApp 4] /\ on_sigterm true (c_sig c) (c_exits c) = Some ([HApp 4; HDisable; HApp 3], Killed 15) /\
  on_sigterm false (c_sig c) (c_exits c) = Some ([HApp 4; HDisable; HApp 3], Exited 143).
Proof.
  split; [split; [discriminate|split; [discriminate|reflexivity]]|]. split; [split; reflexivity|].
  split; [exists [CoAtexit 3], true, all_opts; eexists; split; [reflexivity|vm_compute; reflexivity]|].
  vm_compute. repeat split.
Qed.

(** C69: off the main thread.  If SIGTERM has its default action, enable_async raises
    and leaves the context half switched... *)
Theorem C69_enable_off_main_thread_refuted :
  forall o c, o_sigterm o = true -> c_sig c = SigDfl ->
  enable_async false o c = (c_set_async true c, Raise exn_not_main).
Proof. intros o c Ho H. unfold enable_async, install_sigterm. rewrite Ho. cbn. rewrite H. reflexivity. Qed.
Print Assumptions C69_enable_off_main_thread_refuted.
(** ... and disable_async raises without flushing anything, stopping the actor or
    changing modes, if lithoxyl's handler is installed. *)
Theorem C69_disable_off_main_thread_refuted :
  forall cfg o c, o_sigterm o = true -> c_sig c = SigLithoxyl ->
  disable_async cfg false o c = (c, Raise exn_not_main).
Proof. intros cfg o c Ho H. unfold disable_async, uninstall_sigterm. rewrite Ho, H. reflexivity. Qed.
Print Assumptions C69_disable_off_main_thread_refuted.
(** With update_sigterm=False, or a handler of the application in force, both calls do
    the same on every thread. *)
Theorem C69_off_main_thread :
  forall cfg o c, o_sigterm o = false \/ (c_sig c <> SigDfl /\ c_sig c <> SigLithoxyl) ->
  enable_async false o c = enable_async true o c /\ disable_async cfg false o c = disable_async cfg true o c.
Proof.
  intros cfg o c [Ho|[H1 H2]].
  - unfold enable_async, disable_async. rewrite Ho. auto.
  - unfold enable_async, disable_async, install_sigterm, uninstall_sigterm. cbn. destruct (c_sig c); try congruence; auto.
Qed.
Print Assumptions C69_off_main_thread.
Example C69_reached : c_sig (c_init SigDfl 0 (init (fun _ => true))) = SigDfl /\
  c_sig (after quiet_cfg [CoEnable true all_opts] SigDfl 0 (fun _ => false)) = SigLithoxyl /\
  c_sig (after quiet_cfg [CoSignal (SigApp 1)] SigDfl 0 (fun _ => false)) = SigApp 1.
Proof. repeat split. Qed.
