(** What one call does: C70-C73, and the duration of a with-block (C07). *)
From Verif Require Import model.PyBase model.Core spec.CoreSpec spec.CallSpec spec.CoreExamples
  proof.CoreWith proof.CoreDispatch proof.CallProofs proof.CallProofs2.

(** C70: every call publishes exactly its own events. *)
Theorem C70_warn :
  forall cfg r a m kw w, reach cfg w -> (forall k, hook_quiet cfg k) -> nth_error (w_acts w) r = Some a ->
  exists e a', let w' := fst (warn cfg r m kw w) in
  snd (warn cfg r m kw w) = Ok tt /\ published cfg (a_log a) [(KWarn, e)] w w' /\ only_changes r w w' /\
  e_kind e = KWarn /\ e_act e = r /\ e_msg e = m /\ e_time e = cf_clock cfg (w_clk w) /\
  nth_error (w_acts w') r = Some a' /\ a_warns a' = a_warns a ++ [e].
Proof.
  intros cfg r a m kw w HR HQ. exact (warn_call cfg HQ r a m kw w (wi_hooks _ _ (reach_winv cfg w HR)) (reach_q cfg w HR)).
Qed.
Print Assumptions C70_warn.

(** The first begin() publishes a begin event; later ones publish nothing. *)
Theorem C70_begin :
  forall cfg r a m kw w, reach cfg w -> (forall k, hook_quiet cfg k) -> nth_error (w_acts w) r = Some a ->
  exists b a', let w' := fst (begin cfg r m kw w) in
  snd (begin cfg r m kw w) = Ok tt /\ published cfg (a_log a) (first_begin a b) w w' /\ only_changes r w w' /\
  match a_begin a with
  | Some b0 => b = b0
  | None => e_kind b = KBegin /\ e_act b = r /\ e_time b = cf_clock cfg (w_clk w) /\ e_msg b = text m (a_name a +s " beginning")
  end /\
  nth_error (w_acts w') r = Some a' /\ a_begin a' = Some b /\ a_end a' = a_end a.
Proof.
  intros cfg r a m kw w HR HQ Ha.
  destruct (begin_call cfg HQ r a m kw w (wi_hooks _ _ (reach_winv cfg w HR)) (reach_q cfg w HR) Ha)
    as (b & a' & B1 & B2 & B3 & B4 & B5 & B6 & _ & _ & _ & B10 & _).
  exists b, a'. repeat (split; [assumption|]). assumption.
Qed.
Print Assumptions C70_begin.

(** success() and failure(): the begin event if there was none yet, then the end event
    unless the action is inside its with-block. *)
Theorem C70_success_failure :
  forall cfg ok r a m kw w, reach cfg w -> (forall k, hook_quiet cfg k) -> nth_error (w_acts w) r = Some a ->
  exists b e a', let w' := fst (conclude cfg ok r m kw w) in
  snd (conclude cfg ok r m kw w) = Ok tt /\
  published cfg (a_log a) (first_begin a b ++ if a_defer a then [] else [(KEnd, e)]) w w' /\ only_changes r w w' /\
  begun cfg r a (cf_clock cfg (w_clk w)) b /\
  e_kind e = KEnd /\ e_act e = r /\
  e_msg e = text m (with_data a (a_name a +s (if ok then " succeeded" else " failed"))) /\
  e_status e = Some (if ok then Success else Failure) /\ e_exc e = None /\
  e_time e = (if a_trans a then cf_clock cfg (w_clk w) else e_time b) /\
  nth_error (w_acts w') r = Some a' /\ a_begin a' = Some b /\ a_end a' = Some e.
Proof.
  intros cfg ok r a m kw w HR HQ. exact (conclude_call cfg HQ ok r a m kw w (reach_winv cfg w HR) (reach_q cfg w HR)).
Qed.
Print Assumptions C70_success_failure.

(** exception(): an exception event, then as failure() with the same message and exception. *)
Theorem C70_exception :
  forall cfg r a ex d m kw w, reach cfg w -> (forall k, hook_quiet cfg k) -> nth_error (w_acts w) r = Some a ->
  cf_describe cfg ex = Ok d ->
  exists x b e a', let w' := fst (exception_ cfg r (Some ex) m kw w) in
  snd (exception_ cfg r (Some ex) m kw w) = Ok tt /\
  published cfg (a_log a) ((KExc, x) :: first_begin a b ++ if a_defer a then [] else [(KEnd, e)]) w w' /\ only_changes r w w' /\
  begun cfg r a (cf_clock cfg (S (w_clk w))) b /\
  e_kind x = KExc /\ e_act x = r /\ e_time x = cf_clock cfg (w_clk w) /\ e_exc x = Some ex /\
  e_msg x = text m (with_data a (a_name a +s " raised exception: " +s d)) /\
  e_kind e = KEnd /\ e_act e = r /\ e_msg e = e_msg x /\ e_status e = Some Exception_ /\ e_exc e = Some ex /\
  e_time e = (if a_trans a then if (e_time x =? 0)%Z then cf_clock cfg (S (w_clk w)) else e_time x else e_time b) /\
  nth_error (w_acts w') r = Some a' /\ a_begin a' = Some b /\ a_end a' = Some e.
Proof.
  intros cfg r a ex d m kw w HR HQ. exact (exception_call cfg HQ r a ex d m kw w (reach_winv cfg w HR) (reach_q cfg w HR)).
Qed.
Print Assumptions C70_exception.

(** comment(): one comment event, about a fresh critical (level 90) action that has begun and
    succeeded at the same moment. *)
Theorem C70_comment :
  forall cfg l m kw p w, reach cfg w -> (forall k, hook_quiet cfg k) ->
  exists c b e, let w' := fst (comment cfg l m kw p w) in
  let r := length (w_acts w) in let t := cf_clock cfg (w_clk w) in
  snd (comment cfg l m kw p w) = Ok tt /\ published cfg l [(KComment, c)] w w' /\
  w_acts w' = w_acts w ++ [mkAction (w_ctr w) l 90 "_comment" kw (Some true) (match p with Some q => Some q | None => w_active w l end)
                             (Some b) (Some e) [] [] false false] /\
  e_kind c = KComment /\ e_act c = r /\ e_msg c = m /\ e_time c = t /\
  e_kind b = KBegin /\ e_act b = r /\ e_time b = t /\
  e_kind e = KEnd /\ e_act e = r /\ e_time e = t /\ e_status e = Some Success.
Proof.
  intros cfg l m kw p w HR HQ. exact (comment_call cfg HQ l m kw p w (wi_hooks _ _ (reach_winv cfg w HR)) (reach_q cfg w HR)).
Qed.
Print Assumptions C70_comment.

Definition one_action : world := run_ops quiet_cfg [OpNew 0 20 "job" [("k", 1%Z)]%string None None] (w_sync quiet_cfg).
Example C70_nonvacuous :
  reach quiet_cfg one_action /\ (forall k, hook_quiet quiet_cfg k) /\
  map (fun x => (e_kind (snd x), e_msg (snd x))) (received 0 2 (w_trace (fst (exception_ quiet_cfg 0 (Some boom) None [] one_action)))) =
    [(KExc, "job raised exception: boom - ({data_map_repr})"); (KBegin, "job beginning"); (KEnd, "job raised exception: boom - ({data_map_repr})")]%string /\
  lg_queue (w_logs (fst (warn quiet_cfg 0 "x" [] (run_ops quiet_cfg [OpNew 0 20 "job" [] None None] (w_async quiet_cfg)))) 0)
    = [(KWarn, mkEvent KWarn 0 1 0 "x" None None)].
Proof.
  split; [apply reach_call, w_sync_reach|]. split; [intros k t l s e; reflexivity|]. split; vm_compute; reflexivity.
Qed.

(** C71: at any time an action's events are exactly those created for it. *)
Theorem C71_action_records_its_events :
  forall cfg w r a, reach cfg w -> nth_error (w_acts w) r = Some a ->
  a_warns a = events_of r KWarn (w_hist w) /\ a_excs a = events_of r KExc (w_hist w) /\
  events_of r KBegin (w_hist w) = (match a_begin a with Some b => [b] | None => [] end) /\
  a_end a = last_of (events_of r KEnd (w_hist w)).
Proof. exact record_of. Qed.
Print Assumptions C71_action_records_its_events.

Definition busy71 : world :=
  run_ops quiet_cfg [OpWarn 0 "x" []; OpSuccess 0 None []; OpWarn 0 "y" []; OpException 0 (Some boom) None []] one_action.
Example C71_nonvacuous :
  reach quiet_cfg busy71 /\
  option_map (fun a => (map e_msg (a_warns a), length (a_excs a), option_map e_status (a_end a))) (nth_error (w_acts busy71) 0)
    = Some (["x"; "y"]%string, 1, Some (Some Exception_)).
Proof. split; [repeat apply reach_call; apply reach_init | vm_compute; reflexivity]. Qed.

(** C72: flush() calls every preflush hook once, in order, before it delivers anything; a hook
    that raises an ordinary exception is reported and does not stop the others; last_flush is
    the time of the last flush that completed. *)
Theorem C72_preflush :
  forall cfg l w, reach cfg w -> (forall t m, cf_note cfg t m = None) ->
  (forall t h x, In h (lg_pre (w_logs w l)) -> cf_pre cfg t l h = Some x -> exn_ord x = true) ->
  exists pre rest, let w' := fst (flush cfg l w) in
  w_trace w' = w_trace w ++ pre ++ rest /\ handed pre = [] /\ preflush_calls rest = [] /\
  preflush_calls pre = map (pair l) (lg_pre (w_logs w l)) /\
  (forall p h q, pre = p ++ OPre l h :: q ->
     match cf_pre cfg (w_trace w ++ p) l h with
     | Some _ => exists q', q = ONote "preflush" :: q'
     | None => forall m q', q <> ONote m :: q'
     end) /\
  lg_last (w_logs w' l) = (match snd (flush cfg l w) with Ok _ => cf_clock cfg (w_clk w) | Raise _ => lg_last (w_logs w l) end) /\
  (forall l', l' <> l -> lg_last (w_logs w' l') = lg_last (w_logs w l')).
Proof. intros cfg l w _. exact (flush_call cfg l w). Qed.
Print Assumptions C72_preflush.

(** A hook raising something else (KeyboardInterrupt, SystemExit) stops the flush: the other
    hooks are not called and nothing is delivered. *)
Definition pre_interrupt : config :=
  mkConfig Z.of_nat (fun _ _ => true) (fun _ _ _ _ _ => None)
           (fun _ _ h => if Nat.eqb h 4 then Some boom else if Nat.eqb h 5 then Some interrupt else None) (fun _ _ => None) (fun _ => Ok "boom").
Definition pre_world : world := run_ops pre_interrupt [OpNew 0 20 "job" [] None None; OpWarn 0 "x" []; OpAddPreflush 0 4; OpAddPreflush 0 3] (w_async pre_interrupt).
Theorem C72_interrupt_refuted :
  exists cfg l w x, reach cfg w /\ (forall t m, cf_note cfg t m = None) /\ snd (flush cfg l w) = Raise x /\
    ~ (exists n, w_trace (fst (flush cfg l w)) = w_trace w ++ n /\ preflush_calls n = map (pair l) (lg_pre (w_logs w l))).
Proof.
  exists pre_interrupt, 0, (run_ops pre_interrupt [OpAddPreflush 0 5; OpAddPreflush 0 3] pre_world), interrupt.
  split; [repeat apply reach_call; apply reach_init|]. split; [reflexivity|]. split; [vm_compute; reflexivity|].
  intros (n & H1 & H2). vm_compute in H1. subst n. vm_compute in H2. discriminate.
Qed.
Print Assumptions C72_interrupt_refuted.

Example C72_nonvacuous :
  (forall t h x, In h (lg_pre (w_logs pre_world 0)) -> cf_pre pre_interrupt t 0 h = Some x -> exn_ord x = true) /\
  w_trace (fst (flush pre_interrupt 0 pre_world)) =
    [OPre 0 4; ONote "preflush"; OPre 0 3; ODeliver 0 KWarn 1 (mkEvent KWarn 0 1 0 "x" None None); ODeliver 0 KWarn 2 (mkEvent KWarn 0 1 0 "x" None None)] /\
  lg_last (w_logs (fst (flush pre_interrupt 0 pre_world)) 0) = 1%Z.
Proof.
  split; [|split; vm_compute; reflexivity]. intros t h x [<-|[<-|[]]]; vm_compute; [|discriminate]. intro E; injection E as <-. reflexivity.
Qed.

(** C73: elapsed time is 0 before begin(); afterwards it is the time since the first begin(),
    whatever calls were made in between. *)
Theorem C73_elapsed_time :
  forall cfg cs r a m kw w, reach cfg w -> (forall k, hook_quiet cfg k) ->
  nth_error (w_acts w) r = Some a -> a_begin a = None ->
  snd (get_elapsed_time cfg r w) = Ok 0%Z /\
  let w2 := run_cmds cfg cs (fst (begin cfg r m kw w)) in
  snd (get_elapsed_time cfg r w2) = Ok (cf_clock cfg (w_clk w2) - cf_clock cfg (w_clk w))%Z.
Proof. intros cfg cs r a m kw w HR HQ. exact (elapsed_call cfg cs r a m kw w HQ (reach_winv cfg w HR) (reach_q cfg w HR)). Qed.
Print Assumptions C73_elapsed_time.

Example C73_nonvacuous :
  option_map a_begin (nth_error (w_acts one_action) 0) = Some None /\
  snd (get_elapsed_time quiet_cfg 0 (run_cmds quiet_cfg [CCall (OpWarn 0 "x" []); CCall (OpBegin 0 None []); CCall (OpSuccess 0 None [])]
    (fst (begin quiet_cfg 0 None [] one_action)))) = Ok 2%Z.
Proof. split; vm_compute; reflexivity. Qed.

(** C07: the duration of a with-block is the time between entering and leaving it, whatever
    calls are made inside, if it ends by leaving the block: normally without an earlier end
    call, or by an exception. *)
Theorem C07_block_duration :
  forall cfg r a cs x w, reach cfg w -> (forall k, hook_quiet cfg k) -> (forall y, exists d, cf_describe cfg y = Ok d) ->
  nth_error (w_acts w) r = Some a -> a_begin a = None ->
  let w2 := run_cmds cfg cs (fst (enter cfg r w)) in
  (x = None -> forall a2, nth_error (w_acts w2) r = Some a2 -> a_end a2 = None) ->
  (x <> None -> cf_clock cfg (w_clk w2) <> 0%Z) ->
  get_duration (fst (exit_ cfg r x w2)) r = (cf_clock cfg (w_clk w2) - cf_clock cfg (w_clk w))%Z.
Proof. intros cfg r a cs x w HR HQ HD. exact (block_duration cfg r a cs x w HQ HD (reach_winv cfg w HR) (reach_q cfg w HR)). Qed.
Print Assumptions C07_block_duration.

(** A success() or failure() inside the block fixes the duration at that moment. *)
Theorem C07_block_duration_early_end_refuted :
  exists cfg r a cs w, reach cfg w /\ all_quiet cfg /\ nth_error (w_acts w) r = Some a /\ a_begin a = None /\
  let w2 := run_cmds cfg cs (fst (enter cfg r w)) in
  get_duration (fst (exit_ cfg r None w2)) r <> (cf_clock cfg (w_clk w2) - cf_clock cfg (w_clk w))%Z.
Proof.
  exists quiet_cfg, 0. eexists. exists [CCall (OpSuccess 0 None []); CCall (OpWarn 0 "later" [])], one_action.
  split; [apply reach_call, w_sync_reach|]. split; [apply quiet_all|]. split; [vm_compute; reflexivity|]. split; [reflexivity|].
  vm_compute. discriminate.
Qed.
Print Assumptions C07_block_duration_early_end_refuted.

Definition in_block : list cmd := [CCall (OpWarn 0 "x" []); CRun (SWithNew 1 0 20 "child" [] None None (SWarn 1 "deep" []))].
Example C07_block_nonvacuous :
  let w2 := run_cmds quiet_cfg in_block (fst (enter quiet_cfg 0 one_action)) in
  option_map a_end (nth_error (w_acts w2) 0) = Some None /\
  get_duration (fst (exit_ quiet_cfg 0 None w2)) 0 = 5%Z /\ get_duration (fst (exit_ quiet_cfg 0 (Some boom) w2)) 0 = 5%Z.
Proof. split; [|split]; vm_compute; reflexivity. Qed.
