(** Dispatch, registration, queue and flush: C08-C12. *)
From Verif Require Import model.PyBase model.Core spec.CoreSpec spec.CoreExamples
  proof.CoreWith proof.CoreDispatch proof.CoreAsync.

(** C08: synchronous dispatch (on_exception in every mode). *)
Theorem C08_sync_dispatch :
  forall cfg l k e w, reach cfg w -> lg_async (w_logs w l) = false \/ k = KExc ->
  dispatched cfg l k e w (fst (log_event cfg l k e w)) (snd (log_event cfg l k e w)).
Proof. intros cfg l k e w HR. exact (sync_dispatch cfg l k e w (reach_winv cfg w HR)). Qed.
Print Assumptions C08_sync_dispatch.

Definition some_event := mkEvent KWarn 0 5 9 "m" None None.
Example C08_reached :
  lg_async (w_logs (w_sync (loud_cfg KWarn)) 0) = false /\
  w_trace (fst (log_event quiet_cfg 0 KWarn some_event (w_sync quiet_cfg)))
    = [ODeliver 0 KWarn 1 some_event; ODeliver 0 KWarn 2 some_event] /\
  w_trace (fst (log_event (loud_cfg KWarn) 0 KWarn some_event (w_sync (loud_cfg KWarn))))
    = [ODeliver 0 KWarn 1 some_event].
Proof. repeat split; reflexivity. Qed.

(** C09 *)
Theorem C09_registration :
  forall cfg l os w old, reach cfg w -> lg_sinks (w_logs w l) = first_occurrences [] old ->
  lg_sinks (w_logs (run_reg cfg l os w) l) = first_occurrences [] (since_reset old os) /\
  (forall k, lg_hooks (w_logs (run_reg cfg l os w) l) k = listeners cfg (run_reg cfg l os w) l k).
Proof. intros cfg l os w old HR. exact (registration cfg l os w old (reach_winv cfg w HR)). Qed.
Print Assumptions C09_registration.

Example C09_reached :
  lg_sinks (w_logs (w_sync quiet_cfg) 0) = first_occurrences [] [1; 2] /\
  lg_sinks (w_logs (run_reg quiet_cfg 0 [RAdd 1; RAdd 3; RAdd 2; RAdd 3] (w_sync quiet_cfg)) 0) = [1; 2; 3] /\
  lg_sinks (w_logs (run_reg quiet_cfg 0 [RAdd 3; RSet [5; 4; 5]; RAdd 1] (w_sync quiet_cfg)) 0) = [5; 4; 1].
Proof. repeat split; reflexivity. Qed.

(** C10: run the same script from the same set-up in both modes, flush the
    asynchronous one; no event was dropped. *)
Theorem C10_async_same_as_sync :
  forall cfg setup cs l s, all_quiet cfg ->
  (forall o, In o setup -> is_setup o) -> (forall c, In c cs -> keeps_config c) ->
  let ws := run_cmds cfg cs (run_ops cfg setup (init (fun _ => false))) in
  let wa := fst (flush cfg l (run_cmds cfg cs (run_ops cfg setup (init (fun _ => true))))) in
  In s (lg_sinks (w_logs ws l)) ->
  lg_dropped (w_logs wa l) = 0 ->
  filter plain (received l s (w_trace wa)) = filter plain (received l s (w_trace ws)) /\
  filter is_exc (received l s (w_trace wa)) = filter is_exc (received l s (w_trace ws)).
Proof.
  intros cfg setup cs l s (HQ & HP & HN & _). exact (async_same cfg HQ HP HN setup cs l s).
Qed.
Print Assumptions C10_async_same_as_sync.

Definition script10 := [CRun (SWithNew 0 0 20 "top" [] (Some false) None busy_body); CCall (OpFlush 0); CCall (OpComment 0 "c" [] None)].
Example C10_reached :
  all_quiet quiet_cfg /\ (forall c, In c script10 -> keeps_config c) /\
  let wa := fst (flush quiet_cfg 0 (run_cmds quiet_cfg script10 (run_ops quiet_cfg [OpAddSink 0 1] (init (fun _ => true))))) in
  lg_dropped (w_logs wa 0) = 0 /\ length (filter plain (received 0 1 (w_trace wa))) = 7 /\
  length (filter is_exc (received 0 1 (w_trace wa))) = 3.
Proof.
  split; [apply quiet_all|]. split; [|repeat split; reflexivity].
  unfold script10; simpl; intros c [<-|[<-|[<-|[]]]]; exact I.
Qed.

(** C11: after any number of pushes the queue is the most recent
    [QUEUE_LIMIT] of everything pushed (and so never longer). *)
Theorem C11_queue_keeps_newest :
  forall cfg l w q0 os, lg_async (w_logs w l) = true -> queueable os -> ~ In QFlush os ->
  lg_queue (w_logs w l) = lastn QUEUE_LIMIT q0 ->
  lg_queue (w_logs (run_q cfg l os w) l) = lastn QUEUE_LIMIT (q0 ++ pushed os).
Proof. intros cfg l w q0 os. exact (queue_pushes cfg l w q0 os). Qed.
Print Assumptions C11_queue_keeps_newest.

Theorem C11_queue_bounded :
  forall cfg w l, reach cfg w -> (N.of_nat (length (lg_queue (w_logs w l))) <= QUEUE_LIMIT)%N /\ QUEUE_LIMIT = 10000%N.
Proof. intros cfg w l HR. split; [apply (reach_q cfg w HR l) | reflexivity]. Qed.
Print Assumptions C11_queue_bounded.

Example C11_reached :
  lg_async (w_logs (w_async quiet_cfg) 0) = true /\
  lg_queue (w_logs (w_async quiet_cfg) 0) = lastn QUEUE_LIMIT [] /\
  (let w := run_q quiet_cfg 0 (map (fun i => QPush KWarn (mkEvent KWarn 0 i 0 "m" None None)) (seq 0 12)) (w_async quiet_cfg) in
   map (fun p => e_id (snd p)) (lg_queue (w_logs w 0)) = seq 0 12).
Proof. split; [reflexivity|]. split; [reflexivity|]. vm_compute. reflexivity. Qed.

(** C12 *)
Theorem C12_flush_outcome :
  forall cfg l w, reach cfg w ->
  exists n, w_trace (fst (flush cfg l w)) = w_trace w ++ n /\
            flush_outcome cfg l w (fst (flush cfg l w)) n (snd (flush cfg l w)).
Proof.
  intros cfg l w HR. exact (flush_spec cfg l w (wi_hooks _ _ (reach_winv cfg w HR)) (reach_q cfg w HR)).
Qed.
Print Assumptions C12_flush_outcome.

Theorem C12_flushes_in_order_without_repetition :
  forall cfg l s os w, reach cfg w -> lg_async (w_logs w l) = true -> queueable os ->
  exists n, w_trace (run_q cfg l os w) = w_trace w ++ n /\
    subseq (received l s n ++ lg_queue (w_logs (run_q cfg l os w) l)) (lg_queue (w_logs w l) ++ pushed os).
Proof.
  intros cfg l s os w HR. exact (run_q_subseq cfg l s os w (wi_hooks _ _ (reach_winv cfg w HR)) (reach_q cfg w HR)).
Qed.
Print Assumptions C12_flushes_in_order_without_repetition.

Definition ev (i : nat) := mkEvent KWarn 0 i 0 "m" None None.
Example C12_reached :
  lg_async (w_logs (w_async (loud_cfg KWarn)) 0) = true /\
  (let w := run_q (loud_cfg KWarn) 0 [QPush KWarn (ev 1); QPush KWarn (ev 2); QPush KEnd (ev 3); QFlush; QPush KBegin (ev 4); QFlush; QFlush] (w_async (loud_cfg KWarn)) in
   map (fun p => e_id (snd p)) (received 0 1 (w_trace w)) = [1; 2; 3; 4] /\
   map (fun p => e_id (snd p)) (received 0 2 (w_trace w)) = [3; 4]).
Proof. split; [reflexivity|]. split; reflexivity. Qed.
