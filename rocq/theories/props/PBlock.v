(** With-blocks: C01, C03, C04, C05, C18, C19. *)
From Verif Require Import model.PyBase model.Core spec.CoreSpec spec.CoreExamples
  proof.CoreWith proof.CoreBlock2 proof.CoreStatus proof.CoreLeak proof.CoreFinal.

(** C01: a with-block publishes exactly one end event for its action, to every
    sink with an end hook (or once into the queue), and only after the body. *)
Theorem C01_one_end_per_block :
  forall cfg cur x l lvl nm kw rr px body w,
  reach cfg w -> calm cfg -> exc_quiet cfg -> parent_bound w px -> never_enters x body ->
  let r := length (w_acts w) in
  let w2 := fst (eval cfg cur body (block_start cfg x l lvl nm kw rr px w)) in
  let w' := fst (eval cfg cur (SWithNew x l lvl nm kw rr px body) w) in
  (end_calls r (w_trace w2) = [] /\ forall l', end_waiting r (lg_queue (w_logs w2 l')) = []) /\
  exists e, e_act e = r /\ e_kind e = KEnd /\
    one_end (lg_async (w_logs w l)) l r (listeners cfg w l KEnd) e w'.
Proof.
  intros cfg cur x l lvl nm kw rr px body w HR HC HE Hp Hn.
  split; [exact (block_body_no_end cfg cur x l lvl nm kw rr px body w HC (reach_winv cfg w HR) Hp Hn)|].
  destruct (block_one_end cfg cur x l lvl nm kw rr px body w HC HE (reach_winv cfg w HR) Hp Hn)
    as (a2 & e & _ & H1 & H2 & H3 & _). exists e. auto.
Qed.
Print Assumptions C01_one_end_per_block.

Example C01_hypotheses :
  reach quiet_cfg (w_sync quiet_cfg) /\ calm quiet_cfg /\ exc_quiet quiet_cfg /\
  parent_bound (w_sync quiet_cfg) None /\ never_enters 0 busy_body /\
  listeners quiet_cfg (w_sync quiet_cfg) 0 KEnd = [1; 2] /\
  length (end_calls 0 (w_trace (fst (eval quiet_cfg None (SWithNew 0 0 20 "top" [] None None busy_body) (w_sync quiet_cfg))))) = 2.
Proof.
  split; [apply w_sync_reach|]. split; [apply quiet_calm|]. split; [apply quiet_exc|].
  split; [exact I|]. split; [simpl; tauto|]. split; reflexivity.
Qed.

(** C03: the status of that end event.  [h] is what the body recorded;
    [last_call] is its last returned success/failure/exception call on the
    block's own action. *)
Theorem C03_status_reflects_outcome :
  forall cfg cur x l lvl nm kw rr px body w,
  reach cfg w -> calm cfg -> exc_quiet cfg -> parent_bound w px -> never_enters x body ->
  let r := length (w_acts w) in
  let w1 := block_start cfg x l lvl nm kw rr px w in
  let w2 := fst (eval cfg cur body w1) in
  exists e h, e_act e = r /\ e_kind e = KEnd /\
    one_end (lg_async (w_logs w l)) l r (listeners cfg w l KEnd) e
      (fst (eval cfg cur (SWithNew x l lvl nm kw rr px body) w)) /\
    w_hist w2 = w_hist w1 ++ h /\
    e_status e = Some (block_status (snd (eval cfg cur body w1)) (last_call r h)).
Proof.
  intros cfg cur x l lvl nm kw rr px body w HR HC HE Hp Hn.
  exact (block_end_status cfg cur x l lvl nm kw rr px body w HC HE (reach_winv cfg w HR) Hp Hn).
Qed.
Print Assumptions C03_status_reflects_outcome.

Definition statuses (cfg : config) (s : stmt) : list (option status) :=
  map (fun p => e_status (snd p)) (end_calls 0 (w_trace (fst (eval cfg None s (w_sync cfg))))).
Example C03_three_outcomes :
  never_enters 0 calm_body /\
  statuses quiet_cfg (SWithNew 0 0 20 "top" [] None None busy_body) = [Some Exception_; Some Exception_] /\
  statuses quiet_cfg (SWithNew 0 0 20 "top" [] None None calm_body) = [Some Failure; Some Failure] /\
  statuses quiet_cfg (SWithNew 0 0 20 "top" [] None None SSkip) = [Some Success; Some Success].
Proof. split; [simpl; tauto|]. repeat split; reflexivity. Qed.

(** C04: what leaves the block is exactly what the body raised, unless
    [reraise=False], which suppresses everything. *)
Theorem C04_exceptions_propagate :
  forall cfg cur x l lvl nm kw rr px body w,
  reach cfg w -> calm cfg -> parent_bound w px ->
  snd (eval cfg cur (SWithNew x l lvl nm kw rr px body) w) =
  propagate rr (snd (eval cfg cur body (block_start cfg x l lvl nm kw rr px w))).
Proof.
  intros cfg cur x l lvl nm kw rr px body w HR HC Hp.
  destruct (block_result cfg cur x l lvl nm kw rr px body w HC (reach_winv cfg w HR) Hp) as (w' & H & _).
  rewrite H. reflexivity.
Qed.
Print Assumptions C04_exceptions_propagate.

Example C04_cases :
  snd (eval quiet_cfg None (SWithNew 0 0 20 "top" [] None None busy_body) (w_sync quiet_cfg)) = Raise boom /\
  snd (eval quiet_cfg None (SWithNew 0 0 20 "top" [] (Some false) None busy_body) (w_sync quiet_cfg)) = Ok tt /\
  snd (eval quiet_cfg None (SWithNew 0 0 20 "top" [] (Some false) None (SRaise interrupt)) (w_sync quiet_cfg)) = Ok tt /\
  snd (eval quiet_cfg None (SWithNew 0 0 20 "top" [] (Some true) None (SRaise interrupt)) (w_sync quiet_cfg)) = Raise interrupt.
Proof. repeat split; reflexivity. Qed.

(** C05: well nested programs leave every logger's active parent unchanged... *)
Theorem C05_active_parent_restored :
  forall cfg cur s w, reach cfg w -> calm cfg -> plain_withs s ->
  forall l, w_active (fst (eval cfg cur s w)) l = w_active w l.
Proof.
  intros cfg cur s w HR HC Hs. exact (eval_active cfg HC s cur w Hs (reach_winv cfg w HR)).
Qed.
Print Assumptions C05_active_parent_restored.

(** ... and an action created in a block (after any well nested prefix [b1] of
    its body) has the block's action as parent. *)
Theorem C05_child_has_block_as_parent :
  forall cfg cur x l lvl nm kw rr px b1 y lvl2 nm2 kw2 rr2 w,
  reach cfg w -> calm cfg -> parent_bound w px -> plain_withs b1 ->
  let w1 := block_start cfg x l lvl nm kw rr px w in
  let w2 := fst (eval cfg cur b1 w1) in
  snd (eval cfg cur b1 w1) = Ok tt ->
  let w3 := fst (eval cfg cur (SSeq b1 (SNew y l lvl2 nm2 kw2 rr2 None)) w1) in
  exists a, nth_error (w_acts w3) (length (w_acts w2)) = Some a /\
    w_env w3 y = Some (length (w_acts w2)) /\ a_parent a = Some (length (w_acts w)).
Proof.
  intros cfg cur x l lvl nm kw rr px b1 y lvl2 nm2 kw2 rr2 w HR HC Hp Hb.
  exact (child_parent cfg cur x l lvl nm kw rr px b1 y lvl2 nm2 kw2 rr2 w HC (reach_winv cfg w HR) Hp Hb).
Qed.
Print Assumptions C05_child_has_block_as_parent.

(** Without the restriction to freshly created actions it is false: an action
    created in one block and entered in another restores the wrong parent. *)
Theorem C05_precreated_actions_refuted :
  exists s w, reach quiet_cfg w /\ calm quiet_cfg /\
  snd (eval quiet_cfg None s w) = Ok tt /\
  w_active (fst (eval quiet_cfg None s w)) 0 <> w_active w 0.
Proof.
  exists (SSeq (SWithNew 0 0 20 "a" [] None None (SNew 1 0 20 "b" [] None None)) (SWith 1 SSkip)), (w_sync quiet_cfg).
  split; [apply w_sync_reach|]. split; [apply quiet_calm|]. split; [reflexivity|]. vm_compute. discriminate.
Qed.
Print Assumptions C05_precreated_actions_refuted.

Example C05_nested :
  plain_withs (SWithNew 0 0 20 "top" [] None None busy_body) /\
  map a_parent (w_acts (fst (eval quiet_cfg None (SWithNew 0 0 20 "top" [] None None busy_body) (w_sync quiet_cfg))))
    = [None; Some 0; Some 0].
Proof. split; [simpl; tauto | reflexivity]. Qed.

(** C18: an on_exception hook that raises ordinary exceptions whenever it is called for
    this exception of this block: no end event is created or published, the hook's exception is only
    noted, and the body's exception has its usual fate. *)
Theorem C18_raising_exception_sink :
  forall cfg cur x l lvl nm kw rr px body w s0 ex,
  reach cfg w -> calm cfg -> parent_bound w px -> never_enters x body ->
  let r := length (w_acts w) in
  let w1 := block_start cfg x l lvl nm kw rr px w in
  let w2 := fst (eval cfg cur body w1) in
  let w' := fst (eval cfg cur (SWithNew x l lvl nm kw rr px body) w) in
  In s0 (listeners cfg w l KExc) ->
  (forall t e, e_act e = r -> e_exc e = Some ex -> cf_sink cfg t l KExc s0 e <> None) ->
  snd (eval cfg cur body w1) = Raise ex ->
  snd (eval cfg cur (SWithNew x l lvl nm kw rr px body) w) = propagate rr (Raise ex) /\
  end_calls r (w_trace w') = [] /\ (forall l', end_waiting r (lg_queue (w_logs w' l')) = []) /\
  (exists n, w_trace w' = w_trace w2 ++ n ++ [ONote "action_exit"]) /\
  (exists h, w_hist w' = w_hist w2 ++ h /\ forall e, In (HEvent e) h -> e_kind e <> KEnd).
Proof.
  intros cfg cur x l lvl nm kw rr px body w s0 ex HR HC Hp Hn.
  exact (block_exc_raising cfg cur x l lvl nm kw rr px body w s0 ex HC (reach_winv cfg w HR) Hp Hn).
Qed.
Print Assumptions C18_raising_exception_sink.

Example C18_hypotheses :
  calm (loud_cfg KExc) /\ In 1 (listeners (loud_cfg KExc) (w_sync (loud_cfg KExc)) 0 KExc) /\
  (forall t e, cf_sink (loud_cfg KExc) t 0 KExc 1 e <> None) /\
  snd (eval (loud_cfg KExc) None (SRaise boom)
         (block_start (loud_cfg KExc) 0 0 20 "top" [] (Some false) None (w_sync (loud_cfg KExc)))) = Raise boom /\
  snd (eval (loud_cfg KExc) None (SWithNew 0 0 20 "top" [] (Some false) None (SRaise boom)) (w_sync (loud_cfg KExc))) = Ok tt.
Proof.
  split; [apply loud_exc_calm|]. split; [simpl; auto|]. split; [discriminate|]. split; reflexivity.
Qed.

(** C19: a begin hook raising on entry leaves the never-entered block's action
    as the active parent. *)
Theorem C19_begin_hook_leaks_parent :
  forall cfg cur x l lvl nm kw rr px body w s0,
  reach cfg w -> parent_bound w px -> lg_async (w_logs w l) = false ->
  In s0 (listeners cfg w l KBegin) ->
  (forall t e, e_act e = length (w_acts w) -> cf_sink cfg t l KBegin s0 e <> None) ->
  exists w' y, eval cfg cur (SWithNew x l lvl nm kw rr px body) w = (w', Raise y) /\
    w_active w' l = Some (length (w_acts w)).
Proof.
  intros cfg cur x l lvl nm kw rr px body w s0 HR.
  exact (block_begin_leak cfg cur x l lvl nm kw rr px body w s0 (reach_winv cfg w HR)).
Qed.
Print Assumptions C19_begin_hook_leaks_parent.

(** An end hook raising on a normal exit leaves the finished block's action as
    the active parent. *)
Theorem C19_end_hook_leaks_parent :
  forall cfg cur x l lvl nm kw rr px body w s0,
  hook_quiet cfg KBegin -> reach cfg w -> parent_bound w px -> lg_async (w_logs w l) = false ->
  In s0 (listeners cfg w l KEnd) ->
  (forall t e, e_act e = length (w_acts w) -> cf_sink cfg t l KEnd s0 e <> None) ->
  let w1 := block_start cfg x l lvl nm kw rr px w in
  let w2 := fst (eval cfg cur body w1) in
  snd (eval cfg cur body w1) = Ok tt -> w_active w2 l = Some (length (w_acts w)) ->
  exists w' y, eval cfg cur (SWithNew x l lvl nm kw rr px body) w = (w', Raise y) /\
    w_active w' l = Some (length (w_acts w)).
Proof.
  intros cfg cur x l lvl nm kw rr px body w s0 HQ HR.
  exact (block_end_leak cfg cur x l lvl nm kw rr px body w s0 HQ (reach_winv cfg w HR)).
Qed.
Print Assumptions C19_end_hook_leaks_parent.

(** So restoration under arbitrary sinks is false... *)
Theorem C19_restored_with_raising_sinks_refuted :
  exists cfg s w, reach cfg w /\ plain_withs s /\ w_active (fst (eval cfg None s w)) 0 <> w_active w 0.
Proof.
  exists (loud_cfg KEnd), (SWithNew 0 0 20 "top" [] None None (SWarn 0 "x" [])), (w_sync (loud_cfg KEnd)).
  split; [apply w_sync_reach|]. split; [simpl; auto|]. vm_compute. discriminate.
Qed.
Print Assumptions C19_restored_with_raising_sinks_refuted.

(** ... and true when only warn/comment hooks, preflush hooks and (ordinary)
    exception hooks raise. *)
Theorem C19_restored_partial :
  forall cfg cur s w, reach cfg w -> calm cfg -> plain_withs s ->
  forall l, w_active (fst (eval cfg cur s w)) l = w_active w l.
Proof. exact C05_active_parent_restored. Qed.
Print Assumptions C19_restored_partial.

Example C19_hypotheses :
  lg_async (w_logs (w_sync (loud_cfg KBegin)) 0) = false /\
  In 1 (listeners (loud_cfg KBegin) (w_sync (loud_cfg KBegin)) 0 KBegin) /\
  (forall t e, cf_sink (loud_cfg KBegin) t 0 KBegin 1 e <> None) /\
  hook_quiet (loud_cfg KEnd) KBegin /\
  In 1 (listeners (loud_cfg KEnd) (w_sync (loud_cfg KEnd)) 0 KEnd) /\
  (forall t e, cf_sink (loud_cfg KEnd) t 0 KEnd 1 e <> None) /\
  (let w2 := eval (loud_cfg KEnd) None (SWarn 0 "x" []) (block_start (loud_cfg KEnd) 0 0 20 "top" [] None None (w_sync (loud_cfg KEnd))) in
   snd w2 = Ok tt /\ w_active (fst w2) 0 = Some 0).
Proof.
  split; [reflexivity|]. split; [simpl; auto|]. split; [discriminate|].
  split; [intros ? ? *; reflexivity|]. split; [simpl; auto|]. split; [discriminate|]. split; reflexivity.
Qed.
