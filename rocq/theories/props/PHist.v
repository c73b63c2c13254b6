(** Whole call histories: C02, C06, C07, C17, C20. *)
From Verif Require Import model.PyBase model.Core spec.CoreSpec spec.CoreExamples
  proof.CoreData proof.CoreFinal proof.CoreStat2.

(** C02: over any reachable history, whatever the sinks do, each sink gets at
    most one begin call per action... *)
Theorem C02_begin_at_most_once :
  forall cfg w r s, reach cfg w -> length (begin_calls r s (w_trace w)) <= 1.
Proof. intros cfg w r s. exact (begin_once cfg w r s). Qed.
Print Assumptions C02_begin_at_most_once.

(** ... and an end event handed to a sink was created after the begin event of
    its action. *)
Theorem C02_begin_created_before_end :
  forall cfg w l s e, reach cfg w -> In (ODeliver l KEnd s e) (w_trace w) ->
  exists a b h1 h2 h3, nth_error (w_acts w) (e_act e) = Some a /\ a_begin a = Some b /\ e_kind b = KBegin /\
    w_hist w = h1 ++ HEvent b :: h2 ++ HEvent e :: h3.
Proof. exact begin_before_end. Qed.
Print Assumptions C02_begin_created_before_end.

Definition busy_world : world :=
  run_ops quiet_cfg [OpBegin 0 None []; OpSuccess 0 None []; OpFailure 0 None []]
    (fst (eval quiet_cfg None (SWithNew 0 0 20 "top" [] (Some false) None busy_body) (w_sync quiet_cfg))).
Lemma busy_reach : reach quiet_cfg busy_world.
Proof. unfold busy_world. apply reach_run_ops. apply reach_run. apply w_sync_reach. Qed.
Example C02_reached :
  reach quiet_cfg busy_world /\ length (begin_calls 0 1 (w_trace busy_world)) = 1 /\
  length (end_calls 0 (w_trace busy_world)) = 6.
Proof. split; [apply busy_reach|]. split; reflexivity. Qed.

(** C06 *)
Theorem C06_ids_increase_with_creation :
  forall cfg w, reach cfg w ->
  increasing (created w) /\
  (forall e, visible w e -> In (HEvent e) (w_hist w)) /\
  (forall r a, nth_error (w_acts w) r = Some a -> In (HAction r (a_id a)) (w_hist w)) /\
  (forall r1 r2 a1 a2, r1 < r2 -> nth_error (w_acts w) r1 = Some a1 -> nth_error (w_acts w) r2 = Some a2 -> a_id a1 < a_id a2).
Proof.
  intros cfg w HR. split; [exact (created_increasing cfg w HR)|].
  split; [intros e; exact (visible_created cfg w e HR)|].
  split; [intros r a; exact (action_created cfg w r a HR) | exact (reach_aids cfg w HR)].
Qed.
Print Assumptions C06_ids_increase_with_creation.

Theorem C06_ids_unique :
  forall cfg w, reach cfg w ->
  (forall e1 e2, visible w e1 -> visible w e2 -> e_id e1 = e_id e2 -> e1 = e2) /\
  (forall r1 r2 a1 a2, nth_error (w_acts w) r1 = Some a1 -> nth_error (w_acts w) r2 = Some a2 -> a_id a1 = a_id a2 -> r1 = r2) /\
  (forall e r a, visible w e -> nth_error (w_acts w) r = Some a -> e_id e <> a_id a).
Proof. exact ids_unique. Qed.
Print Assumptions C06_ids_unique.

Theorem C06_parent_id_smaller :
  forall cfg w r a p, reach cfg w -> nth_error (w_acts w) r = Some a -> a_parent a = Some p ->
  exists b, nth_error (w_acts w) p = Some b /\ a_id b < a_id a.
Proof. exact parent_older. Qed.
Print Assumptions C06_parent_id_smaller.

Example C06_reached : reach quiet_cfg busy_world /\ map a_id (w_acts busy_world) = [0; 3; 11] /\ length (created busy_world) = 19.
Proof. split; [apply busy_reach|]. split; reflexivity. Qed.

(** C07 *)
Theorem C07_duration_nonnegative :
  forall cfg w r, reach cfg w -> monotone_clock cfg -> (0 <= get_duration w r)%Z.
Proof. exact duration_nonneg. Qed.
Print Assumptions C07_duration_nonnegative.

(** An action never entered (not before [w], not by the calls [os]). *)
Theorem C07_atomic_duration_zero :
  forall cfg w r a os, reach cfg w -> nth_error (w_acts w) r = Some a -> a_trans a = false ->
  ~ In (OpEnter r) os -> get_duration (run_ops cfg os w) r = 0%Z.
Proof. exact duration_atomic. Qed.
Print Assumptions C07_atomic_duration_zero.

Definition fresh_action : world := run_ops quiet_cfg [OpNew 0 20 "job" [] None None] (w_sync quiet_cfg).
Example C07_reached :
  monotone_clock quiet_cfg /\ get_duration busy_world 0 = 10%Z /\
  option_map a_trans (nth_error (w_acts fresh_action) 0) = Some false /\
  ~ In (OpEnter 0) [OpBegin 0 None []; OpWarn 0 "x" []; OpSuccess 0 None []] /\
  option_map act_status (nth_error (w_acts (run_ops quiet_cfg [OpBegin 0 None []; OpWarn 0 "x" []; OpSuccess 0 None []] fresh_action)) 0)
    = Some (Some Success).
Proof.
  split; [apply quiet_clock|]. split; [vm_compute; reflexivity|]. split; [vm_compute; reflexivity|].
  split; [simpl; intuition discriminate | vm_compute; reflexivity].
Qed.

(** C77: the status of an action is decided by the calls on it, in order; calls on other
    actions, flushes, warnings, comments and mode switches do not touch it. *)
Theorem C77_status_of_calls :
  forall cfg w r a os, reach cfg w -> hook_quiet cfg KBegin -> exc_quiet cfg -> nth_error (w_acts w) r = Some a ->
  exists a', nth_error (w_acts (run_ops cfg os w)) r = Some a' /\
    act_status a' = fold_left (fun s o => next_status r o s) os (act_status a).
Proof. intros cfg w r a os HR HB HX Ha. exact (status_run cfg r os w a HB HX HR Ha). Qed.
Print Assumptions C77_status_of_calls.
(** An end hook that raises does not undo the status: the hooks of end events are not
    restricted above.  A begin hook that raises does: the success call below leaves the
    action at 'begin' (status None). *)
Theorem C77_raising_begin_refuted :
  exists cfg w a, reach cfg w /\ nth_error (w_acts w) 0 = Some a /\ exc_quiet cfg /\
    exists a', nth_error (w_acts (run_ops cfg [OpSuccess 0 None []] w)) 0 = Some a' /\ act_status a' = None.
Proof.
  set (cfg := mkConfig Z.of_nat (fun _ _ => true) (fun _ _ k _ _ => match k with KBegin => Some boom | _ => None end) (fun _ _ _ => None) (fun _ _ => None) (fun _ => Ok "boom"%string)).
  exists cfg, (run_ops cfg [OpAddSink 0 1; OpNew 0 20 "job" [] None None] (init (fun _ => false))). eexists.
  split; [apply reach_run_ops; constructor|]. split; [vm_compute; reflexivity|].
  split; [split; [intros ? ? ? ?; reflexivity|intros x; exists "boom"%string; reflexivity]|].
  eexists. split; vm_compute; reflexivity.
Qed.
Print Assumptions C77_raising_begin_refuted.
(** Recorded as 'success', then 'failure', then left without an exception. *)
Example C77_reached :
  let w := run_ops quiet_cfg [OpNew 0 20 "job" [] None None; OpEnter 0; OpWarn 0 "x" []; OpSuccess 0 None []; OpFailure 0 None []; OpExit 0 None] (w_sync quiet_cfg) in
  hook_quiet quiet_cfg KBegin /\ exc_quiet quiet_cfg /\ option_map act_status (nth_error (w_acts w) 0) = Some (Some Failure).
Proof. split; [intros ? ? ? ?; reflexivity|]. split; [split; [intros ? ? ? ?; reflexivity|intros x; eexists; reflexivity]|]. vm_compute. reflexivity. Qed.

(** C17 *)
Theorem C17_parent_depth :
  forall cfg w r, reach cfg w -> r < length (w_acts w) ->
  exists n, ancestors w r n /\ (forall m, ancestors w r m -> m = n) /\ parent_depth w r = Nat.min n 500.
Proof. exact depth_final. Qed.
Print Assumptions C17_parent_depth.

Example C17_reached : ancestors busy_world 1 1 /\ parent_depth busy_world 1 = 1.
Proof.
  split; [|vm_compute; reflexivity].
  eapply anc_child; [vm_compute; reflexivity | reflexivity |]. eapply anc_root; [vm_compute; reflexivity | reflexivity].
Qed.

(** C20: item lookup gives the last write, among all calls on all actions. *)
Theorem C20_last_write_wins :
  forall cfg r os w k, reach cfg w -> exc_quiet cfg -> r < length (w_acts w) ->
  getitem (run_ops cfg os w) r k =
  match last_write k (flat_map (writes r) os) with Some v => Some v | None => getitem w r k end.
Proof. intros cfg r os w k _. exact (data_last_write cfg r os w k). Qed.
Print Assumptions C20_last_write_wins.

Example C20_reached :
  getitem (run_ops quiet_cfg [OpSet 0 "a" 1; OpWarn 0 "x" [("a", 2%Z); ("b", 3%Z)]%string; OpSet 0 "b" 4; OpSuccess 0 None [("a", 5%Z)]%string]
    fresh_action) 0 "a" = Some 5%Z /\ 0 < length (w_acts fresh_action).
Proof. split; [vm_compute; reflexivity | vm_compute; lia]. Qed.
