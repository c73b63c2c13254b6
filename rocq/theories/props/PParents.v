(** C79: parents of actions when several threads log. *)
From Verif Require Import model.PyBase model.Core model.ParentThreads spec.ParentSpec proof.ParentProofs.
Open Scope nat_scope.

(** Two threads with a logger of their own and nested blocks. *)
Definition ex_own : list (list pop) := [[PWith 0; PWith 0; PMake 0; PEnd; PMake 0; PEnd]; [PWith 1; PMake 1; PEnd; PMake 1]].

(** C79: if no two threads share an entry of the map of active actions, then under every
    schedule every action gets as parent the innermost with-block that its own thread
    has open on the same logger, and none if there is no such block. *)
Theorem C79_private_parents :
  forall key progs sc, private key progs ->
  forall before t l id par after, ps_trace (prun key sc (pstart progs)) = before ++ Created t l id par :: after ->
  par = innermost t l before.
Proof. intros key progs sc HP. exact (ai_tr _ _ _ (ainv_run key progs HP sc)). Qed.
Print Assumptions C79_private_parents.

(** With the default hooks this is the case when each logger is used by one thread ... *)
Theorem C79_own_loggers :
  forall progs sc, own_loggers progs ->
  forall before t l id par after, ps_trace (prun by_logger sc (pstart progs)) = before ++ Created t l id par :: after ->
  par = innermost t l before.
Proof.
  intros progs sc HO. apply C79_private_parents. intros t t' p p' l l' E1 E2 U1 U2 K. injection K as <-. split; [|reflexivity]. eapply HO; eauto.
Qed.
Print Assumptions C79_own_loggers.

(** ... and with hooks keyed by the current thread it always is. *)
Theorem C79_hooks_by_thread :
  forall progs sc before t l id par after, ps_trace (prun by_thread sc (pstart progs)) = before ++ Created t l id par :: after ->
  par = innermost t l before.
Proof. intros progs sc. apply C79_private_parents. intros t t' p p' l l' _ _ _ _ K. injection K as -> ->. auto. Qed.
Print Assumptions C79_hooks_by_thread.

Example C79_own_nonvacuous :
  own_loggers ex_own /\
  ps_trace (prun by_logger (concat (repeat [0; 1] 16)) (pstart ex_own)) =
  [Created 0 0 0 None; Created 1 1 1 None; Entered 0 0 0; Entered 1 1 1; Created 0 0 2 (Some 0); Created 1 1 3 (Some 1);
   Entered 0 0 2; Left 1 1 1; Created 0 0 4 (Some 2); Created 1 1 5 None; Left 0 0 2; Created 0 0 6 (Some 0); Left 0 0 0].
Proof.
  split; [|vm_compute; reflexivity]. intros t t' p p' l E1 E2 U1 U2.
  destruct t as [|[|t]], t' as [|[|t']]; cbn in E1, E2; try reflexivity; try (destruct t; discriminate); try (destruct t'; discriminate);
    injection E1 as <-; injection E2 as <-; unfold uses in *; cbn in *; intuition congruence.
Qed.

(** C79: two threads that share a logger: an action is attributed to a block of the
    other thread. *)
Theorem C79_shared_logger_refuted :
  exists progs sc before t l id par after,
  ps_trace (prun by_logger sc (pstart progs)) = before ++ Created t l id par :: after /\
  innermost t l before = None /\ par = Some 0 /\ In (Entered 0 l 0) before /\ t <> 0.
Proof.
  exists [[PWith 0; PEnd]; [PMake 0]], [0; 0; 0; 1; 1], [Created 0 0 0 None; Entered 0 0 0], 1, 0, 1, (Some 0), [].
  split; [vm_compute; reflexivity|]. split; [reflexivity|]. split; [reflexivity|]. split; [right; left; reflexivity|discriminate].
Qed.
Print Assumptions C79_shared_logger_refuted.

(** Worse: the mistake outlives the overlap.  Two overlapping blocks of two threads on
    one logger, both closed; every action made on that logger from then on has the first,
    finished action as its parent. *)
Theorem C79_stale_parent_refuted :
  exists progs sc w p, w = prun by_logger sc (pstart progs) /\ all_closed w /\ In (Left 0 0 p) (ps_trace w) /\
  (forall t, blocks t 0 (ps_trace w) = []) /\
  forall more, exists id,
    ps_trace (prun by_logger (sc ++ [2; 2]) (pstart (progs ++ [PMake 0 :: more]))) = ps_trace w ++ [Created 2 0 id (Some p)].
Proof.
  exists [[PWith 0; PEnd]; [PWith 0; PEnd]], [0; 0; 0; 1; 1; 1; 0; 1]. eexists. exists 0. split; [reflexivity|].
  split; [vm_compute; repeat constructor|]. split; [vm_compute; tauto|]. split.
  - intros t. destruct t as [|[|t]]; vm_compute; reflexivity.
  - intros more. exists 2. vm_compute. reflexivity.
Qed.
Print Assumptions C79_stale_parent_refuted.

(** C79: whatever is shared and however the threads are scheduled, no two actions get the
    same id, and following parent_action never leads back to the action one came from. *)
Theorem C79_ids_and_no_cycle :
  forall key progs sc, let tr := ps_trace (prun key sc (pstart progs)) in
  NoDup (made tr) /\ forall c, ~ ancestor tr c c.
Proof.
  intros key progs sc tr. pose proof (cinv_run key progs sc) as I. split; [apply (ci_nodup _ I)|].
  intros c H. eapply earlier_irrefl; [apply (ci_nodup _ I)|]. eapply ancestor_earlier; eauto.
Qed.
Print Assumptions C79_ids_and_no_cycle.
(** A parent may well have the larger id: here action 0 is a child of action 1, a
    grandchild of action 2. *)
Example C79_cycle_nonvacuous :
  let tr := ps_trace (prun by_logger [0; 1; 2; 2; 2; 1; 1; 0] (pstart [[PMake 0]; [PWith 0]; [PWith 0]])) in
  made tr = [2; 1; 0] /\ ancestor tr 0 2.
Proof.
  split; [vm_compute; reflexivity|]. eapply anc_more; [apply anc_one|]; (do 2 eexists; vm_compute; tauto).
Qed.
