(** C15, C16: one logger, many threads. *)
From Coq Require Import Permutation.
From Verif Require Import model.PyBase model.Core model.Concurrent spec.CoreSpec spec.ConcurrentSpec
  proof.CoreLib proof.CoreDispatch proof.ConcurrentProofs proof.ConcurrentCalls.

(** The hooks of a logger: each sink is called at most once per event. *)
Definition hooks_of (lis : kind -> list nat) : Prop := forall k, NoDup (lis k).

(** Example material: two producers and two flushers on a logger with two sinks; sink 0
    listens to everything, sink 1 to end and comment events. *)
Definition ex_lis (k : kind) : list nat := match k with KEnd | KComment => [0; 1] | _ => [0] end.
Definition ex_ev (n : nat) (k : kind) : event := mkEvent k n n 0%Z ""%string None None.
Definition ex_log (n : nat) (k : kind) : call := CLog k (ex_ev n k).
Definition ex_progs : list (list call) :=
  [[ex_log 0 KBegin; ex_log 1 KEnd]; [ex_log 2 KBegin; ex_log 3 KComment]; [CFlush; CFlush]; [CFlush]].
Definition run_of (l : list nat) : sched := map (fun t => (t, false)) l.
Definition round (n : nat) : sched := run_of (concat (repeat [0; 2; 1; 3; 2] n)).
Lemma ex_hooks : hooks_of ex_lis.
Proof. intros []; repeat constructor; cbn; intuition congruence. Qed.

(** C15: at most one thread at a time is inside flush past the lock, hence at most one
    is handing over a queued event. *)
Theorem C15_one_deliverer :
  forall lis async progs sc, hooks_of lis ->
  let g := trun lis sc (start async progs) in
  forall t1 th1 t2 th2, nth_error (g_threads g) t1 = Some th1 -> nth_error (g_threads g) t2 = Some th2 ->
    flushing th1 -> flushing th2 -> t1 = t2.
Proof.
  intros lis async progs sc HL g t1 th1 t2 th2 H1 H2 F1 F2. pose proof (iv_lock _ (run_Inv lis HL async progs sc)) as K.
  pose proof (li_only _ K _ _ H1 F1). pose proof (li_only _ K _ _ H2 F2). unfold g in *. congruence.
Qed.
Print Assumptions C15_one_deliverer.

(** C15: under every schedule, whatever hooks raise and however long the queue gets, what
    a sink receives through flush is a subsequence of what was queued and it listens to:
    in queue order, each at most once. *)
Theorem C15_fifo_at_most_once :
  forall lis async progs sc s, hooks_of lis ->
  let g := trun lis sc (start async progs) in
  subseq (got_queued s (g_trace g)) (filter (wants lis s) (appended (g_trace g))).
Proof.
  intros lis async progs sc s HL g. pose proof (run_got lis HL true s async progs sc (fun e => False_ind _ (diff_true_false e))) as K. cbn in K. fold g in K.
  pose proof (iv_q _ (run_Inv lis HL async progs sc)) as Q. fold g in Q. unfold queue_inv in Q.
  eapply subseq_trans; [|eapply subseq_trans; [exact K|]].
  - rewrite <- (app_nil_r (got_queued s (g_trace g))) at 1. apply subseq_app; [apply subseq_refl|apply subseq_nil].
  - apply subseq_filter. eapply subseq_trans; [|exact Q]. rewrite <- (app_nil_r (popped (g_trace g))) at 1. apply subseq_app; [apply subseq_refl|apply subseq_nil].
Qed.
Print Assumptions C15_fifo_at_most_once.

(** C15: nothing is lost: if no more than QUEUE_LIMIT events ever wait and no hook raises,
    then once a flush has returned and nothing was queued since, every sink has received
    exactly the queued events it listens to, in the order they were queued. *)
Theorem C15_no_loss :
  forall lis async progs sc s, hooks_of lis ->
  never_full lis sc (start async progs) -> nobody_raises sc ->
  let g := trun lis sc (start async progs) in
  forall before t after, g_trace g = before ++ TFlushed t :: after -> appended after = [] ->
  got_queued s (g_trace g) = filter (wants lis s) (appended (g_trace g)).
Proof.
  intros lis async progs sc s HL HF HN g before t after E HA.
  destruct (run_flushed2 lis async progs sc _ _ _ E HA) as [Q B]. fold g in Q, B.
  pose proof (run_got lis HL false s async progs sc (fun _ => HN)) as K. fold g in K. cbn in K.
  pose proof (never_full_dropped lis sc _ HF) as D. fold g in D.
  pose proof (iv_e _ (run_Inv lis HL async progs sc) D) as X. fold g in X. rewrite X, Q, app_nil_r, <- K.
  replace (qinfl s g) with (@nil item); [rewrite app_nil_r; reflexivity|].
  unfold qinfl. destruct (g_lock g) as [t0|]; [|reflexivity]. destruct (nth_error (g_threads g) t0) as [th|] eqn:EN; [|reflexivity].
  specialize (B _ _ EN). unfold busy in B. unfold inflight. destruct (th_pc th); try reflexivity; destruct B; exact I.
Qed.
Print Assumptions C15_no_loss.

(** C15: a flush that returns is a barrier: at the moment any flush call of any thread
    returns, whatever the other threads are doing and whatever happens afterwards, every
    sink has received every event queued so far that it listens to, each once, in order. *)
Theorem C15_flush_is_barrier :
  forall lis async progs sc s, hooks_of lis ->
  never_full lis sc (start async progs) -> nobody_raises sc ->
  forall before t after, g_trace (trun lis sc (start async progs)) = before ++ TFlushed t :: after ->
  got_queued s before = filter (wants lis s) (appended before).
Proof.
  intros lis async progs sc s HL HF HN before t after E.
  destruct (flushed_cut lis sc (start async progs) before t after eq_refl E) as (sc1 & sc2 & -> & E1).
  apply Forall_app in HN as [HN _]. apply never_full_prefix in HF.
  pose proof (C15_no_loss lis async progs sc1 s HL HF HN before t [] E1 eq_refl) as K. cbv zeta in K. rewrite E1 in K.
  rewrite gotq_app, appended_app in K. cbn in K. rewrite !app_nil_r in K. exact K.
Qed.
Print Assumptions C15_flush_is_barrier.

(** C15: moreover each event goes to all its listeners, in the order the sinks were
    added, before the next event goes to any. *)
Theorem C15_sink_order :
  forall lis async progs sc, hooks_of lis ->
  never_full lis sc (start async progs) -> nobody_raises sc ->
  let g := trun lis sc (start async progs) in
  forall before t after, g_trace g = before ++ TFlushed t :: after -> appended after = [] ->
  handed (g_trace g) = to_all lis (appended (g_trace g)).
Proof.
  intros lis async progs sc HL HF HN g before t after E HA.
  destruct (run_flushed2 lis async progs sc before t after E HA) as [Q B]. fold g in Q, B.
  pose proof (run_hand lis HL async progs sc HN) as K. fold g in K. unfold hand_inv in K.
  pose proof (never_full_dropped lis sc _ HF) as D. fold g in D.
  pose proof (iv_e _ (run_Inv lis HL async progs sc) D) as X. fold g in X. rewrite X, Q, app_nil_r, <- K.
  replace (left_q g) with (@nil (nat * item)); [rewrite app_nil_r; reflexivity|].
  unfold left_q. destruct (g_lock g) as [t0|]; [|reflexivity]. destruct (nth_error (g_threads g) t0) as [th|] eqn:EN; [|reflexivity].
  specialize (B _ _ EN). unfold busy in B. unfold left_th. destruct (th_pc th); try reflexivity; destruct B; exact I.
Qed.
Print Assumptions C15_sink_order.

(** C15: in synchronous mode nothing is queued, and a thread outside its logging calls has
    handed each of its events to all listeners, in order, itself. *)
Theorem C15_synchronous_inline :
  forall lis progs sc, no_switch progs -> nobody_raises sc ->
  let g := trun lis sc (start false progs) in
  appended (g_trace g) = [] /\
  forall t th, nth_error (g_threads g) t = Some th -> ~ in_log_call th ->
    handed_inline_by t (g_trace g) = to_all lis (logged_by t (g_trace g)).
Proof.
  intros lis progs sc HP HN g. destruct (run_sync lis progs sc HP HN) as (_ & Q & H). split; [exact Q|].
  intros t th HT HI. destruct (H t th HT) as (_ & _ & K). fold g in K. rewrite <- K.
  replace (left_inl lis th) with (@nil (nat * item)); [rewrite app_nil_r; reflexivity|].
  unfold left_inl, in_log_call in *. destruct (th_pc th); auto; destruct HI; exact I.
Qed.
Print Assumptions C15_synchronous_inline.

(** C15: in asynchronous mode a logging call runs no sink code, except for exception
    events. *)
Theorem C15_asynchronous_never_inline :
  forall lis progs sc, no_switch progs ->
  forall t s x, In (TCall t s x false) (g_trace (trun lis sc (start true progs))) -> fst x = KExc.
Proof. intros lis progs sc HP. exact (proj2 (proj2 (run_async lis progs sc HP))). Qed.
Print Assumptions C15_asynchronous_never_inline.

(** C15: a thread's events reach a sink in the order the thread logged them.  The
    programs only log and flush; every thread is done; a flush has returned since the
    last event was queued. *)
Theorem C15_program_order :
  forall lis progs sc s, hooks_of lis -> no_switch progs ->
  never_full lis sc (start true progs) -> nobody_raises sc ->
  let g := trun lis sc (start true progs) in
  Forall finished (g_threads g) ->
  forall before t after, g_trace g = before ++ TFlushed t :: after -> appended after = [] ->
  forall p, In p progs -> subseq (filter (wants lis s) (plain_logs p)) (got s (g_trace g)).
Proof.
  intros lis progs sc s HL HS HF HN g HD before t after E HA p HP.
  pose proof (C15_no_loss lis true progs sc s HL HF HN before t after E HA) as K. fold g in K.
  eapply subseq_trans; [|apply got_queued_sub]. rewrite K. apply subseq_filter.
  assert (HO : ord_inv progs g).
  { enough (X : (Inv g /\ ord_inv progs g)) by apply X. apply trun_inv.
    - intros t0 b g0 g' St0 [I0 O0]. split; [eapply St_Inv; eauto|eapply St_ord; eauto; apply I0].
    - split; [apply start_Inv; assumption|]. split; [reflexivity|]. intros t0 th H0. destruct (start_th _ _ _ _ H0) as (p0 & P1 & ->). exists p0. split; [exact P1|].
      split; [reflexivity|]. split; [|discriminate]. intros b. apply HS. eapply nth_error_In; eauto. }
  apply In_nth_error in HP as [n HP]. destruct HO as [_ HO].
  assert (exists th, nth_error (g_threads g) n = Some th) as [th HT].
  { destruct (nth_error (g_threads g) n) eqn:EN; [eauto|]. apply nth_error_None in EN. unfold g in EN. rewrite trun_length in EN. cbn in EN. rewrite map_length in EN.
    assert (nth_error progs n <> None) by congruence. apply nth_error_Some in H. lia. }
  destruct (HO _ _ HT) as (p' & P1 & P2 & _ & _). rewrite HP in P1. inversion P1; subst p'.
  rewrite Forall_forall in HD. destruct (HD th (nth_error_In _ _ HT)) as [F1 F2]. rewrite F1, F2 in P2. cbn in P2. rewrite app_nil_r in P2. rewrite <- P2.
  apply appended_by_sub.
Qed.
Print Assumptions C15_program_order.

(** C15: flush raises only what a hook raised; in particular popping never finds the
    queue empty. *)
Theorem C15_flush_raises_only_hook_errors :
  forall lis async progs sc t, hooks_of lis -> nobody_raises sc ->
  ~ In (TFlushRaised t) (g_trace (trun lis sc (start async progs))).
Proof.
  intros lis async progs sc t HL HN. revert t. enough (X : Inv (trun lis sc (start async progs)) /\ noraise_inv (trun lis sc (start async progs))) by apply X.
  apply trun_inv_f; [|exact HN|].
  - intros t g g' HS [A B]. split; [eapply St_Inv; eauto|eapply St_noraise; eauto; apply A].
  - split; [apply start_Inv; assumption|]. intros t [].
Qed.
Print Assumptions C15_flush_raises_only_hook_errors.

(** C15: the queue never grows past QUEUE_LIMIT. *)
Theorem C15_queue_bounded :
  forall lis async progs sc, (N.of_nat (length (g_queue (trun lis sc (start async progs)))) <= QUEUE_LIMIT)%N.
Proof. intros. apply trun_inv; [intros; eapply St_bounded; eauto|]. cbn. unfold QUEUE_LIMIT. lia. Qed.
Print Assumptions C15_queue_bounded.

(** C15: no schedule deadlocks: while a thread has something left to do, some thread can
    take a step. *)
Theorem C15_no_deadlock :
  forall lis async progs sc, hooks_of lis ->
  let g := trun lis sc (start async progs) in
  Exists (fun th => ~ finished th) (g_threads g) -> exists t g', tstep lis t false g = Some g'.
Proof.
  intros lis async progs sc HL g H. apply no_deadlock; [apply (run_Inv lis HL)|].
  apply Exists_exists in H as (th & H1 & H2). apply In_nth_error in H1 as [t H1]. eauto.
Qed.
Print Assumptions C15_no_deadlock.

(** C15: nor can the threads run for ever: the number of steps of any schedule is bounded
    by the programs alone. *)
Theorem C15_terminates :
  forall lis async progs, exists n, forall sc, steps lis sc (start async progs) <= n.
Proof. intros lis async progs. eexists. intros sc. apply steps_work. Qed.
Print Assumptions C15_terminates.

(** Two producers, two flushers, interleaved one step at a time: everything the
    theorems above ask for holds, and sink 1 gets the end and the comment event. *)
Definition ex_g : gstate := trun ex_lis (round 30) (start true ex_progs).
Example C15_nonvacuous :
  Forall finished (g_threads ex_g) /\ nobody_raises (round 30) /\ no_switch ex_progs /\
  never_full ex_lis (round 30) (start true ex_progs) /\
  g_trace ex_g = removelast (g_trace ex_g) ++ TFlushed 2 :: [] /\
  length (got 0 (g_trace ex_g)) = 4 /\ map fst (got 1 (g_trace ex_g)) = [KEnd; KComment] /\
  (let h := trun ex_lis (round 30) (start false ex_progs) in
   map fst (handed_inline_by 0 (g_trace h)) = [0; 0; 1] /\ map fst (handed_inline_by 1 (g_trace h)) = [0; 0; 1]).
Proof.
  split; [|split; [|split; [|split; [|split; [|split; [|split]]]]]].
  - vm_compute. repeat constructor.
  - unfold nobody_raises, round, run_of. apply Forall_map. apply Forall_forall. reflexivity.
  - intros p b H K. cbn in H. decompose [or] H; subst; cbn in K; intuition discriminate.
  - apply few_never_full; [exact ex_hooks|]. vm_compute. reflexivity.
  - vm_compute. reflexivity.
  - vm_compute. reflexivity.
  - vm_compute. reflexivity.
  - vm_compute. split; reflexivity.
Qed.

(** The barrier in use: thread 2 flushes while thread 1 is about to queue one more event;
    the flush covers what was queued and the late event is not part of the claim. *)
Example C15_barrier_nonvacuous :
  let sc := run_of ([0; 0; 0; 1; 1] ++ repeat 2 8 ++ [1]) in
  let g := trun ex_lis sc (start true ex_progs) in
  nobody_raises sc /\ never_full ex_lis sc (start true ex_progs) /\
  exists before after, g_trace g = before ++ TFlushed 2 :: after /\ length (appended before) = 1 /\ length (appended after) = 1.
Proof.
  cbv zeta. split; [repeat constructor|]. split; [apply few_never_full; [exact ex_hooks|vm_compute; reflexivity]|].
  do 2 eexists. split; [|split].
  - match goal with |- ?a = _ => let v := eval vm_compute in a in transitivity v; [vm_compute; reflexivity|] end.
    match goal with |- [?a; ?b; ?c; ?d; ?e; ?f; ?h] = _ => instantiate (1 := [h]); instantiate (1 := [a; b; c; d; e]) end. reflexivity.
  - reflexivity.
  - reflexivity.
Qed.

(** C16, full statement: whenever a disable_async call and the logging calls overlap in
    any way, once all have returned every event is delivered exactly once, in order.  It
    is false in two ways. *)

(** (a) A producer that has read [async_mode] but not yet queued its event is overtaken by
    the whole of disable_async: everyone returns, nothing raised, and the event sits in
    the queue of a logger in synchronous mode. *)
Theorem C16_stranded_refuted :
  exists (progs : list (list call)) (sc : sched) (x : item),
  let g := trun ex_lis sc (start true progs) in
  progs = [[CLog (fst x) (snd x)]; disable] /\ nobody_raises sc /\ Forall finished (g_threads g) /\
  g_async g = false /\ wants ex_lis 0 x = true /\ logged (g_trace g) = [x] /\ got 0 (g_trace g) = [].
Proof.
  exists [[ex_log 0 KEnd]; disable], (run_of [0; 0; 1; 1; 1; 1; 1; 0]), (KEnd, ex_ev 0 KEnd). cbv zeta.
  split; [reflexivity|]. split; [repeat constructor|]. split; [vm_compute; repeat constructor|]. vm_compute. repeat split.
Qed.
Print Assumptions C16_stranded_refuted.

(** (b) One thread logs A then B; A is queued, the mode is switched, B is delivered at once
    and A only by the flush that follows: the sink sees B before A. *)
Theorem C16_reordered_refuted :
  exists (progs : list (list call)) (sc : sched) (a b : item),
  let g := trun ex_lis sc (start true progs) in
  progs = [[CLog (fst a) (snd a); CLog (fst b) (snd b)]; disable] /\ a <> b /\ nobody_raises sc /\ Forall finished (g_threads g) /\
  logged (g_trace g) = [a; b] /\ got 0 (g_trace g) = [b; a].
Proof.
  exists [[ex_log 0 KBegin; ex_log 1 KEnd]; disable], (run_of ([0; 0; 0; 1; 1] ++ repeat 0 7 ++ repeat 1 9)),
    (KBegin, ex_ev 0 KBegin), (KEnd, ex_ev 1 KEnd). cbv zeta.
  split; [reflexivity|]. split; [discriminate|]. split; [repeat constructor|]. split; [vm_compute; repeat constructor|]. vm_compute. split; reflexivity.
Qed.
Print Assumptions C16_reordered_refuted.

(** C16, first part: whatever the schedule and however the modes are switched, as long as
    no hook raises and at most QUEUE_LIMIT events wait, no event is delivered twice to a
    sink and none disappears: when every thread has returned, the events logged that a
    sink listens to are exactly those it received plus those still queued.  Missing: that
    the queue is then empty, and the order. *)
Theorem C16_conserved_partial :
  forall lis async progs sc s, hooks_of lis ->
  never_full lis sc (start async progs) -> nobody_raises sc ->
  let g := trun lis sc (start async progs) in
  Forall finished (g_threads g) ->
  Permutation (filter (wants lis s) (logged (g_trace g))) (got s (g_trace g) ++ filter (wants lis s) (g_queue g)).
Proof.
  intros lis async progs sc s HL HF HN g HD. apply (Permutation_count_occ item_dec). intros x.
  pose proof (run_cons lis HL s async progs sc HN x) as K. fold g in K. unfold cnt in K. rewrite count_occ_app, K.
  pose proof (never_full_dropped lis sc _ HF) as D. fold g in D. rewrite D.
  replace (flat_map (pend lis s) (g_threads g)) with (@nil item); [cbn; lia|].
  symmetry. clear K D. induction HD as [|th l [H1 H2] HD IH]; [reflexivity|]. cbn [flat_map]. rewrite IH. unfold pend. rewrite H1. reflexivity.
Qed.
Print Assumptions C16_conserved_partial.

(** C16, second part: if at some moment synchronous mode is on, no thread is between
    reading the mode and queueing, and nobody will switch asynchronous mode on again, then
    nothing is queued any more; and once a flush that ends after that moment has returned and all
    threads are done, the queue is empty and every event logged by anyone at any time has
    been delivered exactly once to each sink that listens.  Missing: overlaps with a
    logging call that has already read the mode (see (a)), and the order (see (b)). *)
Theorem C16_quiet_switch_partial :
  forall lis async progs sc1 sc2, hooks_of lis ->
  let g1 := trun lis sc1 (start async progs) in
  let g2 := trun lis sc2 g1 in
  g_async g1 = false ->
  Forall (fun th => ~ In (CSetAsync true) (th_todo th) /\ (forall k e, th_pc th <> Appending k e) /\ th_pc th <> Setting true) (g_threads g1) ->
  appended (g_trace g2) = appended (g_trace g1) /\ g_async g2 = false /\
  (never_full lis (sc1 ++ sc2) (start async progs) -> nobody_raises (sc1 ++ sc2) -> Forall finished (g_threads g2) ->
   (exists new1 t new2, g_trace g2 = g_trace g1 ++ new1 ++ TFlushed t :: new2) ->
   g_queue g2 = [] /\ forall s, Permutation (filter (wants lis s) (logged (g_trace g2))) (got s (g_trace g2))).
Proof.
  intros lis async progs sc1 sc2 HL g1 g2 HA HT.
  assert (HO : off_inv (appended (g_trace g1)) g1).
  { split; [exact HA|]. split; [reflexivity|]. intros t th HN. rewrite Forall_forall in HT. destruct (HT th (nth_error_In _ _ HN)) as (A & B & C).
    split; [exact A|]. destruct (th_pc th); auto; [exact (B _ _ eq_refl)|]. destruct b; [congruence|reflexivity]. }
  assert (HO2 : off_inv (appended (g_trace g1)) g2) by exact (trun_inv lis (off_inv (appended (g_trace g1))) g1 sc2 (St_off lis _) HO).
  destruct HO2 as (P1 & P2 & P3). split; [exact P2|]. split; [exact P1|].
  intros HF HN HD (new1 & t & new2 & E).
  assert (Eg : g2 = trun lis (sc1 ++ sc2) (start async progs)) by (unfold g2, g1; rewrite trun_app; reflexivity).
  assert (HQ : g_queue g2 = []).
  { rewrite E in P2. rewrite !appended_app in P2. cbn [appended flat_map app] in P2. fold (appended new2) in P2.
    rewrite <- (app_nil_r (appended (g_trace g1))) in P2 at 2. apply app_inv_head in P2. apply app_eq_nil in P2 as [_ P2].
    rewrite Eg in *. rewrite app_assoc in E. eapply run_flushed2; eauto. }
  split; [exact HQ|]. intros s. pose proof (C16_conserved_partial lis async progs (sc1 ++ sc2) s HL HF HN) as K. cbv zeta in K. rewrite <- Eg in K.
  specialize (K HD). rewrite HQ in K. cbn [filter] in K. rewrite app_nil_r in K. exact K.
Qed.
Print Assumptions C16_quiet_switch_partial.

(** The switch between two logging calls: the hypotheses above hold. *)
Example C16_nonvacuous :
  let progs := [[ex_log 0 KBegin; ex_log 1 KEnd]; disable] in
  let sc1 := run_of [0; 0; 0; 1; 1] in
  let sc2 := run_of (repeat 0 7 ++ repeat 1 9) in
  let g1 := trun ex_lis sc1 (start true progs) in
  let g2 := trun ex_lis sc2 g1 in
  g_async g1 = false /\ g_queue g1 <> [] /\
  Forall (fun th => ~ In (CSetAsync true) (th_todo th) /\ (forall k e, th_pc th <> Appending k e) /\ th_pc th <> Setting true) (g_threads g1) /\
  never_full ex_lis (sc1 ++ sc2) (start true progs) /\ nobody_raises (sc1 ++ sc2) /\ Forall finished (g_threads g2) /\
  (exists new1 t new2, g_trace g2 = g_trace g1 ++ new1 ++ TFlushed t :: new2).
Proof.
  cbv zeta. split; [vm_compute; reflexivity|]. split; [vm_compute; discriminate|]. split.
  { vm_compute. repeat constructor; try discriminate; intuition discriminate. }
  split; [apply few_never_full; [exact ex_hooks|vm_compute; reflexivity]|]. split; [repeat constructor|]. split; [vm_compute; repeat constructor|].
  match goal with |- exists n1 t n2, ?a = ?b ++ _ => exists (skipn (length b) (removelast a)), 1, [] end.
  vm_compute. reflexivity.
Qed.
