(** C95: sinks and preflush hooks that call back into the loggers. *)
From Coq Require Import Permutation.
From Verif Require Import model.PyBase model.Core model.Concurrent model.Reentrant spec.CoreSpec spec.ReentrantSpec.
From Verif Require Import proof.CoreDispatch proof.ConcurrentProofs proof.HookThreadsProofs proof.ReentrantProofs proof.ReentrantCounts proof.ReentrantOrder proof.ReentrantRuns proof.ReentrantEnds.
Open Scope nat_scope.

(** In all theorems [H] says which hooks the loggers have and what the hooks do: any calls
    on any loggers, depending on everything that happened before; [async l] is the mode of
    logger [l] at the start; each thread runs one of [progs]; [sc] is any schedule. *)

(** However hooks call back, at most one thread is inside the locked part of flush. *)
Theorem C95_one_flusher : forall H async progs sc l t1 t2 st1 st2,
  let g := rrun H sc (rstart async progs) in
  nth_error (r_threads g) t1 = Some st1 -> nth_error (r_threads g) t2 = Some st2 ->
  in_flush l st1 -> in_flush l st2 -> t1 = t2.
Proof. intros H async progs sc l t1 t2 st1 st2 g A1 A2 P1 P2. apply (one_flusher l g t1 t2 st1 st2 (run_lock H l async progs sc) A1 A2); apply in_flush_holds; assumption. Qed.
Print Assumptions C95_one_flusher.

(** No event is handed over more often than it was logged, nor by flush more often than it
    was queued: also with raising hooks and a full queue. *)
Theorem C95_at_most_once : forall H async progs sc l s, registered_once H ->
  let tr := r_trace (rrun H sc (rstart async progs)) in
  (exists rest, Permutation (r_got l s tr ++ rest) (filter (r_wants H l s) (r_logged l tr))) /\
  (exists rest, Permutation (r_got_queued l s tr ++ rest) (filter (r_wants H l s) (r_appended l tr))).
Proof.
  intros H async progs sc l s O tr. destruct (run_cons_le H l s async progs sc O) as [C1 C2].
  split; apply cnt_sub; intro x; [specialize (C1 x)|specialize (C2 x)]; unfold tr; lia.
Qed.
Print Assumptions C95_at_most_once.

(** A sink gets what flush hands it in the order it was queued, if hooks do not flush that
    logger, or if the sink is the first listener. *)
Theorem C95_in_order : forall H async progs sc l s, registered_once H ->
  hooks_do_not_flush H l \/ listed_first H l s ->
  let tr := r_trace (rrun H sc (rstart async progs)) in
  subseq (r_got_queued l s tr) (filter (r_wants H l s) (r_appended l tr)).
Proof.
  intros H async progs sc l s O K tr. pose proof (run_order H l s async progs sc O K) as R. unfold order_inv in R.
  refine (subseq_trans _ _ _ _ R). rewrite <- (app_nil_r (r_got_queued l s tr)). apply subseq_app; [apply subseq_refl|apply subseq_nil].
Qed.
Print Assumptions C95_in_order.

(** A flush that returns and releases the lock is a barrier: every sink has received every
    event queued so far that it listens to, once, including what hooks and preflush hooks
    logged during the flush; in order under the conditions of the previous theorem. *)
Theorem C95_barrier : forall H async progs sc l s, registered_once H -> no_raises sc -> room H l sc (rstart async progs) ->
  forall before t after, r_trace (rrun H sc (rstart async progs)) = before ++ RFlushed t l true :: after ->
  Permutation (r_got_queued l s before) (filter (r_wants H l s) (r_appended l before)) /\
  (hooks_do_not_flush H l \/ listed_first H l s -> r_got_queued l s before = filter (r_wants H l s) (r_appended l before)).
Proof.
  intros H async progs sc l s O N R before t after E.
  destruct (flush_moment H l t sc _ _ _ E) as [[a0 E0]|(sc1 & b & sc2 & -> & Et & [rest A] & Q & Lh)]; [destruct before; discriminate|].
  assert (N1 := no_raises_prefix _ _ N). assert (R1 := room_prefix H _ _ _ _ R).
  assert (P := flush_moment_idle l s _ _ _ (run_lock H l async progs sc1) A Lh). split.
  - apply cnt_perm. intro x. pose proof (run_cons_queued H l s async progs sc1 O N1 R1 x) as C. rewrite Et, Q, P in C. cbn [filter] in C. rewrite !cnt_nil in C. lia.
  - intros K. pose proof (run_order_eq H l s async progs sc1 O K N1 R1) as C. unfold order_inv in C. rewrite Et, Q, P in C. cbn [filter app] in C. rewrite app_nil_r in C. exact C.
Qed.
Print Assumptions C95_barrier.

(** Nothing disappears: when all threads are done, each sink has received every event it
    listens to that anyone, hooks included, logged, except those still in the queue. *)
Theorem C95_conserved : forall H async progs sc l s, registered_once H -> no_raises sc -> room H l sc (rstart async progs) ->
  let g := rrun H sc (rstart async progs) in
  Forall r_finished (r_threads g) ->
  Permutation (filter (r_wants H l s) (r_logged l (r_trace g))) (r_got l s (r_trace g) ++ filter (r_wants H l s) (rl_queue (r_logs g l))).
Proof.
  intros H async progs sc l s O N R g F. apply cnt_perm. intro x. pose proof (run_cons_all H l s async progs sc O N R x) as C. fold g in C.
  assert (P : all_pend (pend_all H l s) g = []).
  { unfold all_pend. apply flat_map_none. intros st I. rewrite Forall_forall in F. rewrite (F _ I). reflexivity. }
  rewrite P, cnt_nil in C. rewrite cnt_app. change (prod kind event) with item in *. lia.
Qed.
Print Assumptions C95_conserved.

(** In synchronous mode everything logged has been delivered when the calls have returned,
    however deeply hooks log. *)
Definition sync_frame (l : nat) (f : frame) : Prop :=
  match f with FAppending l' _ | FSetting l' _ => l' <> l | FBody cs => forall b, ~ In (l, CSetAsync b) cs | _ => True end.
Definition sync_inv (l : nat) (g : rstate) : Prop :=
  rl_async (r_logs g l) = false /\ rl_queue (r_logs g l) = [] /\ forall t st, nth_error (r_threads g) t = Some st -> Forall (sync_frame l) st.
Lemma RSt_sync H progs l t b g g' st st' : no_switches H progs l -> nth_error (r_threads g) t = Some st -> RSt H t b g g' st st' -> sync_inv l g -> sync_inv l g'.
Proof.
  intros (_ & D1 & D2) A S (S1 & S2 & S3). pose proof (S3 _ _ A) as F. split; [|split].
  - destruct S; cbn [rat r_release r_set_lock r_set_queue r_set_async r_set r_logs r_trace r_threads]; try exact S1; destruct (Nat.eqb_spec l l0) as [<-|]; try exact S1.
    inversion F as [|? ? K _]; subst. destruct (K eq_refl).
  - destruct S; cbn [rat r_release r_set_lock r_set_queue r_set_async r_set r_logs r_trace r_threads]; try exact S2; destruct (Nat.eqb_spec l l0) as [<-|]; try exact S2.
    + inversion F as [|? ? K _]; subst. destruct (K eq_refl).
    + congruence.
  - refine (stack_inv H (Forall (sync_frame l)) _ _ _ _ _ _ A S _ S3). intros _. clear A S3.
    destruct S; try subst st'; repeat match goal with K : Forall _ (_ :: _) |- _ => inversion K; subst; clear K end; repeat constructor; try assumption.
    + unfold log_frame. cbn [fst]. destruct k; exact I.
    + intros b K. apply (H2 b). right. exact K.
    + intros b K. apply (H2 b). right. exact K.
    + cbn. intros ->. apply (H2 b). left. reflexivity.
    + intros b' K. apply (H2 b'). right. exact K.
    + cbn. intros ->. congruence.
    + intros b'. apply D1.
    + intros b'. apply D2.
    + intros b'. apply D1.
Qed.
Theorem C95_synchronous : forall H async progs sc l s, registered_once H -> no_raises sc -> no_switches H progs l -> async l = false ->
  let g := rrun H sc (rstart async progs) in
  rl_queue (r_logs g l) = [] /\
  (Forall r_finished (r_threads g) -> Permutation (filter (r_wants H l s) (r_logged l (r_trace g))) (r_got l s (r_trace g))).
Proof.
  intros H async progs sc l s O N NS E g.
  assert (Start : sync_inv l (rstart async progs)).
  { split; [exact E|]. split; [reflexivity|]. intros t st A. destruct (start_stack _ _ _ _ A) as (p & I & ->). repeat constructor. intros b. exact (proj1 NS p b I). }
  assert (I : forall sc0, sync_inv l (rrun H sc0 (rstart async progs))) by (intro sc0; apply rrun_inv; [intros t b g0 g1 st st' A S; exact (RSt_sync H progs l t b g0 g1 st st' NS A S)|exact Start]).
  assert (R : room H l sc (rstart async progs)).
  { intros sc1 t b sc2 x rest _ A. destruct (I sc1) as (_ & _ & K). specialize (K _ _ A). inversion K as [|? ? K1 _]; subst. destruct (K1 eq_refl). }
  destruct (I sc) as (_ & Q & _). split; [exact Q|]. intros F. pose proof (C95_conserved H async progs sc l s O N R F) as C. fold g in C. unfold g in C at 3. rewrite Q in C. cbn [filter] in C. rewrite app_nil_r in C. exact C.
Qed.
Print Assumptions C95_synchronous.

(** No deadlock, if the hooks of a logger use only that logger and later ones. *)
Theorem C95_no_deadlock : forall H async progs sc, hooks_upwards H ->
  let g := rrun H sc (rstart async progs) in
  Exists (fun st => ~ r_finished st) (r_threads g) -> exists t g', rstep H t false g = Some g'.
Proof.
  intros H async progs sc U g E. apply Exists_exists in E. destruct E as (st & I & N). apply In_nth_error in I. destruct I as [t A].
  exact (progress H g (fun l => run_lock H l async progs sc) (run_owner H async progs sc) (run_ground H async progs sc) (run_up H async progs sc U) t st A N).
Qed.
Print Assumptions C95_no_deadlock.

(** Every run comes to an end, if hooks only log and what they log is of lower rank. *)
Theorem C95_ends : forall H rank B R n async progs, grounded H rank B R -> loggers_below n H progs ->
  exists m, forall sc, r_steps H sc (rstart async progs) <= m.
Proof.
  intros H rank B R n async progs G (D0 & D1 & D2). exists (work rank B R n (rstart async progs)). intros sc.
  apply (steps_work_r H rank B R n G sc D1 D2). intros t st A. destruct (start_stack _ _ _ _ A) as (p & I & ->). repeat constructor. intros l [c K]. exact (D0 _ _ _ I K).
Qed.
Print Assumptions C95_ends.

(** If hooks do not raise, no flush does: whatever hooks and other threads take out of the
    queue, a flush that found it non-empty gets an event. *)
Definition not_pop (f : frame) : Prop := match f with FPop _ => False | _ => True end.
Definition pop_inv (g : rstate) : Prop :=
  (forall t st, nth_error (r_threads g) t = Some st -> Forall not_pop (tl st)) /\
  (forall t l rest, nth_error (r_threads g) t = Some (FPop l :: rest) -> rl_queue (r_logs g l) <> []) /\
  forall t l, ~ In (RFlushRaised t l) (r_trace g).
Lemma bounded_append_some (q : list item) x : fst (bounded_append QUEUE_LIMIT q x) <> [].
Proof.
  unfold bounded_append. destruct (N.of_nat (length q) <? QUEUE_LIMIT)%N; cbn [fst].
  - destruct q; discriminate.
  - destruct (tl q); discriminate.
Qed.
Lemma RSt_pop H t g g' st st' : (forall l, linv l g) -> nth_error (r_threads g) t = Some st -> RSt H t false g g' st st' -> pop_inv g -> pop_inv g'.
Proof.
  intros L A S (I1 & I2 & I3). split; [|split].
  - refine (stack_inv H (fun st => Forall not_pop (tl st)) _ _ _ _ _ _ A S _ I1). clear I1 I2 I3 A. intros F.
    destruct S; try subst st'; cbn [tl] in *; repeat constructor; try exact F; try (inversion F; subst; assumption); try (destruct rest; cbn [tl]; [constructor|inversion F; assumption]);
      inversion F; subst; destruct out; cbn [tl]; try constructor; match goal with K : Forall _ (_ :: _) |- _ => inversion K; assumption end.
  - intros t0 l0 rest0 A0. rewrite (RSt_threads _ _ _ _ _ _ _ S) in A0. destruct (set_cases _ _ _ _ _ A0) as [[-> E]|[Hn E]].
    + (* the thread that ran *) pose proof (I1 _ _ A) as F. clear A0. destruct S; try subst st'; try discriminate; cbn [tl] in F;
      try (subst; inversion F; contradiction); try (inversion E; subst; inversion F; contradiction);
      try (subst out; inversion F as [|? ? _ F']; inversion F'; contradiction).
      * unfold log_frame in E. cbn [fst] in E. destruct k; discriminate.
      * injection E as -> ->. exact H0.
    + (* another thread *) specialize (I2 _ _ _ E).
      destruct S; cbn [rat r_release r_set_lock r_set_queue r_set_async r_set r_logs]; try exact I2; destruct (Nat.eqb_spec l0 l) as [<-|]; try exact I2; cbn [rl_queue]; try exact I2.
      * apply bounded_append_some.
      * exfalso. apply Hn. apply (one_flusher l0 g t0 t _ _ (L l0) E A); apply in_flush_holds; eexists; (split; [left; reflexivity|reflexivity]).
  - intros t0 l0 K. remember false as b eqn:Eb in S. destruct S; try discriminate Eb; cbn [rat r_release r_set_lock r_set_queue r_set_async r_set r_trace] in K; apply in_app_or in K; destruct K as [K|K]; try (exact (I3 _ _ K)); cbn in K;
      try (destruct K as [K|K]; [discriminate|exact K]); try contradiction.
    + apply in_app_or in K. destruct K as [K|K]; [unfold dropped_of in K; destruct (N.of_nat (length (rl_queue (r_logs g l))) <? QUEUE_LIMIT)%N; [destruct K|]; destruct (rl_queue (r_logs g l)); [destruct K|]; destruct K as [K|K]; [discriminate|exact K]|].
      destruct K as [K|K]; [discriminate|exact K].
    + exact (I2 _ _ _ A H0).
Qed.
Theorem C95_flush_does_not_raise : forall H async progs sc, no_raises sc ->
  forall t l, ~ In (RFlushRaised t l) (r_trace (rrun H sc (rstart async progs))).
Proof.
  intros H async progs sc N.
  enough (I : (forall l, linv l (rrun H sc (rstart async progs))) /\ pop_inv (rrun H sc (rstart async progs))) by (destruct I as (_ & _ & _ & I); exact I).
  apply rrun_inv_f; [|exact N|].
  - intros t g g' st st' A S [L P]. split; [intro l; exact (RSt_lock H l t _ g g' st st' A S (L l))|exact (RSt_pop H t g g' st st' L A S P)].
  - split; [intro l; exact (run_lock H l async progs [])|]. split; [|split].
    + intros t st A. destruct (start_stack _ _ _ _ A) as (p & _ & ->). constructor.
    + intros t l rest A. destruct (start_stack _ _ _ _ A) as (p & _ & E). discriminate.
    + intros t l [].
Qed.
Print Assumptions C95_flush_does_not_raise.

(** *** What re-entrant hooks break *)
Definition ev (n : nat) : event := mkEvent KComment n n 0%Z EmptyString None None.
Definition beg (n : nat) : event := mkEvent KBegin n n 0%Z EmptyString None None.
Definition go (t n : nat) : list (nat * bool) := repeat (t, false) n.

(** Two sinks; the first flushes when it gets event 0.  The second gets the events in the
    wrong order. *)
Definition flushing_sink : hookset := mkHooks (fun l k => match k with KComment => [0; 1] | _ => [] end)
  (fun tr t l s x => if (s =? 0) && (e_act (snd x) =? 0) then [(0, CFlush)] else []) (fun _ => []) (fun _ _ _ _ => []).
Theorem C95_order_refuted : exists H progs sc,
  registered_once H /\ no_raises sc /\
  let g := rrun H sc (rstart (fun _ => true) progs) in
  Forall r_finished (r_threads g) /\ r_appended 0 (r_trace g) = [(KComment, ev 0); (KComment, ev 1)] /\
  r_got 0 0 (r_trace g) = [(KComment, ev 0); (KComment, ev 1)] /\
  r_got 0 1 (r_trace g) = [(KComment, ev 1); (KComment, ev 0)].
Proof.
  exists flushing_sink, [[(0, CLog KComment (ev 0)); (0, CLog KComment (ev 1)); (0, CFlush)]], (go 0 40).
  split; [intros l []; cbn; repeat constructor; cbn; intuition discriminate|]. split; [repeat constructor|]. vm_compute. repeat split; repeat constructor.
Qed.
Print Assumptions C95_order_refuted.

(** In synchronous mode a sink that logs puts its reaction before the cause, for the sinks
    after it: the second sink sees the comment the first made on event 0 before event 0. *)
Definition commenting_sink : hookset := mkHooks (fun l k => match k with KBegin | KComment => [0; 1] | _ => [] end)
  (fun tr t l s x => match s, fst x with 0, KBegin => [(0, CLog KComment (ev 7))] | _, _ => [] end) (fun _ => []) (fun _ _ _ _ => []).
Theorem C95_effect_before_cause_refuted : exists H progs sc,
  registered_once H /\ no_raises sc /\
  let g := rrun H sc (rstart (fun _ => false) progs) in
  Forall r_finished (r_threads g) /\
  r_got 0 0 (r_trace g) = [(KBegin, beg 0); (KComment, ev 7)] /\
  r_got 0 1 (r_trace g) = [(KComment, ev 7); (KBegin, beg 0)].
Proof.
  exists commenting_sink, [[(0, CLog KBegin (beg 0))]], (go 0 40).
  split; [intros l []; cbn; repeat constructor; cbn; intuition discriminate|]. split; [repeat constructor|]. vm_compute. repeat split; repeat constructor.
Qed.
Print Assumptions C95_effect_before_cause_refuted.

(** Two loggers whose sinks flush each other can block two threads for ever. *)
Definition crossing : hookset := mkHooks (fun l k => match k with KComment => [0] | _ => [] end)
  (fun tr t l s x => [(1 - l, CFlush)]) (fun _ => []) (fun _ _ _ _ => []).
Theorem C95_deadlock_refuted : exists H progs sc,
  registered_once H /\ no_raises sc /\
  let g := rrun H sc (rstart (fun _ => true) progs) in
  length (r_threads g) = 2 /\ Forall (fun st => ~ r_finished st) (r_threads g) /\ forall t b, rstep H t b g = None.
Proof.
  exists crossing, [[(0, CLog KComment (ev 0)); (0, CFlush)]; [(1, CLog KComment (ev 1)); (1, CFlush)]], (go 0 10 ++ go 1 20 ++ go 0 10).
  split; [intros l []; cbn; repeat constructor; cbn; intuition discriminate|]. split; [repeat constructor|]. cbn zeta.
  set (g := rrun _ _ _). vm_compute in g. split; [reflexivity|]. split; [repeat constructor; discriminate|].
  intros [|[|t]] b; [reflexivity|reflexivity|]. unfold rstep, g. cbn [r_threads nth_error]. destruct t; reflexivity.
Qed.
Print Assumptions C95_deadlock_refuted.

(** A sink that comments on comments keeps flush from ever returning. *)
Definition chatty : hookset := mkHooks (fun l k => match k with KComment => [0] | _ => [] end)
  (fun tr t l s x => [(0, CLog KComment (ev 0))]) (fun _ => []) (fun _ _ _ _ => []).
Definition X : item := (KComment, ev 0).
Definition chatty_shapes : list (list item * option (nat * nat) * rthread) :=
  let L := Some (0, 1) in let lg := (0, CLog KComment (ev 0)) in let D := FDispatch 0 X [] in
  [([], None, [FBody [lg; (0, CFlush)]]); ([], None, [FLogging 0 X; FBody [(0, CFlush)]]); ([], None, [FAppending 0 X; FBody [(0, CFlush)]]);
   ([X], None, [FBody [(0, CFlush)]]); ([X], None, [FAcquire 0; FBody []]); ([X], L, [FPre 0 []; FBody []]);
   ([X], L, [FCheck 0; FBody []]); ([X], L, [FPop 0; FBody []]); ([], L, [FDispatch 0 X [0]; FBody []]);
   ([], L, [FBody [lg]; D; FBody []]); ([], L, [FLogging 0 X; FBody []; D; FBody []]); ([], L, [FAppending 0 X; FBody []; D; FBody []]);
   ([X], L, [FBody []; D; FBody []]); ([X], L, [D; FBody []])].
Lemma bounded_one : bounded_append QUEUE_LIMIT [] X = ([X], false). Proof. vm_compute. reflexivity. Qed.
Definition chatty_inv (g : rstate) : Prop :=
  rl_async (r_logs g 0) = true /\ (exists st, r_threads g = [st] /\ In (rl_queue (r_logs g 0), rl_lock (r_logs g 0), st) chatty_shapes) /\
  forall t l o, ~ In (RFlushed t l o) (r_trace g).
Theorem C95_endless_refuted : exists H progs, registered_once H /\ progs = [[(0, CLog KComment (ev 0)); (0, CFlush)]] /\
  forall sc t l o, no_raises sc -> ~ In (RFlushed t l o) (r_trace (rrun H sc (rstart (fun _ => true) progs))).
Proof.
  exists chatty, [[(0, CLog KComment (ev 0)); (0, CFlush)]]. split; [intros l []; cbn; repeat constructor; cbn; intuition discriminate|]. split; [reflexivity|].
  intros sc t0 l0 o N. enough (I : chatty_inv (rrun chatty sc (rstart (fun _ => true) [[(0, CLog KComment (ev 0)); (0, CFlush)]]))) by (destruct I as (_ & _ & I); apply I).
  apply rrun_inv_f; [|exact N|].
  - intros t g g' st st' A S (I1 & (s0 & I2 & I3) & I4).
    rewrite I2 in A. assert (t = 0) by (destruct t; [reflexivity|]; destruct t; discriminate). subst t. injection A as ->.
    set (shapes := chatty_shapes) in *.
    assert (Tr : forall new (tr : list robs), (forall t l o, ~ In (RFlushed t l o) new) -> (forall t l o, ~ In (RFlushed t l o) tr) -> forall t l o, ~ In (RFlushed t l o) (tr ++ new)).
    { intros new tr K1 K2 t l o' K. apply in_app_or in K. destruct K; [exact (K2 _ _ _ H)|exact (K1 _ _ _ H)]. }
    assert (Nx : forall (logs : nat -> rlog) st1 new, g' = mkR logs (list_set (r_threads g) 0 st1) (r_trace g ++ new) -> rl_async (logs 0) = true -> In (rl_queue (logs 0), rl_lock (logs 0), st1) shapes ->
        (forall t l o, ~ In (RFlushed t l o) new) -> chatty_inv g').
    { intros logs st1 new -> K1 K2 K3. split; [exact K1|]. split; [exists st1; split; [cbn [r_threads]; rewrite I2; reflexivity|exact K2]|]. exact (Tr _ _ K3 I4). }
    unfold shapes, chatty_shapes in I3. cbn zeta in I3.
    repeat (destruct I3 as [I3|I3]); try (destruct I3; fail); injection I3 as Eq El <-; inversion S; subst; try congruence.
    all: try (eapply Nx; [reflexivity| | |intros ? ? ? K; cbn in K; intuition discriminate]; cbn [rat r_set_lock r_set_queue r_set r_logs Nat.eqb rl_queue rl_async rl_lock]; [exact I1|]).
    all: try (rewrite <- ?Eq, <- ?El; unfold shapes, chatty_shapes; cbn zeta; unfold log_frame, queue_hooks; cbn; tauto).
    + rewrite <- Eq in *. eapply Nx; [unfold dropped_of; rewrite bounded_one; reflexivity| | |].
      * exact I1.
      * cbn [rat r_set_lock r_set_queue r_set r_logs Nat.eqb rl_queue rl_async rl_lock fst]. rewrite <- El. unfold shapes, chatty_shapes. cbn. tauto.
      * intros ? ? ? K; cbn in K; intuition discriminate.
    + match goal with K : acquire _ _ = Some _ |- _ => rewrite <- El in K; injection K as <- end. rewrite <- Eq. unfold shapes, chatty_shapes. cbn. tauto.
    + match goal with K : rl_queue (r_logs g 0) = _ :: _ |- _ => rewrite K in Eq end. injection Eq as <- <-. rewrite <- El. unfold shapes, chatty_shapes. cbn. tauto.
    + rewrite <- Eq in *. eapply Nx; [unfold dropped_of; rewrite bounded_one; reflexivity| | |].
      * exact I1.
      * cbn [rat r_set_lock r_set_queue r_set r_logs Nat.eqb rl_queue rl_async rl_lock fst]. rewrite <- El. unfold shapes, chatty_shapes. cbn. tauto.
      * intros ? ? ? K; cbn in K; intuition discriminate.
  - split; [reflexivity|]. split; [eexists; split; [reflexivity|]; left; reflexivity|]. intros t l o' [].
Qed.
Print Assumptions C95_endless_refuted.

(** A preflush hook that calls flush calls itself: flush never gets to the queue. *)
Definition flushing_preflush : hookset := mkHooks (fun _ _ => []) (fun _ _ _ _ _ => []) (fun _ => [0]) (fun _ _ _ _ => [(0, CFlush)]).
Definition preflush_inv (g : rstate) : Prop :=
  (exists st, r_threads g = [st] /\ (st = [FBody [(0, CFlush)]] \/ exists r, st = FAcquire 0 :: r \/ st = FPre 0 [0] :: r \/ st = FBody [(0, CFlush)] :: FPre 0 [] :: r)) /\
  forall t l o, ~ In (RFlushed t l o) (r_trace g).
Theorem C95_preflush_flush_refuted : exists H progs, registered_once H /\ progs = [[(0, CFlush)]] /\
  forall sc t l o, no_raises sc -> ~ In (RFlushed t l o) (r_trace (rrun H sc (rstart (fun _ => true) progs))).
Proof.
  exists flushing_preflush, [[(0, CFlush)]]. split; [intros l k; constructor|]. split; [reflexivity|].
  intros sc t0 l0 o N. enough (I : preflush_inv (rrun flushing_preflush sc (rstart (fun _ => true) [[(0, CFlush)]]))) by (destruct I as (_ & I); apply I).
  apply rrun_inv_f; [|exact N|].
  - intros t g g' st st' A S ((s0 & I2 & I3) & I4).
    rewrite I2 in A. assert (t = 0) by (destruct t; [reflexivity|]; destruct t; discriminate). subst t. injection A as ->.
    assert (Nx : forall (logs : nat -> rlog) st1 new, g' = mkR logs (list_set (r_threads g) 0 st1) (r_trace g ++ new) ->
        (exists r, st1 = FAcquire 0 :: r \/ st1 = FPre 0 [0] :: r \/ st1 = FBody [(0, CFlush)] :: FPre 0 [] :: r) ->
        (forall t l o, ~ In (RFlushed t l o) new) -> preflush_inv g').
    { intros logs st1 new -> K2 K3. split; [exists st1; split; [cbn [r_threads]; rewrite I2; reflexivity|right; exact K2]|].
      intros t l o' K. apply in_app_or in K. destruct K as [K|K]; [exact (I4 _ _ _ K)|exact (K3 _ _ _ K)]. }
    destruct I3 as [->|[r [->|[->| ->]]]]; inversion S; subst; try congruence.
    all: eapply Nx; [reflexivity|eexists; first [left; reflexivity|right; left; reflexivity|right; right; reflexivity]|intros ? ? ? K; cbn in K; intuition discriminate].
  - split; [eexists; split; [reflexivity|]; left; reflexivity|]. intros t l o' [].
Qed.
Print Assumptions C95_preflush_flush_refuted.

(** *** The hypotheses are met *)
Fixpoint room_ok (H : hookset) (l : nat) (sc : list (nat * bool)) (g : rstate) : bool :=
  match sc with
  | [] => true
  | p :: sc' => (N.of_nat (length (rl_queue (r_logs g l))) <? QUEUE_LIMIT)%N && room_ok H l sc' (rrun H [p] g)
  end.
Lemma room_ok_room H l : forall sc g, room_ok H l sc g = true -> room H l sc g.
Proof.
  induction sc as [|[t0 b0] sc IH]; intros g E sc1 t b sc2 x rest Es A; [destruct sc1; discriminate|].
  cbn [room_ok] in E. apply andb_prop in E. destruct E as [E1 E2]. destruct sc1 as [|p sc1]; cbn [app] in Es.
  - cbn [rrun]. apply N.ltb_lt in E1. exact E1.
  - injection Es as <- ->. apply (IH _ E2 sc1 t b sc2 x rest eq_refl A).
Qed.

(** The first sink of logger 0 reports every event to logger 1, whose sink only listens;
    a preflush hook of logger 0 logs a statistic on logger 0. *)
Definition reporting : hookset := mkHooks (fun l k => match l, k with 0, _ => [0; 1] | _, KComment => [1] | _, _ => [] end)
  (fun tr t l s x => match l, s with 0, 0 => [(1, CLog KComment (ev (e_act (snd x))))] | _, _ => [] end)
  (fun l => match l with 0 => [0] | _ => [] end)
  (fun tr t l h => match l with 0 => [(0, CLog KComment (ev 9))] | _ => [] end).
Definition report_progs : list (list rcall) := [[(0, CLog KBegin (beg 1)); (0, CFlush); (1, CFlush)]; [(0, CLog KComment (ev 2))]].
Definition report_run : list (nat * bool) := go 0 2 ++ go 1 2 ++ go 0 8 ++ go 1 3 ++ go 0 60.
Definition report_end : rstate := rrun reporting report_run (rstart (fun _ => true) report_progs).
Example C95_example :
  registered_once reporting /\ hooks_do_not_flush reporting 0 /\ listed_first reporting 0 0 /\ hooks_upwards reporting /\
  loggers_below 2 reporting report_progs /\ (exists rank, grounded reporting rank 2 2) /\
  no_raises report_run /\ room reporting 0 report_run (rstart (fun _ => true) report_progs) /\ room reporting 1 report_run (rstart (fun _ => true) report_progs) /\
  Forall r_finished (r_threads report_end) /\
  In (RFlushed 0 0 true) (r_trace report_end) /\
  r_got_queued 0 1 (r_trace report_end) = [(KBegin, beg 1); (KComment, ev 9); (KComment, ev 2)] /\
  r_got_queued 1 1 (r_trace report_end) = [(KComment, ev 1); (KComment, ev 9); (KComment, ev 2)].
Proof.
  split; [intros [|l] []; cbn; repeat constructor; cbn; intuition discriminate|].
  split; [split; [intros tr t [|l'] [|s] x; cbn; intuition discriminate|intros tr t [|l'] h _; cbn; intuition discriminate]|].
  split; [intros k _; exists [1]; reflexivity|].
  split; [split; [intros tr t [|l] [|s] x l' c; cbn; intuition; match goal with K : (_, _) = _ |- _ => inversion K; lia end|]|].
  { intros tr t [|l] h l' c; cbn; intuition; match goal with K : (_, _) = _ |- _ => inversion K; lia end. }
  split; [split; [intros p l c [<-|[<-|[]]]; cbn; intuition; match goal with K : (_, _) = _ |- _ => inversion K; lia end|split]|].
  { intros tr t [|l] [|s] x l' c; cbn; intuition; match goal with K : (_, _) = _ |- _ => inversion K; lia end. }
  { intros tr t [|l] h l' c; cbn; intuition; match goal with K : (_, _) = _ |- _ => inversion K; lia end. }
  split.
  { exists (fun p => match fst p with 0 => 1 | _ => 0 end). repeat split.
    - destruct l as [|l], s as [|s]; cbn; lia.
    - intros c. destruct l as [|l], s as [|s]; cbn; try tauto. intros [<-|[]]. do 3 eexists. split; [reflexivity|]. cbn. lia.
    - destruct l as [|l]; cbn; lia.
    - intros c. destruct l as [|l]; cbn; try tauto. intros [<-|[]]. do 3 eexists. split; [reflexivity|]. cbn. lia.
    - intros [|l] []; cbn; lia.
    - intros [|l]; cbn; lia. }
  split; [repeat constructor|]. split; [apply room_ok_room; vm_compute; reflexivity|]. split; [apply room_ok_room; vm_compute; reflexivity|].
  split; [vm_compute; repeat constructor|]. split; [vm_compute; tauto|]. split; vm_compute; reflexivity.
Qed.

(** Synchronous mode: hooks of hooks. *)
Example C95_synchronous_example :
  no_switches reporting report_progs 0 /\
  let g := rrun reporting (go 0 60 ++ go 1 60) (rstart (fun _ => false) report_progs) in
  Forall r_finished (r_threads g) /\ r_got 1 1 (r_trace g) = [(KComment, ev 1); (KComment, ev 9); (KComment, ev 2)].
Proof.
  split; [split; [intros p b [<-|[<-|[]]]; cbn; intuition discriminate|split]|].
  - intros tr t [|l] [|s] x b; cbn; intuition discriminate.
  - intros tr t [|l] h b; cbn; intuition discriminate.
  - vm_compute. repeat constructor.
Qed.
