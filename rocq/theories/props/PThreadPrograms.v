(** Programs with threads and what the sinks see of them: C99. *)
From Coq Require Import Cantor.
From Verif Require Import model.PyBase model.Core model.Concurrent model.ThreadPrograms spec.CoreSpec spec.ConcurrentSpec spec.CoreExamples
  spec.ProgramSpec spec.ThreadProgramSpec
  proof.CoreLib proof.CoreDispatch proof.ConcurrentProofs proof.ConcurrentCalls proof.ThreadProgramAlone proof.ThreadProgramSim proof.ThreadProgramLogger
  proof.ThreadProgramAsync proof.ThreadProgramValid proof.ThreadProgramRun proof.ThreadProgramLog props.PConcurrent props.PProgram.
Open Scope nat_scope.

(** The model agrees with Core.v: a thread that is never interrupted runs its program as
    [eval] does. *)
Theorem C99_alone : forall cfg p w, seq cfg (prog cfg (fun r => r) None p) w = eval cfg None p w.
Proof. intros cfg p w. apply sp_prog. Qed.
Print Assumptions C99_alone.

Lemma alone_log cfg describe p l : (forall x, cf_describe cfg x = Ok (describe x)) -> scoped [] p ->
  let W := fst (eval (alone_cfg cfg) None p (alone_start cfg l)) in
  snd (eval (alone_cfg cfg) None p (alone_start cfg l)) = ends_with describe (fun _ => None) p 0 /\
  map (line_seen W l) (received l 0 (w_trace W)) = own_lines describe p l.
Proof.
  intros HD HS W.
  assert (HR : reach (alone_cfg cfg) (alone_start cfg l)) by (apply reach_call, reach_init).
  assert (HQ : all_quiet (alone_cfg cfg)).
  { split; [intros k tr l1 s e; reflexivity|]. split; [reflexivity|]. split; [reflexivity|]. intros x. exists (describe x). apply HD. }
  destruct (C89_program_log (alone_cfg cfg) describe p (alone_start cfg l) l 0 HR HQ HD) as (A & _ & t & B & C).
  - intros l1. destruct (alone_start_logs cfg l l1) as (X1 & X2 & _). auto.
  - exact HS.
  - cbn. unfold upd. rewrite Nat.eqb_refl. left. reflexivity.
  - cbv zeta in *. fold W in B, C. cbn [app] in B. split; [exact A|]. change (w_trace (alone_start cfg l)) with (@nil obs) in B. cbn [app] in B. rewrite B.
    unfold lines_seen in C. rewrite C. unfold lines_for, own_lines. cbn. apply filter_ext. intros x. apply andb_true_r.
Qed.
Lemma Forall2_map_eq {A B C} (f : A -> C) (h : B -> C) xs ys : Forall2 (fun x y => f x = h y) xs ys -> map f xs = map h ys.
Proof. induction 1; cbn; congruence. Qed.
Lemma Forall2_impl' {A B} (R R' : A -> B -> Prop) xs ys : (forall x y, R x y -> R' x y) -> Forall2 R xs ys -> Forall2 R' xs ys.
Proof. induction 2; constructor; auto. Qed.

(** C99.  At every moment of every schedule the lines a thread has logged on a logger are
    how the lines of its program alone begin; when the thread is done they are all of them,
    and it ended as the program says.  The parents agree too unless threads disturb each
    other's active actions. *)
Theorem C99_thread_log : forall cfg describe lis slot async progs sc t p l,
  (forall tr m, cf_note cfg tr m = None) -> (forall x, cf_describe cfg x = Ok (describe x)) ->
  nth_error progs t = Some p -> scoped [] p ->
  let s := mrun lis slot sc (mstart cfg async progs) in
  let wrote := map (line_of s l) (logged_by t (g_trace (ms_logs s l))) in
  let text := map (in_thread t) (own_lines describe p l) in
  begins_with (map no_parent text) (map no_parent wrote) /\
  (undisturbed slot progs t l -> begins_with text wrote) /\
  forall r, done_with s t r ->
    r = ends_with describe (fun _ => None) p 0 /\ same_lines (undisturbed slot progs t l) wrote text.
Proof.
  intros cfg describe lis slot async progs sc t p l HN HD EP HS s wrote text.
  destruct (thread_lines cfg lis slot async progs HN sc t p l EP) as (th & ys & more & ET & R & F & K). fold s in ET, F, K.
  destruct (alone_log cfg describe p l HD HS) as (A & B). cbv zeta in A, B. set (W := fst (eval (alone_cfg cfg) None p (alone_start cfg l))) in *.
  rewrite R, map_app in B.
  assert (N1 : map no_parent wrote = map no_parent (map (in_thread t) (map (line_seen W l) ys))).
  { unfold wrote. rewrite !map_map. apply Forall2_map_eq. eapply Forall2_impl'; [|exact F]. cbn. intros x y H. apply H. }
  assert (N2 : undisturbed slot progs t l -> wrote = map (in_thread t) (map (line_seen W l) ys)).
  { intros HU. unfold wrote. rewrite map_map. apply Forall2_map_eq. eapply Forall2_impl'; [|exact F]. cbn. intros x y H. apply H, HU. }
  unfold text. rewrite <- B. split; [|split].
  - exists (map no_parent (map (in_thread t) (map (line_seen W l) more))). rewrite N1, <- !map_app. reflexivity.
  - intros HU. exists (map (in_thread t) (map (line_seen W l) more)). rewrite (N2 HU), <- !map_app. reflexivity.
  - intros r HR. destruct (K r HR) as (-> & ->). split; [exact A|]. cbn [map]. rewrite app_nil_r. split; assumption.
Qed.
Print Assumptions C99_thread_log.

(** With hooks that tell threads apart nothing is disturbed. *)
Theorem C99_told_apart : forall progs t l, undisturbed own_slot progs t l.
Proof. intros progs t l t' p' H1 H2. unfold own_slot in H2. contradiction. Qed.
Print Assumptions C99_told_apart.

Lemma same_filter X (f : line -> bool) xs ys : (forall n, f (no_parent n) = f n) -> same_lines X xs ys -> same_lines X (filter f xs) (filter f ys).
Proof.
  intros H (A & B). split; [|intros HX; rewrite (B HX); reflexivity].
  assert (K : forall zs, map no_parent (filter f zs) = filter f (map no_parent zs)).
  { induction zs as [|z zs IH]; [reflexivity|]. cbn. rewrite H. destruct (f z); cbn; rewrite IH; reflexivity. }
  rewrite !K, A. reflexivity.
Qed.
Lemma filter_lines s l (f : item -> bool) (h : line -> bool) xs : (forall x, h (line_of s l x) = f x) ->
  map (line_of s l) (filter f xs) = filter h (map (line_of s l) xs).
Proof. intros H. induction xs as [|x xs IH]; [reflexivity|]. cbn [filter map]. rewrite H. destruct (f x); cbn [map]; rewrite IH; reflexivity. Qed.

(** C99, synchronous mode: once a thread is done every sink has received exactly the lines
    of the thread's program it listens to, in order. *)
Theorem C99_synchronous : forall cfg describe lis slot async progs sc t p l sk,
  (forall tr m, cf_note cfg tr m = None) -> (forall x, cf_describe cfg x = Ok (describe x)) ->
  hooks_of (lis l) -> async l = false -> nth_error progs t = Some p -> scoped [] p ->
  let s := mrun lis slot sc (mstart cfg async progs) in
  done s t ->
  same_lines (undisturbed slot progs t l)
    (map (line_of s l) (got_from t sk (g_trace (ms_logs s l))))
    (filter (wanted (lis l) sk) (map (in_thread t) (own_lines describe p l))).
Proof.
  intros cfg describe lis slot async progs sc t p l sk HN HD HL HA EP HS s (r & HR).
  destruct (C99_thread_log cfg describe lis slot async progs sc t p l HN HD EP HS) as (_ & _ & K). fold s in K. destruct (K r HR) as (_ & K').
  unfold s. rewrite (sync_from cfg lis slot async progs HN sc l HL t sk HA (ex_intro _ r HR)). fold s.
  rewrite (filter_lines s l _ (wanted (lis l) sk)) by reflexivity. apply same_filter; [reflexivity|exact K'].
Qed.
Print Assumptions C99_synchronous.

(** C99, asynchronous mode: once a flush has returned and nothing was queued since, if the
    queue never discarded anything, every sink has received the lines of every finished
    thread's program it listens to: exception lines in order, all others in order. *)
Theorem C99_asynchronous : forall cfg describe lis slot async progs sc t p l sk,
  (forall tr m, cf_note cfg tr m = None) -> (forall x, cf_describe cfg x = Ok (describe x)) ->
  hooks_of (lis l) -> async l = true -> nth_error progs t = Some p -> scoped [] p ->
  let s := mrun lis slot sc (mstart cfg async progs) in
  let tr := g_trace (ms_logs s l) in
  done s t -> dropped tr = [] ->
  forall before t' after, tr = before ++ TFlushed t' :: after -> appended after = [] ->
  let seen := map (line_of s l) (got_from t sk tr) in
  let text := filter (wanted (lis l) sk) (map (in_thread t) (own_lines describe p l)) in
  same_lines (undisturbed slot progs t l) (filter (fun n => negb (exc_line n)) seen) (filter (fun n => negb (exc_line n)) text) /\
  same_lines (undisturbed slot progs t l) (filter exc_line seen) (filter exc_line text).
Proof.
  intros cfg describe lis slot async progs sc t p l sk HN HD HL HA EP HS s tr (r & HR) HX before t' after EF HF seen text.
  destruct (C99_thread_log cfg describe lis slot async progs sc t p l HN HD EP HS) as (_ & _ & K). fold s in K. destruct (K r HR) as (_ & K').
  destruct (async_from cfg lis slot async progs HN sc l HL t sk HA (ex_intro _ r HR) HX before t' after EF HF) as (P1 & P2). fold s in P1, P2. fold tr in P1, P2.
  assert (FC : forall (f h : line -> bool) xs, filter f (filter h xs) = filter h (filter f xs)).
  { clear. intros f h xs. induction xs as [|x xs IH]; [reflexivity|]. cbn. destruct (f x) eqn:Ef, (h x) eqn:Eh; cbn; rewrite ?Ef, ?Eh, IH; reflexivity. }
  unfold seen, text. rewrite !(FC _ (wanted (lis l) sk)).
  rewrite <- (filter_lines s l (fun x => negb (exc_item x)) (fun n => negb (exc_line n))) by reflexivity.
  rewrite <- (filter_lines s l exc_item exc_line) by reflexivity. rewrite P1, P2.
  rewrite !(filter_lines s l (wants (lis l) sk) (wanted (lis l) sk)) by reflexivity.
  rewrite (filter_lines s l (fun x => negb (exc_item x)) (fun n => negb (exc_line n))) by reflexivity.
  rewrite (filter_lines s l exc_item exc_line) by reflexivity.
  split; (apply same_filter; [reflexivity|]); (apply same_filter; [reflexivity|exact K']).
Qed.
Print Assumptions C99_asynchronous.

(** C99: a sink receives nothing else: whatever it gets was logged by one of the threads. *)
Theorem C99_nothing_else : forall cfg lis slot async progs sc l sk,
  (forall tr m, cf_note cfg tr m = None) -> hooks_of (lis l) ->
  let s := mrun lis slot sc (mstart cfg async progs) in
  forall x, In x (got sk (g_trace (ms_logs s l))) ->
  exists t, t < length progs /\ maker (e_act (snd x)) = t /\ In x (logged_by t (g_trace (ms_logs s l))).
Proof.
  intros cfg lis slot async progs sc l sk HN HL s x HI. destruct (got_logged cfg lis slot async progs HN sc l HL sk x HI) as (t & LT & HI').
  exists t. split; [exact LT|]. split; [|exact HI']. apply (logged_maker cfg lis slot async progs HN sc l t x HI' LT).
Qed.
Print Assumptions C99_nothing_else.

(** C99: the threads never block each other for good. *)
Theorem C99_no_deadlock : forall cfg lis slot async progs sc,
  (forall tr m, cf_note cfg tr m = None) -> (forall l, hooks_of (lis l)) ->
  let s := mrun lis slot sc (mstart cfg async progs) in
  forall t, t < length progs -> ~ done s t -> exists t' s', mstep lis slot t' s = Some s'.
Proof. intros cfg lis slot async progs sc HN HL. apply can_go; assumption. Qed.
Print Assumptions C99_no_deadlock.

(** ** Examples *)

(** Two threads on logger 0, each with a block inside a block, the second with an
    exception it handles; logger 1 is used by the second thread only. *)
Definition left99 : stmt :=
  SSeq (SWithNew 0 0 20 "a" [] None None (SSeq (SWithNew 1 0 20 "b" [] None None (SWarn 1 "careful" [])) (SSuccess 0 None []))) (SFlush 0).
Definition right99 : stmt :=
  SSeq (SWithNew 0 0 40 "c" [("k", 1%Z)]%string (Some false) None (SSeq (SWithNew 1 1 20 "d" [] None None SSkip) (SRaise (mkExn 7 true))))
       (SComment 0 "hi" []).
Definition lis99 (l : nat) (k : kind) : list nat := ex_lis k.
Fixpoint turns (n : nat) : list nat := match n with 0 => [] | S n => [0; 1; 1] ++ turns n end.
(** The first thread enters its block, then they take turns. *)
Definition end99 (slot : nat -> nat) (a : bool) : mstate :=
  mrun lis99 slot (repeat 0 10 ++ turns 120) (mstart quiet_cfg (fun _ => a) [left99; right99]).
Definition is_done (s : mstate) (t : nat) : bool :=
  match nth_error (ms_threads s) t with
  | Some th => match tp_busy th, tp_code th with None, Return _ | None, Fail _ => true | _, _ => false end
  | None => false
  end.
Lemma is_done_done s t : is_done s t = true -> done s t.
Proof.
  unfold is_done. destruct (nth_error (ms_threads s) t) as [th|] eqn:E; [|discriminate]. destruct (tp_busy th) eqn:B; [discriminate|].
  destruct (tp_code th) as [[]|e| |] eqn:C; try discriminate; intros _; [exists (Ok tt)|exists (Raise e)]; exists th; auto.
Qed.
Example C99_reached :
  scoped [] left99 /\ scoped [] right99 /\ hooks_of (lis99 0) /\
  (done (end99 own_slot true) 0 /\ done (end99 own_slot true) 1) /\
  dropped (g_trace (ms_logs (end99 own_slot true) 0)) = [] /\
  (exists before, g_trace (ms_logs (end99 own_slot true) 0) = before ++ [TFlushed 0]) /\
  map (fun n => (n_kind n, of_nat (n_act n), option_map of_nat (n_parent n), n_msg n))
      (map (line_of (end99 own_slot true) 0) (got 0 (g_trace (ms_logs (end99 own_slot true) 0)))) =
  [(KExc, (1, 0), None, "c raised exception: boom - ({data_map_repr})");
   (KBegin, (0, 0), None, "a beginning"); (KBegin, (1, 0), None, "c beginning"); (KBegin, (0, 1), Some (0, 0), "b beginning");
   (KWarn, (0, 1), Some (0, 0), "careful"); (KEnd, (1, 0), None, "c raised exception: boom - ({data_map_repr})");
   (KComment, (1, 2), None, "hi"); (KEnd, (0, 1), Some (0, 0), "b succeeded"); (KEnd, (0, 0), None, "a succeeded")]%string.
Proof.
  split; [cbn; intuition discriminate|]. split; [cbn; intuition discriminate|].
  split; [intros []; cbn; repeat constructor; cbn; intuition discriminate|]. split; [split; apply is_done_done; vm_compute; reflexivity|].
  split; [vm_compute; reflexivity|]. split; [exists (removelast (g_trace (ms_logs (end99 own_slot true) 0))); vm_compute; reflexivity|].
  vm_compute. reflexivity.
Qed.

(** With the default hooks and a logger used by several threads the parents do not follow
    from the texts: "c" becomes a child of the other thread's "a". *)
Theorem C99_parents_refuted : exists progs sc t p,
  nth_error progs t = Some p /\ scoped [] p /\
  let s := mrun lis99 one_slot sc (mstart quiet_cfg (fun _ => false) progs) in
  done s t /\
  map (line_of s 0) (logged_by t (g_trace (ms_logs s 0))) <> map (in_thread t) (own_lines (fun _ => "boom"%string) p 0) /\
  exists x a q, In x (logged_by t (g_trace (ms_logs s 0))) /\ made s (e_act (snd x)) = Some a /\ a_parent a = Some q /\ maker q <> t.
Proof.
  exists [left99; right99], (repeat 0 10 ++ turns 120), 1, right99. split; [reflexivity|]. split; [cbn; intuition discriminate|].
  cbv zeta. split; [apply is_done_done; vm_compute; reflexivity|]. split.
  - intros H. apply (f_equal (map n_parent)) in H. vm_compute in H. discriminate.
  - eexists; eexists; eexists. split; [vm_compute; left; reflexivity|]. split; [vm_compute; reflexivity|]. split; [reflexivity|]. vm_compute. discriminate.
Qed.
Print Assumptions C99_parents_refuted.

(** A thread in the middle of its program. *)
Example C99_midway :
  let s := mrun lis99 own_slot (repeat 0 10 ++ turns 22) (mstart quiet_cfg (fun _ => false) [left99; right99]) in
  is_done s 0 = false /\
  map (fun n => (n_kind n, n_msg n)) (map (line_of s 0) (logged_by 0 (g_trace (ms_logs s 0)))) = [(KBegin, "a beginning"); (KBegin, "b beginning")]%string.
Proof. vm_compute. auto. Qed.
