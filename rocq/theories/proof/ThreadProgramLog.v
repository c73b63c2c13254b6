(** From the loggers of a process to the lines of its threads. *)
From Coq Require Import Cantor.
From Verif Require Import model.PyBase model.Core model.Concurrent model.ThreadPrograms spec.CoreSpec spec.ConcurrentSpec spec.ProgramSpec
  spec.ThreadProgramSpec proof.CoreLib proof.CoreDispatch proof.ConcurrentProofs proof.ConcurrentCalls
  proof.ThreadProgramAlone proof.ThreadProgramSim proof.ThreadProgramLogger proof.ThreadProgramAsync proof.ThreadProgramRun.
Open Scope nat_scope.

(** ** Who did what in a logger *)
Definition who (o : tobs) : option nat :=
  match o with TLog t _ | TAppend t _ | TCall t _ _ false => Some t | _ => None end.
Definition who_inv (g : gstate) : Prop := forall o t, In o (g_trace g) -> who o = Some t -> t < length (g_threads g).
Lemma St_who lis t b g g' : St lis t b g g' -> who_inv g -> who_inv g'.
Proof.
  intros HS H. assert (LT : t < length (g_threads g)).
  { destruct (St_thread _ _ _ _ _ HS) as (a & a' & E & _). apply nth_error_Some. congruence. }
  assert (K : forall g1 new, g_trace g1 = g_trace g ++ new -> length (g_threads g1) = length (g_threads g) ->
    Forall (fun o => who o = Some t \/ who o = None) new -> who_inv g1).
  { intros g1 new E L F o t' HI HW. rewrite E in HI. rewrite L. apply in_app_iff in HI as [HI|HI]; [apply (H o t' HI HW)|].
    rewrite Forall_forall in F. destruct (F o HI) as [X|X]; congruence. }
  destruct HS; (eapply K; [cbn; reflexivity|cbn; apply list_set_len|]); repeat (constructor; [cbn; auto; fail|]); try constructor; cbn; auto.
Qed.
Lemma run_who lis sc a ps : who_inv (trun lis sc (start a ps)).
Proof. apply trun_inv; [intros; eapply St_who; eauto|]. intros o t []. Qed.

(** ** Sinks *)
Lemma to_all_one lis sk xs : (forall k, NoDup (lis k)) ->
  map snd (filter (fun p => fst p =? sk) (to_all lis xs)) = filter (wants lis sk) xs.
Proof.
  intros HN. induction xs as [|x xs IH]; [reflexivity|]. cbn [to_all flat_map]. fold (to_all lis xs). rewrite filter_app, map_app. cbn [filter].
  assert (K : map snd (filter (fun p : nat * item => fst p =? sk) (map (fun s => (s, x)) (lis (fst x)))) = if wants lis sk x then [x] else []).
  { unfold wants. specialize (HN (fst x)). induction (lis (fst x)) as [|s hs IHh]; [reflexivity|]. cbn [map filter fst existsb]. inversion HN as [|? ? N1 N2]. subst.
    rewrite (Nat.eqb_sym sk s). destruct (Nat.eqb_spec s sk) as [-> |D]; cbn [orb]; [|apply IHh, N2]. cbn [map snd]. f_equal.
    assert (Z : filter (fun p : nat * item => fst p =? sk) (map (fun s => (s, x)) hs) = []).
    { clear - N1. induction hs as [|h hs IH]; [reflexivity|]. cbn. destruct (Nat.eqb_spec h sk) as [-> |]; [destruct N1; left; reflexivity|].
      apply IH. intros X. apply N1. right. exact X. }
    rewrite Z. reflexivity. }
  transitivity ((if wants lis sk x then [x] else []) ++ filter (wants lis sk) xs); [f_equal; [exact K|exact IH]|].
  destruct (wants lis sk x); reflexivity.
Qed.
Definition of_maker (t : nat) (x : item) : bool := Nat.eqb (maker (e_act (snd x))) t.
Lemma inline_from t sk tr : (forall t' s x, In (TCall t' s x false) tr -> maker (e_act (snd x)) = t') ->
  filter (of_maker t) (got_inline sk tr) = map snd (filter (fun p => fst p =? sk) (handed_inline_by t tr)).
Proof.
  induction tr as [|o tr IH]; intros H; [reflexivity|]. specialize (IH (fun t' s x HI => H t' s x (or_intror HI))).
  destruct o as [| | | |t' s x q| |]; try exact IH. destruct q; [exact IH|].
  cbn [got_inline handed_inline_by flat_map]. fold (got_inline sk tr). fold (handed_inline_by t tr). rewrite !filter_app, map_app, IH. f_equal.
  specialize (H t' s x (or_introl eq_refl)). destruct (Nat.eqb_spec t' t) as [E|E]; cbn [filter map fst snd];
    destruct (s =? sk); cbn [filter map]; try reflexivity; unfold of_maker; rewrite H;
    [rewrite E, Nat.eqb_refl; reflexivity|destruct (Nat.eqb_spec t' t); [contradiction|reflexivity]].
Qed.
Lemma appended_from t tr : (forall t' x, In (TAppend t' x) tr -> maker (e_act (snd x)) = t') ->
  filter (of_maker t) (appended tr) = appended_by t tr.
Proof.
  induction tr as [|o tr IH]; intros H; [reflexivity|]. specialize (IH (fun t' x HI => H t' x (or_intror HI))).
  destruct o as [|t' x| | | | |]; try exact IH. cbn [appended appended_by flat_map]. fold (appended tr). fold (appended_by t tr).
  rewrite filter_app, IH. f_equal. cbn. unfold of_maker. rewrite (H t' x (or_introl eq_refl)). reflexivity.
Qed.
Lemma got_split sk tr : (forall t s x, In (TCall t s x false) tr -> exc_item x = true) -> (forall t s x, In (TCall t s x true) tr -> exc_item x = false) ->
  filter (fun x => negb (exc_item x)) (got sk tr) = got_queued sk tr /\ filter exc_item (got sk tr) = got_inline sk tr.
Proof.
  induction tr as [|o tr IH]; intros H1 H2; [split; reflexivity|].
  destruct (IH (fun t s x HI => H1 t s x (or_intror HI)) (fun t s x HI => H2 t s x (or_intror HI))) as (A & B).
  destruct o as [| | | |t s x q| |]; try (split; assumption). unfold got, got_queued, got_inline in *. cbn [flat_map]. rewrite !filter_app, A, B.
  destruct q; cbn [app].
  - pose proof (H2 t s x (or_introl eq_refl)) as E. destruct (s =? sk); cbn; rewrite ?E; auto.
  - pose proof (H1 t s x (or_introl eq_refl)) as E. destruct (s =? sk); cbn; rewrite ?E; auto.
Qed.
Lemma In_calls t s x tr : In (TCall t s x true) tr -> In x (got_queued s tr).
Proof. intros H. apply in_flat_map. exists (TCall t s x true). split; [exact H|]. rewrite Nat.eqb_refl. left. reflexivity. Qed.
Lemma In_appended x tr : In x (appended tr) -> exists t, In (TAppend t x) tr.
Proof. intros H. apply in_flat_map in H as (o & HI & HO). destruct o; cbn in HO; try contradiction. destruct HO as [-> |[]]. eauto. Qed.
Lemma In_appended_by t x tr : In (TAppend t x) tr -> In x (appended_by t tr).
Proof. intros H. apply in_flat_map. exists (TAppend t x). split; [exact H|]. rewrite Nat.eqb_refl. left. reflexivity. Qed.
Lemma In_inline_by t s x tr : In (TCall t s x false) tr -> In (s, x) (handed_inline_by t tr).
Proof. intros H. apply in_flat_map. exists (TCall t s x false). split; [exact H|]. rewrite Nat.eqb_refl. left. reflexivity. Qed.
Lemma In_to_all lis s x xs : In (s, x) (to_all lis xs) -> In x xs.
Proof. intros H. apply in_flat_map in H as (y & HI & HO). apply in_map_iff in HO as (z & E & _). injection E as _ <-. exact HI. Qed.
Lemma subseq_In {A} (xs ys : list A) x : subseq xs ys -> In x xs -> In x ys.
Proof. induction 1; cbn; intuition. Qed.

(** ** Running the rest of a program alone *)
Lemma finish_alone cfg V U t l0 (c1 : code unit) : forall c2 v w,
  crel V U t l0 eq c1 c2 -> wsim V U t v w -> alone_logs l0 w ->
  exists more, received l0 0 (w_trace (fst (seq (alone_cfg cfg) c2 w))) = received l0 0 (w_trace w) ++ more /\
    keeps_acts w (fst (seq (alone_cfg cfg) c2 w)).
Proof.
  induction c1 as [a|e|B m k IH|l x k IH]; intros [a2|e2|B2 m2 k2|l2 x2 k2] v w C S A; cbn in C; try contradiction.
  - exists []. rewrite app_nil_r. split; [reflexivity|apply keeps_refl; reflexivity].
  - exists []. rewrite app_nil_r. split; [reflexivity|apply keeps_refl; reflexivity].
  - destruct (C v w S) as ((I1 & I2 & I3 & I4 & I5) & C'). cbn [seq]. destruct (m2 w) as [w' r] eqn:E. cbn [fst snd] in *.
    assert (A' : alone_logs l0 w') by (intros l; rewrite I3; apply A).
    destruct (IH _ _ _ _ C' I1 A') as (more & M1 & M2).
    exists more. rewrite M1, I4. split; [reflexivity|]. intros r0 a H. destruct (I5 r0 a H) as (a' & H1 & F1). destruct (M2 r0 a' H1) as (a'' & H2 & F2).
    exists a''. split; [exact H2|]. unfold frozen in *. intuition congruence.
  - destruct C as (<- & CS & C'). assert (HX2 : forall b, x2 <> CSetAsync b) by (intros b ->; destruct x; exact CS).
    destruct (alone_call cfg l0 l x2 w HX2 A) as (w' & D1 & D2 & D3 & D4 & D5 & D6). cbn [seq]. rewrite D1.
    assert (S' : wsim V U t v w') by (destruct S as (S1 & S2 & S3); split; [rewrite D3; exact S1|]; split; [rewrite D4; exact S2|rewrite D5; exact S3]).
    destruct (IH _ _ _ _ C' S' D2) as (more & M1 & M2). exists (shown_by l0 l x2 ++ more). rewrite M1, D6, app_assoc. split; [reflexivity|].
    intros r a H. apply M2. rewrite D3. exact H.
Qed.
Lemma Forall2_nth {A B} (R : A -> B -> Prop) xs ys : Forall2 R xs ys -> forall i b, nth_error ys i = Some b -> exists a, nth_error xs i = Some a /\ R a b.
Proof. induction 1; intros [|i] b H'; try discriminate; cbn in *; [injection H' as <-; eauto|eauto]. Qed.

Section P.
Variable cfg : config.
Variable lis : nat -> kind -> list nat.
Variable slot : nat -> nat.
Variable async : nat -> bool.
Variable progs : list stmt.
Hypothesis Hnote : forall tr m, cf_note cfg tr m = None.
Variable sc : list nat.
Local Notation s := (mrun lis slot sc (mstart cfg async progs)).

Lemma threads_length : length (ms_threads s) = length progs.
Proof. apply (MI_run cfg lis slot async progs 0 Hnote sc). Qed.
Lemma logger_run l : exists ps sc', ms_logs s l = trun (lis l) sc' (start (async l) ps) /\ length ps = length progs /\ nobody_raises sc' /\ no_switch ps.
Proof. apply gruns_run, (MI_run cfg lis slot async progs 0 Hnote sc). Qed.
Lemma logger_threads l : length (g_threads (ms_logs s l)) = length progs.
Proof. eapply gruns_length, (MI_run cfg lis slot async progs 0 Hnote sc). Qed.

(** Events carry the name of their thread. *)
Lemma logged_maker l t x : In x (logged_by t (g_trace (ms_logs s l))) -> t < length progs -> maker (e_act (snd x)) = t.
Proof.
  intros HI LT. destruct (MI_run cfg lis slot async progs l Hnote sc) as (HL & _ & HT).
  destruct (nth_error (ms_threads s) t) as [th|] eqn:E1; [|apply nth_error_None in E1; lia].
  destruct (nth_error progs t) as [p|] eqn:E2; [|apply nth_error_None in E2; lia].
  destruct (HT t th p E1 E2) as (c2 & w & _ & _ & _ & _ & F & _). clear - F HI.
  induction F as [|x0 y0 xs ys (_ & E) F IH]; [contradiction|]. destruct HI as [-> |HI]; [|apply IH, HI].
  destruct E as (_ & E & _). rewrite E. unfold maker, obj. rewrite cancel_of_to. reflexivity.
Qed.

(** What a thread has logged, line by line, is how the lines of its program alone begin. *)
Lemma thread_lines t p l : nth_error progs t = Some p ->
  let W := fst (eval (alone_cfg cfg) None p (alone_start cfg l)) in
  exists th ys more, nth_error (ms_threads s) t = Some th /\ received l 0 (w_trace W) = ys ++ more /\
    Forall2 (fun x y => no_parent (line_of s l x) = no_parent (in_thread t (line_seen W l y)) /\
      (undisturbed slot progs t l -> line_of s l x = in_thread t (line_seen W l y))) (logged_by t (g_trace (ms_logs s l))) ys /\
    forall r, done_with s t r -> more = [] /\ r = snd (eval (alone_cfg cfg) None p (alone_start cfg l)).
Proof.
  intros EP W. destruct (MI_run cfg lis slot async progs l Hnote sc) as (HL & _ & HT).
  assert (LT : t < length progs) by (apply nth_error_Some; congruence).
  destruct (nth_error (ms_threads s) t) as [th|] eqn:ET; [|apply nth_error_None in ET; lia].
  destruct (HT t th p ET EP) as (c2 & w & S & A & C & E & F & Y & Z).
  destruct (finish_alone cfg _ _ _ _ _ _ _ _ C S A) as (more & M1 & M2). rewrite E in M1, M2. fold W in M1, M2.
  exists th, (received l 0 (w_trace w)), more. split; [reflexivity|]. split; [exact M1|]. split.
  - clear - F Z S M2 ET. revert Z. generalize dependent (received l 0 (w_trace w)). intros ys F. induction F as [|x y xs ys H F IH]; intros Z; constructor.
    + apply Forall_inv in Z. destruct Z as (a2 & N2 & L2). destruct H as (K1 & Q1 & Q2 & Q3 & Q4 & Q5).
      destruct S as (S1 & S2 & S3). destruct (Forall2_nth _ _ _ S1 _ _ N2) as (a1 & N1 & SA). cbn [view w_acts] in N1.
      destruct (M2 _ _ N2) as (a' & N' & F1 & F2 & F3).
      assert (MD : made s (e_act (snd x)) = Some a1).
      { unfold made, maker. rewrite Q2. unfold obj. rewrite cancel_of_to. cbn [fst snd]. rewrite ET. exact N1. }
      unfold line_of, line_seen, in_thread, no_parent. rewrite MD, N', Q2, Q3, Q4, Q5, K1, F1, F2, F3, (as_name _ _ _ _ _ SA), (as_level _ _ _ _ _ SA). split; [reflexivity|].
      intros HU. cbn. f_equal. apply (as_parent _ _ _ _ _ SA). rewrite (as_log _ _ _ _ _ SA), L2.
      intros t' D1 D2 (p' & D3 & D4). apply (HU t' p' D1 D2 D3 D4).
    + apply IH. apply Forall_inv_tail in Z. exact Z.
  - intros r (th' & E1 & E2 & E3). rewrite ET in E1. injection E1 as <-. rewrite E2, E3 in C.
    assert (X : seq (alone_cfg cfg) c2 w = (w, r)).
    { destruct r as [[]|e], c2; cbn in C; try contradiction; subst; try destruct a; reflexivity. }
    rewrite X in E. rewrite <- E. split; [|reflexivity]. unfold W in M1. rewrite <- E in M1. cbn [fst] in M1.
    rewrite <- (app_nil_r (received l 0 (w_trace w))) in M1 at 1. apply app_inv_head in M1. congruence.
Qed.
(** A thread that has finished is inside no logger method. *)
Lemma done_idle t : done s t -> forall l, exists gt, nth_error (g_threads (ms_logs s l)) t = Some gt /\ th_pc gt = Idle.
Proof.
  intros (r & th & E & B & C) l. destruct (MI_run cfg lis slot async progs 0 Hnote sc) as (HL & HG & _). destruct (HG l) as (R1 & R2).
  destruct (nth_error (g_threads (ms_logs s l)) t) as [gt|] eqn:EG.
  - exists gt. split; [reflexivity|]. destruct (R2 t gt th EG E) as (_ & K). destruct (th_pc gt); try reflexivity; rewrite B in K; destruct K as [_ K]; discriminate (K ltac:(discriminate)).
  - apply nth_error_None in EG. rewrite (gruns_length _ _ _ _ R1) in EG. assert (t < length (ms_threads s)) by (apply nth_error_Some; congruence). lia.
Qed.


Section Sinks.
Variable l : nat.
Hypothesis HL : forall k, NoDup (lis l k).
Local Notation g := (ms_logs s l).
(** Synchronous mode: the sinks are called inline. *)
Lemma sync_from t sk : async l = false -> done s t ->
  got_from t sk (g_trace g) = filter (wants (lis l) sk) (logged_by t (g_trace g)).
Proof.
  intros HA HD. destruct (done_idle t HD l) as (gt & G1 & G2).
  destruct (logger_run l) as (ps & sc' & E & _ & HN & HP). rewrite HA in E.
  destruct (run_sync (lis l) ps sc' HP HN) as (_ & Q & H). rewrite <- E in Q, H.
  pose proof (run_got (lis l) HL true sk false ps sc' (fun e => False_ind _ (diff_true_false e))) as K. cbn in K. rewrite <- E in K.
  pose proof (iv_q _ (run_Inv (lis l) HL false ps sc')) as Q'. rewrite <- E in Q'. unfold queue_inv in Q'.
  assert (Hin : forall t' s0 x, In (TCall t' s0 x false) (g_trace g) -> maker (e_act (snd x)) = t').
  { intros t' s0 x HI. assert (LT : t' < length (g_threads g)) by (rewrite E in HI |- *; eapply run_who; [exact HI|reflexivity]).
    apply (logged_maker l); [|rewrite <- (logger_threads l); exact LT].
    destruct (nth_error (g_threads g) t') as [th'|] eqn:ET; [|apply nth_error_None in ET; lia].
    destruct (H t' th' ET) as (_ & _ & K'). apply (In_to_all (lis l) s0). rewrite <- K'. apply in_or_app. left. apply In_inline_by, HI. }
  assert (Hq : forall tr, (forall t' s0 x, ~ In (TCall t' s0 x true) tr) -> got sk tr = got_inline sk tr).
  { clear. induction tr as [|o tr IH]; intros H; [reflexivity|]. unfold got, got_inline in *. cbn [flat_map]. rewrite IH; [|intros t' s0 x HI; apply (H t' s0 x); right; exact HI].
    destruct o as [| | | |t' s0 x q| |]; try reflexivity. destruct q; [destruct (H t' s0 x); left; reflexivity|reflexivity]. }
  unfold got_from. rewrite Hq.
  2:{ intros t' s0 x HI. apply In_calls in HI.
      pose proof (run_got (lis l) HL true s0 false ps sc' (fun e => False_ind _ (diff_true_false e))) as K0. cbn in K0. rewrite <- E in K0.
      assert (X : In x (filter (wants (lis l) s0) (popped (g_trace g)))) by (eapply subseq_In; [exact K0|]; apply in_or_app; left; exact HI).
      apply filter_In in X as [X _]. assert (Y : In x (appended (g_trace g))) by (eapply subseq_In; [exact Q'|]; apply in_or_app; left; exact X).
      rewrite Q in Y. exact Y. }
  change (filter (of_maker t) (got_inline sk (g_trace g)) = filter (wants (lis l) sk) (logged_by t (g_trace g))).
  rewrite (inline_from t sk _ Hin). destruct (H t gt G1) as (_ & _ & K1). unfold left_inl in K1. rewrite G2, app_nil_r in K1. rewrite K1. apply to_all_one, HL.
Qed.
(** Asynchronous mode. *)
Lemma async_from t sk : async l = true -> done s t -> dropped (g_trace g) = [] ->
  forall before t' after, g_trace g = before ++ TFlushed t' :: after -> appended after = [] ->
  filter (fun x => negb (exc_item x)) (got_from t sk (g_trace g)) = filter (wants (lis l) sk) (filter (fun x => negb (exc_item x)) (logged_by t (g_trace g))) /\
  filter exc_item (got_from t sk (g_trace g)) = filter (wants (lis l) sk) (filter exc_item (logged_by t (g_trace g))).
Proof.
  intros HA HD D before t' after EF HF. destruct (done_idle t HD l) as (gt & G1 & G2).
  destruct (logger_run l) as (ps & sc' & E & _ & HN & HP). rewrite HA in E.
  destruct (run_mine (lis l) ps sc' HP HN) as (_ & H). rewrite <- E in H.
  assert (HO : forall o t0, In o (g_trace g) -> who o = Some t0 -> exists th, nth_error (g_threads g) t0 = Some th /\ t0 < length progs).
  { intros o t0 HI HW. assert (LT : t0 < length (g_threads g)) by (rewrite E in HI |- *; eapply run_who; eauto).
    destruct (nth_error (g_threads g) t0) as [th|] eqn:ET; [|apply nth_error_None in ET; lia]. exists th. split; [reflexivity|]. rewrite <- (logger_threads l). exact LT. }
  assert (Happ : forall t0 x, In (TAppend t0 x) (g_trace g) -> In x (logged_by t0 (g_trace g)) /\ exc_item x = false /\ t0 < length progs).
  { intros t0 x HI. destruct (HO _ t0 HI eq_refl) as (th & ET & LT). destruct (H t0 th ET) as (_ & K & _).
    assert (X : In x (filter (fun x => negb (exc_item x)) (logged_by t0 (g_trace g)))) by (rewrite <- K; apply in_or_app; left; apply In_appended_by, HI).
    apply filter_In in X as [X Y]. split; [exact X|]. split; [destruct (exc_item x); [discriminate|reflexivity]|exact LT]. }
  assert (Hinl : forall t0 s0 x, In (TCall t0 s0 x false) (g_trace g) -> In x (logged_by t0 (g_trace g)) /\ exc_item x = true /\ t0 < length progs).
  { intros t0 s0 x HI. destruct (HO _ t0 HI eq_refl) as (th & ET & LT). destruct (H t0 th ET) as (_ & _ & K).
    assert (X : In x (filter exc_item (logged_by t0 (g_trace g)))) by (apply (In_to_all (lis l) s0); rewrite <- K; apply in_or_app; left; apply In_inline_by, HI).
    apply filter_In in X as [X Y]. auto. }
  pose proof (iv_q _ (run_Inv (lis l) HL true ps sc')) as Q'. rewrite <- E in Q'. unfold queue_inv in Q'.
  assert (Hque : forall t0 s0 x, In (TCall t0 s0 x true) (g_trace g) -> exc_item x = false).
  { intros t0 s0 x HI. apply In_calls in HI.
    pose proof (run_got (lis l) HL true s0 true ps sc' (fun e => False_ind _ (diff_true_false e))) as K0. cbn in K0. rewrite <- E in K0.
    assert (X : In x (filter (wants (lis l) s0) (popped (g_trace g)))) by (eapply subseq_In; [exact K0|]; apply in_or_app; left; exact HI).
    apply filter_In in X as [X _]. assert (Y : In x (appended (g_trace g))) by (eapply subseq_In; [exact Q'|]; apply in_or_app; left; exact X).
    apply In_appended in Y as (t1 & Y). apply (Happ t1 x Y). }
  assert (Hall : got_queued sk (g_trace g) = filter (wants (lis l) sk) (appended (g_trace g))).
  { rewrite E in EF. destruct (run_flushed2 (lis l) true ps sc' before t' after EF HF) as [Q B]. rewrite <- E in Q, B.
    pose proof (run_got (lis l) HL false sk true ps sc' (fun _ => HN)) as K. cbn in K. rewrite <- E in K.
    pose proof (iv_e _ (run_Inv (lis l) HL true ps sc')) as X. rewrite <- E in X. rewrite (X D), Q, app_nil_r, <- K.
    replace (qinfl sk g) with (@nil item); [rewrite app_nil_r; reflexivity|].
    unfold qinfl. destruct (g_lock g) as [t0|]; [|reflexivity]. destruct (nth_error (g_threads g) t0) as [th|] eqn:EN; [|reflexivity].
    specialize (B _ _ EN). unfold busy in B. unfold inflight. destruct (th_pc th); try reflexivity; destruct B; exact I. }
  destruct (got_split sk (g_trace g) (fun t0 s0 x HI => proj1 (proj2 (Hinl t0 s0 x HI))) Hque) as (S1 & S2).
  assert (FC : forall (f h : item -> bool) xs, filter f (filter h xs) = filter h (filter f xs)).
  { clear. intros f h xs. induction xs as [|x xs IH]; [reflexivity|]. cbn. destruct (f x) eqn:Ef, (h x) eqn:Eh; cbn; rewrite ?Ef, ?Eh, IH; reflexivity. }
  unfold got_from. rewrite !(FC _ (fun x => Nat.eqb (maker (e_act (snd x))) t)), S1, S2.
  destruct (H t gt G1) as (_ & K1 & K2). rewrite G2 in K1. unfold left_exc in K2. rewrite G2 in K2. cbn [pc_item] in K1. rewrite app_nil_r in K1, K2. split.
  - rewrite Hall, FC. f_equal. rewrite <- K1. apply appended_from. intros t0 x HI. destruct (Happ t0 x HI) as (A & _ & C). apply (logged_maker l _ _ A C).
  - change (filter (of_maker t) (got_inline sk (g_trace g)) = filter (wants (lis l) sk) (filter exc_item (logged_by t (g_trace g)))).
    rewrite inline_from, K2 by (intros t0 s0 x HI; destruct (Hinl t0 s0 x HI) as (A & _ & C); apply (logged_maker l _ _ A C)). apply to_all_one, HL.
Qed.
(** Whatever a sink gets was logged by one of the threads. *)
Lemma got_logged sk x : In x (got sk (g_trace g)) -> exists t, t < length progs /\ In x (logged_by t (g_trace g)).
Proof.
  intros HI. apply in_flat_map in HI as (o & HI & HO). destruct o as [| | | |t0 s0 y q| |]; try contradiction.
  destruct (s0 =? sk) eqn:ES; [|contradiction]. destruct HO as [-> |[]].
  destruct (logger_run l) as (ps & sc' & E & _ & HN & HP).
  assert (HO : forall o t0, In o (g_trace g) -> who o = Some t0 -> exists th, nth_error (g_threads g) t0 = Some th /\ t0 < length progs).
  { intros o t1 HI1 HW. assert (LT : t1 < length (g_threads g)) by (rewrite E in HI1 |- *; eapply run_who; eauto).
    destruct (nth_error (g_threads g) t1) as [th|] eqn:ET; [|apply nth_error_None in ET; lia]. exists th. split; [reflexivity|]. rewrite <- (logger_threads l). exact LT. }
  assert (HQ : q = true -> In x (appended (g_trace g))).
  { intros ->. apply In_calls in HI. pose proof (iv_q _ (run_Inv (lis l) HL (async l) ps sc')) as Q'. rewrite <- E in Q'. unfold queue_inv in Q'.
    pose proof (run_got (lis l) HL true s0 (async l) ps sc' (fun e => False_ind _ (diff_true_false e))) as K0. cbn in K0. rewrite <- E in K0.
    assert (X : In x (filter (wants (lis l) s0) (popped (g_trace g)))) by (eapply subseq_In; [exact K0|]; apply in_or_app; left; exact HI).
    apply filter_In in X as [X _]. eapply subseq_In; [exact Q'|]; apply in_or_app; left; exact X. }
  destruct (async l) eqn:EA.
  - destruct (run_mine (lis l) ps sc' HP HN) as (_ & H). rewrite <- E in H. destruct q.
    + apply In_appended in HQ as (t1 & HA); [|reflexivity]. destruct (HO _ t1 HA eq_refl) as (th & ET & LT). destruct (H t1 th ET) as (_ & K & _).
      exists t1. split; [exact LT|]. assert (X : In x (filter (fun x => negb (exc_item x)) (logged_by t1 (g_trace g)))) by (rewrite <- K; apply in_or_app; left; apply In_appended_by, HA).
      apply filter_In in X. apply X.
    + destruct (HO _ t0 HI eq_refl) as (th & ET & LT). destruct (H t0 th ET) as (_ & _ & K). exists t0. split; [exact LT|].
      assert (X : In x (filter exc_item (logged_by t0 (g_trace g)))) by (apply (In_to_all (lis l) s0); rewrite <- K; apply in_or_app; left; apply In_inline_by, HI).
      apply filter_In in X. apply X.
  - destruct (run_sync (lis l) ps sc' HP HN) as (_ & Q & H). rewrite <- E in Q, H. destruct q; [specialize (HQ eq_refl); rewrite Q in HQ; contradiction|].
    destruct (HO _ t0 HI eq_refl) as (th & ET & LT). destruct (H t0 th ET) as (_ & _ & K). exists t0. split; [exact LT|].
    apply (In_to_all (lis l) s0). rewrite <- K. apply in_or_app. left. apply In_inline_by, HI.
Qed.
End Sinks.

(** Threads do not get stuck. *)
Lemma can_go : (forall l k, NoDup (lis l k)) -> forall t, t < length progs -> ~ done s t -> exists t' s', mstep lis slot t' s = Some s'.
Proof.
  intros HN t LT ND. destruct (MI_run cfg lis slot async progs 0 Hnote sc) as (HLn & HG & HT).
  destruct (nth_error (ms_threads s) t) as [th|] eqn:ET; [|apply nth_error_None in ET; lia].
  destruct (nth_error progs t) as [p|] eqn:EP; [|apply nth_error_None in EP; lia].
  destruct (HT t th p ET EP) as (c2 & w & _ & _ & C & _).
  destruct (tp_busy th) as [l|] eqn:EB.
  - destruct (HG l) as (R1 & R2). destruct (nth_error (g_threads (ms_logs s l)) t) as [gt|] eqn:EG.
    2:{ apply nth_error_None in EG. rewrite (gruns_length _ _ _ _ R1) in EG. lia. }
    destruct (R2 t gt th EG ET) as (T1 & T2). assert (NI : th_pc gt <> Idle) by (apply T2, EB).
    destruct (logger_run l) as (ps & sc' & E & _).
    destruct (no_deadlock (lis l) (ms_logs s l)) as (t' & g' & HS).
    { rewrite E. apply (run_Inv (lis l) (HN l)). }
    { exists t, gt. split; [exact EG|]. intros [X _]. contradiction. }
    pose proof (tstep_St _ _ _ _ _ HS) as HSt. destruct (St_thread _ _ _ _ _ HSt) as (gt' & gt'' & G1 & _ & _ & G4).
    assert (LT' : t' < length (ms_threads s)) by (rewrite HLn, <- (gruns_length _ _ _ _ R1); apply nth_error_Some; congruence).
    destruct (nth_error (ms_threads s) t') as [th'|] eqn:ET'; [|apply nth_error_None in ET'; lia].
    destruct (R2 t' gt' th' G1 ET') as (T3 & T4).
    assert (B' : tp_busy th' = Some l).
    { apply T4. intros X. destruct (G4 X) as (c & Y & _). rewrite T3 in Y. discriminate. }
    exists t'. unfold mstep. rewrite ET', B', HS. eauto.
  - exists t. unfold mstep. rewrite ET, EB. destruct (tp_code th) as [[]|e|B m k|l x k] eqn:EC.
    + destruct ND. exists (Ok tt), th. auto.
    + destruct ND. exists (Raise e), th. auto.
    + destruct (m (view slot t th s)). eauto.
    + destruct (HG l) as (R1 & R2). destruct (nth_error (g_threads (ms_logs s l)) t) as [gt|] eqn:EG.
      2:{ apply nth_error_None in EG. rewrite (gruns_length _ _ _ _ R1) in EG. lia. }
      unfold tstep, hand. cbn. rewrite (nth_set_eq _ _ _ _ EG). cbn. destruct x as [[] e| |b]; eauto.
Qed.
End P.
