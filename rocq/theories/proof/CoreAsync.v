(** Synchronous and asynchronous runs agree: C10. *)
From Verif Require Import model.PyBase model.Core spec.CoreSpec
  proof.CoreLib proof.CoreTrans proof.CoreEval proof.CoreInv proof.CoreWith proof.CoreDispatch.

Section Async.
Variable cfg : config.
Hypothesis Hquiet : forall k, hook_quiet cfg k.
Hypothesis Hpre : forall t l h, cf_pre cfg t l h = None.
Hypothesis Hnote : forall t m, cf_note cfg t m = None.

Definition hears (s : nat) (p : kind * event) : bool := cf_has cfg s (fst p).

Record sim (ws wa : world) : Prop := {
  sm_acts : w_acts wa = w_acts ws;
  sm_active : w_active wa = w_active ws;
  sm_ctr : w_ctr wa = w_ctr ws;
  sm_clk : w_clk wa = w_clk ws;
  sm_env : w_env wa = w_env ws;
  sm_hist : w_hist wa = w_hist ws;
  sm_sync : forall l, lg_async (w_logs ws l) = false;
  sm_async : forall l, lg_async (w_logs wa l) = true;
  sm_sinks : forall l, lg_sinks (w_logs wa l) = lg_sinks (w_logs ws l);
  sm_pre : forall l, lg_pre (w_logs wa l) = lg_pre (w_logs ws l);
  sm_hs : hooks_inv cfg ws;
  sm_ha : hooks_inv cfg wa;
  sm_empty : forall l, lg_queue (w_logs ws l) = [];
  sm_noexc : forall l e, ~ In (KExc, e) (lg_queue (w_logs wa l));
  sm_plain : forall l s, In s (lg_sinks (w_logs ws l)) -> lg_dropped (w_logs wa l) = 0 ->
    filter plain (received l s (w_trace ws)) =
    filter plain (received l s (w_trace wa)) ++ filter (hears s) (lg_queue (w_logs wa l));
  sm_exc : forall l s, filter is_exc (received l s (w_trace ws)) = filter is_exc (received l s (w_trace wa)) }.

Definition agree {A} (m : M A) : Prop := forall ws wa, sim ws wa ->
  sim (fst (m ws)) (fst (m wa)) /\ snd (m wa) = snd (m ws).

Lemma agree_bind {A B} (m : M A) (f : A -> M B) : agree m -> (forall x, agree (f x)) -> agree (bind m f).
Proof.
  intros Hm Hf ws wa HS. destruct (Hm ws wa HS) as [H1 H2]. unfold bind.
  destruct (m ws) as [ws1 rs], (m wa) as [wa1 ra]. simpl in *. subst ra. destruct rs as [x|e]; simpl; auto.
  apply Hf; auto.
Qed.
Lemma agree_ret {A} (x : A) : agree (ret x). Proof. intros ws wa H. simpl. auto. Qed.
Lemma agree_raise {A} e : agree (raise e : M A). Proof. intros ws wa H. simpl. auto. Qed.

Ltac simc H := destruct H; constructor; simpl; auto; try congruence.

Lemma agree_now : agree (now cfg).
Proof. intros ws wa H. pose proof (sm_clk _ _ H) as E. unfold now. simpl. rewrite E. split; auto. simc H. Qed.
Lemma agree_next_id : agree next_id.
Proof. intros ws wa H. pose proof (sm_ctr _ _ H) as E. unfold next_id. simpl. rewrite E. split; auto. simc H. Qed.
Lemma agree_add_hist h : agree (add_hist h).
Proof. intros ws wa H. unfold add_hist. simpl. split; auto. simc H. Qed.
Lemma agree_get_act q : agree (get_act q).
Proof. intros ws wa H. unfold get_act. rewrite (sm_acts _ _ H). destruct (nth_error _ _); simpl; auto. Qed.
Lemma agree_mod_act q f : agree (mod_act q f).
Proof.
  intros ws wa H. unfold mod_act. rewrite (sm_acts _ _ H). destruct (nth_error _ _); simpl; auto.
  split; auto. simc H.
Qed.
Lemma agree_set_active_parent l p : agree (set_active_parent l p).
Proof. intros ws wa H. unfold set_active_parent. simpl. split; auto. simc H. Qed.
Lemma agree_get_active_parent l : agree (get_active_parent l).
Proof. intros ws wa H. unfold get_active_parent. simpl. rewrite (sm_active _ _ H). auto. Qed.
Lemma agree_lookup x : agree (lookup x).
Proof. intros ws wa H. unfold lookup. rewrite (sm_env _ _ H). destruct (w_env ws x); simpl; auto. Qed.
Lemma agree_bind_var x r : agree (bind_var x r).
Proof. intros ws wa H. unfold bind_var. simpl. split; auto. simc H. Qed.

Lemma received_other l s l' k e d : l' <> l -> received l s (deliveries l' k e d) = [].
Proof.
  intros Hn. unfold deliveries. induction d; simpl; auto. destruct (Nat.eqb_spec l' l); [congruence|]. auto.
Qed.
Lemma received_here l s k e d : NoDup d ->
  received l s (deliveries l k e d) = if existsb (Nat.eqb s) d then [(k, e)] else [].
Proof.
  unfold deliveries. induction 1 as [|x d Hx Hd IH]; simpl; auto. rewrite Nat.eqb_refl. simpl. rewrite IH.
  rewrite (Nat.eqb_sym s x). destruct (Nat.eqb_spec x s) as [->|]; simpl; auto.
  destruct (existsb (Nat.eqb s) d) eqn:He; auto. apply existsb_eqb_In in He. contradiction.
Qed.
Lemma received_note l s m : received l s [ONote m] = []. Proof. reflexivity. Qed.

Lemma listener_hears s l k w : hooks_inv cfg w -> In s (lg_sinks (w_logs w l)) ->
  existsb (Nat.eqb s) (lg_hooks (w_logs w l) k) = cf_has cfg s k.
Proof.
  intros H Hin. rewrite (proj2 (H l)). unfold listeners. apply Bool.eq_iff_eq_true.
  rewrite existsb_eqb_In, filter_In. tauto.
Qed.
Lemma not_listener s l k w : hooks_inv cfg w -> ~ In s (lg_sinks (w_logs w l)) ->
  existsb (Nat.eqb s) (lg_hooks (w_logs w l) k) = false.
Proof.
  intros H Hn. apply not_true_iff_false. intros Ht. apply existsb_eqb_In in Ht. rewrite (proj2 (H l)) in Ht.
  unfold listeners in Ht. apply filter_In in Ht. tauto.
Qed.

Lemma hooks_nodup' w l k : hooks_inv cfg w -> NoDup (lg_hooks (w_logs w l) k).
Proof. intros H. destruct (H l) as [H1 H2]. rewrite H2. apply NoDup_filter; auto. Qed.

Lemma agree_publish l k e : k <> KExc -> agree (publish cfg l k e).
Proof.
  intros Hk ws wa H. unfold publish, bind, get_log. rewrite (sm_sync _ _ H), (sm_async _ _ H).
  rewrite call_hooks_quiet by (intros; apply Hquiet).
  set (hk := lg_hooks (w_logs ws l) k).
  split; [|reflexivity]. cbn [fst].
  pose proof (sm_hs _ _ H) as HHs.
  assert (Hdr : forall l0, lg_dropped (w_logs (fst (enqueue l k e wa)) l0) = 0 ->
    lg_dropped (w_logs wa l0) = 0 /\
    lg_queue (w_logs (fst (enqueue l k e wa)) l0) =
      if Nat.eqb l0 l then lg_queue (w_logs wa l0) ++ [(k, e)] else lg_queue (w_logs wa l0)).
  { intros l0. unfold enqueue, mod_log; simpl. unfold upd. destruct (Nat.eqb_spec l0 l) as [->|]; auto.
    unfold bounded_append. destruct (N.ltb _ _); simpl; auto. discriminate. }
  destruct H. constructor; auto.
  - intros l0. destruct (Nat.eq_dec l0 l) as [->|]; [rewrite enqueue_async; auto|].
    unfold enqueue, mod_log; simpl. rewrite upd_neq; auto.
  - intros l0. cbn [add_trace set_trace w_logs]. unfold enqueue, mod_log; simpl. unfold upd.
    destruct (Nat.eqb_spec l0 l) as [->|]; auto. destruct (bounded_append _ _ _); simpl; auto.
  - intros l0. cbn [add_trace set_trace w_logs]. unfold enqueue, mod_log; simpl. unfold upd.
    destruct (Nat.eqb_spec l0 l) as [->|]; auto. destruct (bounded_append _ _ _); simpl; auto.
  - apply hooks_enqueue; auto.
  - intros l0 e0 Hin. rewrite enqueue_queue in Hin. destruct (Nat.eqb_spec l0 l) as [->|]; [|eapply sm_noexc0; eauto].
    apply bounded_append_In in Hin. destruct Hin as [Hin|Hin]; [eapply sm_noexc0; eauto|]. congruence.
  - intros l0 s Hin Hd. destruct (Hdr l0 Hd) as [Hd0 Hq]. rewrite Hq.
    cbn [add_trace set_trace w_trace w_logs] in *.
    change (w_trace (fst (enqueue l k e wa))) with (w_trace wa).
    rewrite received_app, filter_app, sm_plain0 by auto.
    destruct (Nat.eqb_spec l0 l) as [->|Hn].
    + rewrite received_here by (apply hooks_nodup'; auto). unfold hk. rewrite (listener_hears s l k ws HHs Hin).
      rewrite filter_app, app_assoc. f_equal.
      change (filter (hears s) [(k, e)]) with (if cf_has cfg s k then [(k, e)] else []).
      destruct (cf_has cfg s k); simpl; auto. destruct k; try reflexivity. congruence.
    + rewrite received_other by auto. simpl. rewrite app_nil_r. auto.
  - intros l0 s. cbn [add_trace set_trace w_trace].
    change (w_trace (fst (enqueue l k e wa))) with (w_trace wa).
    rewrite received_app, filter_app, sm_exc0.
    destruct (Nat.eq_dec l0 l) as [->|Hn].
    + rewrite received_here by (apply hooks_nodup'; auto).
      destruct (existsb _ _); simpl; rewrite ?app_nil_r; auto.
      destruct k; simpl; rewrite ?app_nil_r; auto. congruence.
    + rewrite received_other by auto. simpl. rewrite app_nil_r. auto.
Qed.

Lemma agree_on_exception l e : agree (on_exception cfg l e).
Proof.
  intros ws wa H. unfold on_exception, bind, get_log.
  rewrite !call_hooks_quiet by (intros; apply Hquiet). cbn [fst snd]. split; auto.
  pose proof (sm_hs _ _ H) as HHs. pose proof (sm_ha _ _ H) as HHa.
  assert (Hhk : lg_xh (w_logs wa l) = lg_xh (w_logs ws l)).
  { change (lg_hooks (w_logs wa l) KExc = lg_hooks (w_logs ws l) KExc).
    rewrite (proj2 (HHs l)), (proj2 (HHa l)). unfold listeners. rewrite (sm_sinks _ _ H). auto. }
  rewrite Hhk.
  assert (HN : NoDup (lg_xh (w_logs ws l))) by (apply (hooks_nodup' ws l KExc); auto).
  destruct H. constructor; auto.
  - intros l0 s Hin Hd. cbn [add_trace set_trace w_trace w_logs] in *. rewrite !received_app, !filter_app, sm_plain0 by auto.
    assert (Hz : filter plain (received l0 s (deliveries l KExc e (lg_xh (w_logs ws l)))) = []).
    { destruct (Nat.eq_dec l0 l) as [->|Hn]; [rewrite received_here by auto; destruct (existsb _ _); auto | rewrite received_other by auto; auto]. }
    rewrite Hz, !app_nil_r. auto.
  - intros l0 s. cbn [add_trace set_trace w_trace]. rewrite !received_app, !filter_app, sm_exc0. auto.
Qed.

Lemma agree_on_begin l e : agree (on_begin cfg l e).
Proof. apply (agree_publish l KBegin). discriminate. Qed.
Lemma agree_on_warn l e : agree (on_warn cfg l e).
Proof. apply (agree_publish l KWarn). discriminate. Qed.
Lemma agree_on_end l e : agree (on_end cfg l e).
Proof. apply (agree_publish l KEnd). discriminate. Qed.
Lemma agree_on_comment l e : agree (on_comment cfg l e).
Proof. apply (agree_publish l KComment). discriminate. Qed.
Lemma agree_new_event k q t m st x : agree (new_event k q t m st x).
Proof. unfold new_event. apply agree_bind; [apply agree_next_id|]. intros i. apply agree_bind; [apply agree_add_hist|]. intros []. apply agree_ret. Qed.
Lemma agree_note m : agree (note cfg m).
Proof.
  intros ws wa H. unfold note. rewrite !Hnote. simpl. split; auto. destruct H. constructor; auto.
  - intros l s Hin Hd. cbn [set_trace w_trace w_logs] in *. rewrite !received_app, !received_note, !app_nil_r. auto.
  - intros l s. cbn [set_trace w_trace]. rewrite !received_app, !received_note, !app_nil_r. auto.
Qed.

Lemma agree_new_action l lvl nm kw rr p : agree (new_action l lvl nm kw rr p).
Proof.
  unfold new_action. apply agree_bind; [apply agree_next_id|]. intros i. apply agree_bind.
  - destruct p; [apply agree_ret | apply agree_get_active_parent].
  - intros p' ws wa H. simpl. rewrite (sm_acts _ _ H). split; auto. destruct H. constructor; auto; simpl; congruence.
Qed.

(** Preflush hooks leave equal traces. *)
Lemma preflush_quiet l hs w : run_preflush cfg l hs w = (add_trace (map (OPre l) hs) w, Ok tt).
Proof.
  revert w. induction hs as [|h hs IH]; intros w; simpl.
  - rewrite add_trace_nil. reflexivity.
  - rewrite Hpre, IH. f_equal. exact (add_trace_app [OPre l h] (map (OPre l) hs) w).
Qed.
Lemma received_pre l s l' hs : received l s (map (OPre l') hs) = [].
Proof. induction hs; simpl; auto. Qed.

(** Draining the queue when no hook raises. *)
Record same_but_logs (w w' : world) : Prop := {
  sb_acts : w_acts w' = w_acts w; sb_active : w_active w' = w_active w; sb_ctr : w_ctr w' = w_ctr w;
  sb_clk : w_clk w' = w_clk w; sb_env : w_env w' = w_env w; sb_hist : w_hist w' = w_hist w }.
Definition same_log (g g' : logger) : Prop :=
  lg_async g' = lg_async g /\ lg_sinks g' = lg_sinks g /\ lg_pre g' = lg_pre g /\ lg_dropped g' = lg_dropped g /\
  (forall k, lg_hooks g' k = lg_hooks g k).
Definition drain (l : nat) (g : logger) (q : list (kind * event)) : list obs :=
  flat_map (fun p => deliveries l (fst p) (snd p) (lg_hooks g (fst p))) q.

Lemma flush_queue_quiet l q : forall w, lg_queue (w_logs w l) = q -> (forall e, ~ In (KExc, e) q) ->
  exists w', flush_queue cfg l q w = (w', Ok tt) /\ same_but_logs w w' /\
    w_trace w' = w_trace w ++ drain l (w_logs w l) q /\
    lg_queue (w_logs w' l) = [] /\ (forall l', same_log (w_logs w l') (w_logs w' l')) /\
    (forall l', l' <> l -> w_logs w' l' = w_logs w l').
Proof.
  induction q as [|[k e] q IH]; intros w Hq Hx.
  - exists w. simpl. rewrite app_nil_r. repeat split; auto.
  - rewrite flush_queue_cons. set (w1 := set_logs _ w).
    assert (Hk : k <> KExc) by (intros ->; apply (Hx e); left; auto).
    assert (Hw1 : forall l', same_log (w_logs w l') (w_logs w1 l')).
    { intros l'. unfold w1; simpl. unfold upd. destruct (Nat.eqb_spec l' l) as [->|]; repeat split; auto. }
    assert (Hdis : dispatch cfg l k e w1 = (add_trace (deliveries l k e (lg_hooks (w_logs w l) k)) w1, Ok tt)).
    { destruct (Hw1 l) as (_ & _ & _ & _ & Hh). unfold dispatch, bind, get_log. rewrite <- Hh.
      destruct k; try congruence; apply call_hooks_quiet; intros; apply Hquiet. }
    unfold bind. rewrite Hdis.
    destruct (IH (add_trace (deliveries l k e (lg_hooks (w_logs w l) k)) w1)) as (w' & H1 & H2 & H3 & H4 & H5 & H6).
    + unfold w1. simpl. rewrite upd_eq. reflexivity.
    + intros e0 He. apply (Hx e0). right; auto.
    + exists w'. split; auto. destruct H2. split; [constructor; auto|]. split; [|split; [|split]]; auto.
      * rewrite H3. cbn [add_trace set_trace w_trace w_logs]. rewrite <- app_assoc. f_equal.
        cbn [drain flat_map fst snd]. f_equal. apply flat_map_ext. intros p.
        destruct (Hw1 l) as (_ & _ & _ & _ & Hh). rewrite Hh. reflexivity.
      * intros l'. destruct (H5 l') as (A1 & A2 & A3 & A4 & A5). destruct (Hw1 l') as (B1 & B2 & B3 & B4 & B5).
        cbn [add_trace set_trace w_logs] in *. unfold same_log. repeat split; try congruence; intros k'; rewrite A5, B5; auto.
      * intros l' Hn. rewrite H6 by auto. unfold w1. simpl. rewrite upd_neq; auto.
Qed.

Lemma received_drain l s w q l0 : hooks_inv cfg w -> (forall e, ~ In (KExc, e) q) ->
  received l0 s (drain l (w_logs w l) q) =
  if Nat.eqb l0 l && existsb (Nat.eqb s) (lg_sinks (w_logs w l)) then filter (hears s) q else [].
Proof.
  intros HH Hx. induction q as [|[k e] q IH]; simpl.
  - destruct (_ && _); auto.
  - unfold drain in *. simpl. rewrite received_app, IH by (intros e0 He; apply (Hx e0); right; auto).
    destruct (Nat.eqb_spec l0 l) as [->|Hn]; simpl.
    + rewrite received_here by (apply hooks_nodup'; auto).
      destruct (existsb (Nat.eqb s) (lg_sinks (w_logs w l))) eqn:Hs.
      * apply existsb_eqb_In in Hs. rewrite (listener_hears s l k w HH Hs).
        change (hears s (k, e)) with (cf_has cfg s k).
        destruct (cf_has cfg s k); reflexivity.
      * rewrite (not_listener s l k w HH); auto. intros Hin. apply existsb_eqb_In in Hin. congruence.
    + rewrite received_other by auto. reflexivity.
Qed.

Lemma flush_quiet l w : hooks_inv cfg w -> (forall e, ~ In (KExc, e) (lg_queue (w_logs w l))) ->
  exists w', flush cfg l w = (w', Ok tt) /\ 
    w_acts w' = w_acts w /\ w_active w' = w_active w /\ w_ctr w' = w_ctr w /\ w_clk w' = S (w_clk w) /\
    w_env w' = w_env w /\ w_hist w' = w_hist w /\
    w_trace w' = w_trace w ++ map (OPre l) (lg_pre (w_logs w l)) ++ drain l (w_logs w l) (lg_queue (w_logs w l)) /\
    lg_queue (w_logs w' l) = [] /\ (forall l', same_log (w_logs w l') (w_logs w' l')) /\
    (forall l', l' <> l -> lg_queue (w_logs w' l') = lg_queue (w_logs w l')).
Proof.
  intros HH Hx. rewrite flush_eq, preflush_quiet.
  set (w1 := add_trace (map (OPre l) (lg_pre (w_logs w l))) w).
  destruct (flush_queue_quiet l (lg_queue (w_logs w1 l)) w1 eq_refl Hx) as (w2 & H1 & H2 & H3 & H4 & H5 & H6).
  rewrite H1. eexists. split; [reflexivity|]. destruct H2. simpl.
  do 6 (split; [first [assumption | rewrite sb_clk0; reflexivity]|]). split; [rewrite H3; unfold w1; simpl; rewrite <- app_assoc; reflexivity|].
  split; [rewrite upd_eq; exact H4|]. split.
  - intros l'. unfold upd. destruct (Nat.eqb_spec l' l) as [->|]; [|apply H5].
    destruct (H5 l) as (A1 & A2 & A3 & A4 & A5). repeat split; auto.
  - intros l' Hn. rewrite upd_neq by auto. rewrite H6; auto.
Qed.

Lemma hooks_same w w' : hooks_inv cfg w -> (forall l, same_log (w_logs w l) (w_logs w' l)) -> hooks_inv cfg w'.
Proof.
  intros H HS l. destruct (H l) as [H1 H2]. destruct (HS l) as (_ & A2 & _ & _ & A5).
  unfold listeners in *. rewrite A2. split; auto. intros k. rewrite A5. auto.
Qed.

Lemma agree_flush l : agree (flush cfg l).
Proof.
  intros ws wa H.
  assert (Hxs : forall e, ~ In (KExc, e) (lg_queue (w_logs ws l))) by (intros e; rewrite (sm_empty _ _ H); auto).
  destruct (flush_quiet l ws (sm_hs _ _ H) Hxs) as (ws' & E & A1 & A2 & A3 & A4 & A5 & A6 & A7 & A8 & A9 & A10).
  destruct (flush_quiet l wa (sm_ha _ _ H) (sm_noexc _ _ H l)) as (wa' & E' & B1 & B2 & B3 & B4 & B5 & B6 & B7 & B8 & B9 & B10).
  rewrite E, E'. cbn [fst snd]. split; auto.
  pose proof (sm_hs _ _ H) as HHs. pose proof (sm_ha _ _ H) as HHa. pose proof (sm_noexc _ _ H) as Hne.
  assert (Hws : forall l0 s, received l0 s (w_trace ws') = received l0 s (w_trace ws)).
  { intros l0 s. rewrite A7, (sm_empty _ _ H). simpl. rewrite app_nil_r, received_app, received_pre, app_nil_r. auto. }
  assert (Hwa : forall l0 s, received l0 s (w_trace wa') = received l0 s (w_trace wa) ++
     if Nat.eqb l0 l && existsb (Nat.eqb s) (lg_sinks (w_logs wa l)) then filter (hears s) (lg_queue (w_logs wa l)) else []).
  { intros l0 s. rewrite B7, !received_app, received_pre, received_drain by auto. auto. }
  assert (Hpl : forall s, filter plain (filter (hears s) (lg_queue (w_logs wa l))) = filter (hears s) (lg_queue (w_logs wa l)) /\
                          filter is_exc (filter (hears s) (lg_queue (w_logs wa l))) = []).
  { intros s. specialize (Hne l). clear -Hne. induction (lg_queue (w_logs wa l)) as [|[k e] q IH]; simpl; auto.
    destruct IH as [I1 I2]; [intros e0 He; apply (Hne e0); right; auto|].
    destruct (hears s (k, e)); simpl; auto.
    assert (Hk : k <> KExc) by (intros ->; apply (Hne e); left; auto).
    destruct k; simpl; try congruence; rewrite I1, I2; auto. }
  pose proof (sm_acts _ _ H). pose proof (sm_active _ _ H). pose proof (sm_ctr _ _ H). pose proof (sm_clk _ _ H).
  pose proof (sm_env _ _ H). pose proof (sm_hist _ _ H).
  constructor; try congruence.
  - intros l0. destruct (A9 l0) as (C1 & _). rewrite C1. apply (sm_sync _ _ H).
  - intros l0. destruct (B9 l0) as (C1 & _). rewrite C1. apply (sm_async _ _ H).
  - intros l0. destruct (A9 l0) as (_ & C1 & _). destruct (B9 l0) as (_ & D1 & _). rewrite C1, D1. apply (sm_sinks _ _ H).
  - intros l0. destruct (A9 l0) as (_ & _ & C1 & _). destruct (B9 l0) as (_ & _ & D1 & _). rewrite C1, D1. apply (sm_pre _ _ H).
  - exact (hooks_same ws ws' HHs A9).
  - exact (hooks_same wa wa' HHa B9).
  - intros l0. destruct (Nat.eq_dec l0 l) as [->|]; auto. rewrite A10 by auto. apply (sm_empty _ _ H).
  - intros l0 e. destruct (Nat.eq_dec l0 l) as [->|]; [rewrite B8; auto|]. rewrite B10 by auto. apply Hne.
  - intros l0 s Hin Hd. destruct (A9 l0) as (_ & C1 & _). destruct (B9 l0) as (_ & _ & _ & D1 & _).
    rewrite C1 in Hin. rewrite D1 in Hd. rewrite Hws, Hwa, (sm_plain _ _ H) by auto.
    rewrite filter_app. destruct (Nat.eqb_spec l0 l) as [->|Hn]; simpl.
    + rewrite (sm_sinks _ _ H). rewrite (proj2 (existsb_eqb_In s _) Hin). rewrite (proj1 (Hpl s)), B8. simpl.
      rewrite app_nil_r. auto.
    + rewrite app_nil_r. rewrite B10 by auto. auto.
  - intros l0 s. rewrite Hws, Hwa, filter_app, (sm_exc _ _ H).
    destruct (_ && _); simpl; [rewrite (proj2 (Hpl s))|]; rewrite app_nil_r; auto.
Qed.

Create HintDb agreedb.
Hint Resolve agree_ret agree_raise agree_now agree_next_id agree_add_hist agree_get_act agree_mod_act
  agree_set_active_parent agree_get_active_parent agree_lookup agree_bind_var agree_on_exception agree_on_begin
  agree_on_warn agree_on_end agree_on_comment agree_new_event agree_note agree_new_action agree_flush : agreedb.

Ltac agree := repeat first
  [ solve [auto 1 with agreedb nocore]
  | apply agree_bind; [| intros ?]
  | match goal with |- agree (match ?x with _ => _ end) => destruct x eqn:? end ].

Lemma agree_begin q m kw : agree (begin cfg q m kw).
Proof. unfold begin. agree. Qed.
Lemma agree_warn q m kw : agree (warn cfg q m kw).
Proof. unfold warn. agree. Qed.
Hint Resolve agree_begin agree_warn : agreedb.
Lemma agree_end q st m kw et x : agree (end_ cfg q st m kw et x).
Proof. unfold end_. agree. Qed.
Hint Resolve agree_end : agreedb.
Lemma agree_success q m kw : agree (success cfg q m kw).
Proof. unfold success. agree. Qed.
Lemma agree_failure q m kw : agree (failure cfg q m kw).
Proof. unfold failure. agree. Qed.
Lemma agree_exception q x m kw : agree (exception_ cfg q x m kw).
Proof. unfold exception_. agree. Qed.
Hint Resolve agree_success agree_failure agree_exception : agreedb.
Lemma agree_enter q : agree (enter cfg q).
Proof. unfold enter. agree. Qed.
Lemma agree_exit q x : agree (exit_ cfg q x).
Proof.
  unfold exit_. apply agree_bind; [agree|]. intros [].
  apply agree_bind; [|intros; agree]. destruct x as [ex|]; [|agree].
  intros ws wa H. destruct (agree_exception q (Some ex) None [] ws wa H) as [H1 H2].
  destruct (exception_ cfg q (Some ex) None [] ws) as [ws1 [u|e]], (exception_ cfg q (Some ex) None [] wa) as [wa1 ra];
    simpl in *; subst ra; simpl; auto.
  destruct (exn_ord e); auto. apply agree_note; auto.
Qed.
Lemma agree_elapsed q : agree (get_elapsed_time cfg q).
Proof. unfold get_elapsed_time. agree. Qed.
Lemma agree_comment l m kw p : agree (comment cfg l m kw p).
Proof. unfold comment. agree. Qed.
Hint Resolve agree_enter agree_exit agree_elapsed agree_comment : agreedb.
Lemma agree_discard {A} (m : M A) : agree m -> agree (discard m).
Proof. intros H. unfold discard. apply agree_bind; auto. intros; agree. Qed.
Hint Resolve agree_discard : agreedb.
Lemma agree_setitem q k v : agree (setitem q k v).
Proof. unfold setitem. agree. Qed.
Lemma agree_addpre l h : agree (mod_log l (fun g => lg_set_pre (lg_pre g ++ [h]) g)).
Proof.
  intros ws wa H. unfold mod_log. simpl. split; auto.
  assert (Hh : forall w, hooks_inv cfg w -> hooks_inv cfg (set_logs (upd (w_logs w) l (lg_set_pre (lg_pre (w_logs w l) ++ [h]) (w_logs w l))) w)).
  { intros w Hw. eapply T_hooks; [|exact Hw]. apply T_addpre. }
  pose proof (Hh _ (sm_hs _ _ H)). pose proof (Hh _ (sm_ha _ _ H)).
  destruct H. constructor; auto; simpl; intros l0; unfold upd; destruct (Nat.eqb_spec l0 l) as [->|]; simpl; auto; congruence.
Qed.
Hint Resolve agree_setitem agree_addpre : agreedb.

Lemma agree_step o : keeps_config (CCall o) -> agree (step cfg o).
Proof.
  intros Ho. destruct o; simpl in *; try contradiction; agree; apply agree_discard; agree.
Qed.

Lemma agree_with r (body : M unit) : agree body -> agree (with_block cfg r body).
Proof.
  intros Hb ws wa H. unfold with_block.
  destruct (agree_enter r ws wa H) as [H1 H2].
  destruct (enter cfg r ws) as [ws1 [u|e]], (enter cfg r wa) as [wa1 ra]; simpl in *; subst ra; simpl; auto.
  destruct (Hb ws1 wa1 H1) as [H3 H4].
  destruct (body ws1) as [ws2 [v|e]], (body wa1) as [wa2 ra]; simpl in *; subst ra; simpl; auto.
  - apply agree_discard; auto with agreedb.
  - destruct (agree_exit r (Some e) ws2 wa2 H3) as [H5 H6].
    destruct (exit_ cfg r (Some e) ws2) as [ws3 [[|]|e']], (exit_ cfg r (Some e) wa2) as [wa3 ra]; simpl in *; subst ra; simpl; auto.
Qed.

Lemma agree_lookup_opt px : agree (lookup_opt px).
Proof. unfold lookup_opt. destruct px; agree. Qed.
Hint Resolve agree_lookup_opt : agreedb.

Local Opaque with_block.
Lemma agree_eval s : forall cur, agree (eval cfg cur s).
Proof.
  induction s; intros cur; cbn [eval]; agree; auto using agree_with.
  - apply agree_with. apply agree_bind; [agree | intros []; auto].
  - intros ws wa H. destruct (IHs1 cur ws wa H) as [H1 H2].
    destruct (eval cfg cur s1 ws) as [ws1 [u|e]], (eval cfg cur s1 wa) as [wa1 ra]; simpl in *; subst ra; simpl; auto.
    destruct (_ || _); auto. apply IHs2; auto.
Qed.

Lemma agree_cmds cs : (forall c, In c cs -> keeps_config c) -> forall ws wa, sim ws wa -> sim (run_cmds cfg cs ws) (run_cmds cfg cs wa).
Proof.
  induction cs as [|c cs IH]; intros Hc ws wa H; simpl; auto.
  apply IH; [intros; apply Hc; right; auto|].
  assert (Ha : agree (do_cmd cfg c)).
  { specialize (Hc c (or_introl eq_refl)). destruct c; [apply agree_step; auto | apply agree_eval]. }
  apply Ha; auto.
Qed.

(** Setting up. *)
Record fresh_sim (ws wa : world) : Prop := {
  fs_sim : sim ws wa; fs_ts : w_trace ws = []; fs_ta : w_trace wa = []; fs_q : forall l, lg_queue (w_logs wa l) = [] }.
Lemma setup_sim os : (forall o, In o os -> is_setup o) -> forall ws wa, fresh_sim ws wa ->
  sim (run_ops cfg os ws) (run_ops cfg os wa).
Proof.
  induction os as [|o os IH]; intros Ho ws wa H; simpl; [apply H|].
  apply IH; [intros; apply Ho; right; auto|]. specialize (Ho o (or_introl eq_refl)).
  destruct H as [H T1 T2 Q].
  assert (Hm : forall l f, (forall g, lg_queue (f g) = lg_queue g) -> (forall g, lg_async (f g) = lg_async g) ->
     (forall g g', lg_sinks g = lg_sinks g' -> lg_sinks (f g) = lg_sinks (f g')) ->
     (forall g g', lg_pre g = lg_pre g' -> lg_pre (f g) = lg_pre (f g')) ->
     (forall w, hooks_inv cfg w -> hooks_inv cfg (fst (mod_log l f w))) ->
     fresh_sim (fst (mod_log l f ws)) (fst (mod_log l f wa))).
  { intros l f F1 F2 F3 F4 F5.
    pose proof (F5 _ (sm_hs _ _ H)) as Hs. pose proof (F5 _ (sm_ha _ _ H)) as Ha.
    constructor; auto; [|intros l0; simpl; unfold upd; destruct (Nat.eqb_spec l0 l) as [->|]; rewrite ?F1; auto].
    destruct H. constructor; auto; simpl.
    - intros l0. unfold upd. destruct (Nat.eqb_spec l0 l) as [->|]; rewrite ?F2; auto.
    - intros l0. unfold upd. destruct (Nat.eqb_spec l0 l) as [->|]; rewrite ?F2; auto.
    - intros l0. unfold upd. destruct (Nat.eqb_spec l0 l) as [->|]; auto.
    - intros l0. unfold upd. destruct (Nat.eqb_spec l0 l) as [->|]; auto.
    - intros l0. unfold upd. destruct (Nat.eqb_spec l0 l) as [->|]; rewrite ?F1; auto.
    - intros l0 e0. unfold upd. destruct (Nat.eqb_spec l0 l) as [->|]; rewrite ?F1; auto.
    - intros l0 s _ _. rewrite T1, T2. simpl. unfold upd. destruct (Nat.eqb_spec l0 l) as [->|]; rewrite ?F1, Q; auto. }
  destruct o; simpl in Ho; try contradiction; cbn [step]; unfold add_sink, set_sinks; apply Hm.
  - intros g. apply lg_add_sink_queue.
  - intros g. unfold lg_add_sink. destruct (existsb _ _); auto.
  - intros g g' E. unfold lg_add_sink. rewrite E. destruct (existsb _ _); simpl; congruence.
  - intros g g' E. unfold lg_add_sink. destruct (existsb _ (lg_sinks g)), (existsb _ (lg_sinks g')); auto.
  - intros w. apply (T_hooks cfg _ _ _ (T_addsink cfg w l s)).
  - intros g. apply lg_set_sinks_queue.
  - intros g. unfold lg_set_sinks. assert (Hf : forall ss g, lg_async (fold_left (fun g s => lg_add_sink cfg s g) ss g) = lg_async g).
    { clear. induction ss; intros g; simpl; auto. rewrite IHss. unfold lg_add_sink. destruct (existsb _ _); auto. }
    rewrite Hf. reflexivity.
  - intros g g' _. rewrite !lg_set_sinks_sinks. auto.
  - intros g g' E. unfold lg_set_sinks. assert (Hf : forall ss g, lg_pre (fold_left (fun g s => lg_add_sink cfg s g) ss g) = lg_pre g).
    { clear. induction ss; intros g; simpl; auto. rewrite IHss. unfold lg_add_sink. destruct (existsb _ _); auto. }
    rewrite !Hf. auto.
  - intros w. apply (T_hooks cfg _ _ _ (T_setsinks cfg w l ss)).
  - reflexivity.
  - reflexivity.
  - auto.
  - simpl. congruence.
  - intros w. apply (T_hooks cfg _ _ _ (T_addpre cfg w l (lg_pre (w_logs w l) ++ [h]))).
Qed.

Lemma init_sim : fresh_sim (init (fun _ => false)) (init (fun _ => true)).
Proof.
  constructor; auto. constructor; auto; try (apply (wi_hooks cfg), init_winv).
Qed.

Lemma async_same setup cs l s :
  (forall o, In o setup -> is_setup o) -> (forall c, In c cs -> keeps_config c) ->
  let ws := run_cmds cfg cs (run_ops cfg setup (init (fun _ => false))) in
  let wa := fst (flush cfg l (run_cmds cfg cs (run_ops cfg setup (init (fun _ => true))))) in
  In s (lg_sinks (w_logs ws l)) ->
  lg_dropped (w_logs wa l) = 0 ->
  filter plain (received l s (w_trace wa)) = filter plain (received l s (w_trace ws)) /\
  filter is_exc (received l s (w_trace wa)) = filter is_exc (received l s (w_trace ws)).
Proof.
  intros H1 H2. cbv zeta. intros Hin.
  pose proof (agree_cmds cs H2 _ _ (setup_sim setup H1 _ _ init_sim)) as H.
  set (ws := run_cmds cfg cs (run_ops cfg setup (init (fun _ => false)))) in *.
  set (wa := run_cmds cfg cs (run_ops cfg setup (init (fun _ => true)))) in *.
  destruct (flush_quiet l wa (sm_ha _ _ H) (sm_noexc _ _ H l)) as (wa' & E & _).
  destruct (agree_flush l ws wa H) as [HF _].
  destruct (flush_quiet l ws (sm_hs _ _ H)) as (ws' & E' & B).
  { intros e; rewrite (sm_empty _ _ H); auto. }
  destruct B as (_ & _ & _ & _ & _ & _ & B7 & _ & B9 & _).
  rewrite E, E' in HF. rewrite E. cbn [fst] in *. intros Hd.
  assert (Hr : received l s (w_trace ws') = received l s (w_trace ws)).
  { rewrite B7, (sm_empty _ _ H). simpl. rewrite app_nil_r, received_app, received_pre, app_nil_r. auto. }
  destruct (flush_quiet l wa (sm_ha _ _ H) (sm_noexc _ _ H l)) as (wa2 & E2 & _ & _ & _ & _ & _ & _ & _ & Q & _).
  assert (wa2 = wa') by congruence. subst wa2.
  split.
  - rewrite <- Hr, (sm_plain _ _ HF); auto.
    + rewrite Q. simpl. rewrite app_nil_r. auto.
    + destruct (B9 l) as (_ & C & _). rewrite C. auto.
  - rewrite <- Hr. symmetry. apply (sm_exc _ _ HF).
Qed.
End Async.
