(** Dispatch, sink registration and the event queue: C08, C09, C11, C12. *)
From Verif Require Import model.PyBase model.Core spec.CoreSpec
  proof.CoreLib proof.CoreTrans proof.CoreEval proof.CoreInv proof.CoreWith.

Section Dispatch.
Variable cfg : config.
Notation winv := (winv cfg).

Lemma call_hooks_dispatched l k e w : winv w ->
  dispatched cfg l k e w (fst (call_hooks cfg l k e (lg_hooks (w_logs w l) k) w))
                         (snd (call_hooks cfg l k e (lg_hooks (w_logs w l) k) w)).
Proof.
  intros HW. destruct (wi_hooks _ _ HW l) as [_ HH]. rewrite HH.
  destruct (call_hooks_spec cfg l k e (listeners cfg w l k) w) as (d & rest & H1 & H2 & H3 & H4).
  exists d, rest. split; [auto|]. split; [exact H2|].
  split.
  - intros before s after Hd.
    destruct (cf_sink cfg (w_trace w ++ map (fun s => ODeliver l k s e) before) l k s e) as [x|] eqn:Hx.
    + pose proof (H4 before s after Hd) as Ha. unfold deliveries in Ha. rewrite Hx in Ha.
      rewrite (Ha ltac:(discriminate)) in *.
      destruct (snd (call_hooks cfg l k e (listeners cfg w l k) w)) as [u|y] eqn:Hr.
      * exfalso. subst rest. rewrite app_nil_r in H1.
        (* the hook raised, so the result is not Ok *)
        clear -Hx Hr H1 Hd. rewrite H1, Hd in Hr. clear H1 Hd.
        revert w Hx Hr. induction before as [|b before IH]; intros w Hx Hr; simpl in *.
        -- rewrite app_nil_r in Hx. unfold bind, call_hook in Hr. rewrite Hx in Hr. discriminate.
        -- unfold bind, call_hook in Hr. destruct (cf_sink cfg (w_trace w) l k b e); [discriminate|].
           apply (IH (set_trace (w_trace w ++ [ODeliver l k b e]) w)); auto. simpl.
           rewrite <- app_assoc. exact Hx.
      * destruct H3 as (d0 & s' & Hd0 & Hs'). rewrite Hd in Hd0. apply app_inj_tail in Hd0. destruct Hd0 as [-> ->].
        unfold deliveries in Hs'. congruence.
    + destruct after as [|a after]; auto.
      destruct (snd (call_hooks cfg l k e (listeners cfg w l k) w)) as [u|y] eqn:Hr; auto.
      destruct H3 as (d0 & s' & Hd0 & Hs'). rewrite Hd in Hd0. apply app_inj_tail in Hd0. destruct Hd0 as [-> ->].
      unfold deliveries in Hs'. congruence.
  - destruct (snd (call_hooks cfg l k e (listeners cfg w l k) w)) as [u|y]; auto.
    destruct H3 as (d0 & s' & -> & _). intros Hn. destruct d0; discriminate.
Qed.

Lemma sync_dispatch l k e w : winv w -> lg_async (w_logs w l) = false \/ k = KExc ->
  dispatched cfg l k e w (fst (log_event cfg l k e w)) (snd (log_event cfg l k e w)).
Proof.
  intros HW Ha. pose proof (call_hooks_dispatched l k e w HW) as H.
  destruct k; simpl; unfold on_begin, on_warn, on_end, on_exception, on_comment, bind, get_log;
    try (destruct Ha as [-> | Ha]; [exact H | discriminate]). exact H.
Qed.

(** ** Registration *)
Lemma first_occ_seen_ext l : forall s1 s2, (forall x, In x s1 <-> In x s2) -> first_occurrences s1 l = first_occurrences s2 l.
Proof.
  induction l as [|x l IH]; intros s1 s2 H; simpl; auto.
  assert (Hb : existsb (Nat.eqb x) s1 = existsb (Nat.eqb x) s2).
  { apply Bool.eq_iff_eq_true. rewrite !existsb_eqb_In. apply H. }
  rewrite Hb. destruct (existsb _ s2); auto. f_equal. apply IH. intros y. simpl. rewrite H. tauto.
Qed.
Lemma first_occ_app l1 l2 : forall seen, first_occurrences seen (l1 ++ l2) =
  first_occurrences seen l1 ++ first_occurrences (seen ++ l1) l2.
Proof.
  induction l1 as [|x l1 IH]; intros seen; simpl.
  - rewrite app_nil_r. auto.
  - destruct (existsb (Nat.eqb x) seen) eqn:Hx.
    + rewrite IH. f_equal. apply first_occ_seen_ext. intros y. rewrite !in_app_iff. simpl.
      apply existsb_eqb_In in Hx. intuition; subst; auto.
    + simpl. f_equal. rewrite IH. f_equal. apply first_occ_seen_ext. intros y. simpl. rewrite !in_app_iff. simpl. tauto.
Qed.
Lemma first_occ_In l : forall seen x, In x (first_occurrences seen l) <-> In x l /\ ~ In x seen.
Proof.
  induction l as [|y l IH]; intros seen x; simpl; [tauto|].
  destruct (existsb (Nat.eqb y) seen) eqn:Hy.
  - apply existsb_eqb_In in Hy. rewrite IH. intuition. subst. tauto.
  - assert (Hn : ~ In y seen) by (intros H; apply existsb_eqb_In in H; congruence).
    simpl. rewrite IH. simpl. destruct (Nat.eq_dec y x) as [->|]; intuition.
Qed.

Lemma lg_add_sink_sinks s g l : lg_sinks g = first_occurrences [] l ->
  lg_sinks (lg_add_sink cfg s g) = first_occurrences [] (l ++ [s]).
Proof.
  intros H. rewrite first_occ_app. simpl. unfold lg_add_sink. rewrite H.
  assert (Hb : existsb (Nat.eqb s) (first_occurrences [] l) = existsb (Nat.eqb s) l).
  { apply Bool.eq_iff_eq_true. rewrite !existsb_eqb_In, first_occ_In. simpl. tauto. }
  rewrite Hb. destruct (existsb (Nat.eqb s) l); simpl; rewrite ?app_nil_r; congruence.
Qed.
Lemma lg_set_sinks_sinks ss g : lg_sinks (lg_set_sinks cfg ss g) = first_occurrences [] ss.
Proof.
  unfold lg_set_sinks.
  assert (H : forall ss l g, lg_sinks g = first_occurrences [] l ->
     lg_sinks (fold_left (fun g s => lg_add_sink cfg s g) ss g) = first_occurrences [] (l ++ ss)).
  { clear. induction ss as [|s ss IH]; intros l g H; simpl; [rewrite app_nil_r; auto|].
    rewrite (IH (l ++ [s])); [rewrite <- app_assoc; auto|]. apply lg_add_sink_sinks; auto. }
  rewrite (H ss []); auto.
Qed.


Lemma do_reg_winv l o w : winv w -> winv (fst (do_reg cfg l o w)).
Proof.
  intros HW. destruct o; simpl; unfold add_sink, set_sinks, clear_sinks, mod_log; simpl;
    eapply T_winv; try exact HW; [apply T_addsink | apply T_setsinks | exact (T_setsinks cfg w l [])].
Qed.

Lemma registration l os w old : winv w -> lg_sinks (w_logs w l) = first_occurrences [] old ->
  lg_sinks (w_logs (run_reg cfg l os w) l) = first_occurrences [] (since_reset old os) /\
  (forall k, lg_hooks (w_logs (run_reg cfg l os w) l) k = listeners cfg (run_reg cfg l os w) l k).
Proof.
  revert w old. induction os as [|o os IH]; intros w old HW HS; simpl.
  - split; auto. apply (wi_hooks _ _ HW).
  - pose proof (do_reg_winv l o w HW) as HW'.
    destruct o as [s|ss|]; simpl; apply IH; auto; simpl; rewrite upd_eq;
      [apply lg_add_sink_sinks; auto | apply lg_set_sinks_sinks | apply (lg_set_sinks_sinks [])].
Qed.

(** ** The queue *)
Lemma log_event_async l k e w : lg_async (w_logs w l) = true -> k <> KExc ->
  log_event cfg l k e w = enqueue l k e w.
Proof.
  intros Ha Hk. destruct k; simpl; try congruence;
  unfold on_begin, on_warn, on_end, on_comment, bind, get_log; rewrite Ha; reflexivity.
Qed.

Lemma enqueue_async l k e w : lg_async (w_logs (fst (enqueue l k e w)) l) = lg_async (w_logs w l).
Proof. unfold enqueue, mod_log. simpl. rewrite upd_eq. destruct (bounded_append _ _ _). reflexivity. Qed.

Lemma lastn_snoc {A} (n : N) (l : list A) x : (1 <= n)%N ->
  fst (bounded_append n (lastn n l) x) = lastn n (l ++ [x]).
Proof.
  intros Hn. unfold lastn. rewrite app_length. simpl. unfold bounded_append.
  rewrite skipn_length.
  destruct (N.ltb_spec (N.of_nat (length l - (length l - N.to_nat n))) n) as [Hlt|Hge]; cbn [fst].
  - replace (length l - N.to_nat n) with 0 by lia. replace (length l + 1 - N.to_nat n) with 0 by lia. reflexivity.
  - replace (length l + 1 - N.to_nat n) with (S (length l - N.to_nat n)) by lia.
    rewrite skipn_app. replace (S (length l - N.to_nat n) - length l) with 0 by lia.
    simpl (skipn 0 _). f_equal.
    assert (Hlen : length l - N.to_nat n < length l) by lia.
    clear -Hlen. revert Hlen. generalize (length l - N.to_nat n) as i.
    induction l as [|y l IH]; intros i Hi; simpl in *; [lia|]. destruct i; auto. apply IH. lia.
Qed.

Lemma queue_pushes l w q0 os : lg_async (w_logs w l) = true -> queueable os -> ~ In QFlush os ->
  lg_queue (w_logs w l) = lastn QUEUE_LIMIT q0 ->
  lg_queue (w_logs (run_q cfg l os w) l) = lastn QUEUE_LIMIT (q0 ++ pushed os).
Proof.
  revert w q0. induction os as [|o os IH]; intros w q0 Ha Hq Hf HQ; simpl; [rewrite app_nil_r; auto|].
  destruct o as [k e|]; [|exfalso; apply Hf; left; auto].
  assert (Hk : k <> KExc) by (intros ->; apply (Hq e); left; auto).
  simpl. rewrite log_event_async by auto.
  change (q0 ++ (k, e) :: pushed os) with (q0 ++ [(k, e)] ++ pushed os). rewrite app_assoc.
  apply IH.
  - rewrite enqueue_async. auto.
  - intros x Hx. apply (Hq x). right; auto.
  - intros Hx. apply Hf. right; auto.
  - rewrite enqueue_queue, Nat.eqb_refl, HQ. apply lastn_snoc. unfold QUEUE_LIMIT. lia.
Qed.

(** Events in a queue are never exception events. *)
Definition q_inv (w : world) : Prop :=
  forall l, (N.of_nat (length (lg_queue (w_logs w l))) <= QUEUE_LIMIT)%N /\
            forall e, ~ In (KExc, e) (lg_queue (w_logs w l)).

Lemma Pub_q l k e w w' : Pub l k e w w' -> k <> KExc -> q_inv w -> q_inv w'.
Proof.
  intros HP Hk HQ. destruct HP as [Ha|d rest Ha Hd]; [|exact HQ].
  intros l0. rewrite enqueue_queue. destruct (Nat.eqb_spec l0 l) as [->|Hn]; [|apply HQ].
  destruct (HQ l) as [H1 H2]. split.
  - unfold bounded_append. destruct (N.ltb_spec (N.of_nat (length (lg_queue (w_logs w l)))) QUEUE_LIMIT); cbn [fst];
      rewrite app_length; simpl; [lia|]. destruct (lg_queue (w_logs w l)); simpl in *; [unfold QUEUE_LIMIT in *; lia|]. lia.
  - intros x Hx. apply bounded_append_In in Hx. destruct Hx as [Hx|Hx]; [eapply H2; eauto|]. inversion Hx; subst; auto.
Qed.

Lemma T_q lb w w' : T cfg lb w w' -> q_inv w -> q_inv w'.
Proof.
  intros HT HQ.
  assert (Hl : (forall l, lg_queue (w_logs w' l) = lg_queue (w_logs w l)) -> q_inv w').
  { intros H l. rewrite H. apply HQ. }
  destruct HT;
    try (apply Hl; intros; reflexivity);
    try (match goal with HP : Pub _ _ _ _ _ |- _ => eapply (Pub_q _ _ _ _ _ HP); [discriminate|]; exact HQ end);
    try (apply Hl; intros l0; simpl; unfold upd; destruct (Nat.eqb_spec l0 l) as [->|]; auto;
         rewrite ?lg_add_sink_queue, ?lg_set_sinks_queue; reflexivity).
  intros l0. simpl. unfold upd. destruct (Nat.eqb_spec l0 l) as [->|]; [|apply HQ].
  simpl. destruct (HQ l) as [H1 H2]. rewrite H in *. simpl in *. split; [lia|]. intros x Hx. eapply H2; eauto.
Qed.

Lemma reach_q w : reach cfg w -> q_inv w.
Proof.
  induction 1.
  - intros l. simpl. split; [unfold QUEUE_LIMIT; lia | intros e []].
  - eapply (chain_inv cfg q_inv Pany); [intros lb w1 w2 _; apply T_q | apply step_chain, (reach_winv cfg); auto | auto].
  - eapply (chain_inv cfg q_inv Pany); [intros lb w1 w2 _; apply T_q | apply eval_chain, (reach_winv cfg); auto | auto].
  - eapply T_q; [|exact IHreach]. eapply T_env; auto.
Qed.

(** ** Flush *)
Lemma handed_app a b : handed (a ++ b) = handed a ++ handed b.
Proof. apply filter_app. Qed.
Lemma handed_deliveries l k e d : handed (map (fun s => ODeliver l k s e) d) = map (fun s => ODeliver l k s e) d.
Proof. induction d; simpl; f_equal; auto. Qed.

Definition same_listeners (l : nat) (w w' : world) : Prop := forall k, lg_hooks (w_logs w' l) k = lg_hooks (w_logs w l) k.

Lemma preflush_spec l hs w : exists n, 
  fst (run_preflush cfg l hs w) = add_trace n w /\ handed n = [] /\
  forall x, snd (run_preflush cfg l hs w) = Raise x ->
    (exists t h, cf_pre cfg t l h = Some x /\ exn_ord x = false) \/ (exists t m, cf_note cfg t m = Some x).
Proof.
  revert w; induction hs as [|h hs IH]; intros w; simpl.
  - exists []. rewrite add_trace_nil. repeat split; auto. discriminate.
  - destruct (cf_pre cfg (w_trace w) l h) as [x|] eqn:Hp.
    + destruct (exn_ord x) eqn:Hx.
      * unfold bind, note. destruct (cf_note cfg _ _) as [y|] eqn:Hn; simpl.
        -- exists [OPre l h; ONote "preflush"]. split; [|split; auto].
           ++ unfold add_trace, set_trace; simpl. rewrite <- app_assoc. reflexivity.
           ++ intros z Hz. inversion Hz; subst. right. eexists _, _. exact Hn.
        -- set (w1 := set_trace _ (set_trace _ w)). destruct (IH w1) as (n & H1 & H2 & H3).
           exists ([OPre l h; ONote "preflush"] ++ n). split; [|split; auto].
           ++ rewrite H1. rewrite <- add_trace_app. f_equal. unfold w1, add_trace, set_trace; simpl.
              rewrite <- app_assoc. reflexivity.
      * exists [OPre l h]. split; [reflexivity|]. split; [reflexivity|].
        simpl. intros y Hy. inversion Hy; subst. left. eexists _, _. split; eauto.
    + destruct (IH (set_trace (w_trace w ++ [OPre l h]) w)) as (n & H1 & H2 & H3).
      exists (OPre l h :: n). split; [|split; auto].
      rewrite H1. exact (add_trace_app [OPre l h] n w).
Qed.

Lemma flush_queue_spec l w0 : (forall k, lg_hooks (w_logs w0 l) k = listeners cfg w0 l k) ->
  forall q w, (forall k, lg_hooks (w_logs w l) k = lg_hooks (w_logs w0 l) k) ->
  lg_queue (w_logs w l) = q -> (forall e, ~ In (KExc, e) q) ->
  exists n, w_trace (fst (flush_queue cfg l q w)) = w_trace w ++ n /\
    match snd (flush_queue cfg l q w) with
    | Ok _ => lg_queue (w_logs (fst (flush_queue cfg l q w)) l) = [] /\ handed n = everyone cfg w0 l q
    | Raise x => exists done k e left called s missed t, q = done ++ (k, e) :: left /\
        lg_queue (w_logs (fst (flush_queue cfg l q w)) l) = left /\
        listeners cfg w0 l k = called ++ s :: missed /\
        handed n = everyone cfg w0 l done ++ map (fun s => ODeliver l k s e) (called ++ [s]) /\
        cf_sink cfg t l k s e = Some x
    end.
Proof.
  intros HL. induction q as [|[k e] q IH]; intros w Hw Hq Hx.
  - exists []. simpl. rewrite app_nil_r. auto.
  - rewrite flush_queue_cons. set (w1 := set_logs _ w).
    assert (Hk : k <> KExc) by (intros ->; apply (Hx e); left; auto).
    assert (Hw1 : forall k', lg_hooks (w_logs w1 l) k' = lg_hooks (w_logs w0 l) k').
    { intros k'. unfold w1; simpl. rewrite upd_eq, <- Hw. destruct k'; reflexivity. }
    assert (Hdis : dispatch cfg l k e w1 = call_hooks cfg l k e (listeners cfg w0 l k) w1).
    { unfold dispatch, bind, get_log. rewrite <- HL, <- Hw1. destruct k; try congruence; reflexivity. }
    unfold bind. rewrite Hdis.
    destruct (call_hooks_spec cfg l k e (listeners cfg w0 l k) w1) as (d & rest & H1 & H2 & H3 & _).
    destruct (call_hooks cfg l k e (listeners cfg w0 l k) w1) as [w2 [u|x]]; simpl in H2, H3.
    + subst rest. rewrite app_nil_r in H1. subst w2.
      destruct (IH (add_trace (deliveries l k e d) w1)) as (n & Hn & Hr).
      * intros k'. apply Hw1.
      * unfold w1; simpl. rewrite upd_eq. reflexivity.
      * intros x Hin. apply (Hx x). right; auto.
      * exists (deliveries l k e d ++ n). split.
        { rewrite Hn. simpl. rewrite <- app_assoc. reflexivity. }
        destruct (snd (flush_queue cfg l q (add_trace (deliveries l k e d) w1))) as [v|x].
        -- destruct Hr as [Hr1 Hr2]. split; auto. rewrite handed_app, Hr2. unfold deliveries. rewrite handed_deliveries.
           simpl. rewrite H1. reflexivity.
        -- destruct Hr as (done & k1 & e1 & left & called & s & missed & t & Ha & Hb & Hc & Hd & He).
           exists ((k, e) :: done), k1, e1, left, called, s, missed, t. rewrite Ha. split; [reflexivity|].
           rewrite <- Ha. split; [exact Hb|]. split; [auto|]. split; [|auto].
           rewrite handed_app, Hd. unfold deliveries. rewrite handed_deliveries. simpl.
           rewrite <- app_assoc, H1. reflexivity.
    + destruct H3 as (d0 & s & -> & Hs). subst w2. exists (deliveries l k e (d0 ++ [s])). split; [reflexivity|].
      exists [], k, e, q, d0, s, rest, (w_trace w1 ++ deliveries l k e d0). split; auto. split.
      * unfold w1; simpl. rewrite upd_eq. reflexivity.
      * split; [rewrite H1, <- app_assoc; reflexivity|]. split; auto. simpl. unfold deliveries. apply handed_deliveries.
Qed.

Lemma flush_eq l w : flush cfg l w =
  match run_preflush cfg l (lg_pre (w_logs w l)) w with
  | (w1, Ok _) =>
    match flush_queue cfg l (lg_queue (w_logs w1 l)) w1 with
    | (w2, Ok _) => (set_logs (upd (w_logs w2) l (lg_set_last (cf_clock cfg (w_clk w2)) (w_logs w2 l))) (tick w2), Ok tt)
    | (w2, Raise x) => (w2, Raise x)
    end
  | (w1, Raise x) => (w1, Raise x)
  end.
Proof.
  unfold flush. unfold bind at 1, get_log at 1. unfold bind at 1.
  destruct (run_preflush cfg l (lg_pre (w_logs w l)) w) as [w1 [u|x]]; reflexivity.
Qed.

Lemma flush_spec l w : hooks_inv cfg w -> q_inv w ->
  exists n, w_trace (fst (flush cfg l w)) = w_trace w ++ n /\
            flush_outcome cfg l w (fst (flush cfg l w)) n (snd (flush cfg l w)).
Proof.
  intros HW HQ. destruct (HW l) as [_ HH]. destruct (HQ l) as [_ HX].
  rewrite flush_eq.
  destruct (preflush_spec l (lg_pre (w_logs w l)) w) as (n1 & H1 & H2 & H3).
  destruct (run_preflush cfg l (lg_pre (w_logs w l)) w) as [w1 [u|x]]; simpl in H1, H3.
  - subst w1.
    destruct (flush_queue_spec l w HH (lg_queue (w_logs (add_trace n1 w) l)) (add_trace n1 w)) as (n2 & Hn2 & Hr);
      [reflexivity | reflexivity | exact HX |].
    destruct (flush_queue cfg l (lg_queue (w_logs (add_trace n1 w) l)) (add_trace n1 w)) as [w2 [v|x]]; cbn [fst snd] in *.
    + destruct Hr as [Hr1 Hr2]. exists (n1 ++ n2). split.
      * simpl. rewrite Hn2. simpl. rewrite <- app_assoc. reflexivity.
      * apply flushed_all; [simpl; rewrite upd_eq; exact Hr1|]. rewrite handed_app, H2, Hr2. reflexivity.
    + destruct Hr as (done & k & e & left & called & s & missed & t & Ha & Hb & Hc & Hd & He).
      exists (n1 ++ n2). split.
      * simpl. rewrite Hn2. simpl. rewrite <- app_assoc. reflexivity.
      * eapply flush_hook_raised; eauto. rewrite handed_app, H2, Hd. reflexivity.
  - subst w1. exists n1. split; [reflexivity|]. apply flush_never_started; auto.
Qed.

(** ** Subsequences *)
Lemma subseq_refl {A} (l : list A) : subseq l l.
Proof. induction l; [constructor | apply sub_take; auto]. Qed.
Lemma subseq_nil {A} (l : list A) : subseq [] l.
Proof. induction l; constructor; auto. Qed.
Lemma subseq_trans {A} (a b c : list A) : subseq a b -> subseq b c -> subseq a c.
Proof.
  intros Hab Hbc. revert a Hab. induction Hbc; intros a0 Hab; auto.
  - constructor. auto.
  - inversion Hab; subst; [apply sub_skip | apply sub_take]; auto.
Qed.
Lemma subseq_app {A} (a b c d : list A) : subseq a b -> subseq c d -> subseq (a ++ c) (b ++ d).
Proof. intros H1 H2. induction H1; simpl; auto; [apply sub_skip | apply sub_take]; auto. Qed.

Lemma received_app l s a b : received l s (a ++ b) = received l s a ++ received l s b.
Proof. apply flat_map_app. Qed.
Lemma received_handed l s n : received l s n = received l s (handed n).
Proof. induction n as [|o n IH]; simpl; auto. destruct o; simpl; rewrite IH; auto. Qed.
Lemma received_one l s k e d : NoDup d -> subseq (received l s (map (fun s => ODeliver l k s e) d)) [(k, e)].
Proof.
  induction 1 as [|x d Hx Hd IH]; simpl; [apply subseq_nil|].
  rewrite Nat.eqb_refl. simpl. destruct (Nat.eqb_spec x s) as [->|]; [|exact IH].
  assert (H0 : received l s (map (fun s => ODeliver l k s e) d) = []).
  { clear -Hx. induction d as [|y d IH]; auto. simpl. rewrite Nat.eqb_refl.
    destruct (Nat.eqb_spec y s) as [->|]; [exfalso; apply Hx; left; auto|]. simpl. apply IH. intros H. apply Hx; right; auto. }
  rewrite H0. simpl. apply subseq_refl.
Qed.
Lemma received_everyone l s w q : NoDup (lg_sinks (w_logs w l)) -> subseq (received l s (everyone cfg w l q)) q.
Proof.
  intros HN. induction q as [|[k e] q IH]; simpl; [apply subseq_nil|].
  rewrite received_app. apply (subseq_app _ [(k, e)]); auto. apply received_one. apply NoDup_filter; auto.
Qed.

Lemma NoDup_prefix {A} (a b : list A) : NoDup (a ++ b) -> NoDup a.
Proof. induction a; intros H; [constructor|]. inversion H; subst. constructor; auto. intros Hin. apply H2. apply in_or_app; auto. Qed.

Lemma flush_subseq l s w : hooks_inv cfg w -> q_inv w ->
  exists n, w_trace (fst (flush cfg l w)) = w_trace w ++ n /\
    subseq (received l s n ++ lg_queue (w_logs (fst (flush cfg l w)) l)) (lg_queue (w_logs w l)).
Proof.
  intros HW HQ. destruct (flush_spec l w HW HQ) as (n & Hn & Ho). exists n. split; auto.
  destruct (HW l) as [HN _]. rewrite received_handed.
  destruct Ho as [H1 H2|done k e left called s0 missed t x H1 H2 H3 H4 H5|x H1 H2 H3].
  - rewrite H1, H2, app_nil_r. apply received_everyone; auto.
  - rewrite H1, H2, H4, received_app, <- app_assoc.
    apply subseq_app; [apply received_everyone; auto|].
    apply (subseq_app _ [(k, e)]); [|apply subseq_refl]. apply received_one.
    assert (HN' : NoDup (listeners cfg w l k)) by (apply NoDup_filter; auto).
    rewrite H3 in HN'. apply (NoDup_prefix _ missed). rewrite <- app_assoc. exact HN'.
  - rewrite H2, H3. simpl. apply subseq_refl.
Qed.

Lemma enqueue_T l k e w : w_trace (fst (enqueue l k e w)) = w_trace w.
Proof. reflexivity. Qed.

Lemma hooks_enqueue l k e w : hooks_inv cfg w -> hooks_inv cfg (fst (enqueue l k e w)).
Proof.
  intros H l0. destruct (H l0) as [H1 H2]. unfold listeners, enqueue, mod_log in *. simpl. unfold upd.
  destruct (Nat.eqb_spec l0 l) as [->|]; auto. destruct (bounded_append _ _ _). simpl. split; auto.
Qed.

Lemma flush_hooks l w : hooks_inv cfg w -> hooks_inv cfg (fst (flush cfg l w)).
Proof.
  intros H. eapply (chain_inv cfg (hooks_inv cfg) Pother); [intros lb w1 w2 _; apply T_hooks | apply flush_chain | exact H].
Qed.
Lemma flush_q l w : q_inv w -> q_inv (fst (flush cfg l w)).
Proof.
  intros H. eapply (chain_inv cfg q_inv Pother); [intros lb w1 w2 _; apply T_q | apply flush_chain | exact H].
Qed.
Lemma flush_async l w : lg_async (w_logs (fst (flush cfg l w)) l) = lg_async (w_logs w l).
Proof.
  eapply (chain_rel cfg (fun w w' => lg_async (w_logs w' l) = lg_async (w_logs w l)) Pother); [auto | congruence | | apply flush_chain].
  intros lb w1 w2 Hp HT. apply (T_logs _ _ _ _ HT). unfold Pother in Hp. congruence.
Qed.

Lemma run_q_subseq l s os : forall w, hooks_inv cfg w -> q_inv w -> lg_async (w_logs w l) = true -> queueable os ->
  exists n, w_trace (run_q cfg l os w) = w_trace w ++ n /\
    subseq (received l s n ++ lg_queue (w_logs (run_q cfg l os w) l)) (lg_queue (w_logs w l) ++ pushed os).
Proof.
  induction os as [|o os IH]; intros w HH HQ Ha Hos; simpl.
  - exists []. rewrite !app_nil_r. split; auto. apply subseq_refl.
  - assert (Hos' : queueable os) by (intros e He; apply (Hos e); right; auto).
    destruct o as [k e|]; simpl.
    + assert (Hk : k <> KExc) by (intros ->; apply (Hos e); left; auto).
      rewrite log_event_async by auto.
      destruct (IH (fst (enqueue l k e w))) as (n & Hn & Hs).
      * apply hooks_enqueue; auto.
      * apply (Pub_q l k e w); auto. constructor; auto.
      * rewrite enqueue_async; auto.
      * auto.
      * exists n. split; [exact Hn|]. eapply subseq_trans; [exact Hs|].
        rewrite enqueue_queue, Nat.eqb_refl. change ((k, e) :: pushed os) with ([(k, e)] ++ pushed os).
        rewrite app_assoc. apply subseq_app; [|apply subseq_refl].
        unfold bounded_append. destruct (N.ltb _ _); cbn [fst]; [apply subseq_refl|].
        apply subseq_app; [|apply subseq_refl]. destruct (lg_queue (w_logs w l)); simpl; [apply subseq_nil | apply sub_skip, subseq_refl].
    + destruct (flush_subseq l s w HH HQ) as (n1 & Hn1 & Hs1).
      destruct (IH (fst (flush cfg l w))) as (n2 & Hn2 & Hs2);
        [apply flush_hooks; auto | apply flush_q; auto | rewrite flush_async; auto | auto |].
      exists (n1 ++ n2). split; [rewrite Hn2, Hn1, app_assoc; auto|].
      rewrite received_app, <- app_assoc. eapply subseq_trans; [apply subseq_app; [apply subseq_refl | exact Hs2]|].
      rewrite app_assoc. apply subseq_app; [exact Hs1 | apply subseq_refl].
Qed.
End Dispatch.
