(** The status of a block's end event, and the active parent. *)
From Verif Require Import model.PyBase model.Core spec.CoreSpec
  proof.CoreLib proof.CoreTrans proof.CoreEval proof.CoreInv proof.CoreWith proof.CoreBlock proof.CoreBlock2.

Section Status.
Variable cfg : config.
Notation chain := (chain cfg).
Notation T := (T cfg).
Notation winv := (winv cfg).

Lemma last_call_app r h1 h2 :
  last_call r (h1 ++ h2) = match last_call r h2 with Some st => Some st | None => last_call r h1 end.
Proof.
  induction h1 as [|[? ?|?|r' st] h1 IH]; simpl; auto.
  - destruct (last_call r h2); auto.
  - rewrite IH. destruct (last_call r h2); auto.
Qed.
Lemma last_call_none r h : (forall st, ~ In (HCall r st) h) -> last_call r h = None.
Proof.
  induction h as [|[? ?|?|r' st] h IH]; intros H; simpl; auto.
  - apply IH. intros st Hin. eapply H; right; eauto.
  - apply IH. intros st Hin. eapply H; right; eauto.
  - rewrite IH by (intros st' Hin; eapply H; right; eauto).
    destruct (Nat.eqb_spec r' r) as [->|]; auto. exfalso. eapply H. left; reflexivity.
Qed.

Definition est (a : action) : option (option status) := option_map e_status (a_end a).

Definition endrel (r : nat) (w w' : world) : Prop :=
  forall a, nth_error (w_acts w) r = Some a -> a_trans a = true -> a_defer a = true ->
    exists a' h, nth_error (w_acts w') r = Some a' /\ a_trans a' = true /\ a_defer a' = true /\
      w_hist w' = w_hist w ++ h /\
      est a' = match last_call r h with Some st => Some (Some st) | None => est a end.

Lemma endrel_refl r w : endrel r w w.
Proof. intros a Ha Ht Hd. exists a, []. rewrite app_nil_r. simpl. auto. Qed.
Lemma endrel_trans r w1 w2 w3 : endrel r w1 w2 -> endrel r w2 w3 -> endrel r w1 w3.
Proof.
  intros H1 H2 a Ha Ht Hd. destruct (H1 a Ha Ht Hd) as (a' & h1 & Ha' & Ht' & Hd' & Hh1 & E1).
  destruct (H2 a' Ha' Ht' Hd') as (a'' & h2 & Ha'' & Ht'' & Hd'' & Hh2 & E2).
  exists a'', (h1 ++ h2). repeat split; auto.
  - rewrite Hh2, Hh1, app_assoc. auto.
  - rewrite last_call_app, E2. destruct (last_call r h2); auto.
Qed.

Lemma T_end_keep r lb w w' a : T lb w w' -> lb <> LEnd r ->
  nth_error (w_acts w) r = Some a ->
  exists a', nth_error (w_acts w') r = Some a' /\ a_end a' = a_end a.
Proof.
  intros HT Hlb Ha.
  assert (Hupd : forall r0 a0 a1, w_acts w' = list_set (w_acts w) r0 a1 -> nth_error (w_acts w) r0 = Some a0 ->
     (r0 = r -> a_end a1 = a_end a0) -> exists a', nth_error (w_acts w') r = Some a' /\ a_end a' = a_end a).
  { intros r0 a0 a1 He H0 Hs. rewrite He, nth_error_list_set.
    destruct (Nat.eqb_spec r0 r) as [->|Hn].
    - rewrite Ha. rewrite Ha in H0. inversion H0; subst a0. exists a1. auto.
    - exists a. auto. }
  assert (Hsame : w_acts w' = w_acts w -> exists a', nth_error (w_acts w') r = Some a' /\ a_end a' = a_end a)
    by (intros ->; eauto).
  assert (Hsn : forall a1, w_acts w' = w_acts w ++ [a1] -> exists a', nth_error (w_acts w') r = Some a' /\ a_end a' = a_end a).
  { intros a1 ->. exists a. rewrite nth_error_app1; [auto|]. eapply nth_error_lt; eauto. }
  destruct HT;
    try (apply Hsame; pubrw; reflexivity);
    try (eapply Hsn; pubrw; reflexivity);
    try (eapply Hupd; [pubrw; reflexivity | eassumption | intros ->; reflexivity]; fail);
    try (eapply Hupd; [pubrw; reflexivity | eassumption | intros ->; congruence]; fail).
  eapply Hupd with (r0 := r0) (a0 := a0) (a1 := a_set_begin (Some e) (a_set_defer true (a_set_trans true a0)));
    [pubrw | eassumption | intros ->; reflexivity].
  unfold with_event, act_upd, tick, flag_enter, act_upd; simpl. apply list_set_list_set.
Qed.

Lemma T_hist_nocall lb w w' : T lb w w' -> lb <> LCall ->
  exists h, w_hist w' = w_hist w ++ h /\ forall r st, ~ In (HCall r st) h.
Proof.
  intros HT Hlb. destruct HT; pubrw; try congruence;
    try (exists []; rewrite app_nil_r; split; [reflexivity | intros ? ? []]; fail);
    try (eexists; split; [reflexivity|]; simpl; intuition discriminate).
Qed.

Lemma T_endrel r lb w w' : T lb w w' -> lb <> LFlag r -> lb <> LEnd r -> lb <> LCall -> endrel r w w'.
Proof.
  intros HT H1 H2 H3 a Ha Ht Hd.
  destruct (T_frame cfg r _ _ _ HT H1 _ Ha) as (a' & Ha' & _ & Ht' & Hd').
  destruct (T_end_keep r _ _ _ _ HT H2 Ha) as (a2 & Ha2 & He).
  assert (a2 = a') by congruence. subst a2.
  destruct (T_hist_nocall _ _ _ HT H3) as (h & Hh & Hno).
  exists a', h. repeat split; auto; try congruence.
  rewrite last_call_none by (intros; apply Hno). unfold est. rewrite He. reflexivity.
Qed.

Lemma chain_endrel r (P : lbl -> Prop) w w' :
  (forall lb, P lb -> lb <> LFlag r /\ lb <> LEnd r /\ lb <> LCall) -> chain P w w' -> endrel r w w'.
Proof.
  intros HP. apply chain_rel; [apply endrel_refl | apply endrel_trans |].
  intros lb w1 w2 Hlb HT. destruct (HP _ Hlb) as (? & ? & ?). eapply T_endrel; eauto.
Qed.
Lemma other_endrel r w w' : chain Pother w w' -> endrel r w w'.
Proof. apply chain_endrel. intros lb ->; repeat split; discriminate. Qed.
Lemma end_endrel r r' w w' : r' <> r -> chain (Pend r') w w' -> endrel r w w'.
Proof. intros Hn. apply chain_endrel. intros lb [-> | ->]; repeat split; try discriminate; congruence. Qed.
Lemma all_endrel r r' w w' : r' <> r -> chain (Pall r') w w' -> endrel r w w'.
Proof. intros Hn. apply chain_endrel. intros lb [-> |[-> | ->]]; repeat split; try discriminate; congruence. Qed.

Lemma env_endrel r x r' w : endrel r w (set_env (upd (w_env w) x (Some r')) w).
Proof. intros a Ha Ht Hd. exists a, []. simpl. rewrite app_nil_r. auto. Qed.

Lemma call_endrel r r' st w : r' <> r -> endrel r w (fst (add_hist (HCall r' st) w)).
Proof.
  intros Hn a Ha Ht Hd. exists a, [HCall r' st]. simpl.
  destruct (Nat.eqb_spec r' r); [contradiction|]. auto.
Qed.

(** Ending a deferred action [r] itself records exactly the call. *)
Lemma end_call_endrel r st m kw et x w :
  endrel r w (fst ((end_ cfg r st m kw et x ;;; add_hist (HCall r st)) w)).
Proof.
  intros a Ha Ht Hd.
  destruct (end_trans cfg r st m kw et x w a Ha Ht) as (t & w0 & He & Ha0 & E1 & E2 & E3 & E4).
  unfold bind. rewrite He. unfold finish_end. rewrite Ha0. cbv zeta.
  change (a_defer (kw_upd kw a)) with (a_defer a). rewrite Hd. cbn [fst add_hist].
  set (e := mkEvent KEnd r (w_ctr w0) t m (Some st) x).
  exists (a_set_end (Some e) (kw_upd kw a)), [HEvent e; HCall r st].
  repeat split; auto.
  - unfold with_event. simpl. apply nth_error_list_set_eq. eapply nth_error_lt; eauto.
  - simpl. rewrite E3, <- app_assoc. reflexivity.
  - simpl. rewrite Nat.eqb_refl. reflexivity.
Qed.

Lemma succ_endrel r m kw w : endrel r w (fst ((success cfg r m kw ;;; add_hist (HCall r Success)) w)).
Proof.
  intros a Ha.
  assert (Heq : (success cfg r m kw ;;; add_hist (HCall r Success)) w =
    (end_ cfg r Success (opt_msg m (dm_suffix a (a_name a +s " succeeded"))) kw None None ;;; add_hist (HCall r Success)) w).
  { unfold success, bind, get_act. rewrite Ha. reflexivity. }
  rewrite Heq. exact (end_call_endrel r Success _ kw None None w a Ha).
Qed.
Lemma fail_endrel r m kw w : endrel r w (fst ((failure cfg r m kw ;;; add_hist (HCall r Failure)) w)).
Proof.
  intros a Ha.
  assert (Heq : (failure cfg r m kw ;;; add_hist (HCall r Failure)) w =
    (end_ cfg r Failure (opt_msg m (dm_suffix a (a_name a +s " failed"))) kw None None ;;; add_hist (HCall r Failure)) w).
  { unfold failure, bind, get_act. rewrite Ha. reflexivity. }
  rewrite Heq. exact (end_call_endrel r Failure _ kw None None w a Ha).
Qed.
Lemma exc_endrel r x m kw w : endrel r w (fst ((exception_ cfg r x m kw ;;; add_hist (HCall r Exception_)) w)).
Proof.
  intros a Ha Htr Hd. pose proof (nth_error_lt _ _ _ Ha) as Hlt.
  revert a Ha Htr Hd. change (endrel r w (fst ((exception_ cfg r x m kw ;;; add_hist (HCall r Exception_)) w))).
  unfold bind. rewrite exception_eq.
  destruct (nth_error (w_acts w) r) as [a|] eqn:Ha; [|apply endrel_refl].
  assert (Htick : endrel r w (tick w)).
  { apply other_endrel. eapply chain_one; [reflexivity | apply T_tick]. }
  cbv zeta. destruct x as [ex|]; [|exact Htick].
  destruct (exc_msg cfg a ex m) as [m'|y]; [|exact Htick].
  set (e := mkEvent KExc r (w_ctr w) (cf_clock cfg (w_clk w)) m' None (Some ex)).
  set (w1 := with_event r (a_set_excs (a_excs a ++ [e]) a) e (tick w)).
  destruct (call_hooks_spec cfg (a_log a) KExc e (lg_xh (w_logs w (a_log a))) w1) as (d & rest & Hd & Hf & _).
  assert (HX : endrel r w (add_trace (deliveries (a_log a) KExc e d) w1)).
  { apply other_endrel. eapply chain_one; [reflexivity|]. eapply T_exc; eauto. reflexivity. }
  destruct (call_hooks cfg (a_log a) KExc e (lg_xh (w_logs w (a_log a))) w1) as [w2 [u|y]];
    simpl in Hf; subst w2; [|exact HX].
  eapply endrel_trans; [exact HX|].
  exact (end_call_endrel r Exception_ m' kw (Some (cf_clock cfg (w_clk w))) (Some ex) _).
Qed.

Lemma eval_endrel r V : forall s cur w, withs V s -> winv w -> safe (Pbody r) V w ->
  endrel r w (fst (eval cfg cur s w)).
Proof.
  assert (Hgood : forall s cur w, withs V s -> winv w -> safe (Pbody r) V w ->
            good cfg (Pbody r) w (fst (eval cfg cur s w))).
  { intros s cur w Hw HW Hs. apply (eval_good cfg (Pbody r) V); try (split; discriminate); auto.
    - apply (wi_b _ _ HW).
    - apply (wi_env _ _ HW). }
  assert (Hgw : forall w w', good cfg (Pbody r) w w' -> winv w -> winv w').
  { intros w w' [Hc _] HW. eapply chain_winv; eauto. }
  assert (Hw_b : forall r' (body : M unit) w, r' <> r -> winv w ->
            endrel r w (fst (enter cfg r' w)) ->
            endrel r (fst (enter cfg r' w)) (fst (body (fst (enter cfg r' w)))) ->
            winv (fst (body (fst (enter cfg r' w)))) ->
            endrel r w (fst (with_block cfg r' body w))).
  { intros r' body w Hn HW He Hb HWb. unfold with_block.
    destruct (enter cfg r' w) as [w1 [u|x]]; simpl in *; [|exact He].
    destruct (body w1) as [w2 [v|x]]; simpl in *.
    - rewrite fst_discard. eapply endrel_trans; [exact He|]. eapply endrel_trans; [exact Hb|].
      eapply all_endrel; [exact Hn|]. apply exit_chain. apply (wi_b _ _ HWb).
    - assert (Hx : endrel r w2 (fst (exit_ cfg r' (Some x) w2))).
      { eapply all_endrel; [exact Hn|]. apply exit_chain. apply (wi_b _ _ HWb). }
      assert (H2 : endrel r w (fst (exit_ cfg r' (Some x) w2))).
      { eapply endrel_trans; [exact He|]. eapply endrel_trans; [exact Hb | exact Hx]. }
      destruct (exit_ cfg r' (Some x) w2) as [w3 [[|]|e']]; exact H2. }
  assert (Hcallcase : forall (m : M unit) r' st w,
            (r' = r -> endrel r w (fst ((m ;;; add_hist (HCall r' st)) w))) ->
            (r' <> r -> endrel r w (fst (m w))) ->
            endrel r w (fst ((m ;;; add_hist (HCall r' st)) w))).
  { intros m r' st w H1 H2. destruct (Nat.eq_dec r' r) as [Heq|Hn]; [auto|]. specialize (H2 Hn).
    unfold bind. destruct (m w) as [w1 [u|e]]; simpl in *; auto.
    eapply endrel_trans; [exact H2 | apply (call_endrel r r' st w1 Hn)]. }
  induction s; intros cur w Hw HW Hs; cbn [eval].
  - apply endrel_refl.
  - destruct Hw as [Hw1 Hw2]. specialize (IHs1 cur w Hw1 HW Hs). pose proof (Hgood s1 cur w Hw1 HW Hs) as G.
    unfold bind. destruct (eval cfg cur s1 w) as [w1 [u|e]]; simpl in *; auto.
    eapply endrel_trans; [exact IHs1|]. apply IHs2; auto; [eapply Hgw; eauto | eapply good_safe; eauto].
  - unfold bind at 1. destruct (lookup_opt_cases px w) as [(p & -> & Hp)|(y & _ & _ & ->)]; [|apply endrel_refl].
    assert (Hp' : match p with Some q => q < length (w_acts w) | None => True end).
    { destruct px as [y|]; [destruct Hp as (r0 & -> & Hr); eapply (wi_env _ _ HW); eauto | subst; auto]. }
    pose proof (new_action_chain cfg l lvl name kw rr p w Hp') as Hc.
    unfold bind. rewrite new_action_eq in *. cbn [fst] in *.
    eapply endrel_trans; [apply other_endrel; exact Hc | apply env_endrel].
  - destruct Hw as [Hv Hw]. unfold bind, lookup. destruct (w_env w x) as [r'|] eqn:Hx; [|apply endrel_refl].
    assert (HF : Pbody r (LFlag r')) by (destruct Hs; eauto).
    assert (Hn : r' <> r) by (intros ->; destruct HF; congruence).
    assert (Gen : good cfg (Pbody r) w (fst (enter cfg r' w))).
    { apply (good_all cfg (Pbody r) r'); try (split; discriminate); auto. apply enter_chain. }
    assert (Hsen : safe (Pbody r) V (fst (enter cfg r' w))) by (eapply good_safe; eauto).
    assert (HWen : winv (fst (enter cfg r' w))) by (eapply Hgw; eauto).
    apply Hw_b; auto.
    + eapply all_endrel; [exact Hn | apply enter_chain].
    + eapply Hgw; [apply Hgood; auto | auto].
  - unfold bind at 1. destruct (lookup_opt_cases px w) as [(p & -> & Hp)|(y & _ & _ & ->)]; [|apply endrel_refl].
    assert (Hp' : match p with Some q => q < length (w_acts w) | None => True end).
    { destruct px as [y|]; [destruct Hp as (r0 & -> & Hr); eapply (wi_env _ _ HW); eauto | subst; auto]. }
    assert (HNO : Pbody r LOther) by (split; discriminate).
    pose proof (new_action_good cfg (Pbody r) l lvl name kw rr p w HNO Hp') as Gn.
    pose proof (new_action_chain cfg l lvl name kw rr p w Hp') as Hc.
    unfold bind at 1. rewrite new_action_eq in *. cbn [fst] in *.
    set (w1 := new_act_world _ _ _ _ _ _ _) in *. set (r' := length (w_acts w)).
    assert (HF : Pbody r (LFlag r')) by (destruct Hs as [_ Hs]; apply Hs; auto).
    assert (Hn : r' <> r) by (intros Heq; destruct HF as [HF _]; congruence).
    assert (Gen : good cfg (Pbody r) w (fst (enter cfg r' w1))).
    { eapply good_trans; [exact Gn|]. apply (good_all cfg (Pbody r) r'); try (split; discriminate); auto. apply enter_chain. }
    assert (Hr1 : r' < length (w_acts w1)).
    { unfold w1, new_act_world; simpl. rewrite app_length; simpl. unfold r'; lia. }
    assert (Hr2 : r' < length (w_acts (fst (enter cfg r' w1)))).
    { pose proof (chain_len _ _ _ _ (enter_chain cfg r' w1)). lia. }
    set (w2 := fst (enter cfg r' w1)) in *.
    assert (Gb : good cfg (Pbody r) w (fst (bind_var x r' w2))).
    { apply bind_var_good; auto. split; discriminate. }
    assert (HWb : winv (fst (bind_var x r' w2))) by (eapply Hgw; eauto).
    assert (Hsb : safe (Pbody r) V (fst (bind_var x r' w2))) by (eapply good_safe; eauto).
    eapply endrel_trans; [apply other_endrel; exact Hc|].
    apply Hw_b; auto.
    + eapply Hgw; eauto.
    + eapply all_endrel; [exact Hn | apply enter_chain].
    + fold w2. unfold bind. cbn [bind_var fst] in *. eapply endrel_trans; [apply env_endrel|].
      apply IHs; auto.
    + fold w2. unfold bind. cbn [bind_var fst] in *. eapply Hgw; [apply Hgood; auto | auto].
  - unfold bind, lookup. destruct (w_env w x) as [r'|]; [|apply endrel_refl].
    apply other_endrel, begin_chain.
  - unfold bind, lookup. destruct (w_env w x) as [r'|]; [|apply endrel_refl].
    apply other_endrel, warn_chain.
  - unfold bind at 1, lookup. destruct (w_env w x) as [r'|]; [|apply endrel_refl].
    apply Hcallcase; [intros -> ; apply succ_endrel|].
    intros Hn. eapply end_endrel; [exact Hn|]. apply success_chain, (wi_b _ _ HW).
  - unfold bind at 1, lookup. destruct (w_env w x) as [r'|]; [|apply endrel_refl].
    apply Hcallcase; [intros -> ; apply fail_endrel|].
    intros Hn. eapply end_endrel; [exact Hn|]. apply failure_chain, (wi_b _ _ HW).
  - unfold bind at 1, lookup. destruct (w_env w x) as [r'|]; [|apply endrel_refl].
    apply Hcallcase; [intros -> ; apply exc_endrel|].
    intros Hn. eapply end_endrel; [exact Hn|]. apply exception_chain, (wi_b _ _ HW).
  - unfold bind, lookup. destruct (w_env w x) as [r'|]; [|apply endrel_refl].
    apply other_endrel, setitem_chain.
  - unfold bind, lookup. destruct (w_env w x) as [r'|]; [|apply endrel_refl].
    rewrite fst_discard. apply other_endrel, elapsed_chain.
  - apply other_endrel, comment_chain; auto.
  - apply other_endrel, flush_chain.
  - apply endrel_refl.
  - destruct cur; apply endrel_refl.
  - destruct Hw as [Hw1 Hw2]. specialize (IHs1 cur w Hw1 HW Hs). pose proof (Hgood s1 cur w Hw1 HW Hs) as G.
    destruct (eval cfg cur s1 w) as [w1 [u|e]]; simpl in *; auto.
    destruct (all || exn_ord e); auto.
    eapply endrel_trans; [exact IHs1|]. apply IHs2; auto; [eapply Hgw; eauto | eapply good_safe; eauto].
Qed.

(** C01 + C03 for one block. *)
Theorem block_end_status cur x l lvl nm kw rr px body w :
  calm cfg -> exc_quiet cfg -> winv w -> parent_bound w px -> never_enters x body ->
  let r := length (w_acts w) in
  let w1 := block_start cfg x l lvl nm kw rr px w in
  let w2 := fst (eval cfg cur body w1) in
  exists e h, e_act e = r /\ e_kind e = KEnd /\
    one_end (lg_async (w_logs w l)) l r (listeners cfg w l KEnd) e
      (fst (eval cfg cur (SWithNew x l lvl nm kw rr px body) w)) /\
    w_hist w2 = w_hist w1 ++ h /\
    e_status e = Some (block_status (snd (eval cfg cur body w1)) (last_call r h)).
Proof.
  intros HC HQ HW Hpb Hne. cbv zeta.
  destruct (block_one_end cfg cur x l lvl nm kw rr px body w HC HQ HW Hpb Hne) as (a2 & e & Ha2 & He & Hk & Hone & Hst).
  destruct (block_calm cfg cur x l lvl nm kw rr px body w HC HW Hpb) as (a1 & Hstart & _ & _).
  cbv zeta in *. set (w1 := block_start cfg x l lvl nm kw rr px w) in *. set (r := length (w_acts w)) in *.
  assert (HW1 : winv w1) by (eapply st_winv; eauto).
  assert (Hrel : endrel r w1 (fst (eval cfg cur body w1))).
  { apply eval_endrel with (V := fun y => y <> x); auto.
    - apply never_enters_withs; auto.
    - split.
      + intros y r' Hy Hr'. rewrite (st_other _ _ _ _ _ _ _ Hstart) in Hr' by auto. apply (wi_env _ _ HW) in Hr'.
        split; [|discriminate]. intros Hc. inversion Hc. subst r'. fold r in Hr'. lia.
      + intros r' Hr'. rewrite (st_len _ _ _ _ _ _ _ Hstart) in Hr'. fold r in Hr'. split; [|discriminate]. intros Hc. inversion Hc. lia. }
  destruct (Hrel a1 (st_act _ _ _ _ _ _ _ Hstart) (st_trans _ _ _ _ _ _ _ Hstart) (st_defer _ _ _ _ _ _ _ Hstart))
    as (a2' & h & Ha2' & _ & _ & Hh & Hest).
  assert (a2' = a2) by congruence. subst a2'.
  exists e, h. repeat split; auto; try apply Hone.
  rewrite Hst. unfold est in Hest. rewrite (st_end _ _ _ _ _ _ _ Hstart) in Hest. simpl in Hest.
  unfold block_status. destruct (snd (eval cfg cur body w1)) as [u|ex]; auto.
  destruct (a_end a2) as [e'|]; simpl in Hest.
  - destruct (last_call r h); [congruence | discriminate].
  - destruct (last_call r h); [discriminate | auto].
Qed.

(** ** C05: the active parent *)
Lemma eval_active : calm cfg -> forall s cur w, plain_withs s -> winv w ->
  forall l, w_active (fst (eval cfg cur s w)) l = w_active w l.
Proof.
  intros HC.
  assert (Hcall : forall (m : M unit) r st w l, w_active (fst (m w)) l = w_active w l ->
             w_active (fst ((m ;;; add_hist (HCall r st)) w)) l = w_active w l).
  { intros m r st w l H. unfold bind. destruct (m w) as [w1 [u|e]]; simpl in *; auto. }
  induction s; intros cur w Hp HW l0; cbn [eval].
  - reflexivity.
  - destruct Hp as [Hp1 Hp2]. pose proof (IHs1 cur w Hp1 HW l0) as H1.
    pose proof (eval_chain cfg cur s1 w HW) as Hc.
    unfold bind. destruct (eval cfg cur s1 w) as [w1 [u|e]]; simpl in *; auto.
    rewrite IHs2; auto. eapply chain_winv; eauto.
  - unfold bind at 1. destruct (lookup_opt_cases px w) as [(p & -> & _)|(y & _ & _ & ->)]; [|reflexivity].
    unfold bind. rewrite new_action_eq. reflexivity.
  - contradiction.
  - destruct Hp as [-> Hp].
    assert (Hpb : parent_bound w None) by exact I.
    destruct (block_result cfg cur x l lvl name kw rr None s w HC HW Hpb) as (w' & He & Hact).
    destruct (block_calm cfg cur x l lvl name kw rr None s w HC HW Hpb) as (a1 & Hst & _ & _).
    cbn [eval] in He. rewrite He. cbn [fst]. rewrite Hact. unfold upd at 1.
    destruct (Nat.eqb_spec l0 l) as [->|Hn]; [reflexivity|].
    rewrite IHs; auto.
    + rewrite (st_active _ _ _ _ _ _ _ Hst). apply upd_neq. auto.
    + eapply st_winv; eauto.
  - unfold bind, lookup. destruct (w_env w x) as [r|]; [|reflexivity].
    rewrite (other_active_same cfg _ _ (begin_chain cfg r m kw w)). reflexivity.
  - unfold bind, lookup. destruct (w_env w x) as [r|]; [|reflexivity].
    rewrite (other_active_same cfg _ _ (warn_chain cfg r m kw w)). reflexivity.
  - unfold bind at 1, lookup. destruct (w_env w x) as [r|]; [|reflexivity]. apply Hcall.
    rewrite (end_active_same cfg r _ _ (success_chain cfg r m kw w (wi_b _ _ HW))). reflexivity.
  - unfold bind at 1, lookup. destruct (w_env w x) as [r|]; [|reflexivity]. apply Hcall.
    rewrite (end_active_same cfg r _ _ (failure_chain cfg r m kw w (wi_b _ _ HW))). reflexivity.
  - unfold bind at 1, lookup. destruct (w_env w x) as [r|]; [|reflexivity]. apply Hcall.
    rewrite (end_active_same cfg r _ _ (exception_chain cfg r cur m kw w (wi_b _ _ HW))). reflexivity.
  - unfold bind, lookup. destruct (w_env w x) as [r|]; [|reflexivity].
    rewrite (other_active_same cfg _ _ (setitem_chain cfg r k v w)). reflexivity.
  - unfold bind, lookup. destruct (w_env w x) as [r|]; [|reflexivity].
    rewrite fst_discard, (other_active_same cfg _ _ (elapsed_chain cfg r w)). reflexivity.
  - rewrite (other_active_same cfg _ _ (comment_chain cfg l m kw None w I)). reflexivity.
  - rewrite (other_active_same cfg _ _ (flush_chain cfg l w)). reflexivity.
  - reflexivity.
  - destruct cur; reflexivity.
  - destruct Hp as [Hp1 Hp2]. pose proof (IHs1 cur w Hp1 HW l0) as H1.
    pose proof (eval_chain cfg cur s1 w HW) as Hc.
    destruct (eval cfg cur s1 w) as [w1 [u|e]]; simpl in *; auto.
    destruct (all || exn_ord e); auto. rewrite IHs2; auto. eapply chain_winv; eauto.
Qed.

(** An action created directly in the body of a block, after any well-behaved
    code, is a child of the block's action. *)
Lemma child_parent cur x l lvl nm kw rr px b1 y lvl2 nm2 kw2 rr2 w :
  calm cfg -> winv w -> parent_bound w px -> plain_withs b1 ->
  let w1 := block_start cfg x l lvl nm kw rr px w in
  let w2 := fst (eval cfg cur b1 w1) in
  snd (eval cfg cur b1 w1) = Ok tt ->
  let w3 := fst (eval cfg cur (SSeq b1 (SNew y l lvl2 nm2 kw2 rr2 None)) w1) in
  exists a, nth_error (w_acts w3) (length (w_acts w2)) = Some a /\
    w_env w3 y = Some (length (w_acts w2)) /\ a_parent a = Some (length (w_acts w)).
Proof.
  intros HC HW Hpb Hp. cbv zeta. intros Hok.
  destruct (block_calm cfg cur x l lvl nm kw rr px b1 w HC HW Hpb) as (a1 & Hst & _ & _).
  cbv zeta in Hst.
  pose proof (eval_active HC b1 cur (block_start cfg x l lvl nm kw rr px w) Hp (st_winv _ _ _ _ _ _ _ Hst HW) l) as Hact.
  rewrite (st_active _ _ _ _ _ _ _ Hst), upd_eq in Hact.
  destruct (eval cfg cur b1 (block_start cfg x l lvl nm kw rr px w)) as [w2 rb] eqn:Hb. cbn [fst snd] in *. subst rb.
  assert (Hev : eval cfg cur (SSeq b1 (SNew y l lvl2 nm2 kw2 rr2 None)) (block_start cfg x l lvl nm kw rr px w) =
    (set_env (upd (w_env w2) y (Some (length (w_acts w2)))) (new_act_world l lvl2 nm2 kw2 rr2 (w_active w2 l) w2), Ok tt)).
  { cbn [eval]. rewrite (bind_ok _ _ _ _ _ Hb). reflexivity. }
  rewrite Hev. cbn [fst].
  eexists. split; [|split].
  - simpl. rewrite nth_error_snoc, Nat.eqb_refl. reflexivity.
  - simpl. apply upd_eq.
  - simpl. exact Hact.
Qed.
End Status.
