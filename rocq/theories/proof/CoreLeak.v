(** Raising sinks and with-blocks: C18, C19. *)
From Verif Require Import model.PyBase model.Core spec.CoreSpec
  proof.CoreLib proof.CoreTrans proof.CoreEval proof.CoreInv proof.CoreWith proof.CoreBlock proof.CoreBlock2.

Section Leak.
Variable cfg : config.
Notation chain := (chain cfg).
Notation winv := (winv cfg).

Lemma call_hooks_raises l k e s0 hs w : In s0 hs -> (forall t, cf_sink cfg t l k s0 e <> None) ->
  exists y, snd (call_hooks cfg l k e hs w) = Raise y.
Proof.
  intros Hin Hs. revert w. induction hs as [|s hs IH]; intros w; [destruct Hin|].
  simpl. unfold bind, call_hook. destruct (cf_sink cfg (w_trace w) l k s e) as [x|] eqn:Hx; [eexists; reflexivity|].
  destruct Hin as [->|Hin]; [exfalso; eapply Hs; eauto|]. apply IH; auto.
Qed.

(** C18, the exit. *)
Lemma exit_exc_raising r ex w a s0 :
  winv w -> nth_error (w_acts w) r = Some a -> a_trans a = true -> calm cfg ->
  In s0 (listeners cfg w (a_log a) KExc) ->
  (forall t e, e_act e = r -> e_exc e = Some ex -> cf_sink cfg t (a_log a) KExc s0 e <> None) ->
  exists w' n h, exit_ cfg r (Some ex) w = (w', Ok (suppresses (a_reraise a))) /\
    w_trace w' = w_trace w ++ n ++ [ONote "action_exit"] /\ w_logs w' = w_logs w /\
    (forall o, In o n -> exists s e, o = ODeliver (a_log a) KExc s e) /\
    w_hist w' = w_hist w ++ h /\ (forall e, In (HEvent e) h -> e_kind e <> KEnd).
Proof.
  intros HW Ha Ht HC Hin Hs. pose proof (nth_error_lt _ _ _ Ha) as Hlt.
  unfold exit_. unfold bind at 1, mod_act at 1. rewrite Ha.
  change (set_acts (list_set (w_acts w) r (a_set_defer false a)) w) with (act_upd r (a_set_defer false a) w).
  set (w0 := act_upd r (a_set_defer false a) w).
  assert (Ha0 : nth_error (w_acts w0) r = Some (a_set_defer false a)) by (apply act_upd_nth; auto).
  assert (Hx : exists wm y n h, exception_ cfg r (Some ex) None [] w0 = (wm, Raise y) /\ exn_ord y = true /\
     w_trace wm = w_trace w ++ n /\ w_logs wm = w_logs w /\ (forall o, In o n -> exists s e, o = ODeliver (a_log a) KExc s e) /\
     w_hist wm = w_hist w ++ h /\ (forall e, In (HEvent e) h -> e_kind e <> KEnd) /\
     exists a', nth_error (w_acts wm) r = Some a' /\ same_static a a').
  { rewrite exception_eq, Ha0. cbv zeta. unfold exc_msg. simpl String.eqb. cbv iota.
    destruct (cf_describe cfg ex) as [d|y] eqn:Hdesc.
    - set (m := dm_suffix _ _).
      set (e := mkEvent KExc r (w_ctr w0) (cf_clock cfg (w_clk w0)) m None (Some ex)).
      set (w1 := with_event r _ e (tick w0)).
      change (lg_xh (w_logs w0 (a_log (a_set_defer false a)))) with (lg_hooks (w_logs w (a_log a)) KExc).
      change (a_log (a_set_defer false a)) with (a_log a).
      rewrite (proj2 (wi_hooks _ _ HW (a_log a))).
      destruct (call_hooks_raises (a_log a) KExc e s0 (listeners cfg w (a_log a) KExc) w1 Hin) as (y & Hy).
      { intros t. apply Hs; reflexivity. }
      destruct (call_hooks_spec cfg (a_log a) KExc e (listeners cfg w (a_log a) KExc) w1) as (dd & rest & Hdd & Hf & Hr & _).
      destruct (call_hooks cfg (a_log a) KExc e (listeners cfg w (a_log a) KExc) w1) as [w2 r2]; simpl in Hy, Hf, Hr.
      subst r2 w2. destruct Hr as (d0 & s & _ & Hsy).
      eexists _, y, (deliveries (a_log a) KExc e dd), [HEvent e]. split; [reflexivity|].
      split; [eapply calm_exc; eauto|]. split; [reflexivity|]. split; [reflexivity|].
      split; [intros o Ho; unfold deliveries in Ho; apply in_map_iff in Ho; destruct Ho as (s1 & <- & _); eauto|].
      split; [reflexivity|]. split; [intros e0 [E|[]]; inversion E; discriminate|].
      eexists. split; [unfold w1, with_event; apply act_upd_nth; simpl; rewrite list_set_length; auto|]. repeat split.
    - eexists _, y, [], []. split; [reflexivity|]. split; [eapply calm_text; eauto|].
      split; [rewrite app_nil_r; reflexivity|]. split; [reflexivity|]. split; [intros o []|].
      split; [rewrite app_nil_r; reflexivity|]. split; [intros e0 []|].
      exists (a_set_defer false a). split; [exact Ha0|]. repeat split. }
  destruct Hx as (wm & y & n & h & He & Hy & X1 & X2 & X3 & X4 & X5 & a' & X6 & X7).
  rewrite (bind_ok _ _ _ (add_trace [ONote "action_exit"] wm) tt).
  2:{ rewrite He, Hy. unfold note. rewrite calm_note by auto. reflexivity. }
  unfold bind, get_act. change (w_acts (add_trace [ONote "action_exit"] wm)) with (w_acts wm). rewrite X6.
  unfold set_active_parent, ret. destruct X7 as (S1 & S2 & S3 & S4 & S5 & S6).
  eexists _, n, h. split; [unfold suppresses; rewrite S5; reflexivity|].
  simpl. rewrite X1, X2, X4, app_assoc. auto.
Qed.

Lemma block_exc_raising cur x l lvl nm kw rr px body w s0 ex :
  calm cfg -> winv w -> parent_bound w px -> never_enters x body ->
  let r := length (w_acts w) in
  let w1 := block_start cfg x l lvl nm kw rr px w in
  let w2 := fst (eval cfg cur body w1) in
  let w' := fst (eval cfg cur (SWithNew x l lvl nm kw rr px body) w) in
  In s0 (listeners cfg w l KExc) ->
  (forall t e, e_act e = r -> e_exc e = Some ex -> cf_sink cfg t l KExc s0 e <> None) ->
  snd (eval cfg cur body w1) = Raise ex ->
  snd (eval cfg cur (SWithNew x l lvl nm kw rr px body) w) = propagate rr (Raise ex) /\
  end_calls r (w_trace w') = [] /\ (forall l', end_waiting r (lg_queue (w_logs w' l')) = []) /\
  (exists n, w_trace w' = w_trace w2 ++ n ++ [ONote "action_exit"]) /\
  (exists h, w_hist w' = w_hist w2 ++ h /\ forall e, In (HEvent e) h -> e_kind e <> KEnd).
Proof.
  intros HC HW Hpb Hne. cbv zeta. intros Hin Hs0.
  destruct (block_calm cfg cur x l lvl nm kw rr px body w HC HW Hpb) as (a1 & Hst & Hpar & Heq).
  cbv zeta in Hst, Heq. set (w1 := block_start cfg x l lvl nm kw rr px w) in *.
  assert (HW1 : winv w1) by (eapply st_winv; eauto).
  pose proof (body_chain cfg cur x l rr body w w1 a1 HW Hst Hne) as Hch.
  destruct (eval cfg cur body w1) as [w2 rb] eqn:Hb. cbn [fst snd] in *. intros ->.
  rewrite (Heq w2 _ eq_refl). set (r := length (w_acts w)) in *.
  assert (HP : forall lb, Pbody r lb -> lb <> LFlag r) by (intros lb [? _]; auto).
  destruct (chain_frame cfg r _ _ _ HP Hch _ (st_act _ _ _ _ _ _ _ Hst)) as (a2 & Ha2 & HS & Ht2 & Hd2).
  assert (HW2 : winv w2) by (eapply chain_winv; eauto).
  assert (Hn2 : no_end r w2).
  { eapply chain_no_end; eauto.
    - apply (wi_att _ _ HW1).
    - apply (st_act _ _ _ _ _ _ _ Hst).
    - apply (st_defer _ _ _ _ _ _ _ Hst).
    - apply (st_noend _ _ _ _ _ _ _ Hst). }
  rewrite (st_trans _ _ _ _ _ _ _ Hst) in Ht2.
  destruct HS as (_ & S2 & _ & _ & S5 & S6). rewrite (st_log _ _ _ _ _ _ _ Hst) in S2.
  destruct (chain_logs cfg (Pbody r) w1 w2 (fun lb H => proj2 H) Hch l) as (_ & L2 & _ & _).
  destruct (chain_logs cfg (fun lb => lb <> LConf) w w1 (fun lb H => H) (proj1 (st_chain _ _ _ _ _ _ _ Hst)) l) as (_ & M2 & _ & _).
  destruct (exit_exc_raising r ex w2 a2 s0 HW2 Ha2 Ht2 HC) as (w' & n & h & He & E1 & E2 & E3 & E4 & E5).
  { rewrite S2. unfold listeners. rewrite L2, M2. exact Hin. }
  { rewrite S2. exact Hs0. }
  rewrite He. cbn [fst snd].
  split. { rewrite S5, (st_rr _ _ _ _ _ _ _ Hst). unfold suppresses, propagate. destruct rr as [[|]|]; reflexivity. }
  split.
  { rewrite E1, !end_calls_app. rewrite (end_calls_none r (w_trace w2)).
    - rewrite (end_calls_none r n); [reflexivity|]. intros l0 s1 e0 Hi. destruct (E3 _ Hi) as (? & ? & Hc). discriminate.
    - intros l0 s1 e0 Hi. eapply (Hn2 l0). right; eauto. }
  split.
  { intros l'. rewrite E2. apply end_waiting_none. intros e0 Hi. eapply (Hn2 l'). left; eauto. }
  split; [exists n; auto | exists h; auto].
Qed.

(** C19: a raising begin hook on entry *)
Lemma enter_leak r w a y : nth_error (w_acts w) r = Some a -> snd (enter cfg r w) = Raise y ->
  w_active (fst (enter cfg r w)) = upd (w_active w) (a_log a) (Some r).
Proof.
  intros Ha. rewrite enter_eq, Ha. intros _.
  rewrite (other_active_same cfg _ _ (begin_chain cfg r None [] (flag_enter r a w))). reflexivity.
Qed.

(** A raising end hook on a normal exit. *)
Lemma exit_leak r w y : winv w -> r < length (w_acts w) -> snd (exit_ cfg r None w) = Raise y ->
  w_active (fst (exit_ cfg r None w)) = w_active w.
Proof.
  intros HW Hr. destruct (nth_error (w_acts w) r) as [a|] eqn:Ha; [|apply nth_error_None in Ha; lia].
  pose proof (wi_b _ _ HW) as HB.
  intros Hy. enough (G : forall w' rr, exit_ cfg r None w = (w', rr) -> rr = Raise y -> w_active w' = w_active w).
  { eapply G; [apply surjective_pairing | exact Hy]. }
  clear Hy. intros w' rr.
  unfold exit_. unfold bind at 1, mod_act at 1. rewrite Ha.
  change (set_acts (list_set (w_acts w) r (a_set_defer false a)) w) with (act_upd r (a_set_defer false a) w).
  set (w0 := act_upd r (a_set_defer false a) w).
  assert (Ha0 : nth_error (w_acts w0) r = Some (a_set_defer false a)) by (apply act_upd_nth; auto).
  assert (HB0 : binv cfg w0) by (eapply T_binv; [apply T_undefer; eauto | auto]).
  match goal with |- bind ?m ?f w0 = _ -> _ => set (mid := m); set (rest := f) end.
  assert (Hc : chain (Pend r) w0 (fst (mid w0))).
  { unfold mid, bind, get_act. rewrite Ha0. destruct (a_end (a_set_defer false a)) as [e|] eqn:He.
    - eapply chain_one; [left; reflexivity|].
      eapply T_pubend with (r := r) (a := a_set_defer false a); eauto. rewrite on_end_publish. apply publish_pub.
    - apply success_chain; auto. }
  unfold bind. destruct (mid w0) as [w1 [u|x]]; simpl in *.
  - unfold rest, bind, get_act. destruct (chain_keep cfg _ _ _ Hc _ _ Ha0) as (a' & Ha' & _). rewrite Ha'.
    simpl. intros E. inversion E; subst. discriminate.
  - intros E _. inversion E; subst. rewrite (end_active_same cfg _ _ _ Hc). reflexivity.
Qed.

Lemma publish_raises l k e s0 w : winv w -> lg_async (w_logs w l) = false -> In s0 (listeners cfg w l k) ->
  (forall t, cf_sink cfg t l k s0 e <> None) ->
  forall w', w_logs w' = w_logs w -> exists y, snd (publish cfg l k e w') = Raise y.
Proof.
  intros HW Ha Hin Hs w' Hl. unfold publish, bind, get_log. rewrite Hl, Ha.
  rewrite (proj2 (wi_hooks _ _ HW l)). apply (call_hooks_raises l k e s0); auto.
Qed.

(** Blocks. *)
Lemma block_begin_leak cur x l lvl nm kw rr px body w s0 :
  winv w -> parent_bound w px -> lg_async (w_logs w l) = false ->
  In s0 (listeners cfg w l KBegin) ->
  (forall t e, e_act e = length (w_acts w) -> cf_sink cfg t l KBegin s0 e <> None) ->
  exists w' y, eval cfg cur (SWithNew x l lvl nm kw rr px body) w = (w', Raise y) /\
    w_active w' l = Some (length (w_acts w)).
Proof.
  intros HW Hpb Ha Hin Hs.
  set (p := match px with None => None | Some y => w_env w y end).
  assert (Hlk : lookup_opt px w = (w, Ok p)).
  { unfold p. destruct px as [y|]; [|reflexivity]. unfold lookup_opt, bind, lookup, parent_bound in *.
    destruct (w_env w y); [reflexivity | congruence]. }
  cbn [eval]. rewrite (bind_ok _ _ _ _ _ Hlk). unfold bind at 1. rewrite new_action_eq.
  set (p2 := match p with Some q => Some q | None => w_active w l end).
  set (w0 := new_act_world l lvl nm kw rr p2 w). set (r := length (w_acts w)) in *.
  assert (Ha0 : nth_error (w_acts w0) r = Some (mkAction (w_ctr w) l lvl nm kw rr p2 None None [] [] false false)).
  { unfold w0, new_act_world, r; simpl. rewrite nth_error_snoc, Nat.eqb_refl. reflexivity. }
  assert (He : exists y, snd (enter cfg r w0) = Raise y).
  { pose proof (nth_error_lt _ _ _ Ha0) as Hlt0. rewrite enter_eq, Ha0, begin_eq, flag_enter_nth by auto. cbv zeta. cbn [a_begin a_set_defer a_set_trans].
    apply (publish_raises l KBegin _ s0 w HW Ha Hin); [|reflexivity]. intros t. apply Hs. reflexivity. }
  destruct He as (y & He). pose proof (enter_leak r w0 _ y Ha0 He) as Hl. simpl in Hl.
  unfold with_block. destruct (enter cfg r w0) as [w1 r1]; simpl in *. subst r1.
  exists w1, y. split; auto. rewrite Hl. apply upd_eq.
Qed.

Lemma block_end_leak cur x l lvl nm kw rr px body w s0 :
  hook_quiet cfg KBegin -> winv w -> parent_bound w px -> lg_async (w_logs w l) = false ->
  In s0 (listeners cfg w l KEnd) ->
  (forall t e, e_act e = length (w_acts w) -> cf_sink cfg t l KEnd s0 e <> None) ->
  let w1 := block_start cfg x l lvl nm kw rr px w in
  let w2 := fst (eval cfg cur body w1) in
  snd (eval cfg cur body w1) = Ok tt -> w_active w2 l = Some (length (w_acts w)) ->
  exists w' y, eval cfg cur (SWithNew x l lvl nm kw rr px body) w = (w', Raise y) /\
    w_active w' l = Some (length (w_acts w)).
Proof.
  intros HQ HW Hpb Hasync Hin Hs. cbv zeta. intros Hok Hact.
  set (p := match px with None => None | Some y => w_env w y end).
  assert (Hlk : lookup_opt px w = (w, Ok p)).
  { unfold p. destruct px as [y|]; [|reflexivity]. unfold lookup_opt, bind, lookup, parent_bound in *.
    destruct (w_env w y); [reflexivity | congruence]. }
  assert (Hp' : match p with Some q => q < length (w_acts w) | None => True end).
  { unfold p. destruct px as [y|]; auto. destruct (w_env w y) eqn:Hy; auto. eapply (wi_env _ _ HW); eauto. }
  cbn [eval]. rewrite (bind_ok _ _ _ _ _ Hlk). unfold bind at 1. rewrite new_action_eq.
  unfold block_start in *. fold p in Hok, Hact. rewrite new_action_eq in Hok, Hact. cbn [fst] in Hok, Hact.
  set (p2 := match p with Some q => Some q | None => w_active w l end) in *.
  set (w0 := new_act_world l lvl nm kw rr p2 w) in *. set (r := length (w_acts w)) in *.
  assert (Ha0 : nth_error (w_acts w0) r = Some (mkAction (w_ctr w) l lvl nm kw rr p2 None None [] [] false false)).
  { unfold w0, new_act_world, r; simpl. rewrite nth_error_snoc, Nat.eqb_refl. reflexivity. }
  destruct (enter_calm cfg r w0 _ HQ Ha0) as (w1 & a1 & He & Ha1 & HS & Ht & Hd & Hend & Hact1 & Henv & Hlen & Hocc).
  rewrite He in Hok, Hact. cbn [fst] in Hok, Hact.
  assert (HW0 : winv w0).
  { eapply T_winv; [|exact HW]. apply T_new. unfold p2. destruct p as [q|]; [right; exists q; auto | left; reflexivity]. }
  assert (HW1 : winv w1).
  { eapply chain_winv; [|exact HW0]. pose proof (enter_chain cfg r w0) as Hc. rewrite He in Hc. exact Hc. }
  set (w1' := fst (bind_var x r w1)) in *.
  assert (Hlr : r < length (w_acts w1)) by (eapply nth_error_lt; eauto).
  assert (HW1' : winv w1') by (eapply T_winv; [apply T_env; exact Hlr | exact HW1]).
  (* logs never change through the body *)
  pose proof (eval_good cfg (fun lb => lb <> LConf) (fun _ => True) ltac:(discriminate) ltac:(discriminate) ltac:(discriminate)) as EG.
  set (body' := bind_var x r ;;; eval cfg cur body).
  assert (Hb' : body' w1 = eval cfg cur body w1') by reflexivity.
  destruct (eval cfg cur body w1') as [w2 rb] eqn:Hb. cbn [fst snd] in *. subst rb.
  assert (Hgood : good cfg (fun lb => lb <> LConf) w1' w2).
  { specialize (EG ltac:(discriminate) body cur w1'). rewrite Hb in EG. apply EG; auto using withs_any.
    - apply (wi_b _ _ HW1').
    - apply (wi_env _ _ HW1').
    - split; intros; discriminate. }
  assert (HW2 : winv w2) by (eapply chain_winv; [apply Hgood | exact HW1']).
  rewrite (with_block_ok cfg r body' w0 w1 w2 (Ok tt) He Hb').
  destruct (chain_logs cfg (fun lb => lb <> LConf) w1' w2 (fun lb H => H) (proj1 Hgood) l) as (L1 & L2 & L3 & L4).
  pose proof (enter_chain cfg r w0) as Hec. rewrite He in Hec. cbn [fst] in Hec.
  assert (Hec' : chain (fun lb => lb <> LConf) w0 w1).
  { eapply chain_weaken; [|exact Hec]. intros lb [->|[->| ->]]; discriminate. }
  destruct (chain_logs cfg (fun lb => lb <> LConf) w0 w1 (fun lb H => H) Hec' l) as (M1 & M2 & M3 & M4).
  destruct (chain_keep cfg _ _ _ (proj1 Hgood) r a1 Ha1) as (a2 & Ha2 & HS2).
  assert (Hlog2 : a_log a2 = l).
  { destruct HS as (_ & S2 & _). destruct HS2 as (_ & T2 & _). rewrite T2, S2. reflexivity. }
  assert (Hlis : listeners cfg w2 l KEnd = listeners cfg w l KEnd).
  { unfold listeners. rewrite L2. change (w_logs w1' l) with (w_logs w1 l). rewrite M2. reflexivity. }
  assert (Hsync : lg_async (w_logs w2 l) = false).
  { rewrite L1. change (w_logs w1' l) with (w_logs w1 l). rewrite M1. exact Hasync. }
  destruct (chain_trans_keep cfg _ _ _ r a1 (proj1 Hgood) Ha1 Ht) as (a3 & Ha3 & _ & Ht3).
  assert (a3 = a2) by congruence. subst a3.
  assert (Hexit : exists y, snd (exit_ cfg r None w2) = Raise y).
  { unfold exit_. unfold bind at 1, mod_act at 1. rewrite Ha2.
    change (set_acts (list_set (w_acts w2) r (a_set_defer false a2)) w2) with (act_upd r (a_set_defer false a2) w2).
    set (w3 := act_upd r (a_set_defer false a2) w2).
    pose proof (nth_error_lt _ _ _ Ha2) as Hlt2.
    assert (Ha4 : nth_error (w_acts w3) r = Some (a_set_defer false a2)) by (apply act_upd_nth; auto).
    match goal with |- exists y, snd (bind ?m ?f w3) = _ => set (mid := m); set (rest := f) end.
    assert (Hmid : exists y, snd (mid w3) = Raise y).
    { unfold mid, bind, get_act. rewrite Ha4. cbn [a_end a_log a_set_defer]. rewrite Hlog2.
      destruct (a_end a2) as [e|] eqn:He2.
      - rewrite on_end_publish. apply (publish_raises l KEnd e s0 w2 HW2 Hsync); [rewrite Hlis; auto | | reflexivity].
        intros t. apply Hs. destruct (wi_att _ _ HW2 _ _ Ha2) as (I1 & _). apply (I1 e). right; left; auto.
      - unfold success, bind, get_act. rewrite Ha4.
        destruct (end_trans cfg r Success (opt_msg None (dm_suffix (a_set_defer false a2) (a_name (a_set_defer false a2) +s " succeeded"))) [] None None w3 _ Ha4 Ht3)
          as (t & w4 & Hew & Ha5 & E1 & E2 & E3 & E4).
        rewrite Hew. unfold finish_end. rewrite Ha5. cbv zeta. cbn [a_defer a_set_defer kw_upd a_set_data a_log].
        rewrite Hlog2. apply (publish_raises l KEnd _ s0 w2 HW2 Hsync); [rewrite Hlis; auto | intros t'; apply Hs; reflexivity |].
        simpl. rewrite E2. reflexivity. }
    destruct Hmid as (y & Hy). unfold bind. destruct (mid w3) as [w5 r5]; simpl in Hy. subst r5. exists y. reflexivity. }
  destruct Hexit as (y & Hy).
  pose proof (exit_leak r w2 y HW2 (nth_error_lt _ _ _ Ha2) Hy) as Hleak.
  destruct (exit_ cfg r None w2) as [w3 r3]; simpl in *. subst r3. exists w3, y. split; auto. rewrite Hleak. exact Hact.
Qed.
End Leak.
