(** Whole with-blocks. *)
From Verif Require Import model.PyBase model.Core spec.CoreSpec
  proof.CoreLib proof.CoreTrans proof.CoreEval proof.CoreInv proof.CoreWith proof.CoreBlock.

Section Block2.
Variable cfg : config.
Notation chain := (chain cfg).
Notation T := (T cfg).
Notation winv := (winv cfg).

Lemma T_trans_keep lb w w' r a : T lb w w' -> nth_error (w_acts w) r = Some a -> a_trans a = true ->
  exists a', nth_error (w_acts w') r = Some a' /\ same_static a a' /\ a_trans a' = true.
Proof.
  intros HT Ha Ht.
  assert (Hd : lb = LFlag r \/ lb <> LFlag r).
  { destruct lb; try (right; discriminate). destruct (Nat.eq_dec r0 r); [left; congruence | right; congruence]. }
  destruct Hd as [->|Hn].
  - pose proof (nth_error_lt _ _ _ Ha) as Hlt.
    inversion HT; subst; try (assert (a0 = a) by congruence; subst a0).
    + eexists. split; [apply flag_enter_nth; auto|]. repeat split.
    + eexists. split; [pubrw; unfold with_event; apply act_upd_nth; simpl; rewrite list_set_length; auto|]. repeat split.
    + eexists. split; [apply act_upd_nth; auto|]. repeat split. exact Ht.
    + exists a. split; [exact Ha|]. repeat split. exact Ht.
  - destruct (T_frame cfg r _ _ _ HT Hn _ Ha) as (a' & H1 & H2 & H3 & _). exists a'. split; auto. split; auto. congruence.
Qed.
Lemma chain_trans_keep P w w' r a : chain P w w' -> nth_error (w_acts w) r = Some a -> a_trans a = true ->
  exists a', nth_error (w_acts w') r = Some a' /\ same_static a a' /\ a_trans a' = true.
Proof.
  intros Hc. revert a. induction Hc as [w|lb w w1 w2 Hlb HT Hc IH]; intros a Ha Ht.
  - exists a. split; auto. split; auto. apply same_static_refl.
  - destruct (T_trans_keep _ _ _ _ _ HT Ha Ht) as (a1 & Ha1 & S1 & Ht1).
    destruct (IH _ Ha1 Ht1) as (a2 & Ha2 & S2 & Ht2). exists a2. split; auto. split; auto.
    unfold same_static in *. intuition congruence.
Qed.

Lemma enter_calm r w a : hook_quiet cfg KBegin -> nth_error (w_acts w) r = Some a ->
  exists w1 a1, enter cfg r w = (w1, Ok tt) /\ nth_error (w_acts w1) r = Some a1 /\ same_static a a1 /\
    a_trans a1 = true /\ a_defer a1 = true /\ a_end a1 = a_end a /\
    w_active w1 = upd (w_active w) (a_log a) (Some r) /\ w_env w1 = w_env w /\
    length (w_acts w1) = length (w_acts w) /\
    (forall l0 e0, occurs w1 l0 KEnd e0 -> occurs w l0 KEnd e0).
Proof.
  intros Hq Ha. pose proof (nth_error_lt _ _ _ Ha) as Hlt.
  rewrite enter_eq, Ha, begin_eq, flag_enter_nth by auto. cbv zeta. cbn [a_begin a_set_defer a_set_trans].
  destruct (a_begin a) as [b|] eqn:Hb.
  - eexists _, _. split; [reflexivity|]. split; [apply act_upd_nth; simpl; rewrite list_set_length; auto|].
    repeat split; [simpl; rewrite !list_set_length; reflexivity|].
    intros l0 e0 Ho. exact Ho.
  - rewrite publish_quiet by auto. eexists _, _. split; [reflexivity|].
    rewrite pubw_acts, pubw_active.
    split; [unfold with_event; apply act_upd_nth; simpl; rewrite list_set_length; auto|].
    repeat split.
    + match goal with |- w_env (pubw ?l ?k ?e ?w0) = _ => rewrite (Pub_env _ _ _ _ _ (pubw_pub l k e w0)) end. reflexivity.
    + simpl. rewrite !list_set_length. reflexivity.
    + intros l0 e0 Ho. apply (Pub_occ _ _ _ _ _ (pubw_pub _ _ _ _)) in Ho.
      destruct Ho as [Ho|(_ & Hk & _)]; [exact Ho | discriminate].
Qed.

Lemma with_block_ok r (body : M unit) w w1 w2 rb : enter cfg r w = (w1, Ok tt) -> body w1 = (w2, rb) ->
  with_block cfg r body w =
  match exit_ cfg r (match rb with Ok _ => None | Raise e => Some e end) w2 with
  | (w3, Raise e') => (w3, Raise e')
  | (w3, Ok b) => (w3, match rb with Ok _ => Ok tt | Raise e => if b then Ok tt else Raise e end)
  end.
Proof.
  intros He Hb. unfold with_block. rewrite He, Hb. destruct rb as [u|e].
  - unfold discard, bind, ret. destruct (exit_ cfg r None w2) as [w3 [b|e']]; reflexivity.
  - destruct (exit_ cfg r (Some e) w2) as [w3 [[|]|e']]; reflexivity.
Qed.

(** Facts about the state in which a block's body starts. *)
Record started (x l : nat) (rr : option bool) (w w1 : world) (a1 : action) : Prop := {
  st_chain : good cfg (fun lb => lb <> LConf) w w1;
  st_env : w_env w1 x = Some (length (w_acts w));
  st_other : forall y, y <> x -> w_env w1 y = w_env w y;
  st_act : nth_error (w_acts w1) (length (w_acts w)) = Some a1;
  st_len : length (w_acts w1) = S (length (w_acts w));
  st_log : a_log a1 = l;
  st_rr : a_reraise a1 = rr;
  st_trans : a_trans a1 = true;
  st_defer : a_defer a1 = true;
  st_end : a_end a1 = None;
  st_noend : no_end (length (w_acts w)) w1;
  st_active : w_active w1 = upd (w_active w) l (Some (length (w_acts w))) }.

Lemma block_begun cur x l lvl nm kw rr px body w :
  hook_quiet cfg KBegin -> winv w -> parent_bound w px ->
  exists a1, let w1 := block_start cfg x l lvl nm kw rr px w in
    let r := length (w_acts w) in
    started x l rr w w1 a1 /\
    a_parent a1 = match px with None => w_active w l | Some y => w_env w y end /\
    forall w2 rb, eval cfg cur body w1 = (w2, rb) ->
      eval cfg cur (SWithNew x l lvl nm kw rr px body) w =
      match exit_ cfg r (match rb with Ok _ => None | Raise e => Some e end) w2 with
      | (w3, Raise e') => (w3, Raise e')
      | (w3, Ok b) => (w3, match rb with Ok _ => Ok tt | Raise e => if b then Ok tt else Raise e end)
      end.
Proof.
  intros HC HW Hpb.
  set (p := match px with None => None | Some y => w_env w y end).
  assert (Hlk : lookup_opt px w = (w, Ok p)).
  { unfold p. destruct px as [y|]; [|reflexivity]. unfold lookup_opt, bind, lookup, parent_bound in *.
    destruct (w_env w y); [reflexivity | congruence]. }
  assert (Hp' : match p with Some q => q < length (w_acts w) | None => True end).
  { unfold p. destruct px as [y|]; auto. destruct (w_env w y) eqn:Hy; auto. eapply (wi_env _ _ HW); eauto. }
  unfold block_start. fold p.
  rewrite new_action_eq. cbn [fst].
  set (p2 := match p with Some q => Some q | None => w_active w l end).
  set (w0 := new_act_world l lvl nm kw rr p2 w).
  set (r := length (w_acts w)).
  assert (Ha0 : nth_error (w_acts w0) r = Some (mkAction (w_ctr w) l lvl nm kw rr p2 None None [] [] false false)).
  { unfold w0, new_act_world, r; simpl. rewrite nth_error_snoc, Nat.eqb_refl. reflexivity. }
  destruct (enter_calm r w0 _ HC Ha0) as (w1 & a1 & He & Ha1 & HS & Ht & Hd & Hend & Hact & Henv & Hlen & Hocc).
  assert (Hlen1 : length (w_acts w1) = S r).
  { rewrite Hlen. unfold w0, new_act_world, r; simpl. rewrite app_length; simpl; lia. }
  exists a1. cbv zeta. rewrite He. cbn [fst bind_var]. split; [|split].
  - destruct HS as (S1 & S2 & S3 & S4 & S5 & S6). constructor; cbn [w_acts w_env w_active set_env]; auto.
    + assert (G0 : good cfg (fun lb => lb <> LConf) w w0).
      { pose proof (new_action_good cfg (fun lb => lb <> LConf) l lvl nm kw rr p w) as G. rewrite new_action_eq in G.
        apply G; [discriminate | exact Hp']. }
      assert (G1 : good cfg (fun lb => lb <> LConf) w w1).
      { eapply good_trans; [exact G0|]. pose proof (enter_chain cfg r w0) as Hch. rewrite He in Hch.
        eapply good_all; [| | |exact Hch]; discriminate. }
      apply (bind_var_good cfg _ x r w1 w); auto; [discriminate | fold r; lia].
    + apply upd_eq.
    + intros y Hy. rewrite upd_neq by auto. rewrite Henv. reflexivity.
    + intros l0 e0 Ho. assert (Ho' : occurs w l0 KEnd e0) by exact (Hocc l0 e0 Ho).
      apply (no_end_fresh w (wi_occ _ _ HW) r (le_n _) l0 e0 Ho').
  - destruct HS as (_ & _ & _ & _ & _ & S6). rewrite S6. simpl. unfold p2, p. destruct px as [y|]; [|reflexivity].
    unfold parent_bound in Hpb. destruct (w_env w y); [reflexivity | congruence].
  - intros w2 rb Hb. cbn [eval]. rewrite (bind_ok _ _ _ _ _ Hlk).
    rewrite (bind_ok _ _ _ w0 r) by (rewrite new_action_eq; reflexivity).
    apply with_block_ok with (w1 := w1); auto.
Qed.
Lemma block_calm cur x l lvl nm kw rr px body w :
  calm cfg -> winv w -> parent_bound w px ->
  exists a1, let w1 := block_start cfg x l lvl nm kw rr px w in
    let r := length (w_acts w) in
    started x l rr w w1 a1 /\
    a_parent a1 = match px with None => w_active w l | Some y => w_env w y end /\
    forall w2 rb, eval cfg cur body w1 = (w2, rb) ->
      eval cfg cur (SWithNew x l lvl nm kw rr px body) w =
      match exit_ cfg r (match rb with Ok _ => None | Raise e => Some e end) w2 with
      | (w3, Raise e') => (w3, Raise e')
      | (w3, Ok b) => (w3, match rb with Ok _ => Ok tt | Raise e => if b then Ok tt else Raise e end)
      end.
Proof. intros HC. exact (block_begun cur x l lvl nm kw rr px body w (calm_begin _ HC)). Qed.

Lemma st_winv x l rr w w1 a1 : started x l rr w w1 a1 -> winv w -> winv w1.
Proof. intros [[Hc _] _ _ _ _ _ _ _ _ _ _ _] HW. eapply chain_winv; eauto. Qed.

(** C04: what leaves the block, and the parent after it. *)
Lemma block_result cur x l lvl nm kw rr px body w :
  calm cfg -> winv w -> parent_bound w px ->
  let rb := snd (eval cfg cur body (block_start cfg x l lvl nm kw rr px w)) in
  let w2 := fst (eval cfg cur body (block_start cfg x l lvl nm kw rr px w)) in
  exists w', eval cfg cur (SWithNew x l lvl nm kw rr px body) w = (w', propagate rr rb) /\
    w_active w' = upd (w_active w2) l (match px with None => w_active w l | Some y => w_env w y end).
Proof.
  intros HC HW Hpb. destruct (block_calm cur x l lvl nm kw rr px body w HC HW Hpb) as (a1 & Hst & Hpar & Heq).
  cbv zeta. set (w1 := block_start cfg x l lvl nm kw rr px w) in *.
  assert (HW1 : winv w1) by (eapply st_winv; eauto).
  pose proof (eval_chain cfg cur body w1 HW1) as Hch.
  destruct (eval cfg cur body w1) as [w2 rb] eqn:Hb. cbn [fst snd] in *.
  rewrite (Heq w2 rb eq_refl).
  destruct (chain_trans_keep _ _ _ _ _ Hch (st_act _ _ _ _ _ _ Hst) (st_trans _ _ _ _ _ _ Hst)) as (a2 & Ha2 & HS & Ht2).
  assert (HW2 : winv w2) by (eapply chain_winv; eauto).
  destruct (exit_calm cfg (length (w_acts w)) (match rb with Ok _ => None | Raise e => Some e end) w2 a2 HW2 Ha2 Ht2 HC)
    as (w' & He & Hact & _).
  rewrite He. destruct HS as (_ & S2 & _ & _ & S5 & S6).
  rewrite S5, (st_rr _ _ _ _ _ _ Hst). exists w'. split.
  - f_equal. unfold propagate, suppresses. destruct rb as [u|e]; [destruct u; reflexivity|].
    destruct rr as [[|]|]; reflexivity.
  - rewrite Hact, S2, S6, (st_log _ _ _ _ _ _ Hst), Hpar. reflexivity.
Qed.

Lemma never_enters_withs x s : never_enters x s -> withs (fun y => y <> x) s.
Proof. induction s; simpl; intuition. Qed.

Definition Pbody (r : nat) (lb : lbl) : Prop := lb <> LFlag r /\ lb <> LConf.

Lemma body_chain cur x l rr body w w1 a1 : winv w -> started x l rr w w1 a1 -> never_enters x body ->
  chain (Pbody (length (w_acts w))) w1 (fst (eval cfg cur body w1)).
Proof.
  intros HW Hst Hne. assert (HW1 : winv w1) by (eapply st_winv; eauto).
  apply (eval_good cfg (Pbody (length (w_acts w))) (fun y => y <> x)); try (split; discriminate).
  - apply never_enters_withs; auto.
  - apply (wi_b _ _ HW1).
  - apply (wi_env _ _ HW1).
  - split.
    + intros y r' Hy Hr'. rewrite (st_other _ _ _ _ _ _ Hst) in Hr' by auto. apply (wi_env _ _ HW) in Hr'.
      split; [|discriminate]. intros Hc. inversion Hc. lia.
    + intros r' Hr'. rewrite (st_len _ _ _ _ _ _ Hst) in Hr'. split; [|discriminate]. intros Hc. inversion Hc. lia.
Qed.

Lemma end_calls_app r t1 t2 : end_calls r (t1 ++ t2) = end_calls r t1 ++ end_calls r t2.
Proof. apply flat_map_app. Qed.
Lemma end_calls_none r t : (forall l s e, In (ODeliver l KEnd s e) t -> e_act e <> r) -> end_calls r t = [].
Proof.
  induction t as [|o t IH]; intros H; auto. simpl. rewrite IH by (intros; eapply H; right; eauto).
  destruct o; auto. destruct k; auto. destruct (Nat.eqb_spec (e_act e) r); auto.
  exfalso. eapply H; [left; reflexivity | auto].
Qed.
Lemma end_calls_deliveries r l e hs : e_act e = r ->
  end_calls r (deliveries l KEnd e hs) = map (fun s => (l, s, e)) hs.
Proof.
  intros He. induction hs as [|s hs IH]; auto. simpl. rewrite He, Nat.eqb_refl.
  simpl. f_equal. exact IH.
Qed.
Lemma end_waiting_app r q1 q2 : end_waiting r (q1 ++ q2) = end_waiting r q1 ++ end_waiting r q2.
Proof. apply flat_map_app. Qed.
Lemma end_waiting_none r q : (forall e, In (KEnd, e) q -> e_act e <> r) -> end_waiting r q = [].
Proof.
  induction q as [|[k e] q IH]; intros H; auto. simpl. rewrite IH by (intros; eapply H; right; eauto).
  destruct k; auto. destruct (Nat.eqb_spec (e_act e) r); auto.
  exfalso. eapply H; [left; reflexivity | auto].
Qed.

(** C01 and the raw form of C03. *)
Lemma block_one_end cur x l lvl nm kw rr px body w :
  calm cfg -> exc_quiet cfg -> winv w -> parent_bound w px -> never_enters x body ->
  let r := length (w_acts w) in
  let w1 := block_start cfg x l lvl nm kw rr px w in
  let rb := snd (eval cfg cur body w1) in
  let w2 := fst (eval cfg cur body w1) in
  let w' := fst (eval cfg cur (SWithNew x l lvl nm kw rr px body) w) in
  exists a2 e, nth_error (w_acts w2) r = Some a2 /\
    e_act e = r /\ e_kind e = KEnd /\
    one_end (lg_async (w_logs w l)) l r (listeners cfg w l KEnd) e w' /\
    e_status e = match rb with
                 | Raise _ => Some Exception_
                 | Ok _ => match a_end a2 with Some e' => e_status e' | None => Some Success end
                 end.
Proof.
  intros HC HQ HW Hpb Hne. destruct (block_calm cur x l lvl nm kw rr px body w HC HW Hpb) as (a1 & Hst & Hpar & Heq).
  cbv zeta. set (w1 := block_start cfg x l lvl nm kw rr px w) in *.
  assert (HW1 : winv w1) by (eapply st_winv; eauto).
  pose proof (body_chain cur x l rr body w w1 a1 HW Hst Hne) as Hch.
  destruct (eval cfg cur body w1) as [w2 rb] eqn:Hb. cbn [fst snd] in *.
  rewrite (Heq w2 rb eq_refl). set (r := length (w_acts w)) in *.
  assert (HP : forall lb, Pbody r lb -> lb <> LFlag r) by (intros lb [? _]; auto).
  destruct (chain_frame cfg r _ _ _ HP Hch _ (st_act _ _ _ _ _ _ Hst)) as (a2 & Ha2 & HS & Ht2 & Hd2).
  assert (HW2 : winv w2) by (eapply chain_winv; eauto).
  assert (Hn2 : no_end r w2).
  { eapply chain_no_end; eauto.
    - apply (wi_att _ _ HW1).
    - apply (st_act _ _ _ _ _ _ Hst).
    - apply (st_defer _ _ _ _ _ _ Hst).
    - apply (st_noend _ _ _ _ _ _ Hst). }
  rewrite (st_trans _ _ _ _ _ _ Hst) in Ht2.
  destruct (exit_calm cfg r (match rb with Ok _ => None | Raise e => Some e end) w2 a2 HW2 Ha2 Ht2 HC)
    as (w' & He & Hact & Hq).
  destruct Hq as (e & xs & wm & Hw' & Hen & Hxs & Hst'); auto.
  rewrite He. cbn [fst]. exists a2, e.
  destruct Hen as [N1 N2 N3 N4 N5 N6 N7].
  destruct HS as (_ & S2 & _ & _ & S5 & S6). rewrite (st_log _ _ _ _ _ _ Hst) in S2.
  destruct (chain_logs cfg (Pbody r) w1 w2 (fun lb H => proj2 H) Hch l) as (L1 & L2 & L3 & L4).
  destruct (chain_logs cfg (fun lb => lb <> LConf) w w1 (fun lb H => H) (proj1 (st_chain _ _ _ _ _ _ Hst)) l) as (M1 & M2 & M3 & M4).
  split; auto. split; auto. split; auto. split.
  - (* one_end *)
    assert (Hx : end_calls r xs = []).
    { apply end_calls_none. intros l0 s0 e0 Hin. destruct (N4 _ Hin) as (? & ? & Hc). discriminate. }
    assert (Hw2 : end_calls r (w_trace w2) = []).
    { apply end_calls_none. intros l0 s0 e0 Hin. eapply (Hn2 l0). right; eauto. }
    assert (Hq2 : forall l0, end_waiting r (lg_queue (w_logs w2 l0)) = []).
    { intros l0. apply end_waiting_none. intros e0 Hin. eapply (Hn2 l0). left; eauto. }
    assert (Hasync : lg_async (w_logs wm (a_log a2)) = lg_async (w_logs w l)) by (rewrite N5, S2; congruence).
    assert (Hlis : lg_hooks (w_logs wm (a_log a2)) KEnd = listeners cfg w l KEnd).
    { rewrite N5, S2, L4, M4. apply (wi_hooks _ _ HW). }
    subst w'. unfold one_end, pubw. rewrite Hasync, Hlis.
    destruct (lg_async (w_logs w l)); cbn [w_trace w_logs set_active].
    + split.
      * change (w_trace (fst (enqueue (a_log a2) KEnd e wm))) with (w_trace wm).
        rewrite N3, end_calls_app, Hx, Hw2. reflexivity.
      * intros l'. rewrite enqueue_queue, S2, N5. simpl.
        destruct (Nat.eqb_spec l' l) as [->|Hn]; [|apply Hq2].
        unfold bounded_append. destruct (_ <? _)%N; cbn [fst]; rewrite end_waiting_app.
        -- rewrite Hq2. simpl. rewrite N1, Nat.eqb_refl. reflexivity.
        -- replace (end_waiting r (tl (lg_queue (w_logs w2 l)))) with (@nil event).
           ++ simpl. rewrite N1, Nat.eqb_refl. reflexivity.
           ++ symmetry. apply end_waiting_none. intros e0 Hin. eapply (Hn2 l). left.
              destruct (lg_queue (w_logs w2 l)); [contradiction | right; auto].
    + split.
      * cbn [add_trace set_trace w_trace]. rewrite N3, !end_calls_app, Hx, Hw2, end_calls_deliveries by auto.
        rewrite S2. reflexivity.
      * intros l'. cbn [add_trace set_trace w_logs]. rewrite N5. apply Hq2.
  - destruct rb as [u|ex]; auto.
Qed.
End Block2.
