From Verif Require Import model.PyBase model.Core model.Wrap spec.CoreSpec spec.WrapSpec
  proof.CoreLib proof.CoreTrans proof.CoreWith proof.CoreBlock proof.CoreBlock2 proof.CoreFinal.

Lemma with_return_block cfg r (m : M pyval) (b : M unit) w w1 : enter cfg r w = (w1, Ok tt) ->
  fst (m w1) = fst (b w1) ->
  match snd (m w1), snd (b w1) with Ok _, Ok _ => True | Raise e, Raise e' => e = e' | _, _ => False end ->
  fst (with_return cfg r m w) = fst (with_block cfg r b w) /\
  snd (with_return cfg r m w) =
  match snd (with_block cfg r b w) with
  | Raise e => Raise e
  | Ok _ => match snd (m w1) with Ok v => Ok v | Raise _ => Ok VNone end
  end.
Proof.
  intros E H1 H2. unfold with_return, with_block, discard, bind, ret. rewrite E.
  destruct (m w1) as [w2 [v|e]], (b w1) as [w2' [v'|e']]; cbn in H1, H2; try tauto; subst.
  - destruct (exit_ cfg r None w2') as [w3 [b0|e']]; auto.
  - destruct (exit_ cfg r (Some e') w2') as [w3 [[]|e'']]; auto.
Qed.
Lemma with_return_raise cfg r (m : M pyval) (b : M unit) w w1 e : enter cfg r w = (w1, Raise e) ->
  with_return cfg r m w = (w1, Raise e) /\ with_block cfg r b w = (w1, Raise e).
Proof. intros E. unfold with_return, with_block. rewrite E. auto. Qed.

Section W.
Variables (cfg : config) (c : wrapcfg) (x : nat) (f : fobj) (a : args) (k : kwargs) (s : stmt).
Hypothesis Hs : runs cfg (fo_call f a (inject c x k)) s.
Definition wrap_block : stmt := SWithNew x (wr_log c) (wr_level c) (wrap_name c f) (wr_data c) (wr_reraise c) (wr_parent c) s.

(** A wrapped call is an execution of the with-block. *)
Lemma wrap_runs : runs cfg (logged_func cfg c x f a k) wrap_block.
Proof.
  intros w. unfold logged_func, wrap_block. cbn [eval]. destruct (lookup_opt (wr_parent c) w) as [w0 [p|e]] eqn:E0.
  2:{ rewrite !(bind_raise _ _ _ _ _ E0). cbn. auto. }
  rewrite !(bind_ok _ _ _ _ _ E0). destruct (new_action (wr_log c) (wr_level c) (wrap_name c f) (wr_data c) (wr_reraise c) p w0) as [w1 [r|e]] eqn:E1.
  2:{ rewrite !(bind_raise _ _ _ _ _ E1). cbn. auto. }
  rewrite !(bind_ok _ _ _ _ _ E1). destruct (enter cfg r w1) as [w2 [[]|e]] eqn:E2.
  2:{ destruct (with_return_raise cfg r (bind_var x r ;;; fo_call f a (inject c x k)) (bind_var x r ;;; eval cfg None s) _ _ _ E2) as [-> ->]. cbn. auto. }
  destruct (Hs (fst (bind_var x r w2))) as [K1 K2].
  destruct (with_return_block cfg r (bind_var x r ;;; fo_call f a (inject c x k)) (bind_var x r ;;; eval cfg None s) _ _ E2 K1 K2) as [-> ->].
  split; [reflexivity|]. destruct (snd (with_block cfg r _ w1)) as [u|e]; [|reflexivity].
  destruct (snd _) as [v|e]; exact I.
Qed.
Lemma logged_snd w : calm cfg -> winv cfg w -> parent_bound w (wr_parent c) ->
  snd (logged_func cfg c x f a k w) =
  passes_on (wr_reraise c) (snd (fo_call f a (inject c x k) (wrap_start cfg c x f w))).
Proof.
  intros HC HW Hpb. unfold wrap_start. destruct (block_result cfg None x (wr_log c) (wr_level c) (wrap_name c f) (wr_data c) (wr_reraise c) (wr_parent c) s w HC HW Hpb) as (w' & E & _).
  set (p := match wr_parent c with None => None | Some y => w_env w y end).
  assert (Hlk : lookup_opt (wr_parent c) w = (w, Ok p)).
  { unfold p. destruct (wr_parent c) as [y|]; [|reflexivity]. unfold lookup_opt, bind, lookup, parent_bound in *.
    destruct (w_env w y); [reflexivity | congruence]. }
  unfold block_start in *. fold p in E. fold p.
  cbn [eval] in E. rewrite (bind_ok _ _ _ _ _ Hlk) in E.
  unfold logged_func. rewrite (bind_ok _ _ _ _ _ Hlk).
  rewrite new_action_eq in *. cbn [fst] in *. set (r := length (w_acts w)) in *.
  set (w0 := new_act_world _ _ _ _ _ _ w) in *.
  rewrite (bind_ok _ _ _ w0 r) in E by (rewrite new_action_eq; reflexivity).
  rewrite (bind_ok _ _ _ w0 r) by (rewrite new_action_eq; reflexivity).
  assert (exists w1, enter cfg r w0 = (w1, Ok tt)) as [w1 He].
  { assert (exists a0, nth_error (w_acts w0) r = Some a0) as [a0 Ha0].
    { unfold w0, new_act_world, r; simpl. rewrite nth_error_snoc, Nat.eqb_refl. eauto. }
    destruct (enter_calm cfg r w0 a0 (calm_begin _ HC) Ha0) as (w1 & a1 & He & _). eauto. }
  destruct (Hs (fst (bind_var x r w1))) as [K1 K2].
  destruct (with_return_block cfg r (bind_var x r ;;; fo_call f a (inject c x k)) (bind_var x r ;;; eval cfg None s) _ _ He K1 K2) as [_ ->].
  rewrite E. rewrite He. cbn [fst snd] in *. unfold bind. cbn [bind_var fst].
  rewrite He in *. cbn [fst snd bind_var] in K2 |- *.
  destruct (fo_call f a (inject c x k) _) as [w2 [v|e]], (eval cfg None s _) as [w2' [u|e']]; cbn [snd propagate passes_on] in *; try tauto.
  subst. destruct (wr_reraise c) as [[]|]; reflexivity.
Qed.
End W.

(** *** The trace only grows *)
Definition grows (w w' : world) : Prop := exists n, w_trace w' = w_trace w ++ n.
Lemma grows_refl w : grows w w. Proof. exists []. rewrite app_nil_r. reflexivity. Qed.
Lemma grows_trans a b c : grows a b -> grows b c -> grows a c.
Proof. intros [n1 E1] [n2 E2]. exists (n1 ++ n2). rewrite E2, E1, app_assoc. reflexivity. Qed.
Lemma grows_in w w' o : grows w w' -> In o (w_trace w) -> In o (w_trace w').
Proof. intros [n E] H. rewrite E. apply in_app_iff. auto. Qed.
Section G.
Variable cfg : config.
Lemma Pub_grows l k e w w' : Pub l k e w w' -> grows w w'.
Proof. destruct 1; [exists []; rewrite app_nil_r; reflexivity|eexists; reflexivity]. Qed.
Lemma T_grows lb w w' : T cfg lb w w' -> grows w w'.
Proof.
  destruct 1; try (apply Pub_grows in H2; exact H2); try (exists []; rewrite app_nil_r; reflexivity); try (eexists; reflexivity).
  all: match goal with H : Pub _ _ _ _ _ |- _ => apply Pub_grows in H; exact H end.
Qed.
Lemma chain_grows P w w' : chain cfg P w w' -> grows w w'.
Proof. apply chain_rel; [exact grows_refl|exact grows_trans|]. intros lb w1 w2 _. apply T_grows. Qed.

Lemma begin_calls_app r s a b : begin_calls r s (a ++ b) = begin_calls r s a ++ begin_calls r s b.
Proof. apply flat_map_app. Qed.
Lemma begin_calls_in r s l e tr : In (ODeliver l KBegin s e) tr -> e_act e = r -> In (l, e) (begin_calls r s tr).
Proof.
  intros H E. unfold begin_calls. apply in_flat_map. eexists. split; [exact H|]. cbn. rewrite Nat.eqb_refl, E, Nat.eqb_refl. left. reflexivity.
Qed.
Lemma single {A} (l : list A) x : length l <= 1 -> In x l -> l = [x].
Proof. destruct l as [|y [|z l]]; cbn; [tauto| |lia]. intros _ [->|[]]. reflexivity. Qed.

(** Entering a new block publishes a begin event of the new action. *)
Lemma enter_publishes r w a : hook_quiet cfg KBegin -> nth_error (w_acts w) r = Some a -> a_begin a = None ->
  exists e w1, e_act e = r /\ e_kind e = KBegin /\ fst (enter cfg r w) = pubw (a_log a) KBegin e w1 /\ w_logs w1 = w_logs w /\ w_trace w1 = w_trace w.
Proof.
  intros Hq Ha Hb. pose proof (nth_error_lt _ _ _ Ha) as Hlt.
  rewrite enter_eq, Ha, begin_eq, flag_enter_nth by auto. cbv zeta. cbn [a_begin a_set_defer a_set_trans]. rewrite Hb.
  rewrite publish_quiet by auto. do 2 eexists. split; [|split; [|split; [reflexivity|]]]; split + idtac; reflexivity.
Qed.

Lemma block_begin cur x l lvl nm kw rr px body w :
  reach cfg w -> calm cfg -> parent_bound w px ->
  let r := length (w_acts w) in
  let w1 := block_start cfg x l lvl nm kw rr px w in
  let w' := fst (eval cfg cur (SWithNew x l lvl nm kw rr px body) w) in
  exists e, e_act e = r /\ e_kind e = KBegin /\
    (lg_async (w_logs w l) = false -> forall s, In s (listeners cfg w l KBegin) -> begin_calls r s (w_trace w') = [(l, e)]) /\
    (lg_async (w_logs w l) = true -> exists q, lg_queue (w_logs w1 l) = q ++ [(KBegin, e)]).
Proof.
  intros HR HC Hpb. cbv zeta. pose proof (reach_winv cfg w HR) as HW.
  destruct (block_calm cfg cur x l lvl nm kw rr px body w HC HW Hpb) as (a1 & Hst & _ & Heq). cbv zeta in Hst, Heq.
  set (w1 := block_start cfg x l lvl nm kw rr px w) in *. set (r := length (w_acts w)) in *.
  assert (HW1 : winv cfg w1) by (eapply st_winv; eauto).
  assert (HB : exists e w0, e_act e = r /\ e_kind e = KBegin /\ w_trace w1 = w_trace (pubw l KBegin e w0) /\ w_logs w1 = w_logs (pubw l KBegin e w0) /\ w_logs w0 = w_logs w).
  { unfold w1, block_start. rewrite new_action_eq. cbn [fst].
    set (p2 := match _ with Some q => Some q | None => w_active w l end). set (w0 := new_act_world l lvl nm kw rr p2 w).
    assert (Ha0 : nth_error (w_acts w0) r = Some (mkAction (w_ctr w) l lvl nm kw rr p2 None None [] [] false false)).
    { unfold w0, new_act_world, r; simpl. rewrite nth_error_snoc, Nat.eqb_refl. reflexivity. }
    destruct (enter_publishes r w0 _ (calm_begin _ HC) Ha0 eq_refl) as (e & w2 & E1 & E2 & E3 & E4 & E5).
    exists e, w2. fold r. unfold bind_var. cbn [fst w_trace w_logs set_env]. cbn [a_log] in E3. rewrite E3. repeat split; auto. }
  destruct HB as (e & w0 & E1 & E2 & E3 & E4 & E5). exists e. split; [exact E1|]. split; [exact E2|]. split.
  - intros HA s Hs. apply single; [apply begin_once with (cfg := cfg); apply reach_run; exact HR|].
    apply begin_calls_in; [|exact E1].
    assert (Hin : In (ODeliver l KBegin s e) (w_trace w1)).
    { rewrite E3. unfold pubw. rewrite E5, HA. cbn [add_trace set_trace w_trace]. apply in_app_iff. right.
      unfold deliveries. apply in_map_iff. exists s. split; [reflexivity|].
      rewrite (proj2 (wi_hooks _ _ HW l) KBegin). exact Hs. }
    assert (G1 : grows w1 (fst (eval cfg cur body w1))) by (eapply chain_grows, eval_chain; exact HW1).
    destruct (eval cfg cur body w1) as [w2 rb] eqn:Eb. rewrite (Heq w2 rb eq_refl). cbn [fst] in G1.
    assert (HW2 : winv cfg w2). { pose proof (chain_winv cfg Pany w1 w2) as K. apply K; auto. pose proof (eval_chain cfg cur body w1 HW1) as Hch. rewrite Eb in Hch. exact Hch. }
    assert (G2 : grows w2 (fst (exit_ cfg r (match rb with Ok _ => None | Raise e => Some e end) w2))).
    { eapply chain_grows, exit_chain. apply (wi_b _ _ HW2). }
    destruct (exit_ cfg r _ w2) as [w3 [b|e']]; cbn [fst] in *; eapply grows_in; try exact G2; eapply grows_in; eauto.
  - intros HA. rewrite E4. unfold pubw. rewrite E5, HA. unfold enqueue, mod_log. cbn [fst]. unfold bounded_append. cbn. rewrite upd_eq.
    destruct (N.ltb _ _); cbn [lg_queue lg_set_queue lg_set_dropped]; eexists; reflexivity.
Qed.
End G.

(** *** The action of a block *)
From Verif Require Import proof.CoreInv proof.CoreEval proof.CoreData.
Section A.
Variable cfg : config.
Lemma block_action cur x l lvl nm kw rr px body w :
  reach cfg w -> calm cfg -> parent_bound w px ->
  let r := length (w_acts w) in
  let w1 := block_start cfg x l lvl nm kw rr px w in
  let w' := fst (eval cfg cur (SWithNew x l lvl nm kw rr px body) w) in
  (exists a1, nth_error (w_acts w1) r = Some a1 /\ w_env w1 x = Some r /\ a_data a1 = kw /\ a_end a1 = None) /\
  (exists a', nth_error (w_acts w') r = Some a' /\ a_log a' = l /\ a_level a' = lvl /\ a_name a' = nm /\ a_reraise a' = rr /\
     a_parent a' = match px with None => w_active w l | Some y => w_env w y end).
Proof.
  intros HR HC Hpb. cbv zeta. pose proof (reach_winv cfg w HR) as HW.
  destruct (block_calm cfg cur x l lvl nm kw rr px body w HC HW Hpb) as (a1 & Hst & Hpar & Heq). cbv zeta in Hst, Heq.
  set (w1 := block_start cfg x l lvl nm kw rr px w) in *. set (r := length (w_acts w)) in *.
  assert (HW1 : winv cfg w1) by (eapply st_winv; eauto).
  assert (HA : a_data a1 = kw /\ a_level a1 = lvl /\ a_name a1 = nm).
  { pose proof (st_act _ _ _ _ _ _ _ Hst) as Ha1. fold r in Ha1. unfold w1, block_start in Ha1. cbn [fst bind_var w_acts set_env] in Ha1.
    rewrite new_action_eq in Ha1. cbn [fst] in Ha1.
    set (p2 := match _ with Some q => Some q | None => w_active w l end) in Ha1. set (w0 := new_act_world l lvl nm kw rr p2 w) in Ha1.
    assert (Ha0 : nth_error (w_acts w0) r = Some (mkAction (w_ctr w) l lvl nm kw rr p2 None None [] [] false false)).
    { unfold w0, new_act_world, r; simpl. rewrite nth_error_snoc, Nat.eqb_refl. reflexivity. }
    destruct (dt_enter cfg r r w0 _ Ha0) as (a2 & E2 & D2).
    assert (a2 = a1) as -> by (unfold r in *; congruence).
    assert (HK : keep w0 (fst (enter cfg r w0))).
    { eapply chain_keep, enter_chain. }
    destruct (HK r _ Ha0) as (a3 & E3 & S3). assert (a3 = a1) as -> by (unfold r in *; congruence).
    unfold same_static in S3. cbn in S3, D2. intuition congruence. }
  destruct HA as (HA1 & HA2 & HA3). split.
  - exists a1. split; [apply (st_act _ _ _ _ _ _ _ Hst)|]. split; [apply (st_env _ _ _ _ _ _ _ Hst)|]. split; [exact HA1|apply (st_end _ _ _ _ _ _ _ Hst)].
  - assert (K1 : keep w1 (fst (eval cfg cur body w1))) by (eapply chain_keep, eval_chain; exact HW1).
    destruct (eval cfg cur body w1) as [w2 rb] eqn:Eb. rewrite (Heq w2 rb eq_refl). cbn [fst] in K1.
    assert (HW2 : winv cfg w2). { pose proof (chain_winv cfg Pany w1 w2) as K. apply K; auto. pose proof (eval_chain cfg cur body w1 HW1) as Hch. rewrite Eb in Hch. exact Hch. }
    assert (K2 : keep w2 (fst (exit_ cfg r (match rb with Ok _ => None | Raise e => Some e end) w2))).
    { eapply chain_keep, exit_chain. apply (wi_b _ _ HW2). }
    destruct (keep_trans _ _ _ K1 K2 r a1 (st_act _ _ _ _ _ _ _ Hst)) as (a' & E & S).
    exists a'. pose proof (st_log _ _ _ _ _ _ _ Hst). pose proof (st_rr _ _ _ _ _ _ _ Hst). unfold same_static in S.
    destruct (exit_ cfg r _ w2) as [w3 [b|e']]; cbn [fst] in *; (split; [exact E|]); intuition congruence.
Qed.
End A.
Lemma dget_put {V} k k' (v : V) d : dget String.eqb k (dset String.eqb k' v d) = if String.eqb k k' then Some v else dget String.eqb k d.
Proof.
  induction d as [|[k0 v0] d IH]; simpl; auto.
  destruct (String.eqb_spec k' k0) as [->|Hn]; simpl.
  - destruct (String.eqb k k0); auto.
  - rewrite IH. destruct (String.eqb_spec k k0) as [->|]; auto.
    destruct (String.eqb_spec k0 k'); congruence.
Qed.
