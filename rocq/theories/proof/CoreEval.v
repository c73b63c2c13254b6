(** Programs: frame lemmas for [eval] derived from the transitions. *)
From Verif Require Import model.PyBase model.Core proof.CoreLib proof.CoreTrans.

Section Eval.
Variable cfg : config.
Notation chain := (chain cfg).
Notation binv := (binv cfg).

Definition Pprim (lb : lbl) : Prop := lb <> LEnv /\ lb <> LCall /\ lb <> LConf.

Lemma all_prim r w w' : chain (Pall r) w w' -> chain Pprim w w'.
Proof.
  apply chain_weaken. unfold Pall, Pprim.
  intros lb [-> |[-> | ->]]; repeat split; discriminate.
Qed.

Lemma T_env_same lb w w' : T cfg lb w w' -> lb <> LEnv -> w_env w' = w_env w.
Proof.
  destruct 1; intros Hlb;
    try match goal with H : Pub _ _ _ _ _ |- _ => rewrite (Pub_env _ _ _ _ _ H) end;
    try reflexivity. congruence.
Qed.

Lemma chain_env_same (P : lbl -> Prop) w w' :
  (forall lb, P lb -> lb <> LEnv) -> chain P w w' -> w_env w' = w_env w.
Proof.
  intros HP. induction 1; auto.
  rewrite IHchain. eapply T_env_same; eauto.
Qed.

Lemma env_rel_refl w : env_rel w w.
Proof. intros x r; auto. Qed.

Lemma env_rel_trans P w1 w2 w3 :
  chain P w1 w2 -> env_rel w1 w2 -> env_rel w2 w3 -> env_rel w1 w3.
Proof.
  intros Hc H1 H2 x r Hx. apply chain_len in Hc.
  destruct (H2 x r Hx) as [H|H]; [|right; lia].
  destruct (H1 x r H); auto.
Qed.

Lemma env_rel_same w w' : w_env w' = w_env w -> env_rel w w'.
Proof. intros H x r Hx. left. congruence. Qed.

(** The conclusion carried through the evaluation of a program. *)
Definition good (P : lbl -> Prop) (w w' : world) : Prop := chain P w w' /\ env_rel w w'.

Lemma good_refl P w : good P w w.
Proof. split; [constructor | apply env_rel_refl]. Qed.

Lemma good_trans P w1 w2 w3 : good P w1 w2 -> good P w2 w3 -> good P w1 w3.
Proof.
  intros [H1 H2] [H3 H4]. split; [eapply chain_trans; eauto | eapply env_rel_trans; eauto].
Qed.

Lemma good_other (P : lbl -> Prop) w w' : P LOther -> chain Pother w w' -> good P w w'.
Proof.
  intros HP H. split.
  - eapply chain_weaken; [|exact H]. intros lb ->; auto.
  - apply env_rel_same. eapply chain_env_same; [|exact H]. intros lb ->; discriminate.
Qed.

Lemma good_end (P : lbl -> Prop) r w w' :
  P LOther -> P (LEnd r) -> chain (Pend r) w w' -> good P w w'.
Proof.
  intros HP HE H. split.
  - eapply chain_weaken; [|exact H]. intros lb [-> | ->]; auto.
  - apply env_rel_same. eapply chain_env_same; [|exact H]. intros lb [-> | ->]; discriminate.
Qed.

Lemma good_all (P : lbl -> Prop) r w w' :
  P LOther -> P (LEnd r) -> P (LFlag r) -> chain (Pall r) w w' -> good P w w'.
Proof.
  intros HP HE HF H. split.
  - eapply chain_weaken; [|exact H]. intros lb [-> |[-> | ->]]; auto.
  - apply env_rel_same. eapply chain_env_same; [|exact H]. intros lb [-> |[-> | ->]]; discriminate.
Qed.

Lemma good_len P w w' : good P w w' -> length (w_acts w) <= length (w_acts w').
Proof. intros [H _]. eapply chain_len; eauto. Qed.

Lemma good_binv P w w' : good P w w' -> binv w -> binv w'.
Proof. intros [H _]. eapply chain_binv; eauto. Qed.
Lemma good_env_ok P w w' : good P w w' -> env_ok w -> env_ok w'.
Proof. intros [H _]. eapply chain_env_ok; eauto. Qed.

Definition safe (P : lbl -> Prop) (V : nat -> Prop) (w : world) : Prop :=
  (forall y r, V y -> w_env w y = Some r -> P (LFlag r)) /\
  (forall r, length (w_acts w) <= r -> P (LFlag r)).

Lemma good_safe P V w w' : good P w w' -> safe P V w -> safe P V w'.
Proof.
  intros [Hc He] [H1 H2]. pose proof (chain_len _ _ _ _ Hc) as Hl. split.
  - intros y r Hy Hr. destruct (He y r Hr) as [H|H]; eauto.
  - intros r Hr. apply H2. lia.
Qed.

Lemma with_block_good (P : lbl -> Prop) r body w0 w :
  P LOther -> P (LEnd r) -> P (LFlag r) ->
  binv w0 -> good P w0 w ->
  (good P w0 (fst (enter cfg r w)) -> good P w0 (fst (body (fst (enter cfg r w))))) ->
  good P w0 (fst (with_block cfg r body w)).
Proof.
  intros HO HE HF HB H0 Hbody.
  assert (Hen : good P w0 (fst (enter cfg r w))).
  { eapply good_trans; [exact H0|]. eapply good_all; eauto. apply enter_chain. }
  specialize (Hbody Hen).
  unfold with_block.
  destruct (enter cfg r w) as [w1 [u|e]]; simpl in *; [|exact Hen].
  assert (HB2 : binv (fst (body w1))) by (eapply good_binv; eauto).
  destruct (body w1) as [w2 [v|e]]; simpl in *.
  - rewrite fst_discard. eapply good_trans; [exact Hbody|].
    eapply good_all; eauto. apply exit_chain; auto.
  - assert (Hx : good P w2 (fst (exit_ cfg r (Some e) w2))).
    { eapply good_all; eauto. apply exit_chain; auto. }
    destruct (exit_ cfg r (Some e) w2) as [w3 [[|]|e']]; simpl in *;
      (eapply good_trans; [exact Hbody | exact Hx]).
Qed.

Lemma lookup_eq x w : lookup x w =
  match w_env w x with Some r => (w, Ok r) | None => (w, Raise exn_name_error) end.
Proof. reflexivity. Qed.

Lemma lookup_opt_cases px w :
  (exists p, lookup_opt px w = (w, Ok p) /\
     match px with None => p = None | Some x => exists r, p = Some r /\ w_env w x = Some r end) \/
  (exists x, px = Some x /\ w_env w x = None /\ lookup_opt px w = (w, Raise exn_name_error)).
Proof.
  destruct px as [x|]; [|left; exists None; auto].
  unfold lookup_opt, bind, lookup. destruct (w_env w x) as [r|] eqn:Hx.
  - left. exists (Some r). split; auto. exists r; auto.
  - right. exists x. auto.
Qed.

Lemma new_action_good (P : lbl -> Prop) l lvl nm kw rr p w :
  P LOther -> match p with Some q => q < length (w_acts w) | None => True end ->
  good P w (fst (new_action l lvl nm kw rr p w)).
Proof. intros HO Hp. apply good_other; auto. apply new_action_chain; auto. Qed.

Lemma bind_var_good (P : lbl -> Prop) x r w w0 :
  P LEnv -> r < length (w_acts w) -> length (w_acts w0) <= r -> good P w0 w ->
  good P w0 (fst (bind_var x r w)).
Proof.
  intros HE Hr Hn [Hc He]. split.
  - eapply chain_trans; [exact Hc|]. eapply chain_one; [exact HE|]. apply T_env; auto.
  - intros y r' Hy. simpl in Hy. unfold upd in Hy. destruct (Nat.eqb y x).
    + inversion Hy; subst. right; auto.
    + apply He; auto.
Qed.

Theorem eval_good (P : lbl -> Prop) (V : nat -> Prop) :
  (forall r, P (LEnd r)) -> P LOther -> P LEnv -> P LCall ->
  forall s cur w, withs V s -> binv w -> env_ok w -> safe P V w ->
  good P w (fst (eval cfg cur s w)).
Proof.
  intros HE HO HV HC.
  assert (Hcall : forall r st w, good P w (fst (add_hist (HCall r st) w))).
  { intros r st w. split.
    - eapply chain_one; [exact HC | apply T_call].
    - apply env_rel_same; reflexivity. }
  assert (Hthen : forall (m : M unit) r st w, good P w (fst (m w)) ->
             good P w (fst ((m ;;; add_hist (HCall r st)) w))).
  { intros m r st w Hm. unfold bind. destruct (m w) as [w1 [u|e]]; simpl in *; auto.
    eapply good_trans; [exact Hm | apply Hcall]. }
  induction s; intros cur w Hw HB Hok Hs; cbn [eval].
  - apply good_refl.
  - destruct Hw as [Hw1 Hw2]. specialize (IHs1 cur w Hw1 HB Hok Hs).
    unfold bind. destruct (eval cfg cur s1 w) as [w1 [u|e]]; simpl in *; auto.
    eapply good_trans; [exact IHs1|].
    apply IHs2; auto; [eapply good_binv | eapply good_env_ok | eapply good_safe]; eauto.
  - unfold bind at 1. destruct (lookup_opt_cases px w) as [(p & -> & Hp)|(y & _ & _ & ->)];
      [|apply good_refl].
    assert (Hp' : match p with Some q => q < length (w_acts w) | None => True end).
    { destruct px as [y|]; [destruct Hp as (r & -> & Hr); eapply Hok; eauto | subst; auto]. }
    pose proof (new_action_good P l lvl name kw rr p w HO Hp') as Hnew.
    unfold bind. rewrite new_action_eq in *. simpl fst in Hnew.
    eapply bind_var_good; eauto.
    unfold new_act_world; simpl. rewrite app_length; simpl; lia.
  - destruct Hw as [Hv Hw]. unfold bind, lookup. destruct (w_env w x) as [r|] eqn:Hx; [|apply good_refl].
    assert (HF : P (LFlag r)) by (destruct Hs; eauto).
    assert (Hen : good P w (fst (enter cfg r w))).
    { eapply good_all; eauto. apply enter_chain. }
    apply with_block_good; auto; [apply good_refl|]. intros _.
    eapply good_trans; [exact Hen|].
    apply IHs; auto; [eapply good_binv | eapply good_env_ok | eapply good_safe]; eauto.
  - unfold bind at 1. destruct (lookup_opt_cases px w) as [(p & -> & Hp)|(y & _ & _ & ->)];
      [|apply good_refl].
    assert (Hp' : match p with Some q => q < length (w_acts w) | None => True end).
    { destruct px as [y|]; [destruct Hp as (r & -> & Hr); eapply Hok; eauto | subst; auto]. }
    pose proof (new_action_good P l lvl name kw rr p w HO Hp') as Hnew.
    unfold bind at 1. rewrite new_action_eq in *. simpl fst in Hnew.
    set (w1 := new_act_world _ _ _ _ _ _ _) in *. set (r := length (w_acts w)).
    assert (HF : P (LFlag r)) by (destruct Hs as [_ Hs]; apply Hs; auto).
    assert (Hr1 : r < length (w_acts w1)).
    { unfold w1, new_act_world; simpl. rewrite app_length; simpl. unfold r; lia. }
    apply with_block_good; auto.
    set (w2 := fst (enter cfg r w1)) in *. intros Hen.
    assert (Hr2 : r < length (w_acts w2)).
    { unfold w2. pose proof (chain_len _ _ _ _ (enter_chain cfg r w1)). lia. }
    unfold bind. cbn [bind_var].
    assert (Hbv : good P w (fst (bind_var x r w2))) by (eapply bind_var_good; eauto).
    eapply good_trans; [exact Hbv|]. cbn [bind_var fst] in *.
    apply IHs; auto; [eapply good_binv | eapply good_env_ok | eapply good_safe]; eauto.
  - unfold bind, lookup. destruct (w_env w x) as [r|]; [|apply good_refl].
    apply good_other; auto. apply begin_chain.
  - unfold bind, lookup. destruct (w_env w x) as [r|]; [|apply good_refl].
    apply good_other; auto. apply warn_chain.
  - unfold bind at 1, lookup. destruct (w_env w x) as [r|]; [|apply good_refl].
    apply Hthen. eapply good_end; auto. apply success_chain; auto.
  - unfold bind at 1, lookup. destruct (w_env w x) as [r|]; [|apply good_refl].
    apply Hthen. eapply good_end; auto. apply failure_chain; auto.
  - unfold bind at 1, lookup. destruct (w_env w x) as [r|]; [|apply good_refl].
    apply Hthen. eapply good_end; auto. apply exception_chain; auto.
  - unfold bind, lookup. destruct (w_env w x) as [r|]; [|apply good_refl].
    apply good_other; auto. apply setitem_chain.
  - unfold bind, lookup. destruct (w_env w x) as [r|]; [|apply good_refl].
    rewrite fst_discard. apply good_other; auto. apply elapsed_chain.
  - apply good_other; auto. apply comment_chain; auto.
  - apply good_other; auto. apply flush_chain.
  - apply good_refl.
  - destruct cur; apply good_refl.
  - destruct Hw as [Hw1 Hw2]. specialize (IHs1 cur w Hw1 HB Hok Hs).
    destruct (eval cfg cur s1 w) as [w1 [u|e]]; simpl in *; auto.
    destruct (all || exn_ord e); auto.
    eapply good_trans; [exact IHs1|].
    apply IHs2; auto; [eapply good_binv | eapply good_env_ok | eapply good_safe]; eauto.
Qed.
End Eval.
