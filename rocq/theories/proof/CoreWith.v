(** With-blocks: properties C01, C03, C04, C05, C18, C19. *)
From Verif Require Import model.PyBase model.Core spec.CoreSpec
  proof.CoreLib proof.CoreTrans proof.CoreEval proof.CoreInv.

Section Frame.
Variable cfg : config.
Notation chain := (chain cfg).
Notation T := (T cfg).

(** ** Hook lists *)
Definition hooks_inv (w : world) : Prop :=
  forall l, NoDup (lg_sinks (w_logs w l)) /\ forall k, lg_hooks (w_logs w l) k = listeners cfg w l k.

Definition lg_ok (g : logger) : Prop :=
  NoDup (lg_sinks g) /\ forall k, lg_hooks g k = filter (fun s => cf_has cfg s k) (lg_sinks g).

Lemma existsb_eqb_In s l : existsb (Nat.eqb s) l = true <-> In s l.
Proof.
  rewrite existsb_exists. split.
  - intros (x & Hx & He). apply Nat.eqb_eq in He. subst; auto.
  - intros H. exists s. split; auto. apply Nat.eqb_refl.
Qed.

Lemma NoDup_snoc {A} (l : list A) x : NoDup l -> ~ In x l -> NoDup (l ++ [x]).
Proof.
  induction 1 as [|y l Hy Hl IH]; simpl; intros Hx.
  - constructor; auto. constructor.
  - constructor.
    + rewrite in_app_iff. simpl. intuition.
    + apply IH. intuition.
Qed.

Lemma lg_add_sink_ok s g : lg_ok g -> lg_ok (lg_add_sink cfg s g).
Proof.
  intros [H1 H2]. unfold lg_add_sink. destruct (existsb (Nat.eqb s) (lg_sinks g)) eqn:Hs; [split; auto|].
  assert (Hn : ~ In s (lg_sinks g)).
  { intros Hin. apply existsb_eqb_In in Hin. congruence. }
  split; simpl.
  - apply NoDup_snoc; auto.
  - intros k. rewrite filter_app. simpl. specialize (H2 k).
    destruct k; simpl in *; rewrite H2; destruct (cf_has cfg s _); rewrite ?app_nil_r; reflexivity.
Qed.

Lemma lg_set_sinks_ok ss g : lg_ok (lg_set_sinks cfg ss g).
Proof.
  unfold lg_set_sinks.
  assert (H : forall ss g, lg_ok g -> lg_ok (fold_left (fun g s => lg_add_sink cfg s g) ss g)).
  { clear. intros ss; induction ss; simpl; auto. intros; apply IHss, lg_add_sink_ok; auto. }
  apply H. split; simpl; [constructor | intros []; reflexivity].
Qed.

Lemma Pub_logs l k e w w' : Pub l k e w w' -> forall l',
  lg_async (w_logs w' l') = lg_async (w_logs w l') /\
  lg_sinks (w_logs w' l') = lg_sinks (w_logs w l') /\
  lg_pre (w_logs w' l') = lg_pre (w_logs w l') /\
  forall k', lg_hooks (w_logs w' l') k' = lg_hooks (w_logs w l') k'.
Proof.
  destruct 1; intros l'; [|repeat split; reflexivity].
  unfold enqueue, mod_log. simpl. unfold upd. destruct (Nat.eqb_spec l' l) as [->|]; [|repeat split; reflexivity].
  destruct (bounded_append _ _ _). repeat split; try reflexivity; intros []; reflexivity.
Qed.

(** Only configuration calls change modes, sinks and preflush hooks. *)
Lemma T_logs lb w w' : T lb w w' -> lb <> LConf -> forall l,
  lg_async (w_logs w' l) = lg_async (w_logs w l) /\
  lg_sinks (w_logs w' l) = lg_sinks (w_logs w l) /\
  lg_pre (w_logs w' l) = lg_pre (w_logs w l) /\
  forall k, lg_hooks (w_logs w' l) k = lg_hooks (w_logs w l) k.
Proof.
  intros HT Hlb l0. destruct HT; try congruence;
    try (repeat split; reflexivity);
    try (match goal with H : Pub _ _ _ _ _ |- _ => exact (Pub_logs _ _ _ _ _ H l0) end).
  - simpl. unfold upd. destruct (Nat.eqb_spec l0 l) as [->|]; [|repeat split; reflexivity].
    repeat split; try reflexivity; intros []; reflexivity.
  - simpl. unfold upd. destruct (Nat.eqb_spec l0 l) as [->|]; [|repeat split; reflexivity].
    repeat split; try reflexivity; intros []; reflexivity.
Qed.

Lemma chain_logs (P : lbl -> Prop) w w' : (forall lb, P lb -> lb <> LConf) -> chain P w w' -> forall l,
  lg_async (w_logs w' l) = lg_async (w_logs w l) /\
  lg_sinks (w_logs w' l) = lg_sinks (w_logs w l) /\
  lg_pre (w_logs w' l) = lg_pre (w_logs w l) /\
  forall k, lg_hooks (w_logs w' l) k = lg_hooks (w_logs w l) k.
Proof.
  intros HP. induction 1 as [w|lb w w1 w2 Hlb HT Hc IH]; intros l; [repeat split; reflexivity|].
  destruct (T_logs _ _ _ HT (HP _ Hlb) l) as (A1 & A2 & A3 & A4).
  destruct (IH l) as (B1 & B2 & B3 & B4).
  repeat split; try congruence; intros k; rewrite B4; auto.
Qed.

Lemma T_hooks lb w w' : T lb w w' -> hooks_inv w -> hooks_inv w'.
Proof.
  intros HT H.
  assert (Hd : lb = LConf \/ lb <> LConf) by (destruct lb; auto; right; discriminate).
  destruct Hd as [->|Hn].
  - unfold hooks_inv, listeners in *. intros l0. inversion HT; subst; simpl; unfold upd;
      destruct (Nat.eqb_spec l0 l) as [->|]; auto; try apply (lg_add_sink_ok s _ (H l));
      try apply lg_set_sinks_ok;
      (destruct (H l) as [H1 H2]; split; [exact H1 | intros k; specialize (H2 k); destruct k; exact H2]).
  - intros l. destruct (T_logs _ _ _ HT Hn l) as (_ & A2 & _ & A4). destruct (H l) as [H1 H2].
    unfold listeners in *. rewrite A2. split; auto. intros k. rewrite A4. auto.
Qed.

(** ** Everything that holds in every reachable world *)
Record winv (w : world) : Prop := {
  wi_b : binv cfg w;
  wi_env : env_ok w;
  wi_att : att_inv w;
  wi_occ : occ_inv w;
  wi_act : act_inv w;
  wi_id : id_inv w;
  wi_hooks : hooks_inv w }.

Lemma T_env_ok lb w w' : T lb w w' -> env_ok w -> env_ok w'.
Proof.
  intros HT H. eapply (chain_env_ok cfg (fun _ => True)); eauto. eapply chain_one; eauto.
Qed.

Lemma T_winv lb w w' : T lb w w' -> winv w -> winv w'.
Proof.
  intros HT [H1 H2 H3 H4 H5 H6 H7]. constructor.
  - eapply T_binv; eauto.
  - eapply T_env_ok; eauto.
  - eapply T_att; eauto.
  - eapply T_occ_inv; eauto.
  - eapply T_act; eauto.
  - eapply T_id; eauto.
  - eapply T_hooks; eauto.
Qed.
Lemma chain_winv P w w' : chain P w w' -> winv w -> winv w'.
Proof. apply chain_inv. intros lb w1 w2 _. apply T_winv. Qed.

Lemma init_winv async : winv (init async).
Proof.
  constructor.
  - apply init_binv.
  - intros x r H; discriminate.
  - intros r a H. destruct r; discriminate.
  - intros l k e [H|[s H]]; contradiction.
  - split; [intros r a p H; destruct r; discriminate | intros l p H; discriminate].
  - split; [constructor; auto|]. split; [intros r a H; destruct r; discriminate|].
    split; intros; contradiction.
  - intros l. split; [constructor | intros []; reflexivity].
Qed.

Lemma withs_any s : withs (fun _ => True) s.
Proof. induction s; simpl; auto. Qed.

Lemma eval_chain cur s w : winv w -> chain Pany w (fst (eval cfg cur s w)).
Proof.
  intros [H1 H2 _ _ _ _ _].
  apply (eval_good cfg Pany (fun _ => True)); unfold Pany; auto using withs_any.
  split; auto.
Qed.

Lemma reach_winv w : reach cfg w -> winv w.
Proof.
  induction 1.
  - apply init_winv.
  - eapply chain_winv; [apply step_chain, IHreach | auto].
  - eapply chain_winv; [apply eval_chain, IHreach | auto].
  - eapply T_winv; [|exact IHreach]. apply T_env; auto.
Qed.

(** ** What other code can do to an entered action *)
Definition frame (r : nat) (w w' : world) : Prop :=
  forall a, nth_error (w_acts w) r = Some a ->
    exists a', nth_error (w_acts w') r = Some a' /\ same_static a a' /\
      a_trans a' = a_trans a /\ a_defer a' = a_defer a.

Lemma T_frame r lb w w' : T lb w w' -> lb <> LFlag r -> frame r w w'.
Proof.
  intros HT Hlb a Ha.
  assert (Hsame : w_acts w' = w_acts w -> exists a', nth_error (w_acts w') r = Some a' /\ same_static a a' /\
      a_trans a' = a_trans a /\ a_defer a' = a_defer a).
  { intros He. exists a. rewrite He. repeat split; auto. }
  assert (Hupd : forall r0 a0 a1, w_acts w' = list_set (w_acts w) r0 a1 -> nth_error (w_acts w) r0 = Some a0 ->
     (r0 = r -> same_static a0 a1 /\ a_trans a1 = a_trans a0 /\ a_defer a1 = a_defer a0) ->
     exists a', nth_error (w_acts w') r = Some a' /\ same_static a a' /\
      a_trans a' = a_trans a /\ a_defer a' = a_defer a).
  { intros r0 a0 a1 He H0 Hs. rewrite He, nth_error_list_set.
    destruct (Nat.eqb_spec r0 r) as [->|Hn].
    - rewrite Ha. rewrite Ha in H0. inversion H0; subst a0. exists a1. destruct (Hs eq_refl) as (? & ? & ?). auto.
    - exists a. repeat split; auto. }
  assert (Hsn : forall a1, w_acts w' = w_acts w ++ [a1] -> exists a', nth_error (w_acts w') r = Some a' /\ same_static a a' /\
      a_trans a' = a_trans a /\ a_defer a' = a_defer a).
  { intros a1 He. exists a. rewrite He, nth_error_app1; [repeat split; auto|]. eapply nth_error_lt; eauto. }
  destruct HT;
    try (apply Hsame; pubrw; reflexivity);
    try (eapply Hsn; pubrw; reflexivity);
    try (eapply Hupd; [pubrw; reflexivity | eassumption | intros ->; repeat split]; fail);
    try (eapply Hupd; [pubrw; reflexivity | eassumption | intros ->; congruence]; fail).
  eapply Hupd with (r0 := r0) (a0 := a0); [pubrw | eassumption | intros ->; congruence].
  unfold with_event, act_upd, tick, flag_enter, act_upd; simpl. apply list_set_list_set.
Qed.

Lemma frame_refl r w : frame r w w.
Proof. intros a Ha. exists a. repeat split; auto. Qed.
Lemma frame_trans r w1 w2 w3 : frame r w1 w2 -> frame r w2 w3 -> frame r w1 w3.
Proof.
  intros H1 H2 a Ha. destruct (H1 a Ha) as (a' & Ha' & S1 & T1 & D1).
  destruct (H2 a' Ha') as (a'' & Ha'' & S2 & T2 & D2). exists a''.
  unfold same_static in *. intuition congruence.
Qed.
Lemma chain_frame r (P : lbl -> Prop) w w' :
  (forall lb, P lb -> lb <> LFlag r) -> chain P w w' -> frame r w w'.
Proof.
  intros HP. apply chain_rel; [apply frame_refl | apply frame_trans |].
  intros lb w1 w2 Hlb HT. eapply T_frame; eauto.
Qed.

(** ** No end event of [r] is published while it is deferred *)
Definition no_end (r : nat) (w : world) : Prop :=
  forall l e, occurs w l KEnd e -> e_act e <> r.

Lemma T_no_end r lb w w' a :
  T lb w w' -> lb <> LFlag r -> att_inv w -> nth_error (w_acts w) r = Some a -> a_defer a = true ->
  no_end r w -> no_end r w'.
Proof.
  intros HT Hlb HA Ha Hd H l0 e0 Ho.
  assert (Hpub : forall l k e w1 w2, Pub l k e w1 w2 -> occurs w2 l0 KEnd e0 ->
            occurs w1 l0 KEnd e0 \/ (k = KEnd /\ e0 = e)).
  { intros l k e w1 w2 HP Ho'. destruct (Pub_occ _ _ _ _ _ HP _ _ _ Ho') as [?|(_ & <- & ->)]; auto. }
  destruct HT;
    try (eapply H; exact Ho);
    try (match goal with HP : Pub _ _ _ _ _ |- _ =>
           destruct (Hpub _ _ _ _ _ HP Ho) as [Ho'|[Hk _]]; [eapply H; exact Ho' | discriminate] end);
    try (eapply (H l0); destruct Ho as [Hq|[sx Hs]]; [left; exact Hq|]; right; exists sx;
         simpl in Hs; apply in_app_or in Hs; destruct Hs as [Hs|[Hs|[]]]; [exact Hs | discriminate]; fail);
    try (eapply (H l0); destruct Ho as [Hq|Hs]; [|right; exact Hs]; left; simpl in Hq; unfold upd in Hq;
         destruct (Nat.eqb_spec l0 l) as [->|]; [|exact Hq];
         rewrite ?lg_add_sink_queue, ?lg_set_sinks_queue in Hq; exact Hq).
  - eapply (H l0). destruct Ho as [Hq|[sx Hs]]; [left; exact Hq|]; right; exists sx.
    simpl in Hs. apply in_app_or in Hs. destruct Hs as [Hs|Hs]; [exact Hs|].
    unfold deliveries in Hs. apply in_map_iff in Hs. destruct Hs as (? & Hs & _). discriminate.
  - match goal with HP : Pub _ _ _ _ _ |- _ =>
      destruct (Hpub _ _ _ _ _ HP Ho) as [Ho'|[_ ->]]; [eapply H; exact Ho'|] end.
    destruct (HA _ _ H0) as (I1 & _). destruct (I1 e (or_intror (or_introl H1))) as [Hact _].
    rewrite Hact. intros ->. congruence.
  - destruct Ho as [Hq|[sx Hs]].
    + eapply (H l0). left. simpl in Hq. unfold upd in Hq.
      destruct (Nat.eqb_spec l0 l) as [->|]; [|exact Hq]. rewrite H0. right. exact Hq.
    + simpl in Hs. apply in_app_or in Hs. destruct Hs as [Hs|Hs]; [eapply (H l0); right; eauto|].
      unfold deliveries in Hs. apply in_map_iff in Hs. destruct Hs as (? & Hs & _). inversion Hs; subst.
      eapply (H l0). left. rewrite H0. left; reflexivity.
Qed.

Lemma chain_no_end r (P : lbl -> Prop) w w' a :
  (forall lb, P lb -> lb <> LFlag r) -> chain P w w' -> att_inv w ->
  nth_error (w_acts w) r = Some a -> a_defer a = true -> no_end r w -> no_end r w'.
Proof.
  intros HP Hc. revert a. induction Hc as [w|lb w w1 w2 Hlb HT Hc IH]; intros a HA Ha Hd Hn; auto.
  destruct (T_frame r _ _ _ HT (HP _ Hlb) _ Ha) as (a1 & Ha1 & _ & _ & Hd1).
  eapply IH; [eapply T_att; eauto | exact Ha1 | congruence |].
  eapply T_no_end; eauto.
Qed.

Lemma no_end_fresh w : occ_inv w -> forall r, length (w_acts w) <= r -> no_end r w.
Proof.
  intros HO r Hr l e Ho. destruct (HO _ _ _ Ho) as (_ & _ & a & Ha & _).
  apply nth_error_lt in Ha. lia.
Qed.

End Frame.
