(** Invariants of all reachable worlds of the Core model. *)
From Verif Require Import model.PyBase model.Core proof.CoreLib proof.CoreTrans.

Ltac pubrw :=
  repeat match goal with
  | H : Pub _ _ _ _ ?w2 |- context [w_acts ?w2] => rewrite (Pub_acts _ _ _ _ _ H)
  | H : Pub _ _ _ _ ?w2 |- context [w_hist ?w2] => rewrite (Pub_hist _ _ _ _ _ H)
  | H : Pub _ _ _ _ ?w2 |- context [w_ctr ?w2] => rewrite (Pub_ctr _ _ _ _ _ H)
  | H : Pub _ _ _ _ ?w2 |- context [w_clk ?w2] => rewrite (Pub_clk _ _ _ _ _ H)
  | H : Pub _ _ _ _ ?w2 |- context [w_active ?w2] => rewrite (Pub_active _ _ _ _ _ H)
  end.

Section Inv.
Variable cfg : config.
Notation chain := (chain cfg).
Notation T := (T cfg).

(** ** How a transition changes the action table and the history *)
Definition same_static (a a' : action) : Prop :=
  a_id a' = a_id a /\ a_log a' = a_log a /\ a_level a' = a_level a /\ a_name a' = a_name a /\
  a_reraise a' = a_reraise a /\ a_parent a' = a_parent a.

Definition acts_step (w w' : world) : Prop :=
  w_acts w' = w_acts w \/
  (exists r a a', nth_error (w_acts w) r = Some a /\ w_acts w' = list_set (w_acts w) r a' /\ same_static a a') \/
  (exists a, w_acts w' = w_acts w ++ [a] /\ a_id a = w_ctr w /\ a_trans a = false /\ a_defer a = false).

Lemma same_static_refl a : same_static a a.
Proof. repeat split. Qed.

Lemma T_acts lb w w' : T lb w w' -> acts_step w w'.
Proof.
  destruct 1; unfold acts_step; pubrw;
    try (left; reflexivity);
    try (right; left; do 3 eexists; split; [eassumption|]; split; [reflexivity | repeat split]; fail);
    try (right; right; eexists; split; [reflexivity | repeat split]; fail).
  right; left. exists r, a, (a_set_begin (Some e) (a_set_defer true (a_set_trans true a))).
  split; [assumption|]. split; [|repeat split].
  unfold with_event, act_upd, tick, flag_enter, act_upd; simpl. apply list_set_list_set.
Qed.

Definition keep (w w' : world) : Prop :=
  forall r a, nth_error (w_acts w) r = Some a ->
    exists a', nth_error (w_acts w') r = Some a' /\ same_static a a'.

Lemma keep_refl w : keep w w.
Proof. intros r a Ha. exists a. split; auto. apply same_static_refl. Qed.
Lemma keep_trans w1 w2 w3 : keep w1 w2 -> keep w2 w3 -> keep w1 w3.
Proof.
  intros H1 H2 r a Ha. destruct (H1 r a Ha) as (a' & Ha' & S1).
  destruct (H2 r a' Ha') as (a'' & Ha'' & S2). exists a''. split; auto.
  unfold same_static in *. intuition congruence.
Qed.
Lemma T_keep lb w w' : T lb w w' -> keep w w'.
Proof.
  intros HT r a Ha. destruct (T_acts _ _ _ HT) as [H|[(r0 & a0 & a' & H0 & H1 & HS)|(x & H1 & _)]].
  - exists a. rewrite H. split; auto. apply same_static_refl.
  - rewrite H1, nth_error_list_set. destruct (Nat.eqb_spec r0 r) as [->|Hn].
    + rewrite Ha. exists a'. split; auto. congruence.
    + exists a. split; auto. apply same_static_refl.
  - exists a. split; [|apply same_static_refl]. rewrite H1, nth_error_app1; auto.
    eapply nth_error_lt; eauto.
Qed.
Lemma chain_keep P w w' : chain P w w' -> keep w w'.
Proof.
  apply chain_rel; [apply keep_refl | apply keep_trans | intros; eapply T_keep; eauto].
Qed.

Definition hist_ext (w w' : world) : Prop := exists h, w_hist w' = w_hist w ++ h.
Lemma T_hist lb w w' : T lb w w' -> hist_ext w w'.
Proof.
  destruct 1; unfold hist_ext; pubrw;
    try (exists []; rewrite app_nil_r; reflexivity);
    try (eexists; reflexivity).
Qed.
Lemma hist_ext_trans w1 w2 w3 : hist_ext w1 w2 -> hist_ext w2 w3 -> hist_ext w1 w3.
Proof. intros [h1 H1] [h2 H2]. exists (h1 ++ h2). rewrite H2, H1, app_assoc. auto. Qed.
Lemma chain_hist P w w' : chain P w w' -> hist_ext w w'.
Proof.
  apply chain_rel.
  - intros; exists []; rewrite app_nil_r; auto.
  - apply hist_ext_trans.
  - intros; eapply T_hist; eauto.
Qed.

Definition trace_ext (w w' : world) : Prop := exists t, w_trace w' = w_trace w ++ t.
Lemma Pub_trace l k e w w' : Pub l k e w w' -> trace_ext w w'.
Proof.
  destruct 1.
  - exists []. simpl. rewrite app_nil_r. reflexivity.
  - eexists. reflexivity.
Qed.
Lemma T_trace lb w w' : T lb w w' -> trace_ext w w'.
Proof.
  destruct 1;
    try match goal with H : Pub _ _ _ _ _ |- _ => exact (Pub_trace _ _ _ _ _ H) end;
    try (exists []; rewrite app_nil_r; reflexivity);
    try (eexists; reflexivity).
Qed.
Lemma chain_trace P w w' : chain P w w' -> trace_ext w w'.
Proof.
  apply chain_rel.
  - intros; exists []; rewrite app_nil_r; auto.
  - intros w1 w2 w3 [h1 H1] [h2 H2]. exists (h1 ++ h2). rewrite H2, H1, app_assoc. auto.
  - intros; eapply T_trace; eauto.
Qed.

(** ** Events attached to an action *)
Definition attached (a : action) (e : event) : Prop :=
  a_begin a = Some e \/ a_end a = Some e \/ In e (a_warns a) \/ In e (a_excs a).

Definition att_inv (w : world) : Prop :=
  forall r a, nth_error (w_acts w) r = Some a ->
    (forall e, attached a e -> e_act e = r /\ In (HEvent e) (w_hist w)) /\
    (forall e, a_begin a = Some e -> e_kind e = KBegin) /\
    (forall e, a_end a = Some e -> e_kind e = KEnd).

Lemma in_hist_ext e w w' : hist_ext w w' -> In (HEvent e) (w_hist w) -> In (HEvent e) (w_hist w').
Proof. intros [h Hh] H. rewrite Hh. apply in_or_app; auto. Qed.

Lemma att_upd w w' r a a' :
  nth_error (w_acts w) r = Some a -> w_acts w' = list_set (w_acts w) r a' -> hist_ext w w' ->
  (forall e, attached a' e -> attached a e \/ (e_act e = r /\ In (HEvent e) (w_hist w'))) ->
  (forall e, a_begin a' = Some e -> a_begin a = Some e \/ e_kind e = KBegin) ->
  (forall e, a_end a' = Some e -> a_end a = Some e \/ e_kind e = KEnd) ->
  att_inv w -> att_inv w'.
Proof.
  intros Hr Ha Hh H1 H2 H3 H r' x Hx. rewrite Ha, nth_error_list_set in Hx.
  destruct (Nat.eqb_spec r r') as [->|Hn].
  - rewrite Hr in Hx. inversion Hx; subst x. destruct (H _ _ Hr) as (I1 & I2 & I3).
    repeat split.
    + destruct (H1 _ H0) as [Hold|[Hn _]]; auto. apply (I1 _ Hold).
    + destruct (H1 _ H0) as [Hold|[_ Hn]]; auto. eapply in_hist_ext; eauto. apply (I1 _ Hold).
    + intros e He. destruct (H2 e He); auto.
    + intros e He. destruct (H3 e He); auto.
  - destruct (H _ _ Hx) as (I1 & I2 & I3). repeat split; auto.
    + apply (I1 _ H0).
    + eapply in_hist_ext; eauto. apply (I1 _ H0).
Qed.

Lemma att_same w w' : w_acts w' = w_acts w -> hist_ext w w' -> att_inv w -> att_inv w'.
Proof.
  intros Ha Hh H r a Hr. rewrite Ha in Hr. destruct (H r a Hr) as (I1 & I2 & I3).
  repeat split; auto; [apply (I1 _ H0)|]. eapply in_hist_ext; eauto. apply (I1 _ H0).
Qed.

Lemma att_snoc w w' a :
  w_acts w' = w_acts w ++ [a] -> hist_ext w w' ->
  (forall e, attached a e -> e_act e = length (w_acts w) /\ In (HEvent e) (w_hist w')) ->
  (forall e, a_begin a = Some e -> e_kind e = KBegin) ->
  (forall e, a_end a = Some e -> e_kind e = KEnd) ->
  att_inv w -> att_inv w'.
Proof.
  intros Ha Hh H1 H2 H3 H r x Hx. rewrite Ha, nth_error_snoc in Hx.
  destruct (Nat.eqb_spec r (length (w_acts w))) as [->|Hn].
  - inversion Hx; subst x. auto.
  - destruct (H _ _ Hx) as (I1 & I2 & I3). repeat split; auto; [apply (I1 _ H0)|].
    eapply in_hist_ext; eauto. apply (I1 _ H0).
Qed.

Lemma T_att lb w w' : T lb w w' -> att_inv w -> att_inv w'.
Proof.
  intros HT H. pose proof (T_hist _ _ _ HT) as Hh.
  assert (Hlast : forall e (h : list hist), In (HEvent e) (h ++ [HEvent e]))
    by (intros; apply in_or_app; right; left; reflexivity).
  destruct HT; try (eapply att_same; [| eassumption | eassumption]; pubrw; reflexivity);
    try (eapply att_upd; [eassumption | reflexivity | eassumption | | | | exact H]; simpl; auto; fail).
  - eapply att_upd; [exact H0 | pubrw; reflexivity | exact Hh | | | | exact H]; simpl; auto.
    + intros e' [He|[He|[He|He]]]; simpl in *; try (left; unfold attached; auto; fail).
      right. inversion He; subst e'. subst e; simpl; split; auto. pubrw. apply Hlast.
    + intros e' He. inversion He; subst; auto.
  - eapply att_upd; [exact H0 | | exact Hh | | | | exact H].
    + pubrw. unfold with_event, act_upd, tick, flag_enter, act_upd; simpl. apply list_set_list_set.
    + intros e' [He|[He|[He|He]]]; simpl in *; try (left; unfold attached; auto; fail).
      right. inversion He; subst e'. subst e; simpl; split; auto. pubrw. apply Hlast.
    + simpl. intros e' He. inversion He; subst; auto.
    + simpl; auto.
  - eapply att_upd; [exact H0 | pubrw; reflexivity | exact Hh | | | | exact H]; simpl; auto.
    intros e' [He|[He|[He|He]]]; simpl in *; try (left; unfold attached; auto; fail).
    apply in_app_or in He. destruct He as [He|[He|[]]]; [left; unfold attached; auto|].
    right. subst e'. subst e; simpl; split; auto. pubrw. apply Hlast.
  - eapply att_upd; [exact H0 | reflexivity | exact Hh | | | | exact H]; simpl; auto.
    intros e' [He|[He|[He|He]]]; simpl in *; try (left; unfold attached; auto; fail).
    apply in_app_or in He. destruct He as [He|[He|[]]]; [left; unfold attached; auto|].
    right. subst e'. subst e; simpl; split; auto.
  - eapply att_upd; [exact H0 | reflexivity | exact Hh | | | | exact H]; simpl; auto.
    + intros e' [He|[He|[He|He]]]; simpl in *; try (left; unfold attached; auto; fail).
      right. inversion He; subst e'. subst e; simpl; split; auto.
    + intros e' He. inversion He; subst; auto.
  - eapply att_snoc; [reflexivity | exact Hh | | | | exact H]; simpl; try discriminate.
    intros e [He|[He|[He|He]]]; simpl in *; try discriminate; contradiction.
  - eapply att_snoc; [pubrw; reflexivity | exact Hh | | | | exact H]; simpl.
    + intros e [He|[He|[He|He]]]; simpl in *; try contradiction; inversion He; subst; simpl;
        (split; [reflexivity|]); pubrw; simpl; apply in_or_app; right; simpl; auto.
    + intros e He; inversion He; reflexivity.
    + intros e He; inversion He; reflexivity.
Qed.

Lemma chain_att P w w' : chain P w w' -> att_inv w -> att_inv w'.
Proof. apply chain_inv. intros lb w1 w2 _. apply T_att. Qed.

(** ** Queued and delivered events *)
Definition okev (w : world) (l : nat) (k : kind) (e : event) : Prop :=
  e_kind e = k /\ In (HEvent e) (w_hist w) /\
  exists a, nth_error (w_acts w) (e_act e) = Some a /\ a_log a = l.

(** Event [e] waits in, or was delivered to, the [k] hooks of logger [l]. *)
Definition occurs (w : world) (l : nat) (k : kind) (e : event) : Prop :=
  In (k, e) (lg_queue (w_logs w l)) \/ exists s, In (ODeliver l k s e) (w_trace w).

Definition occ_inv (w : world) : Prop := forall l k e, occurs w l k e -> okev w l k e.

Lemma okev_T lb w w' l k e : T lb w w' -> okev w l k e -> okev w' l k e.
Proof.
  intros HT (H1 & H2 & a & Ha & Hl). split; auto. split.
  - eapply in_hist_ext; eauto. eapply T_hist; eauto.
  - destruct (T_keep _ _ _ HT _ _ Ha) as (a' & Ha' & S). exists a'. split; auto.
    destruct S as (_ & S & _). congruence.
Qed.

Lemma bounded_append_In {A} lim (q : list A) x y :
  In y (fst (bounded_append lim q x)) -> In y q \/ y = x.
Proof.
  unfold bounded_append. destruct (_ <? _)%N; simpl; intros H; apply in_app_or in H;
    destruct H as [H|[H|[]]]; auto. left. destruct q; [contradiction | right; auto].
Qed.

Lemma enqueue_queue l k e w l' :
  lg_queue (w_logs (fst (enqueue l k e w)) l') =
  if Nat.eqb l' l then fst (bounded_append QUEUE_LIMIT (lg_queue (w_logs w l)) (k, e))
  else lg_queue (w_logs w l').
Proof.
  unfold enqueue, mod_log. simpl. unfold upd. destruct (Nat.eqb l' l) eqn:Hl; auto.
  destruct (bounded_append _ _ _); reflexivity.
Qed.

Lemma Pub_occ l k e w w' : Pub l k e w w' -> forall l' k' e',
  occurs w' l' k' e' -> occurs w l' k' e' \/ (l' = l /\ k' = k /\ e' = e).
Proof.
  intros HP l' k' e' Ho. destruct HP as [Ha|d rest Ha Hd].
  - destruct Ho as [Hq|[s Hs]]; [|left; right; exists s; exact Hs].
    rewrite enqueue_queue in Hq. destruct (Nat.eqb_spec l' l) as [->|Hn]; [|left; left; exact Hq].
    apply bounded_append_In in Hq. destruct Hq as [Hq|Hq]; [left; left; exact Hq|].
    right. inversion Hq; auto.
  - destruct Ho as [Hq|[s Hs]]; [left; left; exact Hq|].
    simpl in Hs. apply in_app_or in Hs. destruct Hs as [Hs|Hs]; [left; right; exists s; exact Hs|].
    unfold deliveries in Hs. apply in_map_iff in Hs. destruct Hs as (s0 & Hs & _).
    right. inversion Hs; auto.
Qed.

Lemma lg_add_sink_queue s g : lg_queue (lg_add_sink cfg s g) = lg_queue g.
Proof. unfold lg_add_sink. destruct (existsb _ _); reflexivity. Qed.
Lemma lg_set_sinks_queue ss g : lg_queue (lg_set_sinks cfg ss g) = lg_queue g.
Proof.
  unfold lg_set_sinks.
  assert (H : forall ss g, lg_queue (fold_left (fun g s => lg_add_sink cfg s g) ss g) = lg_queue g).
  { clear. intros ss. induction ss as [|s ss IH]; intros g; simpl; auto.
    rewrite IH. apply lg_add_sink_queue. }
  rewrite H. reflexivity.
Qed.

(** Every occurrence after a transition is old or a well-formed new one. *)
Lemma T_occ lb w w' : T lb w w' -> att_inv w -> forall l k e,
  occurs w' l k e -> occurs w l k e \/ okev w' l k e.
Proof.
  intros HT HA l0 k0 e0 Ho. pose proof (T_att _ _ _ HT HA) as HA'.
  pose proof (T_keep _ _ _ HT) as HK.
  assert (Hlast : forall e (h : list hist), In (HEvent e) (h ++ [HEvent e]))
    by (intros; apply in_or_app; right; left; reflexivity).
  assert (Hlog : forall r a, nth_error (w_acts w) r = Some a ->
            exists a', nth_error (w_acts w') r = Some a' /\ a_log a' = a_log a).
  { intros r a Hr. destruct (HK r a Hr) as (a' & Ha' & S). exists a'. split; auto. apply S. }
  destruct HT;
    try (left; exact Ho);
    try (destruct Ho as [Hq|[sx Hs]]; [left; left; exact Hq|]; simpl in Hs; apply in_app_or in Hs;
         destruct Hs as [Hs|[Hs|[]]]; [left; right; exists sx; exact Hs | discriminate]; fail);
    try (destruct Ho as [Hq|[s0 Hs]]; [|left; right; exists s0; exact Hs];
         left; left; simpl in Hq; unfold upd in Hq;
         destruct (Nat.eqb_spec l0 l) as [->|Hn]; [|exact Hq];
         rewrite ?lg_add_sink_queue, ?lg_set_sinks_queue in Hq; exact Hq).
  - destruct (Pub_occ _ _ _ _ _ H2 _ _ _ Ho) as [Ho'|(-> & -> & ->)]; [left; exact Ho'|].
    right. unfold okev. split; [subst e; reflexivity|]. split; [pubrw; apply Hlast|].
    subst e; simpl. apply Hlog; auto.
  - destruct (Pub_occ _ _ _ _ _ H2 _ _ _ Ho) as [Ho'|(-> & -> & ->)]; [left; exact Ho'|].
    right. unfold okev. split; [subst e; reflexivity|]. split; [pubrw; apply Hlast|].
    subst e; simpl. apply Hlog; auto.
  - destruct (Pub_occ _ _ _ _ _ H1 _ _ _ Ho) as [Ho'|(-> & -> & ->)]; [left; exact Ho'|].
    right. unfold okev. split; [subst e; reflexivity|]. split; [pubrw; apply Hlast|].
    subst e; simpl. apply Hlog; auto.
  - destruct Ho as [Hq|[s Hs]]; [left; left; exact Hq|].
    simpl in Hs. apply in_app_or in Hs. destruct Hs as [Hs|Hs]; [left; right; exists s; exact Hs|].
    unfold deliveries in Hs. apply in_map_iff in Hs. destruct Hs as (s0 & Hs & _).
    inversion Hs; subst l0 k0 e0. right.
    unfold okev. split; [subst e; reflexivity|]. split; [apply Hlast|].
    subst e; simpl. apply Hlog; auto.
  - destruct (Pub_occ _ _ _ _ _ H2 _ _ _ Ho) as [Ho'|(-> & -> & ->)]; [left; exact Ho'|].
    right. destruct (HA _ _ H) as (I1 & I2 & I3).
    destruct (I1 e (or_intror (or_introl H0))) as [Hact Hin].
    unfold okev. split; [apply I3; auto|]. split; [pubrw; exact Hin|].
    rewrite Hact. apply Hlog; auto.
  - destruct (Pub_occ _ _ _ _ _ H0 _ _ _ Ho) as [Ho'|(-> & -> & ->)]; [left; exact Ho'|].
    right. unfold okev. split; [reflexivity|]. pubrw. split.
    + simpl. apply in_or_app; right; simpl; auto.
    + simpl. rewrite nth_error_snoc, Nat.eqb_refl. eexists; split; reflexivity.
  - left. destruct Ho as [Hq|[s Hs]].
    + left. simpl in Hq. unfold upd in Hq. destruct (Nat.eqb_spec l0 l) as [->|Hn]; [|exact Hq].
      rewrite H. right. exact Hq.
    + simpl in Hs. apply in_app_or in Hs. destruct Hs as [Hs|Hs]; [right; exists s; exact Hs|].
      unfold deliveries in Hs. apply in_map_iff in Hs. destruct Hs as (s0 & Hs & _).
      inversion Hs; subst. left. rewrite H. left; reflexivity.
Qed.

Lemma T_occ_inv lb w w' : T lb w w' -> att_inv w -> occ_inv w -> occ_inv w'.
Proof.
  intros HT HA HO l k e Ho. destruct (T_occ _ _ _ HT HA _ _ _ Ho) as [Hold|Hnew]; auto.
  eapply okev_T; eauto.
Qed.

(** ** Parents *)
Definition act_inv (w : world) : Prop :=
  (forall r a p, nth_error (w_acts w) r = Some a -> a_parent a = Some p -> p < r) /\
  (forall l p, w_active w l = Some p -> p < length (w_acts w)).

Lemma T_act lb w w' : T lb w w' -> act_inv w -> act_inv w'.
Proof.
  intros HT [H1 H2]. pose proof (T_len _ _ _ _ HT) as Hl. split.
  - destruct (T_acts _ _ _ HT) as [Ha|[(r0 & a0 & a' & H0 & Ha & HS)|(x & Ha & _)]].
    + intros r a p Hr. rewrite Ha in Hr. eauto.
    + intros r a p Hr Hp. rewrite Ha, nth_error_list_set in Hr. destruct (Nat.eqb_spec r0 r) as [->|Hn].
      * rewrite H0 in Hr. inversion Hr; subst a. destruct HS as (_ & _ & _ & _ & _ & HS).
        rewrite HS in Hp. eauto.
      * eauto.
    + intros r a p Hr Hp. rewrite Ha, nth_error_snoc in Hr.
      destruct (Nat.eqb_spec r (length (w_acts w))) as [->|Hn]; [|eauto].
      inversion Hr; subst x.
      destruct HT; try (exfalso; revert Ha; pubrw;
        try (intros Hc; apply (f_equal (@length _)) in Hc;
             unfold with_event, act_upd, flag_enter, tick, act_upd in Hc; simpl in Hc;
             rewrite app_length in Hc; rewrite ?list_set_length in Hc; simpl in Hc; lia); fail).
      * apply app_inj_tail in Ha. destruct Ha as [_ Ha]. subst a. simpl in Hp.
        destruct H as [H|(q & Hq & Hlq)]; [|congruence].
        apply H2 with (l := l). congruence.
      * revert Ha. pubrw. intros Ha. apply app_inj_tail in Ha. destruct Ha as [_ Ha]. subst a. simpl in Hp.
        destruct H as [H|(q & Hq & Hlq)]; [|congruence].
        apply H2 with (l := l). congruence.
  - assert (Hlt : forall l p, w_active w l = Some p -> p < length (w_acts w'))
      by (intros l p Hp; specialize (H2 l p Hp); lia).
    destruct HT;
      try match goal with H : Pub _ _ _ _ ?w2 |- context [w_active ?w2] => rewrite (Pub_active _ _ _ _ _ H) end;
      try exact Hlt.
    + intros l p Hp. simpl in Hp. unfold upd in Hp. destruct (Nat.eqb l (a_log a)); [|eauto].
      inversion Hp; subst. apply nth_error_lt in H. lia.
    + intros l p Hp. simpl in Hp. unfold upd in Hp. destruct (Nat.eqb l (a_log a)); [|eauto].
      inversion Hp; subst p. apply nth_error_lt in H. lia.
    + intros l' p Hp. simpl in Hp. unfold upd in Hp. destruct (Nat.eqb l' l); [|eauto].
      apply nth_error_lt in H as Hr. specialize (H1 _ _ _ H Hp). simpl. lia.
Qed.

(** ** Identifiers *)
Definition hid (h : hist) : list nat :=
  match h with HAction _ i => [i] | HEvent e => [e_id e] | HCall _ _ => [] end.
Definition ids (w : world) : list nat := flat_map hid (w_hist w).

Inductive incr_from : nat -> list nat -> nat -> Prop :=
| incr_nil lo hi : lo <= hi -> incr_from lo [] hi
| incr_cons lo i l hi : lo <= i -> incr_from (S i) l hi -> incr_from lo (i :: l) hi.

Lemma incr_snoc lo l hi i hi' : incr_from lo l hi -> hi <= i -> S i <= hi' -> incr_from lo (l ++ [i]) hi'.
Proof.
  induction 1 as [lo hi Hle | lo j l hi Hle Hinc IH]; intros H1 H2; simpl.
  - constructor; [lia | constructor; lia].
  - constructor; auto.
Qed.
Lemma incr_weaken lo l hi hi' : incr_from lo l hi -> hi <= hi' -> incr_from lo l hi'.
Proof. induction 1; constructor; auto; lia. Qed.

Definition id_inv (w : world) : Prop :=
  incr_from 0 (ids w) (w_ctr w) /\
  (forall r a, nth_error (w_acts w) r = Some a -> In (HAction r (a_id a)) (w_hist w)) /\
  (forall r i, In (HAction r i) (w_hist w) -> exists a, nth_error (w_acts w) r = Some a /\ a_id a = i) /\
  (forall e, In (HEvent e) (w_hist w) -> e_act e < length (w_acts w)).

Lemma ids_app w h w' : w_hist w' = w_hist w ++ h -> ids w' = ids w ++ flat_map hid h.
Proof. unfold ids. intros ->. apply flat_map_app. Qed.

Lemma T_id lb w w' : T lb w w' -> id_inv w -> id_inv w'.
Proof.
  intros HT (H1 & H2 & H3 & H4).
  assert (Hold : forall h, w_hist w' = w_hist w ++ h -> w_ctr w <= w_ctr w' ->
     incr_from 0 (ids w') (w_ctr w') ->
     (forall r a, nth_error (w_acts w') r = Some a -> In (HAction r (a_id a)) (w_hist w) \/ In (HAction r (a_id a)) h) ->
     (forall r i, In (HAction r i) h -> exists a, nth_error (w_acts w') r = Some a /\ a_id a = i) ->
     (forall e, In (HEvent e) h -> e_act e < length (w_acts w')) -> id_inv w').
  { intros h Hh Hc Hi Ha Hb He. split; auto. split; [|split].
    - intros r a Hr. rewrite Hh. apply in_or_app. auto.
    - intros r i Hr. rewrite Hh in Hr. apply in_app_or in Hr. destruct Hr as [Hr|Hr]; auto.
      destruct (H3 r i Hr) as (a & Ha1 & Ha2). destruct (T_keep _ _ _ HT _ _ Ha1) as (a' & Ha' & S).
      exists a'. split; auto. destruct S as [S _]. congruence.
    - intros e Hin. rewrite Hh in Hin. apply in_app_or in Hin. destruct Hin as [Hin|Hin]; auto.
      specialize (H4 e Hin). pose proof (T_len _ _ _ _ HT). lia. }
  assert (Hids : forall r a, nth_error (w_acts w') r = Some a ->
            r < length (w_acts w) -> In (HAction r (a_id a)) (w_hist w)).
  { intros r a Hr Hlt. destruct (nth_error (w_acts w) r) as [a0|] eqn:H0; [|apply nth_error_None in H0; lia].
    destruct (T_keep _ _ _ HT _ _ H0) as (a' & Ha' & S). rewrite Hr in Ha'. inversion Ha'; subst a'.
    destruct S as [S _]. rewrite S. auto. }
  assert (Hsame : length (w_acts w') = length (w_acts w) -> forall r a, nth_error (w_acts w') r = Some a ->
            In (HAction r (a_id a)) (w_hist w)).
  { intros Hlen r a Hr. apply Hids; auto. rewrite <- Hlen. eapply nth_error_lt; eauto. }
  destruct HT;
    try (apply (Hold []); [pubrw; rewrite app_nil_r; reflexivity | pubrw; simpl; auto | rewrite (ids_app w []) by (pubrw; rewrite app_nil_r; reflexivity); pubrw; simpl; rewrite app_nil_r; exact H1
      | intros r' a' Hr'; left; apply Hsame; [pubrw; simpl; rewrite ?list_set_length; reflexivity | exact Hr'] | intros ? ? [] | intros ? []]; fail);
    try (eapply (Hold [HEvent e]); [pubrw; reflexivity | pubrw; simpl; lia
      | erewrite (ids_app w) by (pubrw; reflexivity); pubrw; subst e; simpl; eapply incr_snoc; [exact H1 | lia | simpl; lia]
      | intros r' a' Hr'; left; apply Hsame; [pubrw; unfold with_event, act_upd, flag_enter, tick, act_upd; simpl; rewrite ?list_set_length; reflexivity | exact Hr']
      | intros ? ? [Hc|[]]; discriminate
      | intros e' [He|[]]; inversion He; subst e'; subst e; simpl; pubrw; unfold with_event, act_upd, flag_enter, tick, act_upd; simpl; rewrite ?list_set_length; eapply nth_error_lt; eassumption ]; fail).
  - eapply (Hold [HAction (length (w_acts w)) (w_ctr w)]); [reflexivity | simpl; lia | | | |].
    + erewrite (ids_app w) by reflexivity. simpl. eapply incr_snoc; [exact H1 | lia | lia].
    + intros r a Hr. destruct (Nat.eq_dec r (length (w_acts w))) as [->|Hn].
      * right. simpl in Hr. rewrite nth_error_snoc, Nat.eqb_refl in Hr. inversion Hr; subst a. left; reflexivity.
      * left. apply Hids; auto. simpl in Hr. apply nth_error_lt in Hr as Hl. rewrite app_length in Hl. simpl in Hl. lia.
    + intros r i [Hc|[]]. inversion Hc; subst. simpl. rewrite nth_error_snoc, Nat.eqb_refl. eexists; split; reflexivity.
    + intros e [Hc|[]]; discriminate.
  - assert (Ha : w_acts w2 = w_acts (comment_world cfg l kw p m w)) by (pubrw; reflexivity).
    eapply (Hold [HAction (length (w_acts w)) (w_ctr w); HEvent (cb cfg (length (w_acts w)) w m);
                  HEvent (ce cfg (length (w_acts w)) w m); HEvent (cc cfg (length (w_acts w)) w m)]);
      [pubrw; reflexivity | pubrw; simpl; lia | | | |].
    + erewrite (ids_app w) by (pubrw; reflexivity). pubrw. simpl.
      change [w_ctr w; S (w_ctr w); S (S (w_ctr w)); S (S (S (w_ctr w)))]
        with (([w_ctr w] ++ [S (w_ctr w)]) ++ [S (S (w_ctr w))] ++ [S (S (S (w_ctr w)))]).
      rewrite !app_assoc.
      apply (incr_snoc _ _ (S (S (S (w_ctr w))))); [|lia|lia].
      apply (incr_snoc _ _ (S (S (w_ctr w)))); [|lia|lia].
      apply (incr_snoc _ _ (S (w_ctr w))); [|lia|lia].
      apply (incr_snoc _ _ (w_ctr w)); [exact H1|lia|lia].
    + intros r a Hr. rewrite Ha in Hr. destruct (Nat.eq_dec r (length (w_acts w))) as [->|Hn].
      * right. simpl in Hr. rewrite nth_error_snoc, Nat.eqb_refl in Hr. inversion Hr; subst a. left; reflexivity.
      * left. apply Hids; [rewrite Ha; exact Hr|]. simpl in Hr. apply nth_error_lt in Hr as Hl. rewrite app_length in Hl. simpl in Hl. lia.
    + intros r i [Hc|[Hc|[Hc|[Hc|[]]]]]; try discriminate. inversion Hc; subst. rewrite Ha. simpl.
      rewrite nth_error_snoc, Nat.eqb_refl. eexists; split; reflexivity.
    + rewrite Ha. simpl. rewrite app_length. simpl.
      intros e [Hc|[Hc|[Hc|[Hc|[]]]]]; try discriminate; inversion Hc; simpl; lia.
  - eapply (Hold [HCall r st]); [reflexivity | simpl; lia | | | |].
    + erewrite (ids_app w) by reflexivity. simpl. rewrite app_nil_r. exact H1.
    + intros r' a' Hr'. left. apply Hsame; auto.
    + intros ? ? [Hc|[]]; discriminate.
    + intros ? [Hc|[]]; discriminate.
Qed.

End Inv.
