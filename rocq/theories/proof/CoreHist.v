(** Properties of whole call histories: C02, C06, C07, C17. *)
From Verif Require Import model.PyBase model.Core spec.CoreSpec
  proof.CoreLib proof.CoreTrans proof.CoreEval proof.CoreInv proof.CoreWith.

Section Hist.
Variable cfg : config.
Notation chain := (chain cfg).
Notation T := (T cfg).
Notation winv := (winv cfg).

(** ** A begin event, once there, stays *)
Lemma T_begin_keep lb w w' r a b : T lb w w' -> nth_error (w_acts w) r = Some a -> a_begin a = Some b ->
  exists a', nth_error (w_acts w') r = Some a' /\ a_begin a' = Some b /\ a_log a' = a_log a.
Proof.
  intros HT Ha Hb.
  destruct (T_keep _ _ _ _ HT _ _ Ha) as (a' & Ha' & HS). exists a'. split; auto. split; [|apply HS].
  assert (Hupd : forall r0 a0 a1, w_acts w' = list_set (w_acts w) r0 a1 -> nth_error (w_acts w) r0 = Some a0 ->
     (r0 = r -> a_begin a0 = Some b -> a_begin a1 = Some b) -> a_begin a' = Some b).
  { intros r0 a0 a1 He H0 Hs. rewrite He, nth_error_list_set in Ha'.
    destruct (Nat.eqb_spec r0 r) as [->|Hn].
    - rewrite Ha in Ha', H0. inversion Ha'; inversion H0; subst. auto.
    - congruence. }
  assert (Hsame : w_acts w' = w_acts w -> a_begin a' = Some b) by (intros He; rewrite He in Ha'; congruence).
  assert (Hsn : forall a1, w_acts w' = w_acts w ++ [a1] -> a_begin a' = Some b).
  { intros a1 He. rewrite He, nth_error_app1 in Ha'; [congruence|]. eapply nth_error_lt; eauto. }
  destruct HT;
    try (apply Hsame; pubrw; reflexivity);
    try (eapply Hsn; pubrw; reflexivity);
    try (eapply Hupd; [pubrw; reflexivity | eassumption | intros _ Hx; exact Hx]; fail);
    try (eapply Hupd; [pubrw; reflexivity | eassumption | intros _ Hx; congruence]; fail).
  eapply Hupd with (r0 := r0) (a0 := a0) (a1 := a_set_begin (Some e) (a_set_defer true (a_set_trans true a0)));
    [pubrw | eassumption | intros; congruence].
  unfold with_event, act_upd, tick, flag_enter, act_upd; simpl. apply list_set_list_set.
Qed.

(** ** C02: counting begin deliveries *)
Definition is_begin (r s : nat) (o : obs) : bool :=
  match o with
  | ODeliver _ KBegin s' e => Nat.eqb s' s && Nat.eqb (e_act e) r
  | _ => false
  end.
Definition q_begin (r : nat) (p : kind * event) : bool :=
  match p with (KBegin, e) => Nat.eqb (e_act e) r | _ => false end.
Definition bcount (r s : nat) (t : list obs) : nat := length (filter (is_begin r s) t).
Definition qcount (r : nat) (q : list (kind * event)) : nat := length (filter (q_begin r) q).

Lemma bcount_app r s t1 t2 : bcount r s (t1 ++ t2) = bcount r s t1 + bcount r s t2.
Proof. unfold bcount. rewrite filter_app, app_length. auto. Qed.
Lemma qcount_app r q1 q2 : qcount r (q1 ++ q2) = qcount r q1 + qcount r q2.
Proof. unfold qcount. rewrite filter_app, app_length. auto. Qed.
Lemma qcount_tl r q : qcount r (tl q) <= qcount r q.
Proof. destruct q as [|p q]; auto. unfold qcount. simpl. destruct (q_begin r p); simpl; lia. Qed.

Lemma bcount_deliveries r s l k e d : NoDup d ->
  bcount r s (deliveries l k e d) <= (if kind_eqb k KBegin && Nat.eqb (e_act e) r then 1 else 0).
Proof.
  intros Hd. unfold bcount, deliveries.
  destruct (kind_eqb k KBegin && Nat.eqb (e_act e) r) eqn:Hk.
  - induction Hd as [|x d Hx Hd IH]; simpl; [lia|].
    destruct k; simpl; try lia. destruct (Nat.eqb_spec x s) as [->|Hn]; simpl.
    + destruct (Nat.eqb (e_act e) r); simpl; [|exact IH].
      assert (H0 : filter (is_begin r s) (map (fun s0 => ODeliver l KBegin s0 e) d) = []).
      { clear -Hx. induction d as [|y d IH]; auto. simpl.
        destruct (Nat.eqb_spec y s) as [->|]; simpl; [exfalso; apply Hx; left; auto|].
        apply IH. intros H. apply Hx. right; auto. }
      rewrite H0. simpl. lia.
    + exact IH.
  - assert (H0 : filter (is_begin r s) (map (fun s0 => ODeliver l k s0 e) d) = []).
    { clear Hd. induction d as [|y d IH]; auto. simpl. rewrite IH.
      destruct k; simpl in *; auto. rewrite Hk, andb_false_r. auto. }
    rewrite H0. simpl. lia.
Qed.

Lemma NoDup_app_l {A} (l1 l2 : list A) : NoDup (l1 ++ l2) -> NoDup l1.
Proof.
  induction l1 as [|x l1 IH]; intros H; [constructor|].
  inversion H; subst. constructor; auto. intros Hin. apply H2. apply in_or_app; auto.
Qed.
Lemma NoDup_filter' {A} (f : A -> bool) l : NoDup l -> NoDup (filter f l).
Proof. apply NoDup_filter. Qed.

Lemma hooks_nodup w l k : hooks_inv cfg w -> NoDup (lg_hooks (w_logs w l) k).
Proof. intros H. destruct (H l) as [H1 H2]. rewrite H2. apply NoDup_filter; auto. Qed.

Lemma Pub_count l k e w w' : Pub l k e w w' -> hooks_inv cfg w -> forall r s l0,
  bcount r s (w_trace w') + qcount r (lg_queue (w_logs w' l0)) <=
  bcount r s (w_trace w) + qcount r (lg_queue (w_logs w l0)) +
    (if kind_eqb k KBegin && Nat.eqb (e_act e) r then 1 else 0).
Proof.
  intros HP HH r s l0. destruct HP as [Ha|d rest Ha Hd].
  - change (w_trace (fst (enqueue l k e w))) with (w_trace w). rewrite enqueue_queue.
    destruct (Nat.eqb_spec l0 l) as [->|Hn]; [|lia].
    assert (H1 : qcount r [(k, e)] = if kind_eqb k KBegin && Nat.eqb (e_act e) r then 1 else 0).
    { unfold qcount. simpl. destruct k; simpl; auto. destruct (Nat.eqb (e_act e) r); auto. }
    unfold bounded_append. destruct (_ <? _)%N; cbn [fst]; rewrite qcount_app, H1; [lia|].
    pose proof (qcount_tl r (lg_queue (w_logs w l))). lia.
  - cbn [add_trace set_trace w_trace w_logs]. rewrite bcount_app.
    pose proof (hooks_nodup w l k HH) as HN. rewrite Hd in HN.
    pose proof (bcount_deliveries r s l k e d (NoDup_app_l _ _ HN)). lia.
Qed.

Definition count_inv (w : world) : Prop := forall r a s, nth_error (w_acts w) r = Some a ->
  bcount r s (w_trace w) + qcount r (lg_queue (w_logs w (a_log a))) <=
  match a_begin a with Some _ => 1 | None => 0 end.

Lemma bcount_zero r s t : (forall l e, In (ODeliver l KBegin s e) t -> e_act e <> r) -> bcount r s t = 0.
Proof.
  intros H. unfold bcount. induction t as [|o t IH]; auto. simpl.
  destruct o as [l k s' e| |]; simpl; try (apply IH; intros; eapply H; right; eauto).
  destruct k; try (apply IH; intros; eapply H; right; eauto).
  destruct (Nat.eqb_spec s' s) as [->|]; simpl; [|apply IH; intros; eapply H; right; eauto].
  destruct (Nat.eqb_spec (e_act e) r); [|apply IH; intros; eapply H; right; eauto].
  exfalso. eapply H; [left; reflexivity | auto].
Qed.
Lemma qcount_zero r q : (forall e, In (KBegin, e) q -> e_act e <> r) -> qcount r q = 0.
Proof.
  intros H. unfold qcount. induction q as [|[k e] q IH]; auto. simpl.
  destruct k; try (apply IH; intros; eapply H; right; eauto).
  destruct (Nat.eqb_spec (e_act e) r); [|apply IH; intros; eapply H; right; eauto].
  exfalso. eapply H; [left; reflexivity | auto].
Qed.

Lemma fresh_zero w r s l : occ_inv w -> length (w_acts w) <= r ->
  bcount r s (w_trace w) + qcount r (lg_queue (w_logs w l)) = 0.
Proof.
  intros HO Hr. rewrite bcount_zero, qcount_zero; auto.
  - intros e Hin Heq. destruct (HO l KBegin e (or_introl Hin)) as (_ & _ & a & Ha & _). apply nth_error_lt in Ha. lia.
  - intros l0 e Hin Heq. destruct (HO l0 KBegin e (or_intror (ex_intro _ s Hin))) as (_ & _ & a & Ha & _).
    apply nth_error_lt in Ha. lia.
Qed.

(** The world before a publication, for the transitions that publish. *)
Lemma T_count lb w w' : T lb w w' -> winv w -> count_inv w -> count_inv w'.
Proof.
  intros HT HW HC r a' s Ha'.
  pose proof (wi_hooks _ _ HW) as HH. pose proof (wi_occ _ _ HW) as HO.
  (* bounds through "counts in w' <= counts in w + extra" *)
  assert (Hmain : forall extra,
     (let l := a_log a' in bcount r s (w_trace w') + qcount r (lg_queue (w_logs w' l)) <=
                bcount r s (w_trace w) + qcount r (lg_queue (w_logs w l)) + extra) ->
     (extra = 0 \/ (extra = 1 /\ a_begin a' <> None /\ exists a, nth_error (w_acts w) r = Some a /\ a_begin a = None)) ->
     bcount r s (w_trace w') + qcount r (lg_queue (w_logs w' (a_log a'))) <=
     match a_begin a' with Some _ => 1 | None => 0 end).
  { intros extra Hle Hex. cbv zeta in Hle.
    destruct (nth_error (w_acts w) r) as [a|] eqn:Ha.
    - pose proof (HC r a s Ha) as H0.
      destruct (T_keep _ _ _ _ HT _ _ Ha) as (a1 & Ha1 & HS).
      assert (a1 = a') by congruence. subst a1. destruct HS as (_ & HS & _). rewrite HS in *.
      destruct Hex as [-> | (-> & Hb' & a2 & Ha2 & Hb2)].
      + destruct (a_begin a) as [b|] eqn:Hb.
        * destruct (T_begin_keep _ _ _ _ _ _ HT Ha Hb) as (a2 & Ha2 & Hb2 & _).
          assert (a2 = a') by congruence. subst a2. rewrite Hb2. lia.
        * destruct (a_begin a'); lia.
      + assert (a2 = a) by congruence. subst a2. rewrite Hb2 in H0. destruct (a_begin a'); [lia | congruence].
    - apply nth_error_None in Ha. pose proof (fresh_zero w r s (a_log a') HO Ha).
      destruct Hex as [-> | (-> & _ & a2 & Ha2 & _)]; [lia|].
      discriminate. }
  assert (Hsame : (forall l, lg_queue (w_logs w' l) = lg_queue (w_logs w l)) -> bcount r s (w_trace w') = bcount r s (w_trace w) ->
     bcount r s (w_trace w') + qcount r (lg_queue (w_logs w' (a_log a'))) <=
     match a_begin a' with Some _ => 1 | None => 0 end).
  { intros Hq Ht. apply (Hmain 0); auto. cbv zeta. rewrite Hq, Ht. lia. }
  assert (Hpub0 : forall l k e wp, Pub l k e wp w' -> k <> KBegin -> w_trace wp = w_trace w -> w_logs wp = w_logs w ->
     bcount r s (w_trace w') + qcount r (lg_queue (w_logs w' (a_log a'))) <=
     match a_begin a' with Some _ => 1 | None => 0 end).
  { intros l k e wp HP Hk Ht Hl. apply (Hmain 0); auto. cbv zeta. set (l0 := a_log a').
    assert (HHp : hooks_inv cfg wp).
    { intros l1. unfold listeners. rewrite Hl. apply HH. }
    pose proof (Pub_count _ _ _ _ _ HP HHp r s l0) as Hc. rewrite Ht, Hl in Hc.
    destruct k; simpl in Hc; try congruence; lia. }
  assert (Hpub1 : forall r0 a0 e wp l, Pub l KBegin e wp w' -> e_act e = r0 -> nth_error (w_acts w) r0 = Some a0 ->
     a_begin a0 = None -> w_trace wp = w_trace w -> w_logs wp = w_logs w ->
     (r0 = r -> a_begin a' <> None) ->
     bcount r s (w_trace w') + qcount r (lg_queue (w_logs w' (a_log a'))) <=
     match a_begin a' with Some _ => 1 | None => 0 end).
  { intros r0 a0 e wp l HP He Ha0 Hb0 Ht Hl Hb'.
    assert (HHp : hooks_inv cfg wp).
    { intros l1. unfold listeners. rewrite Hl. apply HH. }
    pose proof (Pub_count _ _ _ _ _ HP HHp r s) as Hc. rewrite Ht, Hl in Hc. simpl in Hc. rewrite He in Hc.
    destruct (Nat.eqb_spec r0 r) as [->|Hn].
    - apply (Hmain 1); [apply Hc|]. right. repeat split; eauto.
    - apply (Hmain 0); [apply Hc | auto]. }
  destruct HT;
    try (apply Hsame; [intros; reflexivity | simpl; rewrite ?bcount_app; simpl; unfold bcount; simpl; lia]; fail);
    try (apply Hsame; [| reflexivity]; intros l0; simpl; unfold upd; destruct (Nat.eqb_spec l0 l) as [->|]; auto;
         rewrite ?lg_add_sink_queue, ?lg_set_sinks_queue; reflexivity);
    try (match goal with HP : Pub _ ?k _ _ _ |- _ => eapply (Hpub0 _ _ _ _ HP); [discriminate | reflexivity | reflexivity] end).
  - match goal with HP : Pub _ _ _ _ _ |- _ => eapply (Hpub1 r0 a e _ _ HP) end; auto; [subst e; reflexivity|]. intros ->.
    assert (Hx : nth_error (w_acts w2) r = Some (a_set_begin (Some e) a)).
    { pubrw. unfold with_event. apply act_upd_nth. eapply nth_error_lt; exact H. }
    rewrite Hx in Ha'. inversion Ha'. simpl. discriminate.
  - match goal with HP : Pub _ _ _ _ _ |- _ => eapply (Hpub1 r0 a e _ _ HP) end; auto; [subst e; reflexivity|]. intros ->.
    assert (Hx : nth_error (w_acts w2) r = Some (a_set_begin (Some e) (a_set_defer true (a_set_trans true a)))).
    { pubrw. unfold with_event. apply act_upd_nth. simpl. rewrite list_set_length. eapply nth_error_lt; exact H. }
    rewrite Hx in Ha'. inversion Ha'. simpl. discriminate.
  - apply Hsame; [intros; reflexivity|]. cbn [add_trace set_trace w_trace]. rewrite bcount_app.
    match goal with |- _ + bcount r s (deliveries ?l ?k ?e ?d) = _ =>
      assert (Hz : bcount r s (deliveries l k e d) = 0) end.
    { apply bcount_zero. intros l0 e0 Hin. unfold deliveries in Hin. apply in_map_iff in Hin.
      destruct Hin as (? & Hin & _). discriminate. }
    rewrite Hz. simpl. lia.
  - (* pop *)
    apply (Hmain 0); auto. cbv zeta. set (l0 := a_log a').
    cbn [add_trace set_trace w_trace w_logs set_logs]. rewrite bcount_app.
    pose proof (hooks_nodup w l k HH) as HN. rewrite H0 in HN.
    pose proof (bcount_deliveries r s l k e d (NoDup_app_l _ _ HN)) as Hd.
    unfold upd. destruct (Nat.eqb_spec l0 l) as [Hl0|Hn].
    + rewrite Hl0, H. cbn [lg_queue lg_set_queue].
      assert (Hq1 : qcount r ((k, e) :: q) = (if kind_eqb k KBegin && Nat.eqb (e_act e) r then 1 else 0) + qcount r q).
      { unfold qcount. simpl. destruct k; simpl; auto. destruct (Nat.eqb (e_act e) r); auto. }
      rewrite Hq1. lia.
    + destruct (kind_eqb k KBegin && Nat.eqb (e_act e) r) eqn:Hkr; [|lia].
            exfalso. apply andb_true_iff in Hkr. destruct Hkr as [_ Hkr]. apply Nat.eqb_eq in Hkr.
      assert (Hoc : occurs w l k e) by (left; rewrite H; left; reflexivity).
      destruct (HO l k e Hoc) as (_ & _ & a & Ha & Hl). subst r.
      change (w_acts _) with (w_acts w) in Ha'. apply Hn. unfold l0. congruence.
Qed.

Lemma chain_winv_count (P : lbl -> Prop) w w' : chain P w w' -> winv w -> count_inv w -> winv w' /\ count_inv w'.
Proof.
  intros H HW HC. pose (I := fun w => winv w /\ count_inv w).
  change (I w'). refine (chain_inv cfg I P _ _ _ H _); [|split; auto].
  intros lb w1 w2 _ HT [H1 H2]. split; [eapply T_winv; eauto | eapply T_count; eauto].
Qed.

(** ** An end event was created after its action's begin event *)
Definition end_inv (w : world) : Prop := forall e, In (HEvent e) (w_hist w) -> e_kind e = KEnd ->
  exists a b, nth_error (w_acts w) (e_act e) = Some a /\ a_begin a = Some b /\ In (HEvent b) (w_hist w) /\ e_id b < e_id e.

Lemma incr_from_lt lo l hi i : incr_from lo l hi -> In i l -> lo <= i /\ i < hi.
Proof.
  induction 1 as [lo hi Hle | lo j l hi Hle Hinc IH]; intros Hin; [destruct Hin|].
  assert (Hjh : j < hi) by (clear -Hinc; remember (S j) as lo; revert j Heqlo; induction Hinc; intros; subst; [lia|]; specialize (IHHinc _ eq_refl); lia).
  destruct Hin as [->|Hin]; [lia|]. destruct (IH Hin). lia.
Qed.

Lemma hist_id_lt w e : id_inv w -> In (HEvent e) (w_hist w) -> e_id e < w_ctr w.
Proof.
  intros (H & _) Hin. apply (incr_from_lt _ _ _ _ H). unfold ids. apply in_flat_map.
  exists (HEvent e). split; auto. left. auto.
Qed.

Lemma T_end_inv lb w w' : T lb w w' -> winv w -> end_inv w -> end_inv w'.
Proof.
  intros HT HW HE e Hin Hk.
  assert (Hold : In (HEvent e) (w_hist w) ->
     exists a b, nth_error (w_acts w') (e_act e) = Some a /\ a_begin a = Some b /\ In (HEvent b) (w_hist w') /\ e_id b < e_id e).
  { intros Ho. destruct (HE e Ho Hk) as (a & b & Ha & Hb & Hh & Hlt).
    destruct (T_begin_keep _ _ _ _ _ _ HT Ha Hb) as (a' & Ha' & Hb' & _). exists a', b. split; [|split; [|split]]; auto.
    destruct (T_hist _ _ _ _ HT) as (h & Hx). rewrite Hx. apply in_or_app; auto. }
  assert (Hnew : forall h, w_hist w' = w_hist w ++ h -> (forall e0, In (HEvent e0) h -> e_kind e0 <> KEnd) -> 
     exists a b, nth_error (w_acts w') (e_act e) = Some a /\ a_begin a = Some b /\ In (HEvent b) (w_hist w') /\ e_id b < e_id e).
  { intros h Hh Hn. rewrite Hh in Hin. apply in_app_or in Hin. destruct Hin as [Hin|Hin]; auto.
    exfalso. eapply Hn; eauto. }
  destruct HT;
    try (apply Hold; exact Hin);
    try (apply Hold; match goal with HP : Pub _ _ _ _ _ |- _ => rewrite (Pub_hist _ _ _ _ _ HP) in Hin end; exact Hin);
    try (eapply Hnew; [pubrw; reflexivity|]; intros ex Hex; simpl in Hex;
         repeat (destruct Hex as [Hex|Hex]; [inversion Hex; subst; simpl; discriminate|]); destruct Hex; fail).
  - (* end *)
    simpl in Hin. apply in_app_or in Hin. destruct Hin as [Hin|[Hin|[]]]; [apply Hold; auto|].
    injection Hin as Hee. subst e. subst e0.
    exists (a_set_end (Some (mkEvent KEnd r (w_ctr w) t m (Some st) x)) a), b. cbn [e_act e_id].
    split; [unfold with_event; apply act_upd_nth; eapply nth_error_lt; eauto|].
    split; [auto|].
    destruct (wi_att _ _ HW r a H) as [Hatt _].
    destruct (Hatt b (or_introl H0)) as [_ Hb].
    split; [simpl; apply in_or_app; auto | apply hist_id_lt; auto; apply (wi_id _ _ HW)].
  - (* comment *)
    match goal with HP : Pub _ _ _ _ _ |- _ => rewrite (Pub_hist _ _ _ _ _ HP) in Hin |- *; rewrite (Pub_acts _ _ _ _ _ HP) end.
    simpl in Hin |- *. apply in_app_or in Hin. destruct Hin as [Hin|Hin].
    + destruct (HE e Hin Hk) as (a & b & Ha & Hb & Hh & Hlt). exists a, b.
      rewrite nth_error_app1 by (eapply nth_error_lt; eauto).
      split; [|split; [|split]]; auto. apply in_or_app; auto.
    + destruct Hin as [Hin|[Hin|[Hin|[Hin|[]]]]]; try discriminate; injection Hin as <-; try discriminate.
      cbn [e_act ce e_id]. rewrite nth_error_app2, Nat.sub_diag by lia. simpl.
      eexists _, _. split; [reflexivity|]. split; [reflexivity|]. split; [|simpl; lia].
      apply in_or_app. right. right. left. reflexivity.
Qed.

(** ** C07: durations *)

Definition dur_ok (a : action) : Prop := forall e, a_end a = Some e ->
  exists b, a_begin a = Some b /\ (a_trans a = false -> e_time e = e_time b) /\
            (monotone_clock cfg -> (e_time b <= e_time e)%Z).
Definition dur_inv (w : world) : Prop := forall r a, nth_error (w_acts w) r = Some a -> dur_ok a.

Lemma T_dur lb w w' : T lb w w' -> dur_inv w -> dur_inv w'.
Proof.
  intros HT HD.
  assert (Hsame : w_acts w' = w_acts w -> dur_inv w') by (intros He r a; rewrite He; apply HD).
  assert (Hupd : forall r0 a0 a1, w_acts w' = list_set (w_acts w) r0 a1 -> nth_error (w_acts w) r0 = Some a0 ->
     (dur_ok a0 -> dur_ok a1) -> dur_inv w').
  { intros r0 a0 a1 He H0 Hs r a Ha. rewrite He, nth_error_list_set in Ha.
    destruct (Nat.eqb_spec r0 r) as [->|Hn]; [|eapply HD; eauto].
    rewrite H0 in Ha. inversion Ha; subst. apply Hs. eapply HD; eauto. }
  assert (Hsn : forall a1, w_acts w' = w_acts w ++ [a1] -> dur_ok a1 -> dur_inv w').
  { intros a1 He H1 r a Ha. rewrite He in Ha. rewrite nth_error_snoc in Ha.
    destruct (Nat.eqb_spec r (length (w_acts w))); [inversion Ha; subst; auto | eapply HD; eauto]. }
  destruct HT;
    try (apply Hsame; pubrw; reflexivity);
    try (eapply Hupd; [pubrw; reflexivity | eassumption | intros Hx; exact Hx]; fail).
  - eapply Hupd; [pubrw; reflexivity | eassumption |]. intros Hx e0 He0. simpl in He0.
    destruct (Hx e0 He0) as (b & Hb & _). congruence.
  - eapply Hupd; [pubrw; reflexivity | eassumption |]. intros Hx e0 He0. simpl in He0.
    destruct (Hx e0 He0) as (b0 & Hb0 & _ & Hm). exists b0. simpl. split; [congruence|]. split; [discriminate|auto].
  - eapply Hupd with (r0 := r) (a1 := a_set_begin (Some e) (a_set_defer true (a_set_trans true a))); [pubrw | eassumption |].
    + unfold with_event, act_upd, tick, flag_enter, act_upd; simpl. apply list_set_list_set.
    + intros Hx e0 He0. simpl in He0. destruct (Hx e0 He0) as (b & Hb & _). congruence.
  - eapply Hupd; [pubrw; reflexivity | eassumption |]. intros Hx e0 He0. simpl in He0. inversion He0; subst e0. subst e.
    exists b. simpl. split; auto. split.
    + intros Htr. destruct H1 as [[_ ->]|[Ht _]]; [auto|congruence].
    + intros Hm. destruct H1 as [[_ ->]|[Ht (i & j & -> & -> & Hij & _)]]; [lia|]. apply Hm. auto.
  - eapply Hsn; [pubrw; reflexivity|]. intros e He. discriminate.
  - eapply Hsn; [pubrw; reflexivity|]. intros e He. simpl in He. inversion He; subst. eexists. split; [reflexivity|].
    split; [reflexivity|]. simpl. lia.
Qed.

(** Only [enter] marks an action as a transaction. *)
Definition same_trans (r : nat) (w w' : world) : Prop := forall a, nth_error (w_acts w) r = Some a ->
  exists a', nth_error (w_acts w') r = Some a' /\ a_trans a' = a_trans a.

(** ** C17: chains of parents *)
Lemma depth_spec w : act_inv w -> forall r, r < length (w_acts w) ->
  exists n, ancestors w r n /\ n <= r.
Proof.
  intros (H1 & _) r. induction r as [r IH] using (well_founded_induction lt_wf). intros Hr.
  destruct (nth_error (w_acts w) r) as [a|] eqn:Ha; [|apply nth_error_None in Ha; lia].
  destruct (a_parent a) as [p|] eqn:Hp.
  - pose proof (H1 _ _ _ Ha Hp) as Hlt. destruct (IH p Hlt) as (n & Hn & Hle); [lia|].
    exists (S n). split; [econstructor; eauto | lia].
  - exists 0. split; [econstructor; eauto | lia].
Qed.

Lemma depth_loop w r n : ancestors w r n -> forall f, parent_depth_loop f (w_acts w) r = Nat.min n f.
Proof.
  induction 1 as [r a Ha Hp | r a p n Ha Hp Hn IH]; intros f; destruct f; simpl; auto; rewrite Ha, Hp; auto.
Qed.

Lemma ancestors_fun w r n m : ancestors w r n -> ancestors w r m -> n = m.
Proof.
  intros H. revert m. induction H as [r a Ha Hp | r a p n Ha Hp Hn IH]; intros m Hm; inversion Hm; subst; try congruence.
  f_equal. apply IH. replace p with p0 by congruence. auto.
Qed.
End Hist.
