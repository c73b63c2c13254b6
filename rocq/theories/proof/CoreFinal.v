(** The statements about reachable states: C01, C02, C06, C07, C17. *)
From Verif Require Import model.PyBase model.Core spec.CoreSpec
  proof.CoreLib proof.CoreTrans proof.CoreEval proof.CoreInv proof.CoreWith proof.CoreBlock proof.CoreBlock2
  proof.CoreStatus proof.CoreHist proof.CoreData.

Section Final.
Variable cfg : config.

Definition hinv (w : world) : Prop := winv cfg w /\ count_inv w /\ end_inv w /\ dur_inv cfg w.
Lemma T_hinv lb w w' : T cfg lb w w' -> hinv w -> hinv w'.
Proof.
  intros HT (H1 & H2 & H3 & H4). split; [|split; [|split]];
    [eapply T_winv; eauto | eapply T_count; eauto | eapply T_end_inv; eauto | eapply T_dur; eauto].
Qed.
Lemma reach_hinv w : reach cfg w -> hinv w.
Proof.
  induction 1.
  - split; [apply init_winv|]. split; [|split].
    + intros r a s Ha. destruct r; discriminate.
    + intros e [].
    + intros r a Ha. destruct r; discriminate.
  - eapply (chain_inv cfg hinv Pany); [intros lb w1 w2 _; apply T_hinv | apply step_chain, (reach_winv cfg); auto | auto].
  - eapply (chain_inv cfg hinv Pany); [intros lb w1 w2 _; apply T_hinv | apply eval_chain, (reach_winv cfg); auto | auto].
  - eapply T_hinv; [|exact IHreach]. eapply T_env; auto.
Qed.

Lemma reach_run_ops os w : reach cfg w -> reach cfg (run_ops cfg os w).
Proof. revert w. induction os as [|o os IH]; intros w H; simpl; auto. apply IH. constructor; auto. Qed.

(** C01 *)
Lemma block_body_no_end cur x l lvl nm kw rr px body w :
  calm cfg -> winv cfg w -> parent_bound w px -> never_enters x body ->
  let r := length (w_acts w) in
  let w2 := fst (eval cfg cur body (block_start cfg x l lvl nm kw rr px w)) in
  end_calls r (w_trace w2) = [] /\ forall l', end_waiting r (lg_queue (w_logs w2 l')) = [].
Proof.
  intros HC HW Hpb Hne. cbv zeta.
  destruct (block_calm cfg cur x l lvl nm kw rr px body w HC HW Hpb) as (a1 & Hst & _ & _).
  cbv zeta in Hst. set (w1 := block_start cfg x l lvl nm kw rr px w) in *.
  assert (HW1 : winv cfg w1) by (eapply st_winv; eauto).
  pose proof (body_chain cfg cur x l rr body w w1 a1 HW Hst Hne) as Hch.
  assert (Hn2 : no_end (length (w_acts w)) (fst (eval cfg cur body w1))).
  { eapply (chain_no_end cfg); [ | exact Hch | apply (wi_att _ _ HW1) | apply (st_act _ _ _ _ _ _ _ Hst)
      | apply (st_defer _ _ _ _ _ _ _ Hst) | apply (st_noend _ _ _ _ _ _ _ Hst)].
    intros lb [? _]; auto. }
  split.
  - apply end_calls_none. intros l0 s1 e0 Hi. eapply (Hn2 l0). right; eauto.
  - intros l'. apply end_waiting_none. intros e0 Hi. eapply (Hn2 l'). left; eauto.
Qed.

(** C02 *)
Lemma begin_calls_count r s t : length (begin_calls r s t) = bcount r s t.
Proof.
  unfold begin_calls, bcount. induction t as [|o t IH]; auto. simpl. rewrite app_length, IH.
  destruct o as [l k s' e| |]; simpl; auto. destruct k; simpl; auto. destruct (_ && _); auto.
Qed.
Lemma begin_once w r s : reach cfg w -> length (begin_calls r s (w_trace w)) <= 1.
Proof.
  intros HR. destruct (reach_hinv _ HR) as (HW & HC & _). rewrite begin_calls_count.
  destruct (nth_error (w_acts w) r) as [a|] eqn:Ha.
  - pose proof (HC r a s Ha). destruct (a_begin a); lia.
  - apply nth_error_None in Ha. pose proof (fresh_zero w r s 0 (wi_occ _ _ HW) Ha). lia.
Qed.
Lemma begin_before_end w l s e : reach cfg w -> In (ODeliver l KEnd s e) (w_trace w) ->
  exists a b h1 h2 h3, nth_error (w_acts w) (e_act e) = Some a /\ a_begin a = Some b /\ e_kind b = KBegin /\
    w_hist w = h1 ++ HEvent b :: h2 ++ HEvent e :: h3.
Proof.
  intros HR Hin. destruct (reach_hinv _ HR) as (HW & _ & HE & _).
  assert (Ho : occurs w l KEnd e) by (right; eauto).
  destruct (wi_occ _ _ HW l KEnd e Ho) as (Hk & Hh & _).
  destruct (HE e Hh Hk) as (a & b & Ha & Hb & Hbh & Hlt).
  pose proof (wi_id _ _ HW) as (Hid & _).
  apply in_split in Hh. destruct Hh as (h1 & h2 & Hh).
  assert (Hin1 : In (HEvent b) h1).
  { rewrite Hh in Hbh. apply in_app_or in Hbh. destruct Hbh as [Hb1|[Hb1|Hb2]]; auto.
    - inversion Hb1; subst. lia.
    - exfalso. unfold ids in Hid. rewrite Hh, flat_map_app in Hid. simpl in Hid.
      assert (Hi2 : In (e_id b) (flat_map hid h2)) by (apply in_flat_map; exists (HEvent b); split; auto; left; auto).
      clear -Hid Hi2 Hlt. revert Hid. generalize 0 as lo. generalize (flat_map hid h1) as l1.
      induction l1 as [|x l1 IH]; intros lo Hinc; simpl in Hinc; inversion Hinc; subst.
      + pose proof (incr_from_lt _ _ _ _ H4 Hi2). lia.
      + eapply IH; eauto. }
  apply in_split in Hin1. destruct Hin1 as (g1 & g2 & ->).
  exists a, b, g1, g2, h2. split; auto. split; auto. split.
  - apply (wi_att _ _ HW _ _ Ha). auto.
  - rewrite Hh, <- app_assoc. reflexivity.
Qed.

(** C06 *)
Lemma incr_increasing lo l hi : incr_from lo l hi -> increasing l.
Proof.
  induction 1 as [|lo i l hi Hle Hinc IH]; simpl; auto. split; auto.
  intros y Hy. pose proof (incr_from_lt _ _ _ _ Hinc Hy). lia.
Qed.
Lemma created_increasing w : reach cfg w -> increasing (created w).
Proof. intros HR. destruct (reach_hinv _ HR) as (HW & _). destruct (wi_id _ _ HW) as (H & _). exact (incr_increasing _ _ _ H). Qed.
Lemma visible_created w e : reach cfg w -> visible w e -> In (HEvent e) (w_hist w).
Proof.
  intros HR HV. destruct (reach_hinv _ HR) as (HW & _).
  destruct HV as [(r & a & Ha & Hat)|[(l & k & Hq)|(l & k & s & Ht)]].
  - apply (wi_att _ _ HW r a Ha). exact Hat.
  - destruct (wi_occ _ _ HW l k e (or_introl Hq)) as (_ & H & _). auto.
  - destruct (wi_occ _ _ HW l k e (or_intror (ex_intro _ s Ht))) as (_ & H & _). auto.
Qed.
Lemma action_created w r a : reach cfg w -> nth_error (w_acts w) r = Some a -> In (HAction r (a_id a)) (w_hist w).
Proof. intros HR Ha. destruct (reach_hinv _ HR) as (HW & _). destruct (wi_id _ _ HW) as (_ & H & _). auto. Qed.

Lemma increasing_inj {A} (f : A -> list nat) (h : list A) x y i :
  increasing (flat_map f h) -> In x h -> In y h -> f x = [i] -> f y = [i] -> x = y.
Proof.
  induction h as [|z h IH]; simpl; [tauto|]. intros Hinc Hx Hy Fx Fy.
  assert (Htl : increasing (flat_map f h)).
  { clear -Hinc. induction (f z) as [|n l IHl]; simpl in *; tauto. }
  assert (Hno : forall u, In u h -> f z = [i] -> f u = [i] -> False).
  { intros u Hu Hz Hu'. rewrite Hz in Hinc. simpl in Hinc. destruct Hinc as [Hinc _].
    assert (In i (flat_map f h)) by (apply in_flat_map; exists u; split; auto; rewrite Hu'; left; auto).
    specialize (Hinc i H). lia. }
  destruct Hx as [->|Hx], Hy as [->|Hy]; auto; exfalso; eauto.
Qed.

Lemma ids_unique w : reach cfg w ->
  (forall e1 e2, visible w e1 -> visible w e2 -> e_id e1 = e_id e2 -> e1 = e2) /\
  (forall r1 r2 a1 a2, nth_error (w_acts w) r1 = Some a1 -> nth_error (w_acts w) r2 = Some a2 -> a_id a1 = a_id a2 -> r1 = r2) /\
  (forall e r a, visible w e -> nth_error (w_acts w) r = Some a -> e_id e <> a_id a).
Proof.
  intros HR. pose proof (created_increasing w HR) as Hinc. unfold created in Hinc.
  split; [|split].
  - intros e1 e2 H1 H2 He. assert (H : HEvent e1 = HEvent e2); [|congruence].
    eapply (increasing_inj _ _ _ _ (e_id e1) Hinc); eauto using visible_created. simpl. congruence.
  - intros r1 r2 a1 a2 H1 H2 He. assert (H : HAction r1 (a_id a1) = HAction r2 (a_id a2)); [|congruence].
    eapply (increasing_inj _ _ _ _ (a_id a1) Hinc); eauto using action_created. simpl. congruence.
  - intros e r a HV Ha He. assert (H : HEvent e = HAction r (a_id a)); [|congruence].
    eapply (increasing_inj _ _ _ _ (e_id e) Hinc); eauto using action_created, visible_created. simpl. congruence.
Qed.

(** Actions get increasing ids. *)
Definition aids (w : world) : Prop := forall r1 r2 a1 a2, r1 < r2 -> nth_error (w_acts w) r1 = Some a1 ->
  nth_error (w_acts w) r2 = Some a2 -> a_id a1 < a_id a2.
Lemma T_aids lb w w' : T cfg lb w w' -> winv cfg w -> aids w -> aids w'.
Proof.
  intros HT HW HA r1 r2 a1 a2 Hlt H1 H2.
  assert (Hold : forall r a, nth_error (w_acts w') r = Some a -> r < length (w_acts w) ->
     exists a0, nth_error (w_acts w) r = Some a0 /\ a_id a0 = a_id a).
  { intros r a Ha Hr. destruct (nth_error (w_acts w) r) as [a0|] eqn:H0; [|apply nth_error_None in H0; lia].
    destruct (T_keep _ _ _ _ HT _ _ H0) as (a' & Ha' & HS). exists a0. split; auto. destruct HS as [HS _]. congruence. }
  assert (Hctr : forall r a, nth_error (w_acts w) r = Some a -> a_id a < w_ctr w).
  { intros r a Ha. destruct (wi_id _ _ HW) as (Hinc & Hin & _). apply (incr_from_lt _ _ _ _ Hinc).
    unfold ids. apply in_flat_map. exists (HAction r (a_id a)). split; auto. left; auto. }
  destruct (T_acts _ _ _ _ HT) as [Ha|[(r0 & a0 & a' & H0 & Ha & HS)|(x & Ha & Hx & _)]].
  - rewrite Ha in *. eapply HA; eauto.
  - destruct (Hold _ _ H1) as (b1 & Hb1 & E1); [rewrite Ha in H1; apply nth_error_lt in H1; rewrite list_set_length in H1; auto|].
    destruct (Hold _ _ H2) as (b2 & Hb2 & E2); [rewrite Ha in H2; apply nth_error_lt in H2; rewrite list_set_length in H2; auto|].
    rewrite <- E1, <- E2. eapply HA; eauto.
  - rewrite Ha in H1, H2. rewrite nth_error_snoc in H1, H2.
    destruct (Nat.eqb_spec r2 (length (w_acts w))) as [->|Hn2].
    + destruct (Nat.eqb_spec r1 (length (w_acts w))); [lia|]. inversion H2; subst a2. rewrite Hx. eapply Hctr; eauto.
    + destruct (Nat.eqb_spec r1 (length (w_acts w))) as [->|]; [apply nth_error_lt in H2; lia|]. eapply HA; eauto.
Qed.
Lemma reach_aids w : reach cfg w -> aids w.
Proof.
  intros H. assert (Hb : winv cfg w /\ aids w); [|tauto].
  induction H.
  - split; [apply init_winv|]. intros r1 r2 a1 a2 _ H1. destruct r1; discriminate.
  - eapply (chain_inv cfg (fun w => winv cfg w /\ aids w) Pany); [|apply step_chain, (reach_winv cfg); auto|auto].
    intros lb w1 w2 _ HT [? ?]; split; [eapply T_winv; eauto | eapply T_aids; eauto].
  - eapply (chain_inv cfg (fun w => winv cfg w /\ aids w) Pany); [|apply eval_chain, (reach_winv cfg); auto|auto].
    intros lb w1 w2 _ HT [? ?]; split; [eapply T_winv; eauto | eapply T_aids; eauto].
  - assert (HT : T cfg LEnv w (fst (bind_var x r w))) by (eapply T_env; auto).
    destruct IHreach. split; [eapply T_winv; eauto | eapply T_aids; eauto].
Qed.
Lemma parent_older w r a p : reach cfg w -> nth_error (w_acts w) r = Some a -> a_parent a = Some p ->
  exists b, nth_error (w_acts w) p = Some b /\ a_id b < a_id a.
Proof.
  intros HR Ha Hp. destruct (reach_hinv _ HR) as (HW & _). destruct (wi_act _ _ HW) as (H1 & _).
  pose proof (H1 _ _ _ Ha Hp) as Hlt. pose proof (nth_error_lt _ _ _ Ha).
  destruct (nth_error (w_acts w) p) as [b|] eqn:Hb; [|apply nth_error_None in Hb; lia].
  exists b. split; auto. exact (reach_aids _ HR p r b a Hlt Hb Ha).
Qed.

(** C07 *)
Lemma duration_nonneg w r : reach cfg w -> monotone_clock cfg -> (0 <= get_duration w r)%Z.
Proof.
  intros HR Hm. destruct (reach_hinv _ HR) as (_ & _ & _ & HD). unfold get_duration.
  destruct (nth_error (w_acts w) r) as [a|] eqn:Ha; [|lia]. unfold duration.
  destruct (a_begin a) as [b|] eqn:Hb; [|lia]. destruct (a_end a) as [e|] eqn:He; [|lia].
  destruct (HD r a Ha e He) as (b' & Hb' & _ & H). assert (b' = b) by congruence. subst b'. specialize (H Hm). lia.
Qed.
Lemma duration_atomic w r a os : reach cfg w -> nth_error (w_acts w) r = Some a -> a_trans a = false ->
  ~ In (OpEnter r) os -> get_duration (run_ops cfg os w) r = 0%Z.
Proof.
  intros HR Ha Ht Hn. pose proof (reach_run_ops os w HR) as HR'.
  destruct (reach_hinv _ HR') as (_ & _ & _ & HD).
  destruct (tr_run cfg r os w Hn a Ha) as (a' & Ha' & Ht'). unfold get_duration. rewrite Ha'.
  unfold duration. destruct (a_begin a') as [b|] eqn:Hb; auto. destruct (a_end a') as [e|] eqn:He; auto.
  destruct (HD r a' Ha' e He) as (b' & Hb' & H & _). assert (b' = b) by congruence. subst b'.
  rewrite H by congruence. lia.
Qed.

(** C17 *)
Lemma depth_final w r : reach cfg w -> r < length (w_acts w) ->
  exists n, ancestors w r n /\ (forall m, ancestors w r m -> m = n) /\ parent_depth w r = Nat.min n 500.
Proof.
  intros HR Hr. destruct (reach_hinv _ HR) as (HW & _).
  destruct (depth_spec w (wi_act _ _ HW) r Hr) as (n & Hn & _). exists n. split; auto. split.
  - intros m Hm. eapply ancestors_fun; eauto.
  - apply depth_loop; auto.
Qed.
End Final.
