From Verif Require Import model.PyBase model.Core spec.CoreSpec spec.CallSpec
  proof.CoreLib proof.CoreTrans proof.CoreEval proof.CoreInv proof.CoreWith proof.CoreDispatch.

Lemma lastn_all {A} n (l : list A) : (N.of_nat (length l) <= n)%N -> lastn n l = l.
Proof. intro H. unfold lastn. replace (length l - N.to_nat n) with 0 by lia. reflexivity. Qed.
Lemma skipn_add {A} n m (l : list A) : skipn n (skipn m l) = skipn (n + m) l.
Proof.
  revert l. induction m as [|m IH]; intro l; [rewrite Nat.add_0_r; reflexivity|].
  destruct l as [|x l]; [rewrite !skipn_nil; reflexivity|]. rewrite <- plus_n_Sm. cbn [skipn]. apply IH.
Qed.
Lemma lastn_lastn {A} n (l x : list A) : lastn n (lastn n l ++ x) = lastn n (l ++ x).
Proof.
  unfold lastn. set (k := N.to_nat n). rewrite !app_length, skipn_length, !skipn_app, skipn_length, skipn_add.
  f_equal; f_equal; lia.
Qed.
Lemma everyone_app cfg w l a b : everyone cfg w l (a ++ b) = everyone cfg w l a ++ everyone cfg w l b.
Proof. unfold everyone. apply flat_map_app. Qed.
Lemma everyone_conf cfg w w' l q : lg_sinks (w_logs w' l) = lg_sinks (w_logs w l) -> everyone cfg w' l q = everyone cfg w l q.
Proof. intro H. unfold everyone, listeners. rewrite H. reflexivity. Qed.

Section S.
Variable cfg : config.
Hypothesis HQ : forall k, hook_quiet cfg k.

Lemma pub_nil l w w' : w_trace w' = w_trace w -> w_logs w' = w_logs w -> q_inv w -> published cfg l [] w w'.
Proof.
  intros H1 H2 Hq. unfold published. rewrite H1, H2. split.
  - destruct (lg_async _); cbn; rewrite app_nil_r; reflexivity.
  - split; [|auto]. destruct (lg_async _); cbn; rewrite app_nil_r, lastn_all; auto; apply Hq.
Qed.
Lemma pub_trans l a b w w1 w2 : published cfg l a w w1 -> published cfg l b w1 w2 -> published cfg l (a ++ b) w w2.
Proof.
  intros (A1 & A2 & A3 & A4) (B1 & B2 & B3 & B4). unfold published. destruct (A4 l) as [A5 A6]. rewrite A5 in *.
  rewrite (everyone_conf cfg _ _ l _ A6) in B1. split; [|split; [|split]].
  - rewrite B1, A1, <- app_assoc. f_equal. destruct (lg_async (w_logs w l)); rewrite ?filter_app, everyone_app; reflexivity.
  - rewrite B2, A2, lastn_lastn, <- app_assoc. f_equal. f_equal. destruct (lg_async (w_logs w l)); rewrite ?filter_app; reflexivity.
  - intros l' Hl. rewrite B3, A3 by exact Hl. reflexivity.
  - intro l'. destruct (A4 l'), (B4 l'). split; congruence.
Qed.

Lemma everyone_one w l k e : everyone cfg w l [(k, e)] = map (fun s => ODeliver l k s e) (listeners cfg w l k).
Proof. unfold everyone. cbn. apply app_nil_r. Qed.

Lemma publish_pubd l k e w : k <> KExc -> hooks_inv cfg w -> q_inv w ->
  exists w', publish cfg l k e w = (w', Ok tt) /\ published cfg l [(k, e)] w w' /\ w_acts w' = w_acts w /\ w_clk w' = w_clk w.
Proof.
  intros Hk HH Hq. assert (Hp : plain (k, e) = true) by (destruct k; try reflexivity; congruence).
  assert (Hx : is_exc (k, e) = false) by (destruct k; try reflexivity; congruence).
  unfold publish, bind, get_log. destruct (lg_async (w_logs w l)) eqn:Ha.
  - eexists. split; [unfold enqueue, mod_log; reflexivity|]. split; [|split; reflexivity].
    unfold published. rewrite Ha. cbn [filter]. rewrite Hp, Hx. split; [|split; [|split]].
    + cbn. rewrite app_nil_r. reflexivity.
    + cbn. rewrite upd_eq. rewrite <- (lastn_all QUEUE_LIMIT (lg_queue (w_logs w l))) at 1 by apply Hq.
      rewrite <- lastn_snoc by (unfold QUEUE_LIMIT; lia). destruct (bounded_append _ _ _). reflexivity.
    + intros l' Hl. cbn. rewrite upd_neq by exact Hl. reflexivity.
    + intro l'. cbn. unfold upd. destruct (Nat.eqb_spec l' l); [subst; destruct (bounded_append _ _ _)|]; split; reflexivity.
  - rewrite call_hooks_quiet by (intros; apply HQ). eexists. split; [reflexivity|]. split; [|split; reflexivity].
    unfold published. rewrite Ha. rewrite everyone_one. split; [|split; [|split]].
    + destruct (HH l) as [_ HH']. rewrite HH'. reflexivity.
    + rewrite app_nil_r, lastn_all by apply Hq. reflexivity.
    + reflexivity.
    + split; reflexivity.
Qed.

Lemma hooks_pubd l evs w w' : (forall l', lg_hooks (w_logs w' l') = lg_hooks (w_logs w l')) -> published cfg l evs w w' -> hooks_inv cfg w -> hooks_inv cfg w'.
Proof.
  intros H1 (_ & _ & _ & H2) H l'. specialize (H l'). destruct (H2 l') as [_ H3]. unfold listeners in *. rewrite H3, H1. exact H.
Qed.

Lemma text_opt m d : opt_msg m d = text m d.
Proof. destruct m as [[|c s]|]; reflexivity. Qed.
Lemma data_dm a s : dm_suffix a s = with_data a s.
Proof. unfold dm_suffix, with_data. destruct (a_data a); reflexivity. Qed.

Lemma changes_upd r a w w' : r < length (w_acts w) -> w_acts w' = list_set (w_acts w) r a -> only_changes r w w' /\ nth_error (w_acts w') r = Some a.
Proof.
  intros Hr H. split; [split|].
  - rewrite H. apply list_set_length.
  - intros r' Hn. rewrite H, nth_error_list_set_neq; auto.
  - rewrite H. apply nth_error_list_set_eq, Hr.
Qed.
Lemma changes_trans r w w1 w2 : only_changes r w w1 -> only_changes r w1 w2 -> only_changes r w w2.
Proof. intros [A1 A2] [B1 B2]. split; [congruence|]. intros r' H. rewrite B2, A2 by exact H. reflexivity. Qed.

Lemma chain_hooks_q (P : lbl -> Prop) w w' : chain cfg P w w' -> hooks_inv cfg w -> q_inv w -> hooks_inv cfg w' /\ q_inv w'.
Proof.
  intros HC H1 H2. split.
  - eapply (chain_inv cfg (hooks_inv cfg) P); [intros lb x y _; apply T_hooks|exact HC|exact H1].
  - eapply (chain_inv cfg q_inv P); [intros lb x y _; apply (T_q cfg)|exact HC|exact H2].
Qed.

Lemma warn_call r a m kw w : hooks_inv cfg w -> q_inv w -> nth_error (w_acts w) r = Some a ->
  exists e a', let w' := fst (warn cfg r m kw w) in
  snd (warn cfg r m kw w) = Ok tt /\ published cfg (a_log a) [(KWarn, e)] w w' /\ only_changes r w w' /\
  e_kind e = KWarn /\ e_act e = r /\ e_msg e = m /\ e_time e = cf_clock cfg (w_clk w) /\
  nth_error (w_acts w') r = Some a' /\ a_warns a' = a_warns a ++ [e].
Proof.
  intros HH Hq Ha. rewrite warn_eq, Ha. cbv zeta. set (e := mkEvent _ _ _ _ _ _ _). set (w1 := with_event _ _ _ _).
  destruct (publish_pubd (a_log a) KWarn e w1) as (w' & E & P & A & _); [discriminate|exact HH|exact Hq|].
  rewrite E. exists e, (a_set_warns (a_warns a ++ [e]) (kw_upd kw a)). cbn [fst snd].
  destruct (changes_upd r (a_set_warns (a_warns a ++ [e]) (kw_upd kw a)) w w' (nth_error_lt _ _ _ Ha) A) as [C1 C2].
  split; [reflexivity|]. split; [exact P|]. split; [exact C1|]. repeat split; auto.
Qed.

Lemma begin_call r a m kw w : hooks_inv cfg w -> q_inv w -> nth_error (w_acts w) r = Some a ->
  exists b a', let w' := fst (begin cfg r m kw w) in
  snd (begin cfg r m kw w) = Ok tt /\ published cfg (a_log a) (first_begin a b) w w' /\ only_changes r w w' /\
  match a_begin a with
  | Some b0 => b = b0
  | None => e_kind b = KBegin /\ e_act b = r /\ e_time b = cf_clock cfg (w_clk w) /\ e_msg b = text m (a_name a +s " beginning")
  end /\
  nth_error (w_acts w') r = Some a' /\ a_begin a' = Some b /\ a_trans a' = a_trans a /\ a_defer a' = a_defer a /\ a_log a' = a_log a /\
  a_end a' = a_end a /\ w_clk w' = (if a_begin a then w_clk w else S (w_clk w)).
Proof.
  intros HH Hq Ha. rewrite begin_eq, Ha. cbv zeta. unfold first_begin. destruct (a_begin a) as [b0|] eqn:Eb.
  - exists b0, (kw_upd kw a). cbn [fst snd]. destruct (changes_upd r (kw_upd kw a) w (act_upd r (kw_upd kw a) w) (nth_error_lt _ _ _ Ha) eq_refl) as [C1 C2].
    split; [reflexivity|]. split; [apply pub_nil; auto|]. split; [exact C1|]. split; [reflexivity|]. split; [exact C2|]. repeat split; auto.
  - set (e := mkEvent _ _ _ _ _ _ _). set (w1 := with_event _ _ _ _).
    destruct (publish_pubd (a_log a) KBegin e w1) as (w' & E & P & A & C); [discriminate|exact HH|exact Hq|].
    rewrite E. exists e, (a_set_begin (Some e) (kw_upd kw a)). cbn [fst snd].
    destruct (changes_upd r (a_set_begin (Some e) (kw_upd kw a)) w w' (nth_error_lt _ _ _ Ha) A) as [C1 C2].
    split; [reflexivity|]. split; [exact P|]. split; [exact C1|]. split; [repeat split; cbn; apply text_opt|].
    split; [exact C2|]. repeat split; auto.
Qed.

Lemma finish_call r a st m x t w : hooks_inv cfg w -> q_inv w -> nth_error (w_acts w) r = Some a ->
  exists e a', let w' := fst (finish_end cfg r st m x t w) in
  snd (finish_end cfg r st m x t w) = Ok tt /\
  published cfg (a_log a) (if a_defer a then [] else [(KEnd, e)]) w w' /\ only_changes r w w' /\
  e_kind e = KEnd /\ e_act e = r /\ e_msg e = m /\ e_time e = t /\ e_status e = Some st /\ e_exc e = x /\
  nth_error (w_acts w') r = Some a' /\ a_end a' = Some e /\ a_begin a' = a_begin a.
Proof.
  intros HH Hq Ha. unfold finish_end. rewrite Ha. cbv zeta. set (e := mkEvent _ _ _ _ _ _ _). set (w1 := with_event _ _ _ _).
  exists e, (a_set_end (Some e) a). destruct (a_defer a).
  - cbn [fst snd]. destruct (changes_upd r (a_set_end (Some e) a) w w1 (nth_error_lt _ _ _ Ha) eq_refl) as [C1 C2].
    split; [reflexivity|]. split; [apply pub_nil; auto|]. split; [exact C1|]. repeat split; auto.
  - destruct (publish_pubd (a_log a) KEnd e w1) as (w' & E & P & A & _); [discriminate|exact HH|exact Hq|].
    rewrite E. cbn [fst snd]. destruct (changes_upd r (a_set_end (Some e) a) w w' (nth_error_lt _ _ _ Ha) A) as [C1 C2].
    split; [reflexivity|]. split; [exact P|]. split; [exact C1|]. repeat split; auto.
Qed.

Definition pick_time (w : world) (et : option Z) : Z :=
  match et with Some t => if (t =? 0)%Z then cf_clock cfg (w_clk w) else t | None => cf_clock cfg (w_clk w) end.

Lemma end_call r a st m kw et x w : winv cfg w -> q_inv w -> nth_error (w_acts w) r = Some a ->
  exists b e a', let w' := fst (end_ cfg r st m kw et x w) in
  snd (end_ cfg r st m kw et x w) = Ok tt /\
  published cfg (a_log a) (first_begin a b ++ if a_defer a then [] else [(KEnd, e)]) w w' /\ only_changes r w w' /\
  begun cfg r a (cf_clock cfg (w_clk w)) b /\
  e_kind e = KEnd /\ e_act e = r /\ e_msg e = m /\ e_status e = Some st /\ e_exc e = x /\
  e_time e = (if a_trans a then pick_time w et else e_time b) /\
  nth_error (w_acts w') r = Some a' /\ a_begin a' = Some b /\ a_end a' = Some e.
Proof.
  intros HW Hq Ha. pose proof (wi_hooks _ _ HW) as HH. pose proof (nth_error_lt _ _ _ Ha) as Hlt.
  rewrite end_eq, Ha. cbv zeta. set (w0 := act_upd r (kw_upd kw a) w).
  assert (Ha0 : nth_error (w_acts w0) r = Some (kw_upd kw a)) by (apply act_upd_nth; exact Hlt).
  assert (C0 : only_changes r w w0) by (eapply changes_upd; [exact Hlt|reflexivity]).
  assert (Hfin : forall b t w1, a_begin a = Some b -> w_trace w1 = w_trace w -> w_logs w1 = w_logs w -> w_acts w1 = w_acts w0 ->
     exists e a', let w' := fst (finish_end cfg r st m x t w1) in
     snd (finish_end cfg r st m x t w1) = Ok tt /\
     published cfg (a_log a) (first_begin a b ++ if a_defer a then [] else [(KEnd, e)]) w w' /\ only_changes r w w' /\
     begun cfg r a (cf_clock cfg (w_clk w)) b /\
     e_kind e = KEnd /\ e_act e = r /\ e_msg e = m /\ e_status e = Some st /\ e_exc e = x /\
     e_time e = t /\ nth_error (w_acts w') r = Some a' /\ a_begin a' = Some b /\ a_end a' = Some e).
  { intros b t w1 Hb T1 L1 A1. rewrite <- A1 in Ha0.
    assert (HH1 : hooks_inv cfg w1) by (unfold hooks_inv, listeners in *; rewrite L1; exact HH).
    assert (Hq1 : q_inv w1) by (unfold q_inv in *; rewrite L1; exact Hq).
    destruct (finish_call r (kw_upd kw a) st m x t w1 HH1 Hq1 Ha0) as (e & a' & F1 & F2 & F3 & F4 & F5 & F6 & F7 & F8 & F9 & F10 & F11 & F12).
    exists e, a'. split; [exact F1|]. split; [|split; [|split; [unfold begun; rewrite Hb; reflexivity|]]].
    - unfold first_begin. rewrite Hb. cbn [app]. unfold published, everyone, listeners in F2 |- *. rewrite T1, L1 in F2. exact F2.
    - eapply changes_trans; [exact C0|]. unfold only_changes in F3 |- *. rewrite A1 in F3. exact F3.
    - repeat split; auto. rewrite F12. exact Hb. }
  destruct (a_trans a) eqn:Et.
  - destruct (a_begin a) as [b|] eqn:Eb.
    2:{ exfalso. destruct (wi_b _ _ HW _ _ Ha) as [_ HB]. exact (HB Et Eb). }
    exists b. destruct et as [t0|]; unfold pick_time; [destruct (Z.eqb t0 0)|]; apply Hfin; try reflexivity.
  - destruct (a_begin a) as [b|] eqn:Eb; [exists b; apply Hfin; reflexivity|].
    destruct (begin_call r (kw_upd kw a) None [] w0 HH Hq Ha0) as (b & a1 & B1 & B2 & B3 & B4 & B5 & B6 & B7 & B8 & B9 & B10 & B11).
    change (a_begin (kw_upd kw a)) with (a_begin a) in *. rewrite Eb in *.
    destruct (chain_hooks_q _ _ _ (begin_chain cfg r None [] w0) HH Hq) as [HH1 Hq1].
    destruct (begin cfg r None [] w0) as [w1 res]. cbn [fst snd] in *. subst res. rewrite B5, B6.
    destruct (finish_call r a1 st m x (e_time b) w1 HH1 Hq1 B5) as (e & a' & F1 & F2 & F3 & F4 & F5 & F6 & F7 & F8 & F9 & F10 & F11 & F12).
    exists b, e, a'. rewrite B9, B8 in F2. split; [exact F1|]. split; [eapply pub_trans; [|exact F2]|split; [|split]].
    + unfold first_begin in *. change (a_begin (kw_upd kw a)) with (a_begin a) in B2. rewrite Eb in *. exact B2.
    + eapply changes_trans; [exact C0|]. eapply changes_trans; eassumption.
    + unfold begun. rewrite Eb. exact B4.
    + repeat split; auto. congruence.
Qed.

Lemma conclude_call ok r a m kw w : winv cfg w -> q_inv w -> nth_error (w_acts w) r = Some a ->
  exists b e a', let w' := fst (conclude cfg ok r m kw w) in
  snd (conclude cfg ok r m kw w) = Ok tt /\
  published cfg (a_log a) (first_begin a b ++ if a_defer a then [] else [(KEnd, e)]) w w' /\ only_changes r w w' /\
  begun cfg r a (cf_clock cfg (w_clk w)) b /\
  e_kind e = KEnd /\ e_act e = r /\
  e_msg e = text m (with_data a (a_name a +s (if ok then " succeeded" else " failed"))) /\
  e_status e = Some (if ok then Success else Failure) /\ e_exc e = None /\
  e_time e = (if a_trans a then cf_clock cfg (w_clk w) else e_time b) /\
  nth_error (w_acts w') r = Some a' /\ a_begin a' = Some b /\ a_end a' = Some e.
Proof.
  intros HW Hq Ha. rewrite <- text_opt, <- data_dm.
  assert (E : conclude cfg ok r m kw w = end_ cfg r (if ok then Success else Failure)
     (opt_msg m (dm_suffix a (a_name a +s (if ok then " succeeded" else " failed")))) kw None None w).
  { unfold conclude, success, failure, bind, get_act. destruct ok; rewrite Ha; reflexivity. }
  rewrite E. exact (end_call r a _ _ kw None None w HW Hq Ha).
Qed.

Lemma exception_call r a ex d m kw w : winv cfg w -> q_inv w -> nth_error (w_acts w) r = Some a -> cf_describe cfg ex = Ok d ->
  exists x b e a', let w' := fst (exception_ cfg r (Some ex) m kw w) in
  snd (exception_ cfg r (Some ex) m kw w) = Ok tt /\
  published cfg (a_log a) ((KExc, x) :: first_begin a b ++ if a_defer a then [] else [(KEnd, e)]) w w' /\ only_changes r w w' /\
  begun cfg r a (cf_clock cfg (S (w_clk w))) b /\
  e_kind x = KExc /\ e_act x = r /\ e_time x = cf_clock cfg (w_clk w) /\ e_exc x = Some ex /\
  e_msg x = text m (with_data a (a_name a +s " raised exception: " +s d)) /\
  e_kind e = KEnd /\ e_act e = r /\ e_msg e = e_msg x /\ e_status e = Some Exception_ /\ e_exc e = Some ex /\
  e_time e = (if a_trans a then if (e_time x =? 0)%Z then cf_clock cfg (S (w_clk w)) else e_time x else e_time b) /\
  nth_error (w_acts w') r = Some a' /\ a_begin a' = Some b /\ a_end a' = Some e.
Proof.
  intros HW Hq Ha Hd. pose proof (wi_hooks _ _ HW) as HH. rewrite exception_eq, Ha. cbv zeta. unfold exc_msg.
  assert (Em : (if String.eqb (opt_msg m "") "" then match cf_describe cfg ex with
      | Ok d => Ok (dm_suffix a (a_name a +s " raised exception: " +s d)) | Raise y => Raise y end else Ok (opt_msg m ""))
      = Ok (text m (with_data a (a_name a +s " raised exception: " +s d)))).
  { rewrite Hd, data_dm, text_opt. destruct m as [[|c s]|]; reflexivity. }
  rewrite Em. set (x := mkEvent _ _ _ _ _ _ _). set (w1 := with_event _ _ _ _).
  rewrite call_hooks_quiet by (intros; apply HQ). set (w2 := add_trace _ _).
  assert (A1 : nth_error (w_acts w1) r = Some (a_set_excs (a_excs a ++ [x]) a)) by (apply act_upd_nth; eapply nth_error_lt; exact Ha).
  assert (P1 : published cfg (a_log a) [(KExc, x)] w w2).
  { unfold published, w2. destruct (HH (a_log a)) as [_ HL]. specialize (HL KExc). cbn [lg_hooks] in HL.
    split; [|split; [|split; [reflexivity|split; reflexivity]]].
    - cbn [w_trace add_trace set_trace]. rewrite HL. unfold deliveries.
      change (is_exc (KExc, x)) with true. replace (if lg_async (w_logs w (a_log a)) then filter is_exc [(KExc, x)] else [(KExc, x)]) with [(KExc, x)]
        by (destruct (lg_async (w_logs w (a_log a))); reflexivity). rewrite everyone_one. reflexivity.
    - replace (if lg_async (w_logs w (a_log a)) then filter plain [(KExc, x)] else []) with (@nil (kind * event))
        by (destruct (lg_async (w_logs w (a_log a))); reflexivity). rewrite app_nil_r, lastn_all by apply Hq. reflexivity. }
  assert (HW2 : winv cfg w2).
  { eapply chain_winv; [|exact HW]. eapply chain_one with (lb := LOther) (P := Pother); [reflexivity|].
    eapply T_exc with (rest := []); [exact Ha|reflexivity|]. rewrite app_nil_r. reflexivity. }
  assert (Hq2 : q_inv w2) by exact Hq.
  destruct (end_call r (a_set_excs (a_excs a ++ [x]) a) Exception_ (text m (with_data a (a_name a +s " raised exception: " +s d))) kw
      (Some (cf_clock cfg (w_clk w))) (Some ex) w2 HW2 Hq2 A1) as (b & e & a' & E1 & E2 & E3 & E4 & E5 & E6 & E7 & E8 & E9 & E10 & E11 & E12 & E13).
  exists x, b, e, a'. split; [exact E1|]. split; [exact (pub_trans _ _ _ _ _ _ P1 E2)|]. split; [|split; [exact E4|]].
  { eapply changes_trans; [|exact E3]. eapply changes_upd; [eapply nth_error_lt; exact Ha|reflexivity]. }
  repeat split; auto.
Qed.

Lemma comment_call l m kw p w : hooks_inv cfg w -> q_inv w ->
  exists c b e, let w' := fst (comment cfg l m kw p w) in
  let r := length (w_acts w) in let t := cf_clock cfg (w_clk w) in
  snd (comment cfg l m kw p w) = Ok tt /\ published cfg l [(KComment, c)] w w' /\
  w_acts w' = w_acts w ++ [mkAction (w_ctr w) l 90 "_comment" kw (Some true) (match p with Some q => Some q | None => w_active w l end)
                             (Some b) (Some e) [] [] false false] /\
  e_kind c = KComment /\ e_act c = r /\ e_msg c = m /\ e_time c = t /\
  e_kind b = KBegin /\ e_act b = r /\ e_time b = t /\
  e_kind e = KEnd /\ e_act e = r /\ e_time e = t /\ e_status e = Some Success.
Proof.
  intros HH Hq. rewrite comment_eq. set (p' := match p with Some q => Some q | None => w_active w l end).
  destruct (publish_pubd l KComment (cc cfg (length (w_acts w)) w m) (comment_world cfg l kw p' m w)) as (w' & E & P & A & _); [discriminate|exact HH|exact Hq|].
  rewrite E. exists (cc cfg (length (w_acts w)) w m), (cb cfg (length (w_acts w)) w m), (ce cfg (length (w_acts w)) w m). cbn [fst snd].
  split; [reflexivity|]. split; [exact P|]. split; [exact A|]. repeat split; reflexivity.
Qed.
End S.
