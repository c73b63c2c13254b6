From Verif Require Import model.PyBase model.Core spec.CoreSpec spec.CallSpec
  proof.CoreLib proof.CoreTrans proof.CoreEval proof.CoreInv proof.CoreWith proof.CoreDispatch proof.CoreBlock proof.CoreBlock2
  proof.CoreHist proof.CallProofs.

(** ** C71: the action's record of its events *)
Lemma events_app r k h1 h2 : events_of r k (h1 ++ h2) = events_of r k h1 ++ events_of r k h2.
Proof. apply flat_map_app. Qed.
Lemma last_of_snoc {A} (l : list A) x : last_of (l ++ [x]) = Some x.
Proof. induction l as [|y l IH]; [reflexivity|]. cbn [app]. destruct l; [reflexivity|]. exact IH. Qed.

Definition rec_ok (r : nat) (oa : option action) (h : list hist) : Prop :=
  match oa with
  | None => forall k, events_of r k h = []
  | Some a => a_warns a = events_of r KWarn h /\ a_excs a = events_of r KExc h /\
              events_of r KBegin h = (match a_begin a with Some b => [b] | None => [] end) /\
              a_end a = last_of (events_of r KEnd h)
  end.
Definition rec_inv (w : world) : Prop := forall r, rec_ok r (nth_error (w_acts w) r) (w_hist w).

Section S.
Variable cfg : config.

Lemma T_rec lb w w' : T cfg lb w w' -> rec_inv w -> rec_inv w'.
Proof.
  intros HT HR.
  assert (Hquiet : forall h, w_hist w' = w_hist w ++ h -> (forall r k, events_of r k h = []) -> forall r oa, rec_ok r oa (w_hist w) -> rec_ok r oa (w_hist w')).
  { intros h Hh Hq r [a|] H; unfold rec_ok in *; rewrite Hh.
    - rewrite !events_app, !Hq, !app_nil_r. exact H.
    - intro k. rewrite events_app, Hq, H. reflexivity. }
  assert (Hsame : forall h, w_hist w' = w_hist w ++ h -> (forall r k, events_of r k h = []) -> w_acts w' = w_acts w -> rec_inv w').
  { intros h Hh Hq He r. rewrite He. eapply Hquiet; eauto. }
  assert (Hupd : forall h r0 a0 a1, w_hist w' = w_hist w ++ h -> (forall r k, r <> r0 -> events_of r k h = []) ->
     w_acts w' = list_set (w_acts w) r0 a1 -> nth_error (w_acts w) r0 = Some a0 ->
     (rec_ok r0 (Some a0) (w_hist w) -> rec_ok r0 (Some a1) (w_hist w ++ h)) -> rec_inv w').
  { intros h r0 a0 a1 Hh Hq He H0 Hs r. rewrite He, Hh, nth_error_list_set. destruct (Nat.eqb_spec r0 r) as [<-|Hn].
    - specialize (HR r0). rewrite H0 in HR |- *. apply Hs. exact HR.
    - specialize (HR r). destruct (nth_error (w_acts w) r); unfold rec_ok in *; [rewrite !events_app, !Hq, !app_nil_r by congruence; exact HR|].
      intro k. rewrite events_app, Hq, HR by congruence. reflexivity. }
  assert (Hsn : forall h a1, w_hist w' = w_hist w ++ h -> (forall r k, r <> length (w_acts w) -> events_of r k h = []) -> w_acts w' = w_acts w ++ [a1] ->
     rec_ok (length (w_acts w)) (Some a1) h -> rec_inv w').
  { intros h a1 Hh Hq He H1 r. rewrite He, Hh, nth_error_snoc. destruct (Nat.eqb_spec r (length (w_acts w))) as [->|Hn].
    - pose proof (HR (length (w_acts w))) as HR'. rewrite (proj2 (nth_error_None _ _) (le_n _)) in HR'. unfold rec_ok in *.
      rewrite !events_app, !HR'. exact H1.
    - specialize (HR r). destruct (nth_error (w_acts w) r); unfold rec_ok in *; [rewrite !events_app, !Hq, !app_nil_r by congruence; exact HR|].
      intro k. rewrite events_app, Hq, HR by congruence. reflexivity. }
  assert (Hne : forall r0 e, e_act e = r0 -> forall r k, r <> r0 -> events_of r k [HEvent e] = []).
  { intros r0 e He r k Hr. cbn. rewrite (proj2 (Nat.eqb_neq (e_act e) r)) by congruence. reflexivity. }
  assert (Hnil : forall (r0 : nat) (r : nat) (k : kind), r <> r0 -> events_of r k [] = []) by reflexivity.
  assert (Hev : forall r k e, events_of r k [HEvent e] = if Nat.eqb (e_act e) r && kind_eqb (e_kind e) k then [e] else []) by (intros; cbn; apply app_nil_r).
  destruct HT;
    try (apply (Hsame []); [pubrw; cbn; rewrite ?app_nil_r; reflexivity | reflexivity | pubrw; reflexivity]; fail);
    try (apply (Hsame [HCall r st]); [reflexivity | reflexivity | reflexivity]; fail);
    try (eapply (Hupd []); [cbn; rewrite app_nil_r; reflexivity | apply Hnil | reflexivity | eassumption | rewrite app_nil_r; intro Hx; exact Hx]; fail).
  - eapply (Hupd [HEvent e] r); [pubrw; reflexivity | apply Hne; subst e; reflexivity | pubrw; reflexivity | eassumption |].
    intros (H2' & H3 & H4 & H5). unfold rec_ok. rewrite !events_app, !Hev. subst e. cbn. rewrite Nat.eqb_refl, ?H0 in *. cbn.
    rewrite !app_nil_r. rewrite H4. auto.
  - eapply (Hupd [HEvent e]) with (r0 := r) (a1 := a_set_begin (Some e) (a_set_defer true (a_set_trans true a)));
      [pubrw; reflexivity | apply Hne; subst e; reflexivity | pubrw | eassumption |].
    { unfold with_event, act_upd, tick, flag_enter, act_upd; simpl. apply list_set_list_set. }
    intros (H2' & H3 & H4 & H5). unfold rec_ok. rewrite !events_app, !Hev. subst e. cbn. rewrite Nat.eqb_refl, ?H0 in *. cbn.
    rewrite !app_nil_r. rewrite H4. auto.
  - eapply (Hupd [HEvent e] r); [pubrw; reflexivity | apply Hne; subst e; reflexivity | pubrw; reflexivity | eassumption |].
    intros (H2' & H3 & H4 & H5). unfold rec_ok. rewrite !events_app, !Hev. subst e. cbn. rewrite Nat.eqb_refl. cbn.
    rewrite !app_nil_r, H2'. auto.
  - eapply (Hupd [HEvent e] r); [reflexivity | apply Hne; subst e; reflexivity | reflexivity | eassumption |].
    intros (H2' & H3 & H4 & H5). unfold rec_ok. rewrite !events_app, !Hev. subst e. cbn. rewrite Nat.eqb_refl. cbn.
    rewrite !app_nil_r, H3. auto.
  - eapply (Hupd [HEvent e] r); [reflexivity | apply Hne; subst e; reflexivity | reflexivity | eassumption |].
    intros (H2' & H3 & H4 & H5). unfold rec_ok. rewrite !events_app, !Hev. subst e. cbn. rewrite Nat.eqb_refl. cbn.
    rewrite !app_nil_r, last_of_snoc. auto.
  - eapply (Hsn [HAction (length (w_acts w)) (w_ctr w)]); [reflexivity | reflexivity | reflexivity |]. repeat split.
  - eapply (Hsn [HAction (length (w_acts w)) (w_ctr w); HEvent (cb cfg (length (w_acts w)) w m); HEvent (ce cfg (length (w_acts w)) w m); HEvent (cc cfg (length (w_acts w)) w m)]);
      [pubrw; reflexivity | | pubrw; reflexivity |].
    + intros r k Hr. cbn. rewrite (proj2 (Nat.eqb_neq (length (w_acts w)) r)) by congruence. reflexivity.
    + unfold rec_ok. cbn. rewrite Nat.eqb_refl. repeat split.
Qed.

Lemma reach_rec w : reach cfg w -> rec_inv w.
Proof.
  induction 1.
  - intros [|r] k; reflexivity.
  - eapply (chain_inv cfg rec_inv Pany); [intros lb w1 w2 _; apply T_rec | apply step_chain, (reach_winv cfg); auto | auto].
  - eapply (chain_inv cfg rec_inv Pany); [intros lb w1 w2 _; apply T_rec | apply eval_chain, (reach_winv cfg); auto | auto].
  - eapply T_rec; [|exact IHreach]. eapply T_env; auto.
Qed.

Lemma record_of w r a : reach cfg w -> nth_error (w_acts w) r = Some a ->
  a_warns a = events_of r KWarn (w_hist w) /\ a_excs a = events_of r KExc (w_hist w) /\
  events_of r KBegin (w_hist w) = (match a_begin a with Some b => [b] | None => [] end) /\
  a_end a = last_of (events_of r KEnd (w_hist w)).
Proof. intros HR Ha. pose proof (reach_rec w HR r) as H. rewrite Ha in H. exact H. Qed.

(** ** C72: preflush hooks *)
Lemma preflush_calls_app a b : preflush_calls (a ++ b) = preflush_calls a ++ preflush_calls b.
Proof. apply flat_map_app. Qed.

Lemma preflush_all l : (forall t m, cf_note cfg t m = None) ->
  forall hs w, (forall t h x, In h hs -> cf_pre cfg t l h = Some x -> exn_ord x = true) ->
  exists n, run_preflush cfg l hs w = (add_trace n w, Ok tt) /\ handed n = [] /\
    preflush_calls n = map (pair l) hs /\ (forall m q, n <> ONote m :: q) /\
    (forall p h q, n = p ++ OPre l h :: q ->
       match cf_pre cfg (w_trace w ++ p) l h with
       | Some _ => exists q', q = ONote "preflush" :: q'
       | None => forall m q', q <> ONote m :: q'
       end).
Proof.
  intros HN hs. induction hs as [|h hs IH]; intros w HP.
  - exists []. split; [rewrite add_trace_nil; reflexivity|]. split; [reflexivity|]. split; [reflexivity|]. split; [discriminate|]. intros [|? ?] h q E; discriminate.
  - assert (HP' : forall t h x, In h hs -> cf_pre cfg t l h = Some x -> exn_ord x = true) by (intros; eapply HP; [right|]; eauto).
    cbn [run_preflush]. destruct (cf_pre cfg (w_trace w) l h) as [x|] eqn:Hp.
    + rewrite (HP _ _ _ (or_introl eq_refl) Hp). unfold bind, note. rewrite HN.
      set (w1 := set_trace _ (set_trace _ w)). destruct (IH w1 HP') as (n & H1 & H2 & H3 & H5 & H4). rewrite H1.
      exists ([OPre l h; ONote "preflush"] ++ n). split; [|split; [|split; [|split]]].
      * f_equal. unfold add_trace, w1, set_trace; cbn. rewrite <- !app_assoc. reflexivity.
      * exact H2.
      * rewrite preflush_calls_app, H3. reflexivity.
      * intros m q. discriminate.
      * intros p h' q E. destruct p as [|o1 p].
        { cbn in E. injection E as <- E. rewrite app_nil_r, Hp. exists n. symmetry. exact E. }
        destruct p as [|o2 p]; [discriminate|]. injection E as <- <- E.
        replace (w_trace w ++ OPre l h :: ONote "preflush" :: p) with (w_trace w1 ++ p).
        2:{ unfold w1, set_trace; cbn. rewrite <- !app_assoc. reflexivity. }
        apply (H4 p h' q E).
    + set (w1 := set_trace _ w). destruct (IH w1 HP') as (n & H1 & H2 & H3 & H5 & H4). rewrite H1.
      exists ([OPre l h] ++ n). split; [|split; [|split; [|split]]].
      * f_equal. unfold add_trace, w1, set_trace; cbn. rewrite <- !app_assoc. reflexivity.
      * exact H2.
      * rewrite preflush_calls_app, H3. reflexivity.
      * intros m q. discriminate.
      * intros p h' q E. destruct p as [|o1 p].
        { cbn in E. injection E as <- E. rewrite app_nil_r, Hp. intros m q' Eq. rewrite Eq in E.
          exact (H5 m q' E). }
        injection E as <- E.
        replace (w_trace w ++ OPre l h :: p) with (w_trace w1 ++ p).
        2:{ unfold w1, set_trace; cbn. rewrite <- !app_assoc. reflexivity. }
        apply (H4 p h' q E).
Qed.

Lemma call_hooks_frame l k e hs : forall w, exists n, w_trace (fst (call_hooks cfg l k e hs w)) = w_trace w ++ n /\ preflush_calls n = [] /\
  w_clk (fst (call_hooks cfg l k e hs w)) = w_clk w /\ w_logs (fst (call_hooks cfg l k e hs w)) = w_logs w.
Proof.
  intro w. destruct (call_hooks_spec cfg l k e hs w) as (d & rest & _ & H & _). rewrite H. exists (deliveries l k e d).
  split; [reflexivity|]. split; [|split; reflexivity]. unfold deliveries. clear. induction d; cbn; auto.
Qed.
Lemma flush_queue_frame l q : forall w, exists n, w_trace (fst (flush_queue cfg l q w)) = w_trace w ++ n /\ preflush_calls n = [] /\
  w_clk (fst (flush_queue cfg l q w)) = w_clk w /\
  (forall l', lg_last (w_logs (fst (flush_queue cfg l q w)) l') = lg_last (w_logs w l')).
Proof.
  induction q as [|[k e] q IH]; intro w.
  - exists []. rewrite app_nil_r. repeat split; reflexivity.
  - set (w1 := set_logs (upd (w_logs w) l (lg_set_queue q (w_logs w l))) w).
    assert (L1 : forall l', lg_last (w_logs w1 l') = lg_last (w_logs w l')) by (intro l'; cbn; unfold upd; destruct (Nat.eqb_spec l' l); subst; reflexivity).
    set (g := w_logs w1 l).
    set (disp := match k with
                 | KBegin => call_hooks cfg l KBegin e (lg_bh g)
                 | KEnd => call_hooks cfg l KEnd e (lg_eh g)
                 | KWarn => call_hooks cfg l KWarn e (lg_wh g)
                 | KComment => call_hooks cfg l KComment e (lg_ch g)
                 | KExc => note cfg "flush"
                 end).
    assert (EQ : flush_queue cfg l ((k, e) :: q) w =
      match disp w1 with (w2, Ok _) => flush_queue cfg l q w2 | (w2, Raise x) => (w2, Raise x) end) by reflexivity.
    rewrite EQ.
    assert (HD : exists n, w_trace (fst (disp w1)) = w_trace w1 ++ n /\ preflush_calls n = [] /\ w_clk (fst (disp w1)) = w_clk w1 /\ w_logs (fst (disp w1)) = w_logs w1).
    { unfold disp. destruct k; try apply call_hooks_frame. unfold note. exists [ONote "flush"]. destruct (cf_note cfg _ _); repeat split; reflexivity. }
    destruct HD as (n1 & D1 & D2 & D3 & D4). destruct (disp w1) as [w2 [u|x]]; cbn [fst] in *.
    + destruct (IH w2) as (n2 & F1 & F2 & F3 & F4). exists (n1 ++ n2). rewrite F1, D1, F3, D3, preflush_calls_app, D2, F2, app_assoc.
      repeat split; try reflexivity. intro l'. rewrite F4, D4. apply L1.
    + exists n1. rewrite D1, D2, D3, D4. repeat split; auto.
Qed.

Lemma flush_call l w : (forall t m, cf_note cfg t m = None) ->
  (forall t h x, In h (lg_pre (w_logs w l)) -> cf_pre cfg t l h = Some x -> exn_ord x = true) ->
  exists pre rest, let w' := fst (flush cfg l w) in
  w_trace w' = w_trace w ++ pre ++ rest /\ handed pre = [] /\ preflush_calls rest = [] /\
  preflush_calls pre = map (pair l) (lg_pre (w_logs w l)) /\
  (forall p h q, pre = p ++ OPre l h :: q ->
     match cf_pre cfg (w_trace w ++ p) l h with
     | Some _ => exists q', q = ONote "preflush" :: q'
     | None => forall m q', q <> ONote m :: q'
     end) /\
  lg_last (w_logs w' l) = (match snd (flush cfg l w) with Ok _ => cf_clock cfg (w_clk w) | Raise _ => lg_last (w_logs w l) end) /\
  (forall l', l' <> l -> lg_last (w_logs w' l') = lg_last (w_logs w l')).
Proof.
  intros HN HP. rewrite flush_eq. destruct (preflush_all l HN _ w HP) as (pre & H1 & H2 & H3 & _ & H4). rewrite H1.
  set (w1 := add_trace pre w). destruct (flush_queue_frame l (lg_queue (w_logs w1 l)) w1) as (rest & F1 & F2 & F3 & F4).
  exists pre, rest. destruct (flush_queue cfg l (lg_queue (w_logs w1 l)) w1) as [w2 [u|x]]; cbn [fst snd] in *.
  - split; [cbn; rewrite F1; cbn; rewrite <- app_assoc; reflexivity|]. split; [exact H2|]. split; [exact F2|]. split; [exact H3|]. split; [exact H4|]. split.
    + cbn. rewrite upd_eq. cbn. rewrite F3. reflexivity.
    + intros l' Hl. cbn. rewrite upd_neq by exact Hl. rewrite F4. reflexivity.
  - split; [rewrite F1; cbn; rewrite <- app_assoc; reflexivity|]. split; [exact H2|]. split; [exact F2|]. split; [exact H3|]. split; [exact H4|]. split; [rewrite F4; reflexivity|].
    intros l' Hl. rewrite F4. reflexivity.
Qed.

(** ** C73: elapsed time, and C07: durations *)
Lemma do_cmd_chain c w : winv cfg w -> chain cfg Pany w (fst (do_cmd cfg c w)).
Proof. intro HW. destruct c; [apply step_chain, HW | apply eval_chain, HW]. Qed.
Lemma cmds_chain cs : forall w, winv cfg w -> chain cfg Pany w (run_cmds cfg cs w).
Proof.
  induction cs as [|c cs IH]; intros w HW; cbn [run_cmds]; [constructor|].
  pose proof (do_cmd_chain c w HW) as HC. eapply chain_trans; [exact HC|]. apply IH. eapply chain_winv; eauto.
Qed.
Lemma chain_begin_keep P w w' r a b : chain cfg P w w' -> nth_error (w_acts w) r = Some a -> a_begin a = Some b ->
  exists a', nth_error (w_acts w') r = Some a' /\ a_begin a' = Some b.
Proof.
  intro HC. revert a. induction HC as [w|lb w w1 w2 HP HT HC IH]; intros a Ha Hb; [eauto|].
  destruct (T_begin_keep cfg _ _ _ _ _ _ HT Ha Hb) as (a1 & Ha1 & Hb1 & _). eapply IH; eauto.
Qed.

Lemma elapsed_call cs r a m kw w : (forall k, hook_quiet cfg k) -> winv cfg w -> q_inv w ->
  nth_error (w_acts w) r = Some a -> a_begin a = None ->
  snd (get_elapsed_time cfg r w) = Ok 0%Z /\
  let w2 := run_cmds cfg cs (fst (begin cfg r m kw w)) in
  snd (get_elapsed_time cfg r w2) = Ok (cf_clock cfg (w_clk w2) - cf_clock cfg (w_clk w))%Z.
Proof.
  intros HQ HW Hq Ha Hb. split; [unfold get_elapsed_time, bind, get_act; rewrite Ha, Hb; reflexivity|].
  destruct (begin_call cfg HQ r a m kw w (wi_hooks _ _ HW) Hq Ha) as (b & a1 & B1 & B2 & B3 & B4 & B5 & B6 & _). rewrite Hb in B4.
  assert (HW1 : winv cfg (fst (begin cfg r m kw w))) by (eapply chain_winv; [apply begin_chain|exact HW]).
  destruct (chain_begin_keep _ _ _ _ _ _ (cmds_chain cs _ HW1) B5 B6) as (a2 & A2 & A3).
  cbv zeta. unfold get_elapsed_time, bind, get_act. rewrite A2, A3. cbn. destruct B4 as (_ & _ & -> & _). reflexivity.
Qed.

Lemma exit_end r a x w : (forall k, hook_quiet cfg k) -> winv cfg w -> q_inv w ->
  (forall y, exists d, cf_describe cfg y = Ok d) ->
  nth_error (w_acts w) r = Some a -> a_trans a = true -> (x = None -> a_end a = None) ->
  exists b e a', nth_error (w_acts (fst (exit_ cfg r x w))) r = Some a' /\ a_begin a = Some b /\ a_begin a' = Some b /\ a_end a' = Some e /\
    e_time e = (if (match x with Some _ => (cf_clock cfg (w_clk w) =? 0)%Z | None => false end) then cf_clock cfg (S (w_clk w)) else cf_clock cfg (w_clk w)).
Proof.
  intros HQ HW Hq HD Ha Ht He. pose proof (nth_error_lt _ _ _ Ha) as Hlt.
  unfold exit_. unfold bind at 1, mod_act at 1. rewrite Ha.
  change (set_acts (list_set (w_acts w) r (a_set_defer false a)) w) with (act_upd r (a_set_defer false a) w).
  set (w0 := act_upd r (a_set_defer false a) w).
  assert (A0 : nth_error (w_acts w0) r = Some (a_set_defer false a)) by (apply act_upd_nth; exact Hlt).
  assert (HW0 : winv cfg w0).
  { eapply chain_winv; [|exact HW]. eapply chain_one with (P := Pany); [exact I|]. apply T_undefer. exact Ha. }
  assert (Hq0 : q_inv w0) by exact Hq.
  destruct (a_begin a) as [b0|] eqn:Eb.
  2:{ exfalso. destruct (wi_b _ _ HW _ _ Ha) as [_ HB]. exact (HB Ht Eb). }
  destruct x as [ex|].
  - destruct (HD ex) as [d Hd].
    destruct (exception_call cfg HQ r (a_set_defer false a) ex d None [] w0 HW0 Hq0 A0 Hd)
      as (x & b & e & a' & E1 & _ & _ & E4 & _ & _ & E7 & _ & _ & _ & _ & _ & _ & _ & E15 & E16 & E17 & E18).
    unfold bind. destruct (exception_ cfg r (Some ex) None [] w0) as [w1 res]. cbn [fst snd] in *. subst res.
    unfold get_act, set_active_parent. rewrite E16. cbn. exists b, e, a'. split; [exact E16|].
    unfold begun in E4. cbn [a_begin a_set_defer] in E4. change (a_begin (a_set_defer false a)) with (a_begin a) in E4. rewrite Eb in E4. subst b.
    repeat split; auto. rewrite E15. change (a_trans (a_set_defer false a)) with (a_trans a). rewrite Ht, E7. reflexivity.
  - unfold bind. unfold get_act at 1. rewrite A0. change (a_end (a_set_defer false a)) with (a_end a). rewrite (He eq_refl).
    destruct (conclude_call cfg HQ true r (a_set_defer false a) None [] w0 HW0 Hq0 A0)
      as (b & e & a' & E1 & _ & _ & E4 & _ & _ & _ & _ & _ & E10 & E11 & E12 & E13). cbn [conclude] in *.
    destruct (success cfg r None [] w0) as [w1 res]. cbn [fst snd] in *. subst res.
    unfold get_act, set_active_parent. rewrite E11. cbn. exists b, e, a'. split; [exact E11|].
    unfold begun in E4. change (a_begin (a_set_defer false a)) with (a_begin a) in E4. rewrite Eb in E4. subst b.
    repeat split; auto. rewrite E10. change (a_trans (a_set_defer false a)) with (a_trans a). rewrite Ht. reflexivity.
Qed.

Lemma block_duration r a cs x w : (forall k, hook_quiet cfg k) -> (forall y, exists d, cf_describe cfg y = Ok d) ->
  winv cfg w -> q_inv w -> nth_error (w_acts w) r = Some a -> a_begin a = None ->
  let w2 := run_cmds cfg cs (fst (enter cfg r w)) in
  (x = None -> forall a2, nth_error (w_acts w2) r = Some a2 -> a_end a2 = None) ->
  (x <> None -> cf_clock cfg (w_clk w2) <> 0%Z) ->
  get_duration (fst (exit_ cfg r x w2)) r = (cf_clock cfg (w_clk w2) - cf_clock cfg (w_clk w))%Z.
Proof.
  intros HQ HD HW Hq Ha Hb w2 He Hc. pose proof (nth_error_lt _ _ _ Ha) as Hlt.
  assert (C1 : chain cfg Pany w (fst (enter cfg r w))) by (eapply chain_weaken; [|apply enter_chain]; auto; intros; exact I).
  assert (HW1 : winv cfg (fst (enter cfg r w))) by (eapply chain_winv; eauto).
  assert (C2 : chain cfg Pany (fst (enter cfg r w)) w2) by (apply cmds_chain; exact HW1).
  assert (HW2 : winv cfg w2) by (eapply chain_winv; eauto).
  assert (Hq2 : q_inv w2).
  { eapply (chain_inv cfg q_inv Pany); [intros lb y z _; apply (T_q cfg)|exact (chain_trans _ _ _ _ _ C1 C2)|exact Hq]. }
  assert (HA1 : exists a1 b1, nth_error (w_acts (fst (enter cfg r w))) r = Some a1 /\ a_begin a1 = Some b1 /\ a_trans a1 = true /\ e_time b1 = cf_clock cfg (w_clk w)).
  { rewrite enter_eq, Ha. pose proof (flag_enter_nth r a w Hlt) as A0.
    destruct (begin_call cfg HQ r _ None [] (flag_enter r a w) (wi_hooks _ _ HW) Hq A0) as (b & a1 & B1 & B2 & B3 & B4 & B5 & B6 & B7 & _).
    exists a1, b. change (a_begin (a_set_defer true (a_set_trans true a))) with (a_begin a) in B4. rewrite Hb in B4. destruct B4 as (_ & _ & B4 & _).
    split; [exact B5|]. split; [exact B6|]. split; [exact B7|]. exact B4. }
  destruct HA1 as (a1 & b1 & A1 & Hb1 & Ht1 & Htm).
  destruct (chain_begin_keep _ _ _ _ _ _ C2 A1 Hb1) as (a2 & A2 & Hb2).
  assert (Ht2 : a_trans a2 = true).
  { destruct (chain_trans_keep cfg _ _ _ r a1 C2 A1 Ht1) as (a2' & A2' & _ & HT). congruence. }
  destruct (exit_end r a2 x w2 HQ HW2 Hq2 HD A2 Ht2 ltac:(intro E; eapply He; eauto)) as (b & e & a' & X1 & X2 & X3 & X4 & X5).
  unfold get_duration. rewrite X1. unfold duration. rewrite X3, X4, X5. assert (b = b1) by congruence. subst b. rewrite Htm.
  destruct x as [ex|]; [|reflexivity]. rewrite (proj2 (Z.eqb_neq _ _) (Hc ltac:(discriminate))). reflexivity.
Qed.
End S.
