(** DevDebugSink: C92. *)
From Verif Require Import model.PyBase model.Core model.DevDebug spec.CoreSpec spec.DevDebugSpec
  proof.CoreLib proof.CoreTrans proof.CoreEval proof.CoreInv proof.CoreWith proof.CoreBlock proof.CoreBlock2.
Open Scope nat_scope.

Lemma matches_covers isa arg x : dbg_matches isa arg x = true <-> covers isa arg x.
Proof.
  destruct arg; cbn; [split; [discriminate|intros []]|reflexivity|].
  rewrite existsb_exists. reflexivity.
Qed.

Section Debug.
Variable isa : exn -> nat -> bool.
Variable cfg : config.
Variable d : nat.
Variable arg : dbg_arg.
Hypothesis HD : is_debug_sink isa cfg d arg.
Hypothesis HQ : all_quiet (silenced cfg d).

Lemma quiet_not_exc k : k <> KExc -> hook_quiet cfg k.
Proof. intros Hk t l s e. pose proof (proj1 HQ k t l s e) as H. cbn in H. destruct k; try exact H. congruence. Qed.
Lemma quiet_others t l s e : s <> d -> cf_sink cfg t l KExc s e = None.
Proof. intros Hs. pose proof (proj1 HQ KExc t l s e) as H. cbn in H. apply Nat.eqb_neq in Hs. rewrite Hs in H. exact H. Qed.
Lemma quiet_note t m : cf_note cfg t m = None.
Proof. apply HQ. Qed.
Lemma quiet_describe x : exists m, cf_describe cfg x = Ok m.
Proof. apply (proj2 (proj2 (proj2 HQ)) x). Qed.

Lemma hooks_before l e before w : ~ In d before ->
  call_hooks cfg l KExc e before w = (add_trace (deliveries l KExc e before) w, Ok tt).
Proof.
  revert w. induction before as [|s before IH]; intros w Hn; cbn [call_hooks].
  - unfold ret, add_trace, deliveries. cbn. rewrite app_nil_r. destruct w; reflexivity.
  - unfold bind, call_hook. rewrite quiet_others by (intros ->; apply Hn; left; reflexivity).
    rewrite IH by (intro; apply Hn; right; assumption). f_equal. unfold add_trace, deliveries. cbn. rewrite <- app_assoc. reflexivity.
Qed.
Lemma call_hooks_app l k e a b w : call_hooks cfg l k e (a ++ b) w =
  match call_hooks cfg l k e a w with (w1, Ok _) => call_hooks cfg l k e b w1 | p => p end.
Proof.
  revert w. induction a as [|s a IH]; intro w; [reflexivity|]. cbn [app call_hooks]. unfold bind. destruct (call_hook cfg l k e s w) as [w1 [u|x]]; [apply IH|reflexivity].
Qed.
Lemma hooks_stop l e ex before after w : ~ In d before -> e_exc e = Some ex -> covers isa arg ex ->
  call_hooks cfg l KExc e (before ++ d :: after) w = (add_trace (deliveries l KExc e (before ++ [d])) w, Raise ex).
Proof.
  intros Hn He Hc. rewrite call_hooks_app, hooks_before by exact Hn. cbn [call_hooks]. unfold bind, call_hook.
  rewrite (proj2 HD). unfold dbg_on_exception. rewrite He. apply matches_covers in Hc. rewrite Hc. f_equal.
  unfold add_trace, deliveries. cbn. rewrite map_app, <- app_assoc. reflexivity.
Qed.

(** The call to exception() itself. *)
Lemma exception_stops0 r ex m kw w a before after : hooks_inv cfg w -> nth_error (w_acts w) r = Some a ->
  listeners cfg w (a_log a) KExc = before ++ d :: after -> covers isa arg ex ->
  exists e, e_kind e = KExc /\ e_act e = r /\ e_exc e = Some ex /\
  exception_ cfg r (Some ex) m kw w =
    (add_trace (deliveries (a_log a) KExc e (before ++ [d])) (with_event r (a_set_excs (a_excs a ++ [e]) a) e (tick w)), Raise ex).
Proof.
  intros HW Ha HL Hc. rewrite exception_eq, Ha. cbv zeta.
  assert (HM : exists m', exc_msg cfg a ex m = Ok m').
  { unfold exc_msg. destruct (String.eqb (opt_msg m "") ""); [|eexists; reflexivity]. destruct (quiet_describe ex) as [x ->]. eexists; reflexivity. }
  destruct HM as [m' ->]. eexists. split; [|split; [|split; [|]]]; cycle 3.
  - pose proof (HW (a_log a)) as [HN HK]. specialize (HK KExc). cbn [lg_hooks] in HK. rewrite HK.
    change (filter (fun s => cf_has cfg s KExc) (lg_sinks (w_logs w (a_log a)))) with (listeners cfg w (a_log a) KExc). rewrite HL.
    rewrite (hooks_stop _ _ ex); [reflexivity| |reflexivity|exact Hc].
    intro Hi. apply (NoDup_filter (fun s => cf_has cfg s KExc)) in HN. change (NoDup (listeners cfg w (a_log a) KExc)) in HN. rewrite HL in HN. apply NoDup_remove_2 in HN. apply HN, in_or_app. left. exact Hi.
  - reflexivity.
  - reflexivity.
  - reflexivity.
Qed.

Lemma exit_stops r ex w a before after : winv cfg w -> nth_error (w_acts w) r = Some a ->
  listeners cfg w (a_log a) KExc = before ++ d :: after -> covers isa arg ex ->
  exists w' e, exit_ cfg r (Some ex) w = (w', if exn_ord ex then Ok (suppresses (a_reraise a)) else Raise ex) /\
    e_kind e = KExc /\ e_act e = r /\ e_exc e = Some ex /\
    w_trace w' = w_trace w ++ deliveries (a_log a) KExc e (before ++ [d]) ++ (if exn_ord ex then [ONote "action_exit"] else []) /\
    w_logs w' = w_logs w /\ w_hist w' = w_hist w ++ [HEvent e] /\
    w_active w' = (if exn_ord ex then upd (w_active w) (a_log a) (a_parent a) else w_active w).
Proof.
  intros HW Ha HL Hc. pose proof (nth_error_lt _ _ _ Ha) as Hlt.
  unfold exit_. unfold bind at 1, mod_act at 1. rewrite Ha.
  change (set_acts (list_set (w_acts w) r (a_set_defer false a)) w) with (act_upd r (a_set_defer false a) w).
  set (w0 := act_upd r (a_set_defer false a) w).
  assert (Ha0 : nth_error (w_acts w0) r = Some (a_set_defer false a)) by (apply act_upd_nth; auto).
  destruct (exception_stops0 r ex None [] w0 (a_set_defer false a) before after) as (e & K1 & K2 & K3 & He); [exact (wi_hooks _ _ HW)|exact Ha0|exact HL|exact Hc|].
  unfold bind at 1. rewrite He. change (a_log (a_set_defer false a)) with (a_log a) in *.
  destruct (exn_ord ex) eqn:Eo.
  - unfold note. rewrite quiet_note.
    set (wm := with_event r _ e (tick w0)).
    assert (Hm : exists a', nth_error (w_acts wm) r = Some a' /\ same_static a a').
    { eexists. split; [unfold wm, with_event; apply act_upd_nth; simpl; rewrite list_set_length; auto|]. repeat split. }
    destruct Hm as (a' & Ha' & (S1 & S2 & S3 & S4 & S5 & S6)).
    unfold bind, get_act.
    match goal with |- context [nth_error (w_acts ?x) r] => change (w_acts x) with (w_acts wm) end. rewrite Ha'.
    unfold set_active_parent, ret. eexists _, e. split; [unfold suppresses; rewrite S5; reflexivity|].
    split; [exact K1|]. split; [exact K2|]. split; [exact K3|]. cbn. rewrite <- app_assoc. rewrite S2, S6. auto.
  - eexists _, e. split; [reflexivity|]. split; [exact K1|]. split; [exact K2|]. split; [exact K3|]. cbn. rewrite app_nil_r. auto.
Qed.

Lemma block_stops cur x l lvl nm kw rr px body w ex before after :
  winv cfg w -> parent_bound w px -> never_enters x body ->
  let r := length (w_acts w) in
  let w1 := block_start cfg x l lvl nm kw rr px w in
  let w2 := fst (eval cfg cur body w1) in
  let w' := fst (eval cfg cur (SWithNew x l lvl nm kw rr px body) w) in
  listeners cfg w l KExc = before ++ d :: after -> covers isa arg ex ->
  snd (eval cfg cur body w1) = Raise ex ->
  snd (eval cfg cur (SWithNew x l lvl nm kw rr px body) w) = (if exn_ord ex then propagate rr (Raise ex) else Raise ex) /\
  (end_calls r (w_trace w') = [] /\ forall l', end_waiting r (lg_queue (w_logs w' l')) = []) /\
  w_active w' = (if exn_ord ex then upd (w_active w2) l (match px with None => w_active w l | Some y => w_env w y end) else w_active w2) /\
  exists e, e_kind e = KExc /\ e_act e = r /\ e_exc e = Some ex /\ w_hist w' = w_hist w2 ++ [HEvent e] /\
    w_trace w' = w_trace w2 ++ deliveries l KExc e (before ++ [d]) ++ (if exn_ord ex then [ONote "action_exit"] else []).
Proof.
  intros HW Hpb Hne. cbv zeta. intros Hin Hc.
  destruct (block_begun cfg cur x l lvl nm kw rr px body w (quiet_not_exc KBegin ltac:(discriminate)) HW Hpb) as (a1 & Hst & Hpar & Heq).
  cbv zeta in Hst, Heq. set (w1 := block_start cfg x l lvl nm kw rr px w) in *.
  assert (HW1 : winv cfg w1) by (eapply st_winv; eauto).
  pose proof (body_chain cfg cur x l rr body w w1 a1 HW Hst Hne) as Hch.
  destruct (eval cfg cur body w1) as [w2 rb] eqn:Hb. cbn [fst snd] in *. intros ->.
  rewrite (Heq w2 _ eq_refl). set (r := length (w_acts w)) in *.
  assert (HP : forall lb, Pbody r lb -> lb <> LFlag r) by (intros lb [? _]; auto).
  destruct (chain_frame cfg r _ _ _ HP Hch _ (st_act _ _ _ _ _ _ _ Hst)) as (a2 & Ha2 & HS & Ht2 & Hd2).
  assert (HW2 : winv cfg w2) by (eapply chain_winv; eauto).
  assert (Hn2 : no_end r w2).
  { eapply chain_no_end; eauto.
    - apply (wi_att _ _ HW1).
    - apply (st_act _ _ _ _ _ _ _ Hst).
    - apply (st_defer _ _ _ _ _ _ _ Hst).
    - apply (st_noend _ _ _ _ _ _ _ Hst). }
  destruct HS as (_ & S2 & _ & _ & S5 & S6). rewrite (st_log _ _ _ _ _ _ _ Hst) in S2.
  destruct (chain_logs cfg (Pbody r) w1 w2 (fun lb H => proj2 H) Hch l) as (_ & L2 & _ & _).
  destruct (chain_logs cfg (fun lb => lb <> LConf) w w1 (fun lb H => H) (proj1 (st_chain _ _ _ _ _ _ _ Hst)) l) as (_ & M2 & _ & _).
  destruct (exit_stops r ex w2 a2 before after HW2 Ha2) as (w' & e & He & K1 & K2 & K3 & E1 & E2 & E3 & E4); [|exact Hc|].
  { rewrite S2. unfold listeners. rewrite L2, M2. exact Hin. }
  rewrite He. rewrite S2 in E1, E4. rewrite S5, S6, (st_rr _ _ _ _ _ _ _ Hst) in *.
  replace (fst _) with w' by (destruct (exn_ord ex); reflexivity).
  split. { destruct (exn_ord ex); cbn [snd]; [|reflexivity]. unfold suppresses, propagate. destruct rr as [[|]|]; reflexivity. }
  split. { split.
    - rewrite E1, !end_calls_app. rewrite (end_calls_none r (w_trace w2)).
      + rewrite (end_calls_none r (deliveries _ _ _ _)).
        * destruct (exn_ord ex); reflexivity.
        * intros l0 s1 e0 Hi. unfold deliveries in Hi. apply in_map_iff in Hi. destruct Hi as (? & Hx & _). discriminate.
      + intros l0 s1 e0 Hi. eapply (Hn2 l0). right; eauto.
    - intros l'. rewrite E2. apply end_waiting_none. intros e0 Hi. eapply (Hn2 l'). left; eauto. }
  split. { rewrite E4, Hpar. reflexivity. }
  exists e. auto.
Qed.
End Debug.
