(** Every API call of the Core model is a chain of atomic transitions.  The
    invariants are then checked on the transitions only. *)
From Verif Require Import model.PyBase model.Core proof.CoreLib.

(** [LFlag r]: enter/exit of action [r]; [LEnd r]: its end event is set;
    [LEnv]/[LCall]: program bookkeeping; [LConf]: logger configuration. *)
Inductive lbl := LFlag (r : nat) | LEnd (r : nat) | LEnv | LCall | LConf | LOther.

Section Trans.
Variable cfg : config.

(** Publication of event [e] to the [k] hooks of logger [l]: queued, or handed
    to a prefix of the hooks. *)
Inductive Pub (l : nat) (k : kind) (e : event) (w : world) : world -> Prop :=
| Pub_async : lg_async (w_logs w l) = true ->
    Pub l k e w (fst (enqueue l k e w))
| Pub_sync d rest : lg_async (w_logs w l) = false ->
    lg_hooks (w_logs w l) k = d ++ rest ->
    Pub l k e w (add_trace (deliveries l k e d) w).

Definition ok_parent (w : world) (l : nat) (p : option nat) : Prop :=
  p = w_active w l \/ exists q, p = Some q /\ q < length (w_acts w).

Definition new_act_world l lvl nm kw rr p w : world :=
  set_hist (w_hist w ++ [HAction (length (w_acts w)) (w_ctr w)])
    (set_acts (w_acts w ++ [mkAction (w_ctr w) l lvl nm kw rr p None None [] [] false false])
       (set_ctr (S (w_ctr w)) w)).

Definition cb cfg r w m := mkEvent KBegin r (S (w_ctr w)) (cf_clock cfg (w_clk w)) (m +s " (begin comment)") None None.
Definition ce cfg r w m := mkEvent KEnd r (S (S (w_ctr w))) (cf_clock cfg (w_clk w)) (m +s " (end comment)") (Some Success) None.
Definition cc cfg r w m := mkEvent KComment r (S (S (S (w_ctr w)))) (cf_clock cfg (w_clk w)) m None None.

Definition comment_world l kw p m w : world :=
  let r := length (w_acts w) in
  set_hist (w_hist w ++ [HAction r (w_ctr w); HEvent (cb cfg r w m); HEvent (ce cfg r w m); HEvent (cc cfg r w m)])
    (set_acts (w_acts w ++ [mkAction (w_ctr w) l 90 "_comment" kw (Some true) p
                              (Some (cb cfg r w m)) (Some (ce cfg r w m)) [] [] false false])
       (set_clk (S (w_clk w)) (set_ctr (S (S (S (S (w_ctr w))))) w))).

Definition flag_enter (r : nat) (a : action) (w : world) : world :=
  set_active (upd (w_active w) (a_log a) (Some r))
    (act_upd r (a_set_defer true (a_set_trans true a)) w).

Inductive T : lbl -> world -> world -> Prop :=
| T_data w r a d : nth_error (w_acts w) r = Some a ->
    T LOther w (act_upd r (a_set_data d a) w)
| T_tick w : T LOther w (tick w)
| T_note w s : T LOther w (add_trace [ONote s] w)
| T_pre w l h : T LOther w (add_trace [OPre l h] w)
| T_begin w r a m e w2 : nth_error (w_acts w) r = Some a -> a_begin a = None ->
    e = mkEvent KBegin r (w_ctr w) (cf_clock cfg (w_clk w)) m None None ->
    Pub (a_log a) KBegin e (with_event r (a_set_begin (Some e) a) e (tick w)) w2 ->
    T LOther w w2
| T_enter_old w r a b : nth_error (w_acts w) r = Some a -> a_begin a = Some b ->
    T (LFlag r) w (flag_enter r a w)
| T_enter_new w r a m e w2 : nth_error (w_acts w) r = Some a -> a_begin a = None ->
    e = mkEvent KBegin r (w_ctr w) (cf_clock cfg (w_clk w)) m None None ->
    Pub (a_log a) KBegin e
      (with_event r (a_set_begin (Some e) (a_set_defer true (a_set_trans true a))) e (tick (flag_enter r a w))) w2 ->
    T (LFlag r) w w2
| T_undefer w r a : nth_error (w_acts w) r = Some a ->
    T (LFlag r) w (act_upd r (a_set_defer false a) w)
| T_active w l r a : nth_error (w_acts w) r = Some a -> a_log a = l ->
    T (LFlag r) w (set_active (upd (w_active w) l (a_parent a)) w)
| T_warn w r a m e w2 : nth_error (w_acts w) r = Some a ->
    e = mkEvent KWarn r (w_ctr w) (cf_clock cfg (w_clk w)) m None None ->
    Pub (a_log a) KWarn e (with_event r (a_set_warns (a_warns a ++ [e]) a) e (tick w)) w2 ->
    T LOther w w2
| T_exc w r a m x e d rest : nth_error (w_acts w) r = Some a ->
    e = mkEvent KExc r (w_ctr w) (cf_clock cfg (w_clk w)) m None (Some x) ->
    lg_hooks (w_logs w (a_log a)) KExc = d ++ rest ->
    T LOther w (add_trace (deliveries (a_log a) KExc e d)
                  (with_event r (a_set_excs (a_excs a ++ [e]) a) e (tick w)))
| T_end w r a b st m x t e : nth_error (w_acts w) r = Some a -> a_begin a = Some b ->
    ((a_trans a = false /\ t = e_time b) \/
     (a_trans a = true /\ exists i j, e_time b = cf_clock cfg i /\ t = cf_clock cfg j /\ i <= j /\ j < w_clk w)) ->
    e = mkEvent KEnd r (w_ctr w) t m (Some st) x ->
    T (LEnd r) w (with_event r (a_set_end (Some e) a) e w)
| T_pubend w r a e w2 : nth_error (w_acts w) r = Some a -> a_end a = Some e -> a_defer a = false ->
    Pub (a_log a) KEnd e w w2 -> T LOther w w2
| T_new w l lvl nm kw rr p : ok_parent w l p ->
    T LOther w (new_act_world l lvl nm kw rr p w)
| T_comment w l kw p m w2 : ok_parent w l p ->
    Pub l KComment (cc cfg (length (w_acts w)) w m) (comment_world l kw p m w) w2 ->
    T LOther w w2
| T_pop w l k e q d rest : lg_queue (w_logs w l) = (k, e) :: q ->
    lg_hooks (w_logs w l) k = d ++ rest ->
    T LOther w (add_trace (deliveries l k e d)
                  (set_logs (upd (w_logs w) l (lg_set_queue q (w_logs w l))) w))
| T_async w l b : T LConf w (set_logs (upd (w_logs w) l (lg_set_async b (w_logs w l))) w)
| T_last w l t : T LOther w (set_logs (upd (w_logs w) l (lg_set_last t (w_logs w l))) w)
| T_addpre w l hs : T LConf w (set_logs (upd (w_logs w) l (lg_set_pre hs (w_logs w l))) w)
| T_addsink w l s : T LConf w (set_logs (upd (w_logs w) l (lg_add_sink cfg s (w_logs w l))) w)
| T_setsinks w l ss : T LConf w (set_logs (upd (w_logs w) l (lg_set_sinks cfg ss (w_logs w l))) w)
| T_env w x r : r < length (w_acts w) -> T LEnv w (set_env (upd (w_env w) x (Some r)) w)
| T_call w r st : T LCall w (set_hist (w_hist w ++ [HCall r st]) w).

Inductive chain (P : lbl -> Prop) : world -> world -> Prop :=
| ch_refl w : chain P w w
| ch_step lb w w1 w2 : P lb -> T lb w w1 -> chain P w1 w2 -> chain P w w2.

Lemma chain_trans P w1 w2 w3 : chain P w1 w2 -> chain P w2 w3 -> chain P w1 w3.
Proof. induction 1; auto. intros. econstructor; eauto. Qed.

Lemma chain_one (P : lbl -> Prop) lb w w' : P lb -> T lb w w' -> chain P w w'.
Proof. intros. econstructor; eauto. constructor. Qed.

Lemma chain_weaken (P Q : lbl -> Prop) w w' :
  (forall lb, P lb -> Q lb) -> chain P w w' -> chain Q w w'.
Proof. induction 2; econstructor; eauto. Qed.

Lemma chain_inv (I : world -> Prop) (P : lbl -> Prop) w w' :
  (forall lb w1 w2, P lb -> T lb w1 w2 -> I w1 -> I w2) ->
  chain P w w' -> I w -> I w'.
Proof. intros HT. induction 1; eauto. Qed.

Lemma chain_rel (R : world -> world -> Prop) (P : lbl -> Prop) w w' :
  (forall w, R w w) -> (forall a b c, R a b -> R b c -> R a c) ->
  (forall lb w1 w2, P lb -> T lb w1 w2 -> R w1 w2) ->
  chain P w w' -> R w w'.
Proof. intros Hr Ht HT. induction 1; eauto. Qed.

(** ** Publication *)
Lemma publish_pub l k e w : Pub l k e w (fst (publish cfg l k e w)).
Proof.
  unfold publish, bind, get_log.
  destruct (lg_async (w_logs w l)) eqn:Ha.
  - apply Pub_async; auto.
  - destruct (call_hooks_spec cfg l k e (lg_hooks (w_logs w l) k) w) as (d & rest & Hd & Hf & _).
    rewrite Hf. eapply Pub_sync; eauto.
Qed.

Lemma Pub_acts l k e w w' : Pub l k e w w' -> w_acts w' = w_acts w.
Proof. destruct 1; reflexivity. Qed.
Lemma Pub_clk l k e w w' : Pub l k e w w' -> w_clk w' = w_clk w.
Proof. destruct 1; reflexivity. Qed.
Lemma Pub_ctr l k e w w' : Pub l k e w w' -> w_ctr w' = w_ctr w.
Proof. destruct 1; reflexivity. Qed.
Lemma Pub_hist l k e w w' : Pub l k e w w' -> w_hist w' = w_hist w.
Proof. destruct 1; reflexivity. Qed.
Lemma Pub_active l k e w w' : Pub l k e w w' -> w_active w' = w_active w.
Proof. destruct 1; reflexivity. Qed.
Lemma Pub_env l k e w w' : Pub l k e w w' -> w_env w' = w_env w.
Proof. destruct 1; reflexivity. Qed.

(** ** Basic invariant: begin events carry clock readings; entered actions have
    begun. *)
Definition binv (w : world) : Prop :=
  forall r a, nth_error (w_acts w) r = Some a ->
    (forall b, a_begin a = Some b -> exists i, i < w_clk w /\ e_time b = cf_clock cfg i) /\
    (a_trans a = true -> a_begin a <> None).

Lemma binv_acts w w' : w_acts w' = w_acts w -> w_clk w <= w_clk w' -> binv w -> binv w'.
Proof.
  intros Ha Hc H r a Hr. rewrite Ha in Hr. destruct (H r a Hr) as [H1 H2]. split; auto.
  intros b Hb. destruct (H1 b Hb) as (i & Hi & Ht). exists i; split; auto; lia.
Qed.

Lemma binv_upd w w' r a a' :
  nth_error (w_acts w) r = Some a ->
  w_acts w' = list_set (w_acts w) r a' -> w_clk w <= w_clk w' ->
  (forall b, a_begin a' = Some b -> a_begin a = Some b \/ exists i, i < w_clk w' /\ e_time b = cf_clock cfg i) ->
  (a_trans a' = true -> a_begin a' <> None) ->
  binv w -> binv w'.
Proof.
  intros Hr Ha Hc Hb Ht H r' x Hx. rewrite Ha in Hx. rewrite nth_error_list_set in Hx.
  destruct (Nat.eqb_spec r r') as [->|Hn].
  - rewrite Hr in Hx. inversion Hx; subst x. destruct (H _ _ Hr) as [H1 H2]. split; auto.
    intros b Hab. destruct (Hb b Hab) as [Hold|Hnew]; auto.
    destruct (H1 b Hold) as (i & Hi & Hti). exists i; split; auto; lia.
  - destruct (H _ _ Hx) as [H1 H2]. split; auto.
    intros b Hab. destruct (H1 b Hab) as (i & Hi & Hti). exists i; split; auto; lia.
Qed.

Lemma binv_snoc w w' a :
  w_acts w' = w_acts w ++ [a] -> w_clk w <= w_clk w' ->
  (forall b, a_begin a = Some b -> exists i, i < w_clk w' /\ e_time b = cf_clock cfg i) ->
  a_trans a = false ->
  binv w -> binv w'.
Proof.
  intros Ha Hc Hb Ht H r x Hx. rewrite Ha, nth_error_snoc in Hx.
  destruct (Nat.eqb r (length (w_acts w))).
  - inversion Hx; subst x. split; auto. congruence.
  - destruct (H _ _ Hx) as [H1 H2]. split; auto.
    intros b Hab. destruct (H1 b Hab) as (i & Hi & Hti). exists i; split; auto; lia.
Qed.

Lemma T_binv lb w w' : T lb w w' -> binv w -> binv w'.
Proof.
  intros HT H. destruct HT;
    try (refine (binv_acts w _ _ _ H); [reflexivity | unfold tick; simpl; lia]; fail).
  - eapply binv_upd; [eassumption | reflexivity | simpl; lia | simpl; auto | | exact H].
    simpl. apply (H _ _ H0).
  - eapply binv_acts; [eapply Pub_acts; eassumption | rewrite (Pub_clk _ _ _ _ _ H3); lia |].
    eapply binv_upd; [exact H0 | reflexivity | simpl; lia | | simpl; discriminate | exact H].
    simpl. intros b Hb. inversion Hb; subst. right. exists (w_clk w). split; auto; lia.
  - eapply binv_upd; [eassumption | reflexivity | simpl; lia | simpl; auto | | exact H].
    simpl. congruence.
  - eapply binv_acts; [eapply Pub_acts; eassumption | rewrite (Pub_clk _ _ _ _ _ H3); lia |].
    eapply binv_upd; [exact H0 | simpl; rewrite list_set_list_set; reflexivity | simpl; lia | | simpl; discriminate | exact H].
    simpl. intros b Hb. inversion Hb; subst. right. exists (w_clk w). split; auto; lia.
  - eapply binv_upd; [eassumption | reflexivity | simpl; lia | simpl; auto | | exact H].
    simpl. apply (H _ _ H0).
  - eapply binv_acts; [eapply Pub_acts; eassumption | rewrite (Pub_clk _ _ _ _ _ H2); lia |].
    eapply binv_upd; [exact H0 | reflexivity | simpl; lia | simpl; auto | | exact H].
    simpl. apply (H _ _ H0).
  - eapply binv_upd; [exact H0 | reflexivity | simpl; lia | simpl; auto | | exact H].
    simpl. apply (H _ _ H0).
  - eapply binv_upd; [exact H0 | reflexivity | simpl; lia | simpl; auto | | exact H].
    simpl. congruence.
  - eapply binv_acts; [eapply Pub_acts; eassumption | rewrite (Pub_clk _ _ _ _ _ H3); lia | exact H].
  - eapply binv_snoc; [reflexivity | simpl; lia | simpl; discriminate | reflexivity | exact H].
  - eapply binv_acts; [eapply Pub_acts; eassumption | rewrite (Pub_clk _ _ _ _ _ H1); lia |].
    eapply binv_snoc; [reflexivity | simpl; lia | | reflexivity | exact H].
    simpl. intros b Hb. inversion Hb; subst. simpl. exists (w_clk w); split; auto; lia.
Qed.

Lemma chain_binv P w w' : chain P w w' -> binv w -> binv w'.
Proof. apply chain_inv. intros lb w1 w2 _. apply T_binv. Qed.

Lemma init_binv async : binv (init async).
Proof. intros r a Hr. destruct r; discriminate. Qed.

(** ** Decomposition of the API calls *)
Definition Pother (lb : lbl) : Prop := lb = LOther.
Definition Pend (r : nat) (lb : lbl) : Prop := lb = LOther \/ lb = LEnd r.
Definition Pall (r : nat) (lb : lbl) : Prop := lb = LOther \/ lb = LEnd r \/ lb = LFlag r.

Lemma other_end r w w' : chain Pother w w' -> chain (Pend r) w w'.
Proof. apply chain_weaken. unfold Pother, Pend; auto. Qed.
Lemma end_all r w w' : chain (Pend r) w w' -> chain (Pall r) w w'.
Proof. apply chain_weaken. unfold Pall, Pend; intuition. Qed.

Lemma act_upd_same r a w : nth_error (w_acts w) r = Some a ->
  a = a_set_data (a_data a) a.
Proof. destruct a; reflexivity. Qed.

Lemma with_event_upd r a1 a2 e w :
  with_event r a2 e (tick (act_upd r a1 w)) = with_event r a2 e (tick w).
Proof. unfold with_event, act_upd, tick; simpl. rewrite list_set_list_set. reflexivity. Qed.

Lemma begin_chain r m kw w : chain Pother w (fst (begin cfg r m kw w)).
Proof.
  rewrite begin_eq. destruct (nth_error (w_acts w) r) as [a|] eqn:Ha; [|constructor].
  pose proof (nth_error_lt _ _ _ Ha) as Hlt.
  assert (HD : chain Pother w (act_upd r (kw_upd kw a) w)).
  { eapply chain_one; [reflexivity|]. apply T_data; auto. }
  cbv zeta. destruct (a_begin a) as [b|] eqn:Hb; [exact HD|].
  eapply chain_trans; [exact HD|].
  eapply chain_one; [reflexivity|].
  eapply T_begin with (r := r) (a := kw_upd kw a); [apply act_upd_nth; auto | exact Hb | reflexivity |].
  rewrite with_event_upd. apply publish_pub.
Qed.

Lemma warn_chain r m kw w : chain Pother w (fst (warn cfg r m kw w)).
Proof.
  rewrite warn_eq. destruct (nth_error (w_acts w) r) as [a|] eqn:Ha; [|constructor].
  pose proof (nth_error_lt _ _ _ Ha) as Hlt.
  assert (HD : chain Pother w (act_upd r (kw_upd kw a) w)).
  { eapply chain_one; [reflexivity|]. apply T_data; auto. }
  eapply chain_trans; [exact HD|].
  eapply chain_one; [reflexivity|].
  eapply T_warn with (r := r) (a := kw_upd kw a); [apply act_upd_nth; auto | reflexivity |].
  rewrite with_event_upd. apply publish_pub.
Qed.

Lemma finish_end_chain r st m x t w a b :
  nth_error (w_acts w) r = Some a -> a_begin a = Some b ->
  ((a_trans a = false /\ t = e_time b) \/
   (a_trans a = true /\ exists i j, e_time b = cf_clock cfg i /\ t = cf_clock cfg j /\ i <= j /\ j < w_clk w)) ->
  chain (Pend r) w (fst (finish_end cfg r st m x t w)).
Proof.
  intros Ha Hb Ht. unfold finish_end. rewrite Ha. cbv zeta.
  set (e := mkEvent KEnd r (w_ctr w) t m (Some st) x).
  assert (HE : chain (Pend r) w (with_event r (a_set_end (Some e) a) e w)).
  { eapply chain_one; [right; reflexivity|]. eapply T_end; eauto. reflexivity. }
  destruct (a_defer a) eqn:Hd; [exact HE|].
  eapply chain_trans; [exact HE|].
  eapply chain_one; [left; reflexivity|].
  eapply T_pubend with (r := r) (a := a_set_end (Some e) a) (e := e); auto.
  - unfold with_event. apply act_upd_nth. simpl. eapply nth_error_lt; eauto.
  - apply publish_pub.
Qed.

Lemma begin_sets r m kw w a :
  nth_error (w_acts w) r = Some a ->
  exists a1 b, nth_error (w_acts (fst (begin cfg r m kw w))) r = Some a1 /\
    a_begin a1 = Some b /\ a_trans a1 = a_trans a /\ a_defer a1 = a_defer a.
Proof.
  intros Ha. pose proof (nth_error_lt _ _ _ Ha) as Hlt.
  rewrite begin_eq, Ha. cbv zeta. destruct (a_begin a) as [b|] eqn:Hb.
  - exists (kw_upd kw a), b. repeat split; auto. apply act_upd_nth; auto.
  - set (e := mkEvent _ _ _ _ _ _ _).
    exists (a_set_begin (Some e) (kw_upd kw a)), e.
    repeat split; auto.
    rewrite (Pub_acts _ _ _ _ _ (publish_pub _ _ _ _)).
    unfold with_event. apply act_upd_nth. simpl. auto.
Qed.

(** [et] is absent or a clock reading not before the action's begin. *)
Definition et_ok (w : world) (r : nat) (et : option Z) : Prop :=
  forall t, et = Some t -> forall a b, nth_error (w_acts w) r = Some a -> a_trans a = true -> a_begin a = Some b ->
    exists i j, e_time b = cf_clock cfg i /\ t = cf_clock cfg j /\ i <= j /\ j < w_clk w.

Lemma end_chain r st m kw et x w :
  binv w -> et_ok w r et -> chain (Pend r) w (fst (end_ cfg r st m kw et x w)).
Proof.
  intros HB Het. rewrite end_eq. destruct (nth_error (w_acts w) r) as [a|] eqn:Ha; [|constructor].
  pose proof (nth_error_lt _ _ _ Ha) as Hlt.
  set (w0 := act_upd r (kw_upd kw a) w).
  assert (HD : chain (Pend r) w w0).
  { eapply chain_one; [left; reflexivity|]. apply T_data; auto. }
  assert (Ha0 : nth_error (w_acts w0) r = Some (kw_upd kw a)) by (apply act_upd_nth; auto).
  destruct (HB _ _ Ha) as [HB1 HB2].
  cbv zeta. destruct (a_trans a) eqn:Htr.
  - destruct (a_begin a) as [b|] eqn:Hb; [|exfalso; apply HB2; auto].
    destruct (HB1 b eq_refl) as (i & Hi & Hti).
    assert (Hnow : chain (Pend r) w (fst (finish_end cfg r st m x (cf_clock cfg (w_clk w)) (tick w0)))).
    { eapply chain_trans; [exact HD|].
      eapply chain_trans; [eapply chain_one; [left; reflexivity | apply T_tick]|].
      eapply finish_end_chain with (a := kw_upd kw a) (b := b); auto.
      right. split; auto. exists i, (w_clk w). simpl. repeat split; auto; lia. }
    destruct et as [t0|]; [|exact Hnow].
    destruct (Z.eqb t0 0); [exact Hnow|].
    eapply chain_trans; [exact HD|].
    eapply finish_end_chain with (a := kw_upd kw a) (b := b); auto.
    right. split; auto. exact (Het t0 eq_refl a b Ha Htr Hb).
  - destruct (a_begin a) as [b|] eqn:Hb.
    + eapply chain_trans; [exact HD|].
      eapply finish_end_chain with (a := kw_upd kw a) (b := b); auto.
    + destruct (begin_sets r None [] w0 _ Ha0) as (a1 & b & Ha1 & Hb1 & Htr1 & _).
      pose proof (begin_chain r None [] w0) as HBC.
      destruct (begin cfg r None [] w0) as [w1 [u|e]]; simpl in *.
      * rewrite Ha1, Hb1.
        eapply chain_trans; [exact HD|].
        eapply chain_trans; [apply other_end; exact HBC|].
        eapply finish_end_chain; eauto.
      * eapply chain_trans; [exact HD|]. apply other_end; exact HBC.
Qed.

Lemma success_chain r m kw w : binv w -> chain (Pend r) w (fst (success cfg r m kw w)).
Proof.
  intros HB. unfold success, bind, get_act.
  destruct (nth_error (w_acts w) r); [|constructor].
  apply end_chain; auto. intros t Ht; discriminate.
Qed.
Lemma failure_chain r m kw w : binv w -> chain (Pend r) w (fst (failure cfg r m kw w)).
Proof.
  intros HB. unfold failure, bind, get_act.
  destruct (nth_error (w_acts w) r); [|constructor].
  apply end_chain; auto. intros t Ht; discriminate.
Qed.

(** The message of [_exception]: action.py 205-218. *)
Definition exc_msg (a : action) (ex : exn) (m : option string) : res string :=
  if String.eqb (opt_msg m "") "" then
    match cf_describe cfg ex with
    | Ok d => Ok (dm_suffix a (a_name a +s " raised exception: " +s d))
    | Raise y => Raise y
    end
  else Ok (opt_msg m "").

Lemma exception_eq r x m kw w :
  exception_ cfg r x m kw w =
  match nth_error (w_acts w) r with
  | None => (w, Raise exn_name_error)
  | Some a =>
    let t := cf_clock cfg (w_clk w) in
    match x with
    | None => (tick w, Raise exn_no_traceback)
    | Some ex =>
      match exc_msg a ex m with
      | Raise y => (tick w, Raise y)
      | Ok m' =>
        let e := mkEvent KExc r (w_ctr w) t m' None (Some ex) in
        match call_hooks cfg (a_log a) KExc e (lg_xh (w_logs w (a_log a)))
                (with_event r (a_set_excs (a_excs a ++ [e]) a) e (tick w)) with
        | (w2, Raise y) => (w2, Raise y)
        | (w2, Ok _) => end_ cfg r Exception_ m' kw (Some t) (Some ex) w2
        end
      end
    end
  end.
Proof.
  unfold exception_. unfold bind at 1, get_act at 1.
  destruct (nth_error (w_acts w) r) as [a|] eqn:Ha; [|reflexivity].
  pose proof (nth_error_lt _ _ _ Ha) as Hlt.
  rewrite (bind_ok _ _ _ (tick w) (cf_clock cfg (w_clk w))) by reflexivity.
  cbv zeta. destruct x as [ex|]; [|reflexivity].
  unfold exc_msg.
  assert (Hrest : forall m',
    (e <- new_event KExc r (cf_clock cfg (w_clk w)) m' None (Some ex);;
     mod_act r (fun a0 => a_set_excs (a_excs a0 ++ [e]) a0);;;
     on_exception cfg (a_log a) e;;;
     end_ cfg r Exception_ m' kw (Some (cf_clock cfg (w_clk w))) (Some ex)) (tick w) =
    let e := mkEvent KExc r (w_ctr w) (cf_clock cfg (w_clk w)) m' None (Some ex) in
    match call_hooks cfg (a_log a) KExc e (lg_xh (w_logs w (a_log a)))
            (with_event r (a_set_excs (a_excs a ++ [e]) a) e (tick w)) with
    | (w2, Raise y) => (w2, Raise y)
    | (w2, Ok _) => end_ cfg r Exception_ m' kw (Some (cf_clock cfg (w_clk w))) (Some ex) w2
    end).
  { intros m'. unfold new_event, bind, next_id, add_hist, ret, mod_act, on_exception, get_log.
    cbn [w_acts set_acts set_clk set_ctr set_hist w_clk w_ctr w_hist tick].
    rewrite Ha. reflexivity. }
  destruct (String.eqb (opt_msg m "") "").
  - destruct (cf_describe cfg ex) as [d|y].
    + rewrite (bind_ok _ _ _ (tick w) (dm_suffix a (a_name a +s " raised exception: " +s d))) by reflexivity.
      rewrite Hrest. reflexivity.
    + rewrite (bind_raise _ _ _ (tick w) y) by reflexivity. reflexivity.
  - rewrite (bind_ok _ _ _ (tick w) (opt_msg m "")) by reflexivity.
    rewrite Hrest. reflexivity.
Qed.

Lemma exception_chain r x m kw w : binv w -> chain (Pend r) w (fst (exception_ cfg r x m kw w)).
Proof.
  intros HB. rewrite exception_eq.
  destruct (nth_error (w_acts w) r) as [a|] eqn:Ha; [|constructor].
  pose proof (nth_error_lt _ _ _ Ha) as Hlt.
  assert (Htick : chain (Pend r) w (tick w)).
  { eapply chain_one; [left; reflexivity | apply T_tick]. }
  cbv zeta. destruct x as [ex|]; [|exact Htick].
  destruct (exc_msg a ex m) as [m'|y]; [|exact Htick].
  set (e := mkEvent KExc r (w_ctr w) (cf_clock cfg (w_clk w)) m' None (Some ex)).
  set (w1 := with_event r (a_set_excs (a_excs a ++ [e]) a) e (tick w)).
  destruct (call_hooks_spec cfg (a_log a) KExc e (lg_xh (w_logs w (a_log a))) w1) as (d & rest & Hd & Hf & _).
  assert (HX : chain (Pend r) w (add_trace (deliveries (a_log a) KExc e d) w1)).
  { eapply chain_one; [left; reflexivity|]. eapply T_exc; eauto. reflexivity. }
  assert (HB2 : binv (add_trace (deliveries (a_log a) KExc e d) w1)) by (eapply chain_binv; eauto).
  destruct (call_hooks cfg (a_log a) KExc e (lg_xh (w_logs w (a_log a))) w1) as [w2 [u|y]];
    simpl in Hf; subst w2; [|exact HX].
  eapply chain_trans; [exact HX|].
  apply end_chain; auto.
  intros t Ht a' b Ha' Htr Hb. inversion Ht; subst t.
  unfold w1, with_event in Ha'. cbn [add_trace set_trace w_acts act_upd set_acts] in Ha'.
  cbn [w_acts set_hist set_ctr tick set_clk] in Ha'.
  rewrite nth_error_list_set_eq in Ha' by auto. inversion Ha'; subst a'.
  simpl in Hb. destruct (HB _ _ Ha) as [HB1 _]. destruct (HB1 b Hb) as (i & Hi & Hti).
  exists i, (w_clk w). repeat split; auto; simpl; lia.
Qed.

Lemma enter_eq r w :
  enter cfg r w =
  match nth_error (w_acts w) r with
  | None => (w, Raise exn_name_error)
  | Some a => begin cfg r None [] (flag_enter r a w)
  end.
Proof.
  unfold enter, bind, mod_act, get_act, set_active_parent.
  destruct (nth_error (w_acts w) r) as [a|] eqn:Ha; [|reflexivity].
  cbn [w_acts set_acts]. rewrite (nth_error_list_set_eq _ _ _ (nth_error_lt _ _ _ Ha)). reflexivity.
Qed.

Lemma flag_enter_nth r a w : r < length (w_acts w) ->
  nth_error (w_acts (flag_enter r a w)) r = Some (a_set_defer true (a_set_trans true a)).
Proof. intros. unfold flag_enter. simpl. apply nth_error_list_set_eq; auto. Qed.

Lemma enter_chain r w : chain (Pall r) w (fst (enter cfg r w)).
Proof.
  rewrite enter_eq. destruct (nth_error (w_acts w) r) as [a|] eqn:Ha; [|constructor].
  pose proof (nth_error_lt _ _ _ Ha) as Hlt.
  rewrite begin_eq, flag_enter_nth by auto. cbv zeta.
  cbn [a_begin a_set_defer a_set_trans].
  destruct (a_begin a) as [b|] eqn:Hb.
  - eapply chain_trans.
    + eapply chain_one; [right; right; reflexivity|]. eapply T_enter_old; eauto.
    + eapply chain_one; [left; reflexivity|].
      unfold kw_upd. apply T_data. apply flag_enter_nth; auto.
  - eapply chain_one; [right; right; reflexivity|].
    eapply T_enter_new; [exact Ha | exact Hb | reflexivity |].
    match goal with |- Pub _ _ _ _ (fst (publish _ _ _ _ ?w1)) =>
      match goal with |- Pub _ _ _ ?w2 _ => replace w2 with w1; [apply publish_pub|] end
    end.
    unfold kw_upd, dupdate; destruct a; reflexivity.
Qed.

Lemma exit_chain r x w : binv w -> chain (Pall r) w (fst (exit_ cfg r x w)).
Proof.
  intros HB. unfold exit_. unfold bind at 1, mod_act at 1.
  destruct (nth_error (w_acts w) r) as [a|] eqn:Ha; [|constructor].
  pose proof (nth_error_lt _ _ _ Ha) as Hlt.
  change (set_acts (list_set (w_acts w) r (a_set_defer false a)) w) with (act_upd r (a_set_defer false a) w).
  set (w0 := act_upd r (a_set_defer false a) w).
  assert (H0 : chain (Pall r) w w0).
  { eapply chain_one; [right; right; reflexivity|]. apply T_undefer; auto. }
  assert (HB0 : binv w0) by (eapply chain_binv; eauto).
  set (mid := match x with Some ex => _ | None => _ end).
  assert (Hmid : chain (Pall r) w0 (fst (mid w0))).
  { unfold mid. destruct x as [ex|].
    - pose proof (exception_chain r (Some ex) None [] w0 HB0) as HX.
      destruct (exception_ cfg r (Some ex) None [] w0) as [w1 [u|e]]; simpl in HX;
        [apply end_all; exact HX|].
      destruct (exn_ord e); [|apply end_all; exact HX].
      eapply chain_trans; [apply end_all; exact HX|].
      unfold note. destruct (cf_note _ _ _); simpl;
        (eapply chain_one; [left; reflexivity | apply T_note]).
    - unfold bind, get_act. unfold w0 at 2. rewrite act_upd_nth by auto.
      destruct (a_end (a_set_defer false a)) as [e|] eqn:He.
      + eapply chain_one; [left; reflexivity|].
        eapply T_pubend with (r := r) (a := a_set_defer false a); eauto.
        * apply act_upd_nth; auto.
        * rewrite on_end_publish. apply publish_pub.
      + apply end_all. apply success_chain; auto. }
  unfold bind at 1. destruct (mid w0) as [w1 [u|e]]; simpl in *;
    [|eapply chain_trans; eauto].
  unfold bind, get_act. destruct (nth_error (w_acts w1) r) as [a1|] eqn:Ha1; simpl;
    [|eapply chain_trans; eauto].
  eapply chain_trans; [exact H0|]. eapply chain_trans; [exact Hmid|].
  eapply chain_one; [right; right; reflexivity|]. eapply T_active; eauto.
Qed.

Lemma new_action_eq l lvl nm kw rr p w :
  new_action l lvl nm kw rr p w =
  (new_act_world l lvl nm kw rr (match p with Some q => Some q | None => w_active w l end) w,
   Ok (length (w_acts w))).
Proof. destruct p; reflexivity. Qed.

Lemma list_set_snoc {A} (l : list A) x y : list_set (l ++ [x]) (length l) y = l ++ [y].
Proof. induction l; simpl; f_equal; auto. Qed.

Lemma comment_eq l m kw p w :
  comment cfg l m kw p w =
  publish cfg l KComment (cc cfg (length (w_acts w)) w m)
    (comment_world l kw (match p with Some q => Some q | None => w_active w l end) m w).
Proof.
  unfold comment. unfold bind at 1. rewrite new_action_eq.
  set (p' := match p with Some q => Some q | None => w_active w l end).
  clearbody p'.
  rewrite (bind_ok _ _ _ (set_clk (S (w_clk w)) (new_act_world l 90 "_comment" kw (Some true) p' w))
             (cf_clock cfg (w_clk w))) by reflexivity.
  set (r := length (w_acts w)).
  set (w1 := set_hist (w_hist w ++ [HAction r (w_ctr w); HEvent (cb cfg r w m)])
               (set_acts (w_acts w ++ [mkAction (w_ctr w) l 90 "_comment" kw (Some true) p' None None [] [] false false])
                  (set_clk (S (w_clk w)) (set_ctr (S (S (w_ctr w))) w)))).
  rewrite (bind_ok _ _ _ w1 (cb cfg r w m)).
  2:{ unfold new_event, next_id, add_hist, ret, bind, w1, new_act_world.
      cbn [w_acts set_acts set_clk set_ctr set_hist w_clk w_ctr w_hist].
      rewrite <- app_assoc. reflexivity. }
  set (w2 := set_acts (w_acts w ++ [mkAction (w_ctr w) l 90 "_comment" kw (Some true) p' (Some (cb cfg r w m)) None [] [] false false]) w1).
  rewrite (bind_ok _ _ _ w2 tt).
  2:{ unfold mod_act, w1. cbn [w_acts set_acts set_clk set_ctr set_hist w_clk w_ctr w_hist].
      unfold r. rewrite nth_error_snoc, Nat.eqb_refl, list_set_snoc. reflexivity. }
  set (w3 := set_hist (w_hist w2 ++ [HEvent (ce cfg r w m)]) (set_ctr (S (S (S (w_ctr w)))) w2)).
  rewrite (bind_ok _ _ _ w3 (ce cfg r w m)) by reflexivity.
  set (w4 := set_acts (w_acts w ++ [mkAction (w_ctr w) l 90 "_comment" kw (Some true) p' (Some (cb cfg r w m)) (Some (ce cfg r w m)) [] [] false false]) w3).
  rewrite (bind_ok _ _ _ w4 tt).
  2:{ unfold mod_act, w3, w2. cbn [w_acts set_acts set_clk set_ctr set_hist w_clk w_ctr w_hist].
      unfold r. rewrite nth_error_snoc, Nat.eqb_refl, list_set_snoc. reflexivity. }
  rewrite (bind_ok _ _ _ (comment_world l kw p' m w) (cc cfg r w m)).
  2:{ unfold new_event, next_id, add_hist, ret, bind, w4, w3, w2, w1, comment_world.
      cbn [w_acts set_acts set_clk set_ctr set_hist w_clk w_ctr w_hist].
      rewrite <- !app_assoc. reflexivity. }
  reflexivity.
Qed.

Lemma comment_chain l m kw p w :
  match p with Some q => q < length (w_acts w) | None => True end ->
  chain Pother w (fst (comment cfg l m kw p w)).
Proof.
  intros Hp. rewrite comment_eq. eapply chain_one; [reflexivity|].
  eapply T_comment; [|apply publish_pub].
  destruct p as [q|]; [right; exists q; auto | left; reflexivity].
Qed.

Lemma preflush_chain l hs w : chain Pother w (fst (run_preflush cfg l hs w)).
Proof.
  revert w; induction hs as [|h hs IH]; intros w; simpl; [constructor|].
  assert (HP : chain Pother w (set_trace (w_trace w ++ [OPre l h]) w)).
  { eapply chain_one; [reflexivity | apply T_pre]. }
  destruct (cf_pre cfg (w_trace w) l h) as [x|].
  - destruct (exn_ord x); [|exact HP].
    eapply chain_trans; [exact HP|].
    unfold bind, note. destruct (cf_note _ _ _); simpl.
    + eapply chain_one; [reflexivity | apply T_note].
    + eapply chain_trans; [eapply chain_one; [reflexivity | apply T_note] | apply IH].
  - eapply chain_trans; [exact HP | apply IH].
Qed.

(** One iteration of the flush loop. *)
Definition dispatch (l : nat) (k : kind) (e : event) : M unit :=
  g <- get_log l ;;
  match k with
  | KExc => note cfg "flush"
  | _ => call_hooks cfg l k e (lg_hooks g k)
  end.

Lemma flush_queue_cons l k e q w :
  flush_queue cfg l ((k, e) :: q) w =
  (dispatch l k e ;;; flush_queue cfg l q) (set_logs (upd (w_logs w) l (lg_set_queue q (w_logs w l))) w).
Proof.
  cbn [flush_queue]. unfold bind at 1. unfold mod_log.
  unfold dispatch. unfold bind, get_log. destruct k; reflexivity.
Qed.

Lemma dispatch_spec l k e w :
  exists d rest t, lg_hooks (w_logs w l) k = d ++ rest /\ (forall o, In o t -> o = ONote "flush") /\
    (length t <= 1) /\
    fst (dispatch l k e w) = add_trace (deliveries l k e d ++ t) w /\
    (k <> KExc -> t = [] /\ (forall u, snd (dispatch l k e w) = Ok u -> rest = [])).
Proof.
  unfold dispatch, bind, get_log.
  assert (Hh : k <> KExc -> exists d rest t, lg_hooks (w_logs w l) k = d ++ rest /\ (forall o, In o t -> o = ONote "flush") /\
    (length t <= 1) /\
    fst (call_hooks cfg l k e (lg_hooks (w_logs w l) k) w) = add_trace (deliveries l k e d ++ t) w /\
    (k <> KExc -> t = [] /\ (forall u, snd (call_hooks cfg l k e (lg_hooks (w_logs w l) k) w) = Ok u -> rest = []))).
  { intros Hk. destruct (call_hooks_spec cfg l k e (lg_hooks (w_logs w l) k) w) as (d & rest & Hd & Hf & Hr & _).
    exists d, rest, []. rewrite app_nil_r.
    split; [exact Hd|]. split; [intros o []|]. split; [simpl; lia|]. split; [exact Hf|].
    intros _. split; [reflexivity|].
    intros u Hu. rewrite Hu in Hr. exact Hr. }
  destruct k; try (apply Hh; discriminate).
  exists [], (lg_hooks (w_logs w l) KExc), [ONote "flush"]. simpl.
  split; [reflexivity|]. split; [intros o [<-|[]]; reflexivity|]. split; [lia|].
  split; [unfold note; destruct (cf_note _ _ _); reflexivity | congruence].
Qed.

Lemma flush_queue_chain l q w : lg_queue (w_logs w l) = q ->
  chain Pother w (fst (flush_queue cfg l q w)).
Proof.
  revert w; induction q as [|[k e] q IH]; intros w Hq; [simpl; constructor|].
  rewrite flush_queue_cons.
  set (w0 := set_logs _ w).
  destruct (dispatch_spec l k e w0) as (d & rest & t & Hd & Ht & Hlen & Hf & _).
  assert (Hhooks : lg_hooks (w_logs w0 l) k = lg_hooks (w_logs w l) k).
  { unfold w0; simpl. rewrite upd_eq. destruct k; reflexivity. }
  rewrite Hhooks in Hd.
  assert (HD : chain Pother w (fst (dispatch l k e w0))).
  { rewrite Hf. rewrite <- add_trace_app.
    eapply chain_trans.
    - eapply chain_one; [reflexivity|]. eapply T_pop; eauto.
    - fold w0. destruct t as [|o [|o' t']]; simpl in Hlen.
      + rewrite add_trace_nil. constructor.
      + rewrite (Ht o (or_introl eq_refl)). eapply chain_one; [reflexivity | apply T_note].
      + lia. }
  unfold bind. destruct (dispatch l k e w0) as [w1 [u|x]]; simpl in *; [|exact HD].
  eapply chain_trans; [exact HD|]. apply IH. subst w1. simpl. rewrite upd_eq. reflexivity.
Qed.

Lemma flush_chain l w : chain Pother w (fst (flush cfg l w)).
Proof.
  unfold flush. unfold bind at 1, get_log at 1.
  pose proof (preflush_chain l (lg_pre (w_logs w l)) w) as HP.
  unfold bind at 1. destruct (run_preflush cfg l (lg_pre (w_logs w l)) w) as [w1 [u|x]]; simpl in *; [|exact HP].
  eapply chain_trans; [exact HP|].
  unfold bind at 1, get_log at 1.
  pose proof (flush_queue_chain l (lg_queue (w_logs w1 l)) w1 eq_refl) as HQ.
  unfold bind at 1. destruct (flush_queue cfg l (lg_queue (w_logs w1 l)) w1) as [w2 [v|x]]; simpl in *; [|exact HQ].
  eapply chain_trans; [exact HQ|].
  unfold bind, now, mod_log. simpl.
  eapply chain_trans; [eapply chain_one; [reflexivity | apply T_tick]|].
  eapply chain_one; [reflexivity|]. exact (T_last (tick w2) l _).
Qed.

Lemma setitem_chain r k v w : chain Pother w (fst (setitem r k v w)).
Proof.
  unfold setitem, mod_act. destruct (nth_error (w_acts w) r) as [a|] eqn:Ha; [|constructor].
  eapply chain_one; [reflexivity|]. apply T_data; auto.
Qed.

Lemma elapsed_chain r w : chain Pother w (fst (get_elapsed_time cfg r w)).
Proof.
  unfold get_elapsed_time, bind, get_act. destruct (nth_error (w_acts w) r) as [a|]; [|constructor].
  destruct (a_begin a); [|constructor].
  eapply chain_one; [reflexivity | apply T_tick].
Qed.

Lemma fst_discard {A} (m : M A) w : fst (discard m w) = fst (m w).
Proof. unfold discard, bind. destruct (m w) as [w' [a|e]]; reflexivity. Qed.

Lemma new_action_chain l lvl nm kw rr p w :
  match p with Some q => q < length (w_acts w) | None => True end ->
  chain Pother w (fst (new_action l lvl nm kw rr p w)).
Proof.
  intros Hp. rewrite new_action_eq. eapply chain_one; [reflexivity|]. apply T_new.
  destruct p as [q|]; [right; exists q; auto | left; reflexivity].
Qed.

Definition Pany (lb : lbl) : Prop := True.
Lemma any_of P w w' : chain P w w' -> chain Pany w w'.
Proof. apply chain_weaken. unfold Pany; auto. Qed.

Theorem step_chain o w : binv w -> chain Pany w (fst (step cfg o w)).
Proof.
  intros HB. destruct o; cbn [step].
  - destruct parent as [q|].
    + unfold bind, get_act. destruct (nth_error (w_acts w) q) as [a|] eqn:Hq; [|constructor].
      rewrite fst_discard. eapply any_of. apply new_action_chain. eapply nth_error_lt; eauto.
    + rewrite fst_discard. eapply any_of. apply new_action_chain. auto.
  - eapply any_of, begin_chain.
  - eapply any_of, warn_chain.
  - eapply any_of, success_chain; auto.
  - eapply any_of, failure_chain; auto.
  - eapply any_of, exception_chain; auto.
  - eapply any_of, enter_chain.
  - rewrite fst_discard. eapply any_of, exit_chain; auto.
  - eapply any_of, setitem_chain.
  - rewrite fst_discard. eapply any_of, elapsed_chain.
  - destruct parent as [q|].
    + unfold bind, get_act. destruct (nth_error (w_acts w) q) as [a|] eqn:Hq; [|constructor].
      eapply any_of, comment_chain. eapply nth_error_lt; eauto.
    + eapply any_of, comment_chain; auto.
  - eapply any_of, flush_chain.
  - eapply chain_one; [exact I|]. apply T_async.
  - eapply chain_one; [exact I|]. apply T_addsink.
  - eapply chain_one; [exact I|]. apply T_setsinks.
  - eapply chain_one; [exact I|]. unfold mod_log; simpl. apply T_addpre.
Qed.

Theorem run_ops_chain os w : binv w -> chain Pany w (run_ops cfg os w).
Proof.
  revert w; induction os as [|o os IH]; intros w HB; simpl; [constructor|].
  eapply chain_trans; [apply step_chain; auto|].
  apply IH. eapply chain_binv; eauto. apply step_chain; auto.
Qed.

(** ** Programs *)

(** Every [SWith y] of the program satisfies [V y]. *)
Fixpoint withs (V : nat -> Prop) (s : stmt) : Prop :=
  match s with
  | SSeq a b => withs V a /\ withs V b
  | SWith y b => V y /\ withs V b
  | SWithNew _ _ _ _ _ _ _ b => withs V b
  | STry _ a b => withs V a /\ withs V b
  | _ => True
  end.

Definition env_ok (w : world) : Prop :=
  forall x r, w_env w x = Some r -> r < length (w_acts w).

Definition env_rel (w w' : world) : Prop :=
  forall x r, w_env w' x = Some r -> w_env w x = Some r \/ (length (w_acts w) <= r).

Lemma Pub_len l k e w w' : Pub l k e w w' -> length (w_acts w') = length (w_acts w).
Proof. intros H; rewrite (Pub_acts _ _ _ _ _ H); auto. Qed.

Lemma T_len lb w w' : T lb w w' -> length (w_acts w) <= length (w_acts w').
Proof.
  destruct 1;
    try match goal with H : Pub _ _ _ _ _ |- _ => rewrite (Pub_len _ _ _ _ _ H) end;
    unfold add_trace, tick, with_event, act_upd, flag_enter, new_act_world, comment_world, tick;
    simpl; rewrite ?list_set_length, ?app_length; simpl; rewrite ?list_set_length; lia.
Qed.
Lemma chain_len P w w' : chain P w w' -> length (w_acts w) <= length (w_acts w').
Proof. induction 1; auto. apply T_len in H0. lia. Qed.

Lemma T_env_keep lb w w' : T lb w w' ->
  (forall x r, w_env w' x = Some r -> w_env w x = Some r \/ r < length (w_acts w)).
Proof.
  destruct 1;
    try match goal with H : Pub _ _ _ _ _ |- _ => rewrite (Pub_env _ _ _ _ _ H) end;
    try (intros ? ? Hk; left; exact Hk).
  intros y r' Hy. unfold upd in Hy. simpl in Hy.
  destruct (Nat.eqb y x); [right; congruence | left; exact Hy].
Qed.

Lemma chain_env_ok P w w' : chain P w w' -> env_ok w -> env_ok w'.
Proof.
  apply (chain_inv env_ok). intros lb w1 w2 _ HT H x r Hx.
  pose proof (T_len _ _ _ HT). destruct (T_env_keep _ _ _ HT x r Hx) as [H1|H1]; [apply H in H1|]; lia.
Qed.

End Trans.
