(** Entering and leaving with-blocks under calm sinks. *)
From Verif Require Import model.PyBase model.Core spec.CoreSpec
  proof.CoreLib proof.CoreTrans proof.CoreEval proof.CoreInv proof.CoreWith.

Section Block.
Variable cfg : config.
Notation chain := (chain cfg).
Notation T := (T cfg).
Notation winv := (winv cfg).

Lemma T_active_same lb w w' : T lb w w' -> (forall r, lb <> LFlag r) -> w_active w' = w_active w.
Proof.
  intros HT Hlb. destruct HT; pubrw; try reflexivity; exfalso; eapply Hlb; reflexivity.
Qed.
Lemma chain_active_same (P : lbl -> Prop) w w' :
  (forall lb r, P lb -> lb <> LFlag r) -> chain P w w' -> w_active w' = w_active w.
Proof.
  intros HP. induction 1 as [w|lb w w1 w2 Hlb HT Hc IH]; auto.
  rewrite IH. eapply T_active_same; eauto.
Qed.
Lemma end_active_same r w w' : chain (Pend r) w w' -> w_active w' = w_active w.
Proof. apply chain_active_same. intros lb r0 [-> | ->]; discriminate. Qed.
Lemma other_active_same w w' : chain Pother w w' -> w_active w' = w_active w.
Proof. apply chain_active_same. intros lb r0 ->; discriminate. Qed.

(** ** Publication when hooks are quiet *)
Definition pubw (l : nat) (k : kind) (e : event) (w : world) : world :=
  if lg_async (w_logs w l) then fst (enqueue l k e w)
  else add_trace (deliveries l k e (lg_hooks (w_logs w l) k)) w.

Lemma publish_quiet l k e w : hook_quiet cfg k -> publish cfg l k e w = (pubw l k e w, Ok tt).
Proof.
  intros Hq. unfold publish, pubw, bind, get_log.
  destruct (lg_async (w_logs w l)); [reflexivity|].
  apply call_hooks_quiet. intros; apply Hq.
Qed.

Lemma pubw_acts l k e w : w_acts (pubw l k e w) = w_acts w.
Proof. unfold pubw. destruct (lg_async _); reflexivity. Qed.
Lemma pubw_active l k e w : w_active (pubw l k e w) = w_active w.
Proof. unfold pubw. destruct (lg_async _); reflexivity. Qed.
Lemma pubw_hist l k e w : w_hist (pubw l k e w) = w_hist w.
Proof. unfold pubw. destruct (lg_async _); reflexivity. Qed.
Lemma pubw_pub l k e w : Pub l k e w (pubw l k e w).
Proof.
  unfold pubw. destruct (lg_async _) eqn:H; [apply Pub_async; auto|].
  eapply Pub_sync with (rest := []); auto. rewrite app_nil_r; auto.
Qed.

(** ** Ending an entered action *)
Lemma end_trans r st m kw et x w a : nth_error (w_acts w) r = Some a -> a_trans a = true ->
  exists t w0, end_ cfg r st m kw et x w = finish_end cfg r st m x t w0 /\
    nth_error (w_acts w0) r = Some (kw_upd kw a) /\ w_trace w0 = w_trace w /\ w_logs w0 = w_logs w /\
    w_hist w0 = w_hist w /\ w_active w0 = w_active w.
Proof.
  intros Ha Ht. pose proof (nth_error_lt _ _ _ Ha) as Hlt. rewrite end_eq, Ha. cbv zeta. rewrite Ht.
  destruct et as [t0|]; [destruct (Z.eqb t0 0)|];
    eexists _, _; (split; [reflexivity|]); (split; [apply act_upd_nth; auto|]); repeat split.
Qed.

Lemma finish_end_undef r st m x t w a : nth_error (w_acts w) r = Some a -> a_defer a = false ->
  hook_quiet cfg KEnd ->
  let e := mkEvent KEnd r (w_ctr w) t m (Some st) x in
  finish_end cfg r st m x t w = (pubw (a_log a) KEnd e (with_event r (a_set_end (Some e) a) e w), Ok tt).
Proof.
  intros Ha Hd Hq e. unfold finish_end. rewrite Ha, Hd. cbv zeta. apply publish_quiet; auto.
Qed.

(** The state in which an end event is finally published. *)
Record ends (r : nat) (a : action) (e : event) (xs : list obs) (w wm : world) : Prop := {
  en_act : e_act e = r;
  en_kind : e_kind e = KEnd;
  en_trace : w_trace wm = w_trace w ++ xs;
  en_xs : forall o, In o xs -> exists s e', o = ODeliver (a_log a) KExc s e';
  en_logs : w_logs wm = w_logs w;
  en_active : w_active wm = w_active w;
  en_a : exists a', nth_error (w_acts wm) r = Some a' /\ same_static a a' /\ a_end a' = Some e }.

Lemma end_publishes r st m kw et x w a :
  nth_error (w_acts w) r = Some a -> a_trans a = true -> a_defer a = false -> hook_quiet cfg KEnd ->
  exists e wm, end_ cfg r st m kw et x w = (pubw (a_log a) KEnd e wm, Ok tt) /\
    e_status e = Some st /\ ends r a e [] w wm.
Proof.
  intros Ha Ht Hd Hq.
  destruct (end_trans r st m kw et x w a Ha Ht) as (t & w0 & He & Ha0 & E1 & E2 & E3 & E4).
  set (e := mkEvent KEnd r (w_ctr w0) t m (Some st) x).
  exists e, (with_event r (a_set_end (Some e) (kw_upd kw a)) e w0). split; [|split; [reflexivity|]].
  - rewrite He, (finish_end_undef _ _ _ _ _ _ _ Ha0) by auto. reflexivity.
  - constructor; auto.
    + rewrite app_nil_r. exact E1.
    + intros o [].
    + exists (a_set_end (Some e) (kw_upd kw a)). split; [|repeat split].
      unfold with_event. apply act_upd_nth. simpl. eapply nth_error_lt; eauto.
Qed.

Lemma exception_publishes r ex w a :
  nth_error (w_acts w) r = Some a -> a_trans a = true -> a_defer a = false -> calm cfg ->
  (* published *)
  (exists e xs wm, exception_ cfg r (Some ex) None [] w = (pubw (a_log a) KEnd e wm, Ok tt) /\
    e_status e = Some Exception_ /\ ends r a e xs w wm) \/
  (* an exception hook, or the text of the exception, raised an ordinary exception *)
  (~ exc_quiet cfg /\ exists wm y, exception_ cfg r (Some ex) None [] w = (wm, Raise y) /\ exn_ord y = true).
Proof.
  intros Ha Ht Hd HC. pose proof (nth_error_lt _ _ _ Ha) as Hlt.
  rewrite exception_eq, Ha. cbv zeta.
  unfold exc_msg. simpl String.eqb. cbv iota.
  destruct (cf_describe cfg ex) as [d|y] eqn:Hdesc.
  - set (m := dm_suffix a (a_name a +s " raised exception: " +s d)).
    set (e := mkEvent KExc r (w_ctr w) (cf_clock cfg (w_clk w)) m None (Some ex)).
    set (w1 := with_event r (a_set_excs (a_excs a ++ [e]) a) e (tick w)).
    destruct (call_hooks_spec cfg (a_log a) KExc e (lg_xh (w_logs w (a_log a))) w1) as (dd & rest & Hdd & Hf & Hr & _).
    destruct (call_hooks cfg (a_log a) KExc e (lg_xh (w_logs w (a_log a))) w1) as [w2 [u|y]]; simpl in Hf, Hr.
    + left. subst w2.
      assert (Ha2 : nth_error (w_acts (add_trace (deliveries (a_log a) KExc e dd) w1)) r = Some (a_set_excs (a_excs a ++ [e]) a)).
      { unfold w1, with_event. apply act_upd_nth. simpl. auto. }
      destruct (end_publishes r Exception_ m [] (Some (cf_clock cfg (w_clk w))) (Some ex) _ _ Ha2)
        as (e2 & wm & He & Hst & Hen); auto using calm_end.
      exists e2, (deliveries (a_log a) KExc e dd), wm. split; [exact He|]. split; auto.
      destruct Hen as [N1 N2 N3 N4 N5 N6 (a' & N7 & N8 & N9)]. constructor; auto.
      * rewrite N3, app_nil_r. reflexivity.
      * intros o Ho. unfold deliveries in Ho. apply in_map_iff in Ho. destruct Ho as (s & <- & _). eauto.
      * exists a'. split; auto.
    + right. destruct Hr as (d0 & s & _ & Hs). split.
      * intros [Hq _]. rewrite Hq in Hs. discriminate.
      * exists w2, y. split; auto. eapply calm_exc; eauto.
  - right. split.
    + intros [_ Hq]. destruct (Hq ex) as [d Hd']. congruence.
    + eexists _, y. split; [reflexivity|]. eapply calm_text; eauto.
Qed.

Definition suppresses (rr : option bool) : bool := match rr with Some false => true | _ => false end.

(** Leaving a block never fails under calm sinks and restores the parent that
    was captured at creation. *)
Lemma exit_calm r x w a :
  winv w -> nth_error (w_acts w) r = Some a -> a_trans a = true -> calm cfg ->
  exists w', exit_ cfg r x w = (w', Ok (suppresses (a_reraise a))) /\
    w_active w' = upd (w_active w) (a_log a) (a_parent a) /\
    (exc_quiet cfg \/ x = None -> exists e xs wm, w' = set_active (upd (w_active w) (a_log a) (a_parent a)) (pubw (a_log a) KEnd e wm) /\
       ends r a e xs w wm /\
       (x = None -> xs = []) /\
       e_status e = match x with
                    | Some _ => Some Exception_
                    | None => match a_end a with Some e' => e_status e' | None => Some Success end
                    end).
Proof.
  intros HW Ha Ht HC. pose proof (nth_error_lt _ _ _ Ha) as Hlt.
  pose proof (wi_b _ _ HW) as HB.
  unfold exit_. unfold bind at 1, mod_act at 1. rewrite Ha.
  change (set_acts (list_set (w_acts w) r (a_set_defer false a)) w) with (act_upd r (a_set_defer false a) w).
  set (w0 := act_upd r (a_set_defer false a) w).
  assert (Ha0 : nth_error (w_acts w0) r = Some (a_set_defer false a)) by (apply act_upd_nth; auto).
  assert (HB0 : binv cfg w0) by (eapply T_binv; [apply T_undefer; eauto | auto]).
  assert (Hfin : forall w1 rr, nth_error (w_acts w1) r = Some rr -> same_static a rr -> w_active w1 = w_active w ->
     (a0 <- get_act r;; set_active_parent (a_log a0) (a_parent a0);;;
       ret match a_reraise a0 with Some false => true | _ => false end) w1 =
     (set_active (upd (w_active w) (a_log a) (a_parent a)) w1, Ok (suppresses (a_reraise a)))).
  { intros w1 rr Hrr (S1 & S2 & S3 & S4 & S5 & S6) Hact.
    unfold bind, get_act. rewrite Hrr. unfold set_active_parent, ret, suppresses. rewrite S2, S5, S6, Hact. reflexivity. }
  (* the published case *)
  assert (Hpub : forall (mid : M unit) e xs wm st, mid w0 = (pubw (a_log a) KEnd e wm, Ok tt) ->
     ends r (a_set_defer false a) e xs w0 wm -> e_status e = st -> (x = None -> xs = []) ->
     exists w', (mid ;;; a0 <- get_act r;; set_active_parent (a_log a0) (a_parent a0);;;
       ret match a_reraise a0 with Some false => true | _ => false end) w0 = (w', Ok (suppresses (a_reraise a))) /\
     w_active w' = upd (w_active w) (a_log a) (a_parent a) /\
     (exists e xs wm, w' = set_active (upd (w_active w) (a_log a) (a_parent a)) (pubw (a_log a) KEnd e wm) /\
       ends r a e xs w wm /\ (x = None -> xs = []) /\ e_status e = st)).
  { intros mid e xs wm st Hm Hen Hst Hxs. destruct Hen as [N1 N2 N3 N4 N5 N6 (a' & N7 & N8 & N9)].
    rewrite (bind_ok _ _ _ _ _ Hm). rewrite (Hfin _ a').
    - eexists. split; [reflexivity|]. split; [reflexivity|].
      exists e, xs, wm. split; [reflexivity|]. split; [|split; auto].
      constructor; auto. exists a'. auto.
    - rewrite pubw_acts. auto.
    - exact N8.
    - rewrite pubw_active, N6. reflexivity. }
  destruct x as [ex|].
  - destruct (exception_publishes r ex w0 _ Ha0 Ht eq_refl HC)
      as [(e & xs & wm & He & Hst & Hen)|(Hnq & wm & y & He & Hy)].
    + match goal with |- exists w', bind ?mid _ _ = _ /\ _ => destruct (Hpub mid e xs wm (Some Exception_)) as (w' & W1 & W2 & W3) end;
        auto.
      * rewrite He. reflexivity.
      * discriminate.
      * exists w'. split; auto.
    + assert (Hch : chain (Pend r) w0 wm).
      { pose proof (exception_chain cfg r (Some ex) None [] w0 HB0) as Hc. rewrite He in Hc. exact Hc. }
      destruct (chain_keep cfg _ _ _ Hch _ _ Ha0) as (a' & Ha' & HS).
      rewrite (bind_ok _ _ _ (add_trace [ONote "action_exit"] wm) tt).
      2:{ rewrite He, Hy. unfold note. rewrite calm_note by auto. reflexivity. }
      rewrite (Hfin _ a').
      * eexists. split; [reflexivity|]. split; [reflexivity|].
        intros [Hq|Hx]; [contradiction | discriminate].
      * exact Ha'.
      * exact HS.
      * simpl. rewrite (end_active_same _ _ _ Hch). reflexivity.
  - destruct (a_end a) as [e|] eqn:Hend.
    + match goal with |- exists w', bind ?mid _ _ = _ /\ _ => destruct (Hpub mid e [] w0 (e_status e)) as (w' & W1 & W2 & W3) end; auto.
      * unfold bind, get_act. rewrite Ha0. cbn [a_end a_log a_set_defer]. rewrite Hend.
        rewrite on_end_publish. apply publish_quiet. auto using calm_end.
      * destruct (wi_att _ _ HW _ _ Ha) as (I1 & _ & I3).
        destruct (I1 e (or_intror (or_introl Hend))) as [Hact _].
        constructor; auto.
        -- rewrite app_nil_r; reflexivity.
        -- intros o [].
        -- exists (a_set_defer false a). repeat split; auto.
      * exists w'. split; auto.
    + match goal with |- exists w', bind ?mid _ _ = _ /\ _ =>
        destruct (end_publishes r Success (dm_suffix a (a_name a +s " succeeded")) [] None None w0 _ Ha0)
          as (e & wm & He & Hst & Hen); auto using calm_end;
        destruct (Hpub mid e [] wm (Some Success)) as (w' & W1 & W2 & W3) end; auto.
      * unfold bind, get_act. rewrite Ha0. cbn [a_end a_set_defer]. rewrite Hend.
        unfold success, bind, get_act. rewrite Ha0. exact He.
      * exists w'. split; auto.
Qed.
End Block.
