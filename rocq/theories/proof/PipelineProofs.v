From Verif Require Import model.PyBase model.Core model.Sensible model.Pipeline spec.CoreSpec spec.PipelineSpec
  proof.CoreLib proof.CoreTrans proof.CoreInv proof.CoreWith proof.CoreDispatch proof.CoreFinal proof.CoreAsync proof.WrapProofs.

Local Opaque parent_depth show seen.
Lemma to_sink_received l s t : to_sink l s t = received l s t.
Proof. unfold received. induction t as [|o t IH]; [reflexivity|]. destruct o; cbn; try exact IH. destruct (Nat.eqb _ l && Nat.eqb _ s); cbn; rewrite IH; reflexivity. Qed.

Definition wb (ap : appender) (k : kind) (x : shown) : bool := ss_has (sink_of ap) k && forallb (fun f => f k x) (ap_filters ap).
Lemma existsb_str n l : existsb (String.eqb n) l = true <-> In n l.
Proof.
  rewrite existsb_exists. split; [intros (x & H & E); apply String.eqb_eq in E; congruence|].
  intro H. exists n. split; [exact H|apply String.eqb_refl].
Qed.
Lemma has_sub ap k : ss_has (sink_of ap) k = true <-> subscribed ap k.
Proof. destruct k; unfold ss_has, sink_of; cbn [ss_events ap_on subscribed]; try apply existsb_str. split; [discriminate|contradiction]. Qed.
Lemma wb_spec ap k x : wb ap k x = true <-> writes_it ap k x.
Proof. unfold wb, writes_it. rewrite andb_true_iff, has_sub, forallb_forall. reflexivity. Qed.

Lemma ask_total fs k (x : shown) : ask_filters (map (fun f k x => Some (f k x)) fs) k x = Some (map (fun f => f k x) fs).
Proof. induction fs as [|f fs IH]; cbn; [reflexivity|]. rewrite IH. reflexivity. Qed.
Lemma on_total ap k x : fst (ss_on (sink_of ap) k x) = if forallb (fun f => f k x) (ap_filters ap) then [(k, x, ap_render ap k x)] else [].
Proof.
  unfold ss_on, sink_of. cbn [ss_filters ss_formatter ss_emitter]. rewrite ask_total.
  assert (E : forallb (fun b : bool => b) (map (fun f => f k x) (ap_filters ap)) = forallb (fun f => f k x) (ap_filters ap)).
  { induction (ap_filters ap) as [|f fs IH]; cbn; [reflexivity|]. rewrite IH. reflexivity. }
  rewrite E. clear E. destruct (ap_filters ap) as [|f fs]; [reflexivity|]. cbn [map].
  destruct (forallb _ (f :: fs)); reflexivity.
Qed.
Definition out (ap : appender) (k : kind) (x : shown) : list text := if wb ap k x then [ap_render ap k x] else [].
Definition txt (ap : appender) (v : event -> shown) (es : list (kind * event)) : list text :=
  flat_map (fun p => out ap (fst p) (v (snd p))) es.
Lemma txt_cons ap v k e es : txt ap v ((k, e) :: es) = out ap k (v e) ++ txt ap v es.
Proof. reflexivity. Qed.
Lemma txt_app ap w a b : txt ap w (a ++ b) = txt ap w a ++ txt ap w b.
Proof. apply flat_map_app. Qed.
Lemma entries_txt ap l s w w' : entries ap l s w w' = txt ap (seen w w') (received l s (skipn (length (w_trace w)) (w_trace w'))).
Proof.
  unfold entries. rewrite to_sink_received. induction (received l s _) as [|[k e] es IH]; [reflexivity|].
  cbn [map ss_run]. rewrite map_app, IH. cbn [fst snd]. rewrite txt_cons. apply (f_equal2 (@app text)); [|reflexivity]. rewrite on_total. unfold out, wb.
  destruct (ss_has (sink_of ap) k); cbn [andb]; [|reflexivity]. destruct (forallb _ _); reflexivity.
Qed.
Lemma txt_lines ap w es : log_lines ap w es (txt ap w es).
Proof.
  induction es as [|[k e] es IH]; [constructor|]. rewrite txt_cons. unfold out. destruct (wb ap k _) eqn:E; cbn [app].
  - constructor; [apply wb_spec, E|exact IH].
  - constructor; [rewrite <- wb_spec; congruence|exact IH].
Qed.
Lemma lines_fun ap w es ts ts' : log_lines ap w es ts -> log_lines ap w es ts' -> ts = ts'.
Proof. intros H. revert ts'. induction H; intros ts' H'; inversion H'; subst; try reflexivity; try tauto; [f_equal|]; auto. Qed.

Lemma run_ops_app cfg a : forall b w, run_ops cfg (a ++ b) w = run_ops cfg b (run_ops cfg a w).
Proof. induction a as [|o a IH]; intros b w; cbn; [reflexivity|]. apply IH. Qed.
Lemma same_static_sym a b : same_static a b -> same_static b a.
Proof. unfold same_static. intros (? & ? & ? & ? & ? & ?). repeat split; congruence. Qed.
Lemma same_static_trans a b c : same_static a b -> same_static b c -> same_static a c.
Proof. unfold same_static. intros (? & ? & ? & ? & ? & ?) (? & ? & ? & ? & ? & ?). repeat split; congruence. Qed.
Section P.
Variable cfg : config.
Notation winv := (winv cfg).
Lemma step_grows o w : winv w -> grows w (fst (step cfg o w)) /\ keep w (fst (step cfg o w)) /\ winv (fst (step cfg o w)).
Proof.
  intros HW. pose proof (step_chain cfg o w (wi_b _ _ HW)) as HC. split; [eapply chain_grows; eauto|].
  split; [eapply chain_keep; eauto|eapply chain_winv; eauto].
Qed.
Lemma run_grows os : forall w, winv w -> grows w (run_ops cfg os w) /\ keep w (run_ops cfg os w) /\ winv (run_ops cfg os w).
Proof.
  induction os as [|o os IH]; intros w HW; cbn [run_ops]; [split; [apply grows_refl|split; [apply keep_refl|exact HW]]|].
  destruct (step_grows o w HW) as (A & B & C). destruct (IH _ C) as (A' & B' & C').
  split; [eapply grows_trans; eauto|]. split; [eapply keep_trans; eauto|exact C'].
Qed.
Lemma skipn_grow {A} (a b : list A) : skipn (length a) (a ++ b) = b.
Proof. rewrite skipn_app, skipn_all, Nat.sub_diag. reflexivity. Qed.

(** Rendering an event now or later makes no difference *)
Lemma depth_keep w w' : keep w w' -> act_inv w -> forall f r, r < length (w_acts w) ->
  parent_depth_loop f (w_acts w) r = parent_depth_loop f (w_acts w') r.
Proof.
  intros HK [HA _] f. induction f as [|f IH]; intros r Hr; [reflexivity|]. cbn [parent_depth_loop].
  destruct (nth_error (w_acts w) r) as [a|] eqn:Ea; [|apply nth_error_None in Ea; lia].
  destruct (HK _ _ Ea) as (a' & -> & S). destruct S as (_ & _ & _ & _ & _ & ->).
  destruct (a_parent a) as [p|] eqn:Ep; [|reflexivity]. f_equal. apply IH. pose proof (HA _ _ _ Ea Ep). lia.
Qed.
Local Transparent parent_depth show seen.
Lemma show_keep w w' e : keep w w' -> act_inv w -> e_act e < length (w_acts w) ->
  exists a a' d, show w e = (e, Some a, d) /\ show w' e = (e, Some a', d) /\ same_static a a'.
Proof.
  intros HK HA Hlt. destruct (nth_error (w_acts w) (e_act e)) as [a|] eqn:Ea; [|apply nth_error_None in Ea; lia].
  destruct (HK _ _ Ea) as (a' & Ea' & S). exists a, a', (parent_depth w (e_act e)). unfold show. rewrite Ea, Ea'.
  assert (E : parent_depth w' (e_act e) = parent_depth w (e_act e)); [|rewrite E; auto].
  unfold parent_depth. symmetry. apply depth_keep; assumption.
Qed.
Lemma seen_static w1 w e : exists a d, seen w1 w e = (e, a, d) /\ match nth_error (w_acts w) (e_act e), a with
  | Some b, Some a => d = parent_depth w (e_act e) /\ same_static b a /\ a_begin a = a_begin b /\ a_excs a = a_excs b /\ a_data a = a_data b /\ a_trans a = a_trans b /\
      (a_end a = a_end b \/ a_end a = None /\ exists x, a_end b = Some x /\ e_id e < e_id x)
  | None, None => True | _, _ => False end.
Proof.
  unfold seen, show. destruct (nth_error (w_acts w) (e_act e)) as [b|]; [|eexists None, _; split; [reflexivity|exact I]].
  destruct (a_end b) as [x|] eqn:Eb.
  2:{ eexists (Some b), _. split; [reflexivity|]. repeat split; auto. }
  destruct (Nat.ltb (e_id e) (e_id x)) eqn:El; cbn [andb].
  2:{ eexists (Some b), _. split; [reflexivity|]. repeat split; auto. }
  apply Nat.ltb_lt in El. destruct (Nat.leb (w_ctr w1) (e_id x)).
  - eexists (Some (a_set_end None b)), _. split; [reflexivity|]. repeat split; auto. right. split; [reflexivity|]. exists x. auto.
  - eexists (Some b), _. split; [reflexivity|]. repeat split; auto.
Qed.
Local Opaque parent_depth show seen.
Lemma out_unchanging ap k e a a' d : unchanging ap -> same_static a a' -> out ap k (e, Some a, d) = out ap k (e, Some a', d).
Proof.
  intros HU S. unfold same_static in S. destruct S as (S1 & S2 & S3 & S4 & S5 & S6).
  destruct (HU k e a a' d) as [U1 U2]; auto. unfold out. rewrite U2.
  assert (E : wb ap k (e, Some a, d) = wb ap k (e, Some a', d)); [|rewrite E; reflexivity].
  unfold wb. f_equal. clear -U1. induction (ap_filters ap) as [|f fs IH]; cbn; [reflexivity|].
  rewrite (U1 f) by (left; reflexivity). rewrite IH; [reflexivity|]. intros g Hg. apply U1. right. exact Hg.
Qed.
Lemma txt_ext ap v v' es : (forall k e, In (k, e) es -> out ap k (v e) = out ap k (v' e)) -> txt ap v es = txt ap v' es.
Proof.
  induction es as [|[k e] es IH]; intros H; [reflexivity|]. rewrite !txt_cons. rewrite (H k e) by (left; reflexivity).
  apply (f_equal2 (@app text)); [reflexivity|]. apply IH. intros; apply H; right; assumption.
Qed.
Lemma txt_keep ap w w' es : unchanging ap -> keep w w' -> act_inv w ->
  (forall k e, In (k, e) es -> e_act e < length (w_acts w)) -> txt ap (show w) es = txt ap (show w') es.
Proof.
  intros HU HK HA HE. apply txt_ext. intros k e Hin.
  destruct (show_keep w w' e HK HA (HE _ _ Hin)) as (a & a' & d & -> & -> & S). apply out_unchanging; assumption.
Qed.
Lemma received_ok l s w k e : winv w -> In (k, e) (received l s (w_trace w)) -> e_act e < length (w_acts w).
Proof.
  intros HW Hin. unfold received in Hin. apply in_flat_map in Hin as (o & H1 & H2). destruct o; try contradiction.
  destruct (Nat.eqb _ l && Nat.eqb _ s) eqn:E; [|contradiction]. destruct H2 as [[= <- <-]|[]].
  assert (Ho : occurs w l0 k0 e0) by (right; eauto). apply (wi_occ _ _ HW) in Ho. destruct Ho as (_ & _ & a & Ha & _). eapply nth_error_lt; eauto.
Qed.
Lemma logged_world ap l s os : forall w, fst (run_logged cfg ap l s os w) = run_ops cfg os w.
Proof. induction os as [|o os IH]; intros w; cbn [run_logged run_ops]; [reflexivity|]. rewrite <- IH. destruct (run_logged _ _ _ _ os _). reflexivity. Qed.
Lemma logged_view ap l s V os : forall w, winv w ->
  (forall os1 o os2 k e, os = os1 ++ o :: os2 ->
     In (k, e) (received l s (skipn (length (w_trace (run_ops cfg os1 w))) (w_trace (fst (step cfg o (run_ops cfg os1 w)))))) ->
     out ap k (seen (run_ops cfg os1 w) (fst (step cfg o (run_ops cfg os1 w))) e) = out ap k (V e)) ->
  snd (run_logged cfg ap l s os w) = txt ap V (received l s (skipn (length (w_trace w)) (w_trace (run_ops cfg os w)))).
Proof.
  induction os as [|o os IH]; intros w HW HV; cbn [run_logged run_ops].
  - rewrite skipn_all. reflexivity.
  - destruct (step_grows o w HW) as ([n1 E1] & B & C). pose proof (HV [] o os) as H0. cbn [app run_ops] in H0.
    assert (HV' : forall os1 o0 os2 k e, os = os1 ++ o0 :: os2 ->
      In (k, e) (received l s (skipn (length (w_trace (run_ops cfg os1 (fst (step cfg o w))))) (w_trace (fst (step cfg o0 (run_ops cfg os1 (fst (step cfg o w)))))))) ->
      out ap k (seen (run_ops cfg os1 (fst (step cfg o w))) (fst (step cfg o0 (run_ops cfg os1 (fst (step cfg o w))))) e) = out ap k (V e)).
    { intros os1 o0 os2 k e E. apply (HV (o :: os1) o0 os2 k e). rewrite E. reflexivity. }
    specialize (IH _ C HV'). destruct (run_grows os _ C) as ([n2 E2] & B2 & C2).
    destruct (run_logged cfg ap l s os (fst (step cfg o w))) as [w2 es]. cbn [snd] in *. rewrite IH, entries_txt, E2, skipn_grow.
    rewrite E1 in *. rewrite <- app_assoc, !skipn_grow, received_app, txt_app. apply (f_equal2 (@app text)); [|reflexivity].
    apply txt_ext. intros k e Hin. apply H0; [reflexivity|]. rewrite skipn_grow. exact Hin.
Qed.
Lemma received_in l s w w' k e : grows w w' -> In (k, e) (received l s (skipn (length (w_trace w)) (w_trace w'))) -> In (k, e) (received l s (w_trace w')).
Proof. intros [n E]. rewrite E, skipn_grow, received_app. intro H. apply in_app_iff. right. exact H. Qed.
Local Transparent show.
Lemma logged_txt ap l s os : unchanging ap -> forall w, winv w ->
  snd (run_logged cfg ap l s os w) = txt ap (show (run_ops cfg os w)) (received l s (skipn (length (w_trace w)) (w_trace (run_ops cfg os w)))).
Proof.
  intros HU w HW. apply logged_view; [exact HW|]. intros os1 o os2 k e -> Hin. rewrite run_ops_app. cbn [run_ops].
  destruct (run_grows os1 w HW) as (_ & _ & W1). set (w1 := run_ops cfg os1 w) in *.
  destruct (step_grows o w1 W1) as (G & K & W2). apply (received_in l s w1 _ k e G) in Hin. set (w2 := fst (step cfg o w1)) in *.
  destruct (run_grows os2 w2 W2) as (_ & K2 & _).
  destruct (show_keep w2 (run_ops cfg os2 w2) e K2 (wi_act _ _ W2) (received_ok l s _ _ _ W2 Hin)) as (a & a' & d & E1 & -> & S).
  destruct (seen_static w1 w2 e) as (b & d' & -> & H). unfold show in E1. injection E1 as Ea Ed. rewrite Ea in H.
  destruct b as [b|]; [|contradiction]. destruct H as (-> & S' & _). rewrite Ed. apply out_unchanging; [exact HU|].
  eapply same_static_trans; [|exact S]. apply same_static_sym. exact S'.
Qed.
Local Opaque show.
Lemma txt_plain ap w es : txt ap w (filter plain es) = txt ap w es.
Proof.
  induction es as [|[k e] es IH]; [reflexivity|]. cbn [filter]. destruct (plain (k, e)) eqn:E.
  - rewrite !txt_cons, IH. reflexivity.
  - destruct k; try discriminate E. rewrite txt_cons. exact IH.
Qed.
End P.

Lemma cmds_ops cfg os : forall w, run_cmds cfg (map CCall os) w = run_ops cfg os w.
Proof. induction os as [|o os IH]; intros w; cbn; [reflexivity|]. apply IH. Qed.
Lemma setup_trace cfg os : (forall o, In o os -> is_setup o) -> forall w, w_trace (run_ops cfg os w) = w_trace w.
Proof.
  induction os as [|o os IH]; intros H w; cbn [run_ops]; [reflexivity|]. rewrite IH by (intros; apply H; right; assumption).
  specialize (H o (or_introl eq_refl)). destruct o; try contradiction; reflexivity.
Qed.
Lemma received_map l s k e hs : NoDup hs -> received l s (map (fun x => ODeliver l k x e) hs) = if existsb (Nat.eqb s) hs then [(k, e)] else [].
Proof.
  induction hs as [|h hs IH]; intros HN; [reflexivity|]. inversion HN; subst. specialize (IH H2). unfold received in *. cbn [map flat_map existsb].
  rewrite IH, Nat.eqb_refl. cbn [andb]. rewrite (Nat.eqb_sym s h). destruct (Nat.eqb_spec h s) as [->|]; cbn; [|reflexivity].
  destruct (existsb (Nat.eqb s) hs) eqn:E; [|reflexivity]. apply existsb_eqb_In in E. contradiction.
Qed.
Lemma entries_published cfg ap w w' l s evs : hooks_inv cfg w -> In s (lg_sinks (w_logs w l)) -> is_sink cfg s ap ->
  w_trace w' = w_trace w ++ everyone cfg w l evs -> entries ap l s w w' = txt ap (seen w w') evs.
Proof.
  intros HH Hs HK E. rewrite entries_txt, E, skipn_grow. clear E. unfold everyone. induction evs as [|[k e] evs IH]; [reflexivity|].
  cbn [flat_map fst snd]. rewrite received_app, txt_app, IH. clear IH. change ((k, e) :: evs) with ([(k, e)] ++ evs). rewrite (txt_app ap (seen w w') [(k, e)]). apply (f_equal2 (@app text)); [|reflexivity].
  destruct (HH l) as [HN _]. rewrite received_map by (apply NoDup_filter; exact HN).
  destruct (existsb (Nat.eqb s) (listeners cfg w l k)) eqn:X; [reflexivity|].
  rewrite txt_cons. unfold out, wb. destruct (ss_has (sink_of ap) k) eqn:Y; [|reflexivity].
  exfalso. apply has_sub, HK in Y. assert (Z : In s (listeners cfg w l k)) by (apply filter_In; auto). apply existsb_eqb_In in Z. congruence.
Qed.
