(** Hook calls in sink order; no sink code in asynchronous logging calls: C15. *)
From Verif Require Import model.PyBase model.Core model.Concurrent spec.CoreSpec spec.ConcurrentSpec
  proof.CoreLib proof.CoreDispatch proof.ConcurrentProofs.

Lemma handed_app a b : handed (a ++ b) = handed a ++ handed b. Proof. apply flat_map_app. Qed.
Lemma hinl_app t a b : handed_inline_by t (a ++ b) = handed_inline_by t a ++ handed_inline_by t b. Proof. apply flat_map_app. Qed.
Lemma lby_app t a b : logged_by t (a ++ b) = logged_by t a ++ logged_by t b. Proof. apply flat_map_app. Qed.
Lemma to_all_app lis a b : to_all lis (a ++ b) = to_all lis a ++ to_all lis b. Proof. apply flat_map_app. Qed.
Lemma to_all_one lis x : to_all lis [x] = map (fun s => (s, x)) (lis (fst x)).
Proof. unfold to_all. cbn. apply app_nil_r. Qed.

Section C.
Variable lis : kind -> list nat.
Hypothesis Hlis : forall k, NoDup (lis k).

(** Calls still to make for the event being dispatched. *)
Definition left_th (th : thread) : list (nat * item) :=
  match th_pc th with
  | Dispatching k e hs | Delivering k e _ hs => map (fun s => (s, (k, e))) hs
  | _ => []
  end.
Definition left_q (g : gstate) : list (nat * item) :=
  match g_lock g with
  | Some t => match nth_error (g_threads g) t with Some th => left_th th | None => [] end
  | None => []
  end.
Lemma left_same t p todo new g g1 th : lock_inv g -> nth_error (g_threads g) t = Some th -> ~ flushing th ->
  g_lock g1 = g_lock g -> g_threads g1 = g_threads g -> left_q (at_ t p todo new g1) = left_q g.
Proof.
  intros HL HN HF E1 E2. unfold left_q, at_. cbn [g_lock g_threads]. rewrite E1, E2. destruct (g_lock g) as [t0|] eqn:EL; [|reflexivity].
  destruct (Nat.eq_dec t0 t) as [->|Hn]; [|rewrite nth_set_neq by auto; reflexivity].
  destruct (li_held _ HL _ EL) as (th0 & A & B). rewrite HN in A. inversion A; subst. contradiction.
Qed.
Lemma left_at t p todo new g1 th : g_lock g1 = Some t -> nth_error (g_threads g1) t = Some th -> left_q (at_ t p todo new g1) = left_th (mkThread p todo).
Proof. intros E HN. unfold left_q, at_. cbn [g_lock g_threads]. rewrite E. erewrite nth_set_eq by eauto. reflexivity. Qed.
Lemma left_none t p todo new g1 : g_lock g1 = None -> left_q (at_ t p todo new g1) = [].
Proof. intros E. unfold left_q, at_. cbn [g_lock]. rewrite E. reflexivity. Qed.

Definition hand_inv (g : gstate) : Prop := handed (g_trace g) ++ left_q g = to_all lis (popped (g_trace g)).
Lemma St_hand t g g' : St lis t false g g' -> lock_inv g -> noexc_inv g -> hand_inv g -> hand_inv g'.
Proof.
  intros HS HL HX HG.
  assert (Hnf : forall p todo new g1 th, nth_error (g_threads g) t = Some th -> ~ flushing th -> g_lock g1 = g_lock g -> g_threads g1 = g_threads g ->
    g_trace g1 = g_trace g -> handed new = [] -> popped new = [] -> hand_inv (at_ t p todo new g1)).
  { intros p todo new g1 th HN HF E1 E2 E3 E4 E5. unfold hand_inv in *. erewrite left_same by eauto. unfold at_. cbn [g_trace]. rewrite E3, handed_app, popped_app, E4, E5, !app_nil_r. exact HG. }
  remember false as b eqn:Eb.
  destruct HS; try discriminate;
    try (eapply Hnf; [eassumption|unfold flushing; cbn; tauto|reflexivity|reflexivity|reflexivity|reflexivity|reflexivity]; fail);
    try (match goal with N : nth_error (g_threads g) t = Some ?th |- _ =>
           assert (EL : g_lock g = Some t) by (apply (li_only _ HL _ _ N); exact I);
           assert (EQ : left_q g = left_th th) by (unfold left_q; rewrite EL, N; reflexivity) end;
         unfold hand_inv in *; rewrite EQ in HG; unfold left_th in HG; cbn [th_pc] in HG).
  - (* acquire *) unfold hand_inv in *. erewrite left_at by (cbn; eauto). unfold at_. cbn [g_trace g_set_lock]. rewrite handed_app, popped_app. cbn. rewrite !app_nil_r.
    assert (E : left_q g = []) by (unfold left_q; rewrite H0; reflexivity). rewrite E, app_nil_r in HG. exact HG.
  - rewrite left_none by reflexivity. unfold at_. cbn [g_trace g_set_lock]. rewrite handed_app, popped_app. cbn. rewrite !app_nil_r in *. exact HG.
  - erewrite left_at by eauto. unfold at_. cbn [g_trace]. rewrite handed_app, popped_app. cbn. rewrite !app_nil_r in *. exact HG.
  - rewrite left_none by reflexivity. unfold at_. cbn [g_trace g_set_lock]. rewrite handed_app, popped_app. cbn. rewrite !app_nil_r in *. exact HG.
  - (* pop *) erewrite left_at by eauto. unfold at_. cbn [g_trace g_set_queue]. rewrite handed_app, popped_app, to_all_app. cbn [handed popped flat_map app]. rewrite !app_nil_r in *.
    assert (Hk : k <> KExc) by (intros ->; apply (HX e); rewrite H0; left; reflexivity).
    rewrite <- HG, to_all_one. cbn [fst]. unfold left_th. cbn [th_pc]. f_equal. destruct k; try reflexivity; congruence.
  - erewrite left_at by eauto. unfold at_. cbn [g_trace]. rewrite handed_app, popped_app. cbn. rewrite !app_nil_r in *. exact HG.
  - (* deliver *) erewrite left_at by eauto. unfold at_. cbn [g_trace]. rewrite handed_app, popped_app. cbn. rewrite !app_nil_r in *. rewrite <- app_assoc. exact HG.
  - erewrite left_at by eauto. unfold at_. cbn [g_trace]. rewrite handed_app, popped_app. cbn. rewrite !app_nil_r in *. exact HG.
  - congruence.
Qed.
Lemma run_hand a progs sc : nobody_raises sc -> hand_inv (trun lis sc (start a progs)).
Proof.
  intros HN. enough (H : Inv (trun lis sc (start a progs)) /\ hand_inv (trun lis sc (start a progs))) by apply H.
  apply trun_inv_f; [|exact HN|split; [apply start_Inv|reflexivity]].
  intros t g g' HS [A G]. split; [eapply St_Inv; eauto|]. destruct A. eapply St_hand; eauto.
Qed.

(** *** Synchronous mode *)
Definition left_inl (th : thread) : list (nat * item) :=
  match th_pc th with
  | Logging k e => to_all lis [(k, e)]
  | Inline k e hs | InHook k e _ hs => map (fun s => (s, (k, e))) hs
  | _ => []
  end.
Definition sync_inv (g : gstate) : Prop :=
  g_async g = false /\ appended (g_trace g) = [] /\
  forall t th, nth_error (g_threads g) t = Some th ->
    (forall v, ~ In (CSetAsync v) (th_todo th)) /\
    match th_pc th with Appending _ _ | Setting _ => False | _ => True end /\
    handed_inline_by t (g_trace g) ++ left_inl th = to_all lis (logged_by t (g_trace g)).
Lemma St_sync t g g' : St lis t false g g' -> sync_inv g -> sync_inv g'.
Proof.
  intros HS (HA & HQ & HO).
  assert (Hkeep : forall p todo new g1 th, nth_error (g_threads g) t = Some th -> g_async g1 = false -> g_threads g1 = g_threads g -> g_trace g1 = g_trace g ->
    appended new = [] -> (forall t', t' <> t -> handed_inline_by t' new = [] /\ logged_by t' new = []) ->
    match p with Appending _ _ | Setting _ => False | _ => True end ->
    (forall v, In (CSetAsync v) todo -> In (CSetAsync v) (th_todo th)) ->
    (forall h l, h ++ left_inl th = l -> (h ++ handed_inline_by t new) ++ left_inl (mkThread p todo) = l ++ to_all lis (logged_by t new)) ->
    sync_inv (at_ t p todo new g1)).
  { intros p todo new g1 th HN E1 E2 E3 E4 E5 E6 E7 E8. split; [exact E1|]. unfold at_. cbn [g_trace g_threads]. rewrite E2, E3, appended_app, HQ, E4. split; [reflexivity|].
    intros t' th' HN'. destruct (Nat.eq_dec t' t) as [->|Hn].
    - erewrite nth_set_eq in HN' by eauto. inversion HN'; subst. cbn [th_pc th_todo]. destruct (HO _ _ HN) as (P1 & P2 & P3).
      split; [intros v Hv; exact (P1 v (E7 v Hv))|]. split; [exact E6|]. rewrite hinl_app, lby_app, to_all_app. apply E8. exact P3.
    - rewrite nth_set_neq in HN' by auto. destruct (HO _ _ HN') as (P1 & P2 & P3). split; [exact P1|]. split; [exact P2|].
      destruct (E5 t' Hn) as [F1 F2]. rewrite hinl_app, lby_app, to_all_app, F1, F2. cbn [to_all flat_map]. rewrite !app_nil_r. exact P3. }
  assert (Ht : forall t' x y, t' <> t -> (if Nat.eqb t t' then x else y) = y :> list (nat * item)) by (intros t' x y Hn; destruct (Nat.eqb_spec t t'); [congruence|reflexivity]).
  assert (Ht' : forall t' x y, t' <> t -> (if Nat.eqb t t' then x else y) = y :> list item) by (intros t' x y Hn; destruct (Nat.eqb_spec t t'); [congruence|reflexivity]).
  remember false as b eqn:Eb.
  destruct HS; try discriminate;
    try (match goal with N : nth_error (g_threads g) t = Some _ |- _ => destruct (HO _ _ N) as (_ & [] & _) end);
    try congruence;
    try (eapply Hkeep; [eassumption|exact HA|reflexivity|reflexivity|reflexivity|
           intros t' Hn; cbn [handed_inline_by logged_by flat_map app]; rewrite ?Ht, ?Ht' by exact Hn; split; reflexivity|exact I|
           cbn [th_todo In]; tauto|
           intros h l Hl; cbn [handed_inline_by logged_by flat_map app]; rewrite ?Nat.eqb_refl; cbn [app]; unfold left_inl in *; cbn [th_pc] in *;
           rewrite <- ?Hl, ?to_all_one; cbn [to_all flat_map map fst]; rewrite ?app_nil_r, <- ?app_assoc; reflexivity]; fail).
  - (* set *) destruct (HO _ _ H) as (P1 & _). exfalso. apply (P1 v). left. reflexivity.
Qed.
Lemma run_sync progs sc : no_switch progs -> nobody_raises sc -> sync_inv (trun lis sc (start false progs)).
Proof.
  intros HP HN. apply trun_inv_f; [exact St_sync|exact HN|]. split; [reflexivity|]. split; [reflexivity|].
  intros t th H. destruct (start_th _ _ _ _ H) as (p & P1 & ->). split; [|split; [exact I|reflexivity]].
  intros v. apply HP. eapply nth_error_In; eauto.
Qed.

(** *** Asynchronous mode *)
Definition async_inv (g : gstate) : Prop :=
  g_async g = true /\
  (forall t th, nth_error (g_threads g) t = Some th ->
    (forall v, ~ In (CSetAsync v) (th_todo th)) /\
    match th_pc th with Setting _ => False | Inline k _ _ | InHook k _ _ _ => k = KExc | _ => True end) /\
  forall t s x, In (TCall t s x false) (g_trace g) -> fst x = KExc.
Lemma St_async t b g g' : St lis t b g g' -> async_inv g -> async_inv g'.
Proof.
  intros HS (HA & HO & HT).
  assert (Hkeep : forall p todo new g1 th, nth_error (g_threads g) t = Some th -> g_async g1 = true -> g_threads g1 = g_threads g -> g_trace g1 = g_trace g ->
    match p with Setting _ => False | Inline k _ _ | InHook k _ _ _ => k = KExc | _ => True end ->
    (forall v, In (CSetAsync v) todo -> In (CSetAsync v) (th_todo th)) ->
    (forall t' s x, In (TCall t' s x false) new -> fst x = KExc) ->
    async_inv (at_ t p todo new g1)).
  { intros p todo new g1 th HN E1 E2 E3 E4 E5 E6. split; [exact E1|]. unfold at_. cbn [g_trace g_threads]. rewrite E2, E3. split.
    - intros t' th' HN'. destruct (Nat.eq_dec t' t) as [->|Hn].
      + erewrite nth_set_eq in HN' by eauto. inversion HN'; subst. cbn [th_pc th_todo]. destruct (HO _ _ HN) as (P1 & P2). split; [intros v Hv; exact (P1 v (E5 v Hv))|exact E4].
      + rewrite nth_set_neq in HN' by auto. exact (HO _ _ HN').
    - intros t' s x Hx. apply in_app_iff in Hx as [Hx|Hx]; [exact (HT _ _ _ Hx)|exact (E6 _ _ _ Hx)]. }
  destruct HS;
    try (match goal with N : nth_error (g_threads g) t = Some _ |- _ => destruct (HO _ _ N) as (_ & []) end; fail);
    try congruence;
    try (eapply Hkeep; [eassumption|exact HA|reflexivity|reflexivity|
           first [exact I | reflexivity | match goal with N : nth_error (g_threads g) t = Some _ |- _ => exact (proj2 (HO _ _ N)) end]|
           cbn [th_todo In]; tauto|cbn [In]; intuition congruence]; fail).
  - destruct (HO _ _ H) as (P1 & _). exfalso. apply (P1 v). left. reflexivity.
  - (* call *) eapply Hkeep; [eassumption|exact HA|reflexivity|reflexivity|exact (proj2 (HO _ _ H))|cbn [th_todo]; tauto|].
    intros t' s' x [E|[]]. inversion E; subst. exact (proj2 (HO _ _ H)).
Qed.
Lemma run_async progs sc : no_switch progs -> async_inv (trun lis sc (start true progs)).
Proof.
  intros HP. apply trun_inv; [exact St_async|]. split; [reflexivity|]. split; [|intros t s x []].
  intros t th H. destruct (start_th _ _ _ _ H) as (p & P1 & ->). split; [|exact I]. intros v. apply HP. eapply nth_error_In; eauto.
Qed.

(** *** The moment a flush returns *)
Lemma St_trace t b g g' : St lis t b g g' -> exists new, g_trace g' = g_trace g ++ new /\
  (forall t', In (TFlushed t') new -> new = [TFlushed t']).
Proof.
  destruct 1; (eexists; split; [reflexivity|]); cbn; intros t' HI; intuition (try discriminate); congruence.
Qed.
Lemma flushed_cut sc g0 before t after : g_trace g0 = [] -> g_trace (trun lis sc g0) = before ++ TFlushed t :: after ->
  exists sc1 sc2, sc = sc1 ++ sc2 /\ g_trace (trun lis sc1 g0) = before ++ [TFlushed t].
Proof.
  intros H0. revert after. induction sc as [|[t1 b] sc IH] using rev_ind; intros after E.
  - cbn in E. rewrite H0 in E. destruct before; discriminate.
  - pose proof E as E0. rewrite trun_app in E. cbn [trun] in E. destruct (tstep lis t1 b (trun lis sc g0)) as [g'|] eqn:ES.
    + pose proof (tstep_St _ _ _ _ _ ES) as HS. destruct (St_trace _ _ _ _ HS) as (new & EN & HN). rewrite EN in E.
      destruct (Nat.le_gt_cases (length (g_trace (trun lis sc g0))) (length before)) as [L|L].
      * assert (HI : In (TFlushed t) new).
        { assert (skipn (length (g_trace (trun lis sc g0))) (before ++ TFlushed t :: after) = new) as <-.
          { rewrite <- E, skipn_app, skipn_all, Nat.sub_diag. reflexivity. }
          rewrite skipn_app. apply in_or_app. right. replace (_ - _) with 0 by lia. left. reflexivity. }
        rewrite (HN t HI) in E.
        assert (after = []) as ->.
        { apply (f_equal (@length _)) in E. rewrite !app_length in E. cbn in E. destruct after; [reflexivity|]. cbn in E. lia. }
        exists (sc ++ [(t1, b)]), []. split; [rewrite app_nil_r; reflexivity|exact E0].
      * assert (exists a', g_trace (trun lis sc g0) = before ++ TFlushed t :: a') as [a' E'].
        { exists (skipn (S (length before)) (g_trace (trun lis sc g0))).
          assert (K : firstn (S (length before)) (g_trace (trun lis sc g0)) = before ++ [TFlushed t]).
          { replace (firstn (S (length before)) (g_trace (trun lis sc g0))) with (firstn (S (length before)) (g_trace (trun lis sc g0) ++ new))
              by (rewrite firstn_app; replace (_ - _) with 0 by lia; apply app_nil_r).
            rewrite E. rewrite firstn_app, firstn_all2 by lia. replace (_ - _) with 1 by lia. reflexivity. }
          rewrite <- (firstn_skipn (S (length before)) (g_trace (trun lis sc g0))) at 1. rewrite K, <- app_assoc. reflexivity. }
        destruct (IH _ E') as (sc1 & sc2 & -> & K). exists sc1, (sc2 ++ [(t1, b)]). rewrite app_assoc. auto.
    + destruct (IH _ E) as (sc1 & sc2 & -> & K). exists sc1, (sc2 ++ [(t1, b)]). rewrite app_assoc. auto.
Qed.
Lemma never_full_prefix sc1 sc2 g : never_full lis (sc1 ++ sc2) g -> never_full lis sc1 g.
Proof. intros H a t b c th -> HN. apply (H a t b (c ++ sc2) th); [rewrite <- app_assoc; reflexivity|exact HN]. Qed.
End C.
