(** Proofs for C80. *)
From Verif Require Import proof.CoreLib proof.ConcurrentProofs proof.SinkProofs
  model.PyBase model.Core model.Sinks model.SinkThreads spec.SinkSpec spec.SinkThreadsSpec.
Open Scope nat_scope.

Section R.
Variable size : option nat.

Lemma rrun_app a b w : rrun size (a ++ b) w = rrun size b (rrun size a w).
Proof. revert w. induction a as [|t a IH]; intros w; [reflexivity|]. apply IH. Qed.

(** *** Steps *)
Inductive RSt (t : nat) (w : rstate) : rstate -> Prop :=
| RS_call k x todo : nth_error (rs_threads w) t = Some (mkRT RIdle ((k, x) :: todo)) -> RSt t w (rat t (RLookup k x) todo (rs_map w) (rs_heap w) [RCalled t k x] w)
| RS_found k x a todo : nth_error (rs_threads w) t = Some (mkRT (RLookup k x) todo) -> rs_map w k = Some a -> RSt t w (rat t (RRead a k x) todo (rs_map w) (rs_heap w) [] w)
| RS_miss k x todo : nth_error (rs_threads w) t = Some (mkRT (RLookup k x) todo) -> rs_map w k = None -> RSt t w (rat t (RStore k x) todo (rs_map w) (rs_heap w) [] w)
| RS_store k x todo : nth_error (rs_threads w) t = Some (mkRT (RStore k x) todo) ->
    RSt t w (rat t (RRead (length (rs_heap w)) k x) todo (fun k' => if k' =? k then Some (length (rs_heap w)) else rs_map w k') (rs_heap w ++ [mkSA k 0 []]) [] w)
| RS_read a k x s todo : nth_error (rs_threads w) t = Some (mkRT (RRead a k x) todo) -> nth_error (rs_heap w) a = Some s ->
    RSt t w (rat t (RWrite a k x (sa_count s)) todo (rs_map w) (rs_heap w) [] w)
| RS_write a k x c s todo : nth_error (rs_threads w) t = Some (mkRT (RWrite a k x c) todo) -> nth_error (rs_heap w) a = Some s ->
    RSt t w (rat t (RTimes a k x) todo (rs_map w) (list_set (rs_heap w) a (mkSA (sa_key s) (c + 1) (sa_times s))) [] w)
| RS_times a k x s todo : nth_error (rs_threads w) t = Some (mkRT (RTimes a k x) todo) -> nth_error (rs_heap w) a = Some s ->
    RSt t w (rat t RIdle todo (rs_map w) (list_set (rs_heap w) a (mkSA (sa_key s) (sa_count s) (dq_append size (sa_times s) x))) [RReturned t k x] w).
Lemma rstep_RSt t w w' : rstep size t w = Some w' -> RSt t w w'.
Proof.
  unfold rstep. destruct (nth_error (rs_threads w) t) as [[p todo]|] eqn:E; [|discriminate]. cbn [rt_pc rt_todo].
  destruct p as [|k x|k x|a k x|a k x c|a k x].
  - destruct todo as [|[k x] todo]; [discriminate|]. intros H. injection H as <-. apply RS_call; auto.
  - destruct (rs_map w k) as [a|] eqn:M; intros H; injection H as <-; [apply RS_found|apply RS_miss]; auto.
  - intros H. injection H as <-. apply RS_store; auto.
  - destruct (nth_error (rs_heap w) a) as [s|] eqn:M; [|discriminate]. intros H. injection H as <-. apply RS_read; auto.
  - destruct (nth_error (rs_heap w) a) as [s|] eqn:M; [|discriminate]. intros H. injection H as <-. apply RS_write; auto.
  - destruct (nth_error (rs_heap w) a) as [s|] eqn:M; [|discriminate]. intros H. injection H as <-. apply RS_times; auto.
Qed.
Lemma rrun_inv (I : rstate -> Prop) : (forall t w w', RSt t w w' -> I w -> I w') -> forall sc w, I w -> I (rrun size sc w).
Proof.
  intros HS. induction sc as [|t sc IH]; intros w H; [exact H|]. cbn [rrun]. apply IH. destruct (rstep size t w) eqn:E; [eapply HS; [apply rstep_RSt|]; eauto|exact H].
Qed.

(** *** Counting *)
Definition pendb (k : nat) (th : rthread) : bool :=
  match rt_pc th with RLookup k' _ | RStore k' _ | RRead _ k' _ | RWrite _ k' _ _ => k' =? k | _ => false end.
Definition pend (k : nat) (ths : list rthread) : nat := length (filter (pendb k) ths).
Lemma pend_set k ths t th th' : nth_error ths t = Some th ->
  pend k (list_set ths t th') + (if pendb k th then 1 else 0) = pend k ths + (if pendb k th' then 1 else 0).
Proof.
  intros H. destruct (list_set_split _ _ _ H) as (l1 & l2 & E & _ & E2). rewrite E2, E. unfold pend. rewrite !filter_app, !app_length. cbn [filter].
  destruct (pendb k th), (pendb k th'); cbn [length]; lia.
Qed.
Lemma calls_app k a b : calls k (a ++ b) = calls k a + calls k b.
Proof. unfold calls. rewrite filter_app, app_length. reflexivity. Qed.
Lemma returned_app k a b : returned k (a ++ b) = returned k a ++ returned k b.
Proof. apply flat_map_app. Qed.
(** The number of calls for [k] that have not yet to write their count never shrinks. *)
Lemma slack t w w' k c : RSt t w w' -> c + pend k (rs_threads w) <= calls k (rs_trace w) -> c + pend k (rs_threads w') <= calls k (rs_trace w').
Proof.
  intros H. destruct H as [k0 x todo H|k0 x a todo H _|k0 x todo H _|k0 x todo H|a k0 x s todo H _|a k0 x c0 s todo H _|a k0 x s todo H _];
    cbn [rat rs_threads rs_trace]; rewrite calls_app;
    match goal with |- context [list_set _ _ ?th'] => pose proof (pend_set k _ _ _ th' H) as P end;
    cbn [pendb rt_pc] in P; unfold calls; cbn [filter]; destruct (k0 =? k); cbn [length]; lia.
Qed.

Definition hext (h h' : list sacc) : Prop :=
  forall a s, nth_error h a = Some s -> exists s', nth_error h' a = Some s' /\ sa_key s' = sa_key s /\ (0 < sa_count s -> 0 < sa_count s').
Definition has (w : rstate) (a k : nat) : Prop := exists s, nth_error (rs_heap w) a = Some s /\ sa_key s = k.
Definition pc_ok (w : rstate) (p : rpc) : Prop :=
  match p with
  | RRead a k _ => has w a k /\ rs_map w k <> None
  | RTimes a k _ => has w a k /\ rs_map w k <> None
  | RWrite a k _ c => has w a k /\ rs_map w k <> None /\ c + pend k (rs_threads w) <= calls k (rs_trace w)
  | _ => True
  end.
Definition writes (a : nat) (p : rpc) : Prop := match p with RRead a' _ _ | RWrite a' _ _ _ => a' = a | _ => False end.
Record sinv (w : rstate) : Prop := {
  si_th : forall t th, nth_error (rs_threads w) t = Some th -> pc_ok w (rt_pc th);
  si_map : forall k a, rs_map w k = Some a -> has w a k;
  si_pend : forall k, 0 + pend k (rs_threads w) <= calls k (rs_trace w);
  si_cnt : forall a s, nth_error (rs_heap w) a = Some s -> sa_count s + pend (sa_key s) (rs_threads w) <= calls (sa_key s) (rs_trace w);
  si_pos : forall k a s, rs_map w k = Some a -> nth_error (rs_heap w) a = Some s -> sa_count s = 0 ->
    exists t th, nth_error (rs_threads w) t = Some th /\ writes a (rt_pc th);
  si_def : forall k, returned k (rs_trace w) <> [] -> rs_map w k <> None }.

Lemma RSt_hext t w w' : RSt t w w' -> hext (rs_heap w) (rs_heap w').
Proof.
  intros H a0 s0 E0. destruct H as [| | | | |a k x c s todo H E|a k x s todo H E]; cbn [rat rs_heap]; eauto.
  - rewrite nth_error_app1 by (apply nth_error_Some; congruence). eauto.
  - destruct (Nat.eq_dec a0 a) as [->|N].
    + erewrite nth_set_eq by eauto. eexists. split; [reflexivity|]. cbn. split; [congruence|lia].
    + rewrite nth_set_neq by auto. eauto.
  - destruct (Nat.eq_dec a0 a) as [->|N].
    + erewrite nth_set_eq by eauto. eexists. split; [reflexivity|]. cbn. split; congruence.
    + rewrite nth_set_neq by auto. eauto.
Qed.
Lemma RSt_map t w w' k : RSt t w w' -> rs_map w k <> None -> rs_map w' k <> None.
Proof. intros H. destruct H as [| | |k0 x todo H| | |]; cbn; auto. destruct (k =? k0); congruence. Qed.
Lemma has_mono t w w' a k : RSt t w w' -> has w a k -> has w' a k.
Proof. intros H (s & E & K). destruct (RSt_hext _ _ _ H _ _ E) as (s' & E' & K' & _). exists s'. split; [exact E'|congruence]. Qed.
Lemma pc_mono t w w' p : RSt t w w' -> pc_ok w p -> pc_ok w' p.
Proof.
  intros H. destruct p as [|k x|k x|a k x|a k x c|a k x]; cbn; auto.
  - intros (A & B). split; [eapply has_mono; eauto|eapply RSt_map; eauto].
  - intros (A & B & C). split; [eapply has_mono; eauto|]. split; [eapply RSt_map; eauto|eapply slack; eauto].
  - intros (A & B). split; [eapply has_mono; eauto|eapply RSt_map; eauto].
Qed.
Lemma RSt_threads t w w' : RSt t w w' -> exists th th', nth_error (rs_threads w) t = Some th /\ rs_threads w' = list_set (rs_threads w) t th'.
Proof. intros H. destruct H; do 2 eexists; (split; [eassumption|reflexivity]). Qed.

Lemma sinv_step t w w' : RSt t w w' -> sinv w -> sinv w'.
Proof.
  intros HS I. constructor.
  - intros t0 th0 E0. destruct (RSt_threads _ _ _ HS) as (th & th' & ET & E). rewrite E in E0.
    destruct (Nat.eq_dec t0 t) as [->|N]; [|rewrite nth_set_neq in E0 by auto; eapply pc_mono; [exact HS|apply (si_th _ I _ _ E0)]].
    erewrite nth_set_eq in E0 by eauto. injection E0 as <-.
    assert (Hth : nth_error (rs_threads w') t = Some th') by (rewrite E; eapply nth_set_eq; eauto). clear E.
    destruct HS as [k x todo H|k x a todo H M|k x todo H M|k x todo H|a k x s todo H M|a k x c s todo H M|a k x s todo H M];
      cbn [rat rs_threads] in Hth; erewrite nth_set_eq in Hth by eauto; injection Hth as <-; cbn [rt_pc pc_ok]; auto.
    + split; [destruct (si_map _ I _ _ M) as (s & E & K); exists s; auto|]. cbn. congruence.
    + split; [|cbn; rewrite Nat.eqb_refl; congruence]. exists (mkSA k 0 []). cbn. split; [|reflexivity]. rewrite nth_error_app2, Nat.sub_diag by lia. reflexivity.
    + pose proof (si_th _ I _ _ H) as (A & B). cbn in A, B.
      split; [exact A|]. split; [exact B|]. eapply slack; [eapply RS_read; eauto|]. destruct A as (s0 & A1 & A2). rewrite M in A1. injection A1 as <-. rewrite <- A2. apply (si_cnt _ I _ _ M).
    + pose proof (si_th _ I _ _ H) as (A & B & _). split; [eapply has_mono; [eapply RS_write; eauto|exact A]|exact B].
  - intros k0 a0 E0. destruct HS as [k x todo H|k x a todo H M|k x todo H M|k x todo H|a k x s todo H M|a k x c s todo H M|a k x s todo H M];
      cbn [rat rs_map] in E0; try (pose proof (si_map _ I _ _ E0) as K; exact K);
      try (eapply has_mono; [first [eapply RS_write; eauto; fail|eapply RS_times; eauto; fail]|apply (si_map _ I _ _ E0)]).
    destruct (Nat.eqb_spec k0 k) as [->|N].
    + injection E0 as <-. exists (mkSA k 0 []). cbn. split; [|reflexivity]. rewrite nth_error_app2, Nat.sub_diag by lia. reflexivity.
    + eapply has_mono; [eapply RS_store; eauto|apply (si_map _ I _ _ E0)].
  - intros k. eapply slack; [exact HS|apply (si_pend _ I)].
  - intros a0 s0 E0.
    assert (HO : nth_error (rs_heap w) a0 = Some s0 -> sa_count s0 + pend (sa_key s0) (rs_threads w') <= calls (sa_key s0) (rs_trace w')).
    { intros E. eapply slack; [exact HS|apply (si_cnt _ I _ _ E)]. }
    pose proof HS as HS'.
    destruct HS as [k x todo H|k x a todo H M|k x todo H M|k x todo H|a k x s todo H M|a k x c s todo H M|a k x s todo H M];
      cbn [rat rs_heap] in E0; try (apply HO; exact E0).
    + destruct (Nat.lt_ge_cases a0 (length (rs_heap w))) as [L|L].
      * rewrite nth_error_app1 in E0 by exact L. apply HO. exact E0.
      * rewrite nth_error_app2 in E0 by exact L. destruct (a0 - length (rs_heap w)) as [|n]; [|destruct n; discriminate]. injection E0 as <-.
        eapply slack; [exact HS'|apply (si_pend _ I)].
    + destruct (Nat.eq_dec a0 a) as [->|N]; [|rewrite nth_set_neq in E0 by auto; apply HO; exact E0].
      erewrite nth_set_eq in E0 by eauto. injection E0 as <-. cbn [sa_count sa_key]. pose proof (si_th _ I _ _ H) as ((s0 & A1 & A2) & _ & B). rewrite M in A1. injection A1 as <-.
      rewrite A2. cbn [rat rs_threads rs_trace]. rewrite app_nil_r. pose proof (pend_set k _ _ _ (mkRT (RTimes a k x) todo) H) as P. cbn [pendb rt_pc] in P. rewrite Nat.eqb_refl in P. lia.
    + destruct (Nat.eq_dec a0 a) as [->|N]; [|rewrite nth_set_neq in E0 by auto; apply HO; exact E0].
      erewrite nth_set_eq in E0 by eauto. injection E0 as <-. cbn [sa_count sa_key]. eapply slack; [exact HS'|apply (si_cnt _ I _ _ M)].
  - intros k0 a0 s0 E1 E2 E3.
    assert (HO : forall s, rs_map w k0 = Some a0 -> nth_error (rs_heap w) a0 = Some s -> sa_count s = 0 ->
              (forall th, nth_error (rs_threads w) t = Some th -> writes a0 (rt_pc th) -> exists th', nth_error (rs_threads w') t = Some th' /\ writes a0 (rt_pc th')) ->
              exists t0 th, nth_error (rs_threads w') t0 = Some th /\ writes a0 (rt_pc th)).
    { intros s F1 F2 F3 F4. destruct (si_pos _ I _ _ _ F1 F2 F3) as (t0 & th & F5 & F6). destruct (Nat.eq_dec t0 t) as [->|N].
      - destruct (F4 _ F5 F6) as (th' & G1 & G2). eauto.
      - exists t0, th. split; [|exact F6]. destruct (RSt_threads _ _ _ HS) as (? & th' & _ & ->). rewrite nth_set_neq by auto. exact F5. }
    destruct HS as [k x todo H|k x a todo H M|k x todo H M|k x todo H|a k x s todo H M|a k x c s todo H M|a k x s todo H M];
      cbn [rat rs_map rs_heap] in E1, E2.
    + eapply HO; eauto. intros th F G. rewrite H in F. injection F as <-. destruct G.
    + eapply HO; eauto. intros th F G. rewrite H in F. injection F as <-. destruct G.
    + eapply HO; eauto. intros th F G. rewrite H in F. injection F as <-. destruct G.
    + destruct (Nat.eqb_spec k0 k) as [->|N].
      * injection E1 as <-. exists t, (mkRT (RRead (length (rs_heap w)) k x) todo). split; [cbn; eapply nth_set_eq; eauto|reflexivity].
      * destruct (si_map _ I _ _ E1) as (s1 & F1 & _). assert (L : a0 < length (rs_heap w)) by (apply nth_error_Some; congruence). rewrite nth_error_app1 in E2 by exact L. clear s1 F1.
        eapply HO; eauto. intros th F G. rewrite H in F. injection F as <-. destruct G.
    + eapply HO; eauto. intros th F G. rewrite H in F. injection F as <-. cbn in G. subst a0. eexists. split; [cbn; eapply nth_set_eq; eauto|reflexivity].
    + destruct (Nat.eq_dec a0 a) as [->|N].
      * erewrite nth_set_eq in E2 by eauto. injection E2 as <-. cbn in E3. lia.
      * rewrite nth_set_neq in E2 by auto. eapply HO; eauto. intros th F G. rewrite H in F. injection F as <-. cbn in G. congruence.
    + assert (Hw : forall th, nth_error (rs_threads w) t = Some th -> writes a0 (rt_pc th) -> exists th', nth_error (rs_threads (rat t RIdle todo (rs_map w) (list_set (rs_heap w) a (mkSA (sa_key s) (sa_count s) (dq_append size (sa_times s) x))) [RReturned t k x] w)) t = Some th' /\ writes a0 (rt_pc th')).
      { intros th F G. rewrite H in F. injection F as <-. destruct G. }
      destruct (Nat.eq_dec a0 a) as [->|N].
      * erewrite nth_set_eq in E2 by eauto. injection E2 as <-. cbn in E3. eapply HO; eauto.
      * rewrite nth_set_neq in E2 by auto. eapply HO; eauto.
  - intros k0 E0. eapply RSt_map; [exact HS|].
    destruct HS as [k x todo H|k x a todo H M|k x todo H M|k x todo H|a k x s todo H M|a k x c s todo H M|a k x s todo H M];
      cbn [rat rs_trace] in E0; rewrite returned_app in E0; cbn [returned flat_map app] in E0; rewrite ?app_nil_r in E0; try (apply (si_def _ I); exact E0).
    destruct (Nat.eqb_spec k k0) as [->|N]; [|rewrite app_nil_r in E0; apply (si_def _ I); exact E0].
    pose proof (si_th _ I _ _ H) as (_ & B). exact B.
Qed.
Lemma sinv_start progs : sinv (rstart progs).
Proof.
  assert (P : forall k, pend k (map (mkRT RIdle) progs) = 0) by (intros k; unfold pend; induction progs; cbn; auto).
  constructor; cbn [rstart rs_map rs_heap rs_threads rs_trace].
  - intros t th E. apply nth_error_In, in_map_iff in E as (p & <- & _). exact Logic.I.
  - discriminate.
  - intros k. rewrite P. cbn. lia.
  - intros a s E. destruct a; discriminate.
  - discriminate.
  - intros k X. destruct X. reflexivity.
Qed.
Lemma sinv_run progs sc : sinv (rrun size sc (rstart progs)).
Proof. apply rrun_inv; [exact sinv_step|apply sinv_start]. Qed.

(** *** Without overlap *)
Definition written (k : nat) (ths : list rthread) : list nat :=
  flat_map (fun th => match rt_pc th with RTimes _ k' x => if k' =? k then [x] else [] | _ => [] end) ths.
Definition quiet (t : nat) (w : rstate) : Prop := forall t' th, nth_error (rs_threads w) t' = Some th -> t' <> t -> rt_pc th = RIdle.
Lemma written_quiet k t w th : nth_error (rs_threads w) t = Some th -> quiet t w ->
  forall th', written k (list_set (rs_threads w) t th') = written k [th'].
Proof.
  intros E Q th'. destruct (list_set_split _ _ _ E) as (l1 & l2 & E1 & E2 & E3). rewrite E3. unfold written.
  assert (Z : forall l, (forall x, In x l -> rt_pc x = RIdle) -> flat_map (fun th => match rt_pc th with RTimes _ k' x => if k' =? k then [x] else [] | _ => [] end) l = []).
  { intros l HL. induction l as [|y l IH]; [reflexivity|]. cbn. rewrite (HL y) by (left; reflexivity). apply IH. intros x Hx. apply HL. right. exact Hx. }
  rewrite flat_map_app. cbn [flat_map]. rewrite (Z l1), (Z l2); [cbn; rewrite ?app_nil_r; reflexivity| |].
  - intros x Hx. apply In_nth_error in Hx as [n Hn]. apply (Q (length l1 + S n) x); [|lia]. rewrite E1, nth_error_app2 by lia.
    replace (length l1 + S n - length l1) with (S n) by lia. exact Hn.
  - intros x Hx. apply In_nth_error in Hx as [n Hn]. assert (L : n < length l1) by (apply nth_error_Some; congruence).
    apply (Q n x); [|lia]. rewrite E1, nth_error_app1 by lia. exact Hn.
Qed.
Definition xpc (w : rstate) (p : rpc) : Prop :=
  match p with
  | RStore k _ => rs_map w k = None
  | RRead a k _ | RTimes a k _ => rs_map w k = Some a
  | RWrite a k _ c => rs_map w k = Some a /\ c = rcount w k
  | _ => True
  end.
Record xinv (w : rstate) : Prop := {
  xi_sinv : sinv w;
  xi_pc : forall t th, nth_error (rs_threads w) t = Some th -> xpc w (rt_pc th);
  xi_inj : forall k k' a, rs_map w k = Some a -> rs_map w k' = Some a -> k = k';
  xi_cnt : forall k, rcount w k = length (returned k (rs_trace w) ++ written k (rs_threads w));
  xi_times : forall k, rtimes w k = most_recent size (returned k (rs_trace w)) }.
Lemma rcount_other w w' k : rs_map w' k = rs_map w k -> (forall a, rs_map w k = Some a -> nth_error (rs_heap w') a = nth_error (rs_heap w) a) ->
  rcount w' k = rcount w k /\ rtimes w' k = rtimes w k.
Proof.
  intros E1 E2. unfold rcount, rtimes. rewrite E1. destruct (rs_map w k) as [a|]; [|auto]. rewrite E2 by reflexivity. auto.
Qed.
Lemma one_busy_quiet t w th : one_busy w -> nth_error (rs_threads w) t = Some th -> busy th -> quiet t w.
Proof.
  intros HO E B t' th' E' N. destruct (rt_pc th') eqn:P; try reflexivity; exfalso; apply N; symmetry; eapply HO; eauto; unfold busy; rewrite P; discriminate.
Qed.
Lemma quiet_at t p todo m h new w : quiet t w -> quiet t (rat t p todo m h new w).
Proof. intros Q t' th' E N. cbn in E. rewrite nth_set_neq in E by auto. eauto. Qed.
Lemma one_busy_quiet' t w p todo m h new : one_busy (rat t p todo m h new w) -> p <> RIdle -> forall th, nth_error (rs_threads w) t = Some th -> quiet t w.
Proof.
  intros HO HP th E t' th' E' N. destruct (rt_pc th') eqn:P; try reflexivity; exfalso; apply N;
    apply (HO t' th' t (mkRT p todo)); cbn; try (rewrite nth_set_neq by auto; exact E'); try (eapply nth_set_eq; eauto); unfold busy; cbn; congruence.
Qed.
Lemma written_now k t w th : nth_error (rs_threads w) t = Some th -> quiet t w -> written k (rs_threads w) = written k [th].
Proof.
  intros E Q. rewrite <- (written_quiet k t w th E Q th). f_equal. clear Q. revert t E. generalize (rs_threads w).
  induction l as [|x l IH]; intros [|t] E; try discriminate; cbn in *; [congruence|]. f_equal. apply IH. exact E.
Qed.
Lemma xinv_step t w w' : RSt t w w' -> one_busy w -> one_busy w' -> xinv w -> xinv w'.
Proof.
  intros HS O O' I. pose proof (sinv_step _ _ _ HS (xi_sinv _ I)) as S'. pose proof (xi_sinv _ I) as S0.
  assert (Q : exists th, nth_error (rs_threads w) t = Some th /\ quiet t w).
  { destruct HS; eexists; (split; [eassumption|]);
      first [eapply one_busy_quiet; [exact O|eassumption|unfold busy; cbn; discriminate] | eapply one_busy_quiet'; [exact O'|discriminate|eassumption]]. }
  destruct Q as (th0 & ET & Q).
  assert (HPC : forall p todo m h new, xpc (rat t p todo m h new w) p -> forall t0 th, nth_error (rs_threads (rat t p todo m h new w)) t0 = Some th -> xpc (rat t p todo m h new w) (rt_pc th)).
  { intros p todo m h new HX t0 th E. destruct (Nat.eq_dec t0 t) as [->|N].
    - cbn [rat rs_threads] in E. erewrite nth_set_eq in E by eauto. injection E as <-. exact HX.
    - rewrite (quiet_at _ _ _ _ _ _ _ Q _ _ E N). exact Logic.I. }
  assert (WN : forall k, written k (rs_threads w) = written k [th0]) by (intros k; eapply written_now; eauto).
  assert (WS : forall k th', written k (list_set (rs_threads w) t th') = written k [th']) by (intros; eapply written_quiet; eauto).
  destruct HS as [k x todo H|k x a todo H M|k x todo H M|k x todo H|a k x s todo H M|a k x c s todo H M|a k x s todo H M];
    rewrite ET in H; injection H as ->; pose proof (xi_pc _ I _ _ ET) as XP; cbn [rt_pc xpc] in XP; constructor; auto;
    try (apply HPC; cbn [xpc]; auto; fail);
    try (intros k1; cbn [rat rs_trace rs_threads]; rewrite ?returned_app, WS; cbn [returned flat_map written rt_pc app]; rewrite ?app_nil_r;
         pose proof (xi_cnt _ I k1) as X; rewrite WN in X; cbn [written flat_map rt_pc] in X; rewrite ?app_nil_r in X; exact X);
    try (intros k1; cbn [rat rs_trace]; rewrite ?returned_app; cbn [returned flat_map]; rewrite ?app_nil_r; exact (xi_times _ I k1));
    try exact (xi_inj _ I).
  - apply HPC. cbn. rewrite Nat.eqb_refl. reflexivity.
  - intros k1 k2 a1 E1 E2. cbn in E1, E2.
    assert (Hn : forall k', rs_map w k' <> Some (length (rs_heap w))).
    { intros k' E. destruct (si_map _ S0 _ _ E) as (s & F & _). assert (length (rs_heap w) < length (rs_heap w)) by (apply nth_error_Some; congruence). lia. }
    destruct (Nat.eqb_spec k1 k) as [->|N1], (Nat.eqb_spec k2 k) as [->|N2]; auto; [exfalso; injection E1 as <-; eapply Hn; eauto|exfalso; injection E2 as <-; eapply Hn; eauto|eapply (xi_inj _ I); eauto].
  - intros k1. cbn [rat rs_trace rs_threads]. rewrite app_nil_r, WS. cbn [written flat_map rt_pc app]. pose proof (xi_cnt _ I k1) as X. rewrite WN in X. cbn [written flat_map rt_pc app] in X. rewrite app_nil_r in *. rewrite <- X.
    destruct (Nat.eq_dec k1 k) as [->|N].
    + unfold rcount. cbn. rewrite Nat.eqb_refl. rewrite nth_error_app2, Nat.sub_diag by lia. cbn. rewrite XP. reflexivity.
    + apply rcount_other; cbn; [destruct (Nat.eqb_spec k1 k); [congruence|reflexivity]|]. intros a E. apply nth_error_app1.
      destruct (si_map _ S0 _ _ E) as (s & F & _). apply nth_error_Some. congruence.
  - intros k1. cbn [rat rs_trace]. rewrite app_nil_r. rewrite <- (xi_times _ I k1).
    destruct (Nat.eq_dec k1 k) as [->|N].
    + unfold rtimes. cbn. rewrite Nat.eqb_refl. rewrite nth_error_app2, Nat.sub_diag by lia. cbn. rewrite XP. reflexivity.
    + apply rcount_other; cbn; [destruct (Nat.eqb_spec k1 k); [congruence|reflexivity]|]. intros a E. apply nth_error_app1.
      destruct (si_map _ S0 _ _ E) as (s & F & _). apply nth_error_Some. congruence.
  - apply HPC. cbn [xpc]. split; [exact XP|]. unfold rcount. cbn. rewrite XP, M. reflexivity.
  - apply HPC. cbn [xpc]. exact (proj1 XP).
  - intros k1. cbn [rat rs_trace rs_threads]. rewrite app_nil_r, WS. pose proof (xi_cnt _ I k1) as X. rewrite WN in X. destruct XP as [XP1 XP2].
    cbn [written flat_map rt_pc app] in *. rewrite app_nil_r in X. destruct (Nat.eqb_spec k k1) as [->|N].
    + unfold rcount. cbn [rat rs_map rs_heap]. rewrite XP1. erewrite nth_set_eq by eauto. cbn [sa_count]. rewrite app_length. cbn [length app]. rewrite XP2. lia.
    + rewrite !app_nil_r. rewrite <- X. apply rcount_other; [reflexivity|]. intros a0 E. cbn [rat rs_heap]. apply nth_set_neq. intros ->. apply N. symmetry. eapply (xi_inj _ I); eauto.
  - intros k1. cbn [rat rs_trace]. rewrite app_nil_r, <- (xi_times _ I k1). destruct XP as [XP1 XP2]. destruct (Nat.eq_dec k1 k) as [->|N].
    + unfold rtimes. cbn [rat rs_map rs_heap]. rewrite XP1, M. erewrite nth_set_eq by eauto. reflexivity.
    + apply rcount_other; [reflexivity|]. intros a0 E. cbn [rat rs_heap]. apply nth_set_neq. intros ->. apply N. eapply (xi_inj _ I); eauto.
  - intros k1. cbn [rat rs_trace rs_threads]. rewrite returned_app, WS. pose proof (xi_cnt _ I k1) as X. rewrite WN in X.
    cbn [written flat_map rt_pc app returned] in *. rewrite !app_nil_r in *. destruct (Nat.eqb_spec k k1) as [->|N].
    + rewrite <- X. unfold rcount. cbn [rat rs_map rs_heap]. rewrite XP, M. erewrite nth_set_eq by eauto. reflexivity.
    + rewrite <- X. apply rcount_other; [reflexivity|]. intros a0 E. cbn [rat rs_heap]. apply nth_set_neq. intros ->. apply N. symmetry. eapply (xi_inj _ I); eauto.
  - intros k1. cbn [rat rs_trace]. rewrite returned_app. cbn [returned flat_map app]. rewrite app_nil_r. pose proof (xi_times _ I k1) as X. destruct (Nat.eqb_spec k k1) as [->|N].
    + rewrite <- dq_append_recent, <- X. unfold rtimes. cbn [rat rs_map rs_heap]. rewrite XP, M. erewrite nth_set_eq by eauto. reflexivity.
    + rewrite app_nil_r, <- X. apply rcount_other; [reflexivity|]. intros a0 E. cbn [rat rs_heap]. apply nth_set_neq. intros ->. apply N. symmetry. eapply (xi_inj _ I); eauto.
Qed.
Lemma xinv_run progs sc : no_overlap size sc (rstart progs) -> xinv (rrun size sc (rstart progs)).
Proof.
  induction sc as [|t sc IH] using rev_ind; intros HN.
  - cbn. constructor.
    + apply sinv_start.
    + intros t th E. cbn in E. apply nth_error_In, in_map_iff in E as (p & <- & _). exact Logic.I.
    + discriminate.
    + intros k. clear HN. unfold rcount. cbn [rstart rs_map rs_trace rs_threads]. cbn. induction progs; cbn; auto.
    + intros k. cbn. destruct size as [n|]; [destruct n|]; reflexivity.
  - assert (HN1 : no_overlap size sc (rstart progs)) by (intros a b ->; apply (HN a (b ++ [t])); rewrite app_assoc; reflexivity).
    specialize (IH HN1). pose proof (HN (sc ++ [t]) [] ltac:(rewrite app_nil_r; reflexivity)) as O'. pose proof (HN1 sc [] ltac:(rewrite app_nil_r; reflexivity)) as O.
    rewrite rrun_app in O' |- *. cbn [rrun] in *. destruct (rstep size t (rrun size sc (rstart progs))) eqn:E; [|exact IH].
    eapply xinv_step; eauto. apply rstep_RSt. exact E.
Qed.
End R.

(** Checking [no_overlap] on an example. *)
Definition busyb (th : rthread) : bool := match rt_pc th with RIdle => false | _ => true end.
Lemma few_busy w : length (filter busyb (rs_threads w)) <= 1 -> one_busy w.
Proof.
  unfold one_busy. generalize (rs_threads w). intros l. induction l as [|x l IH]; intros HL t1 th1 t2 th2 E1 E2 B1 B2; [destruct t1; discriminate|].
  assert (HB : forall th, busy th -> busyb th = true) by (intros th B; unfold busy, busyb in *; destruct (rt_pc th); auto; congruence).
  assert (HZ : length (filter busyb l) = 0 -> forall t th, nth_error l t = Some th -> busy th -> False).
  { intros Z t th E B. apply length_zero_iff_nil in Z. assert (In th (filter busyb l)) as X by (apply filter_In; split; [eapply nth_error_In; eauto|auto]). rewrite Z in X. exact X. }
  cbn [filter] in HL. destruct t1 as [|t1], t2 as [|t2]; cbn in E1, E2; auto.
  - injection E1 as ->. rewrite (HB _ B1) in HL. cbn in HL. exfalso. eapply HZ; eauto. lia.
  - injection E2 as ->. rewrite (HB _ B2) in HL. cbn in HL. exfalso. eapply HZ; eauto. lia.
  - f_equal. apply (IH ltac:(destruct (busyb x); cbn in HL; lia) t1 th1 t2 th2); assumption.
Qed.
Lemma no_overlap_check size sc w :
  forallb (fun i => length (filter busyb (rs_threads (rrun size (firstn i sc) w))) <=? 1) (seq 0 (S (length sc))) = true -> no_overlap size sc w.
Proof.
  intros H sc1 sc2 ->. rewrite forallb_forall in H. specialize (H (length sc1)). rewrite firstn_app, Nat.sub_diag, firstn_all in H. cbn [firstn] in H. rewrite app_nil_r in H.
  apply few_busy. apply Nat.leb_le. apply H. apply in_seq. rewrite app_length. lia.
Qed.
