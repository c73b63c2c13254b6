(** Threads: C15, C16. *)
From Coq Require Import Permutation.
From Verif Require Import model.PyBase model.Core model.Concurrent spec.CoreSpec spec.ConcurrentSpec
  proof.CoreLib proof.CoreInv proof.CoreDispatch.

Lemma list_set_split {A} (l : list A) t a : nth_error l t = Some a ->
  exists l1 l2, l = l1 ++ a :: l2 /\ length l1 = t /\ forall b, list_set l t b = l1 ++ b :: l2.
Proof.
  revert t. induction l as [|x l IH]; intros [|t] H; try discriminate.
  - inversion H; subst. exists [], l. auto.
  - destruct (IH t H) as (l1 & l2 & E & E2 & E3). exists (x :: l1), l2. subst l. split; [reflexivity|]. split; [cbn; auto|]. intros b. cbn. rewrite E3. reflexivity.
Qed.
Lemma nth_set_eq {A} (l : list A) t a b : nth_error l t = Some a -> nth_error (list_set l t b) t = Some b.
Proof. revert t. induction l as [|x l IH]; intros [|t] H; try discriminate; cbn; auto. Qed.
Lemma nth_set_neq {A} (l : list A) t t' b : t' <> t -> nth_error (list_set l t b) t' = nth_error l t'.
Proof. revert t t'. induction l as [|x l IH]; intros [|t] [|t'] H; cbn; auto; try congruence. Qed.

Section T.
Variable lis : kind -> list nat.

Inductive St (t : nat) (b : bool) (g : gstate) : gstate -> Prop :=
| St_logx e todo : nth_error (g_threads g) t = Some (mkThread Idle (CLog KExc e :: todo)) ->
    St t b g (at_ t (Inline KExc e (lis KExc)) todo [TLog t (KExc, e)] g)
| St_log k e todo : k <> KExc -> nth_error (g_threads g) t = Some (mkThread Idle (CLog k e :: todo)) ->
    St t b g (at_ t (Logging k e) todo [TLog t (k, e)] g)
| St_flush todo : nth_error (g_threads g) t = Some (mkThread Idle (CFlush :: todo)) -> St t b g (at_ t Acquiring todo [] g)
| St_set v todo : nth_error (g_threads g) t = Some (mkThread Idle (CSetAsync v :: todo)) -> St t b g (at_ t (Setting v) todo [] g)
| St_readt k e todo : nth_error (g_threads g) t = Some (mkThread (Logging k e) todo) -> g_async g = true -> St t b g (at_ t (Appending k e) todo [] g)
| St_readf k e todo : nth_error (g_threads g) t = Some (mkThread (Logging k e) todo) -> g_async g = false -> St t b g (at_ t (Inline k e (lis k)) todo [] g)
| St_append k e todo : nth_error (g_threads g) t = Some (mkThread (Appending k e) todo) -> (N.of_nat (length (g_queue g)) < QUEUE_LIMIT)%N ->
    St t b g (at_ t Idle todo [TAppend t (k, e)] (g_set_queue (g_queue g ++ [(k, e)]) g))
| St_drop k e todo x q : nth_error (g_threads g) t = Some (mkThread (Appending k e) todo) -> ~ (N.of_nat (length (g_queue g)) < QUEUE_LIMIT)%N ->
    g_queue g = x :: q ->
    St t b g (at_ t Idle todo [TDrop x; TAppend t (k, e)] (g_set_queue (q ++ [(k, e)]) g))
| St_ret k e todo : nth_error (g_threads g) t = Some (mkThread (Inline k e []) todo) -> St t b g (at_ t Idle todo [] g)
| St_call k e s hs todo : nth_error (g_threads g) t = Some (mkThread (Inline k e (s :: hs)) todo) ->
    St t b g (at_ t (InHook k e s hs) todo [TCall t s (k, e) false] g)
| St_hook k e s hs todo : nth_error (g_threads g) t = Some (mkThread (InHook k e s hs) todo) -> b = false -> St t b g (at_ t (Inline k e hs) todo [] g)
| St_hookr k e s hs todo : nth_error (g_threads g) t = Some (mkThread (InHook k e s hs) todo) -> b = true -> St t b g (at_ t Idle todo [] g)
| St_setting v todo : nth_error (g_threads g) t = Some (mkThread (Setting v) todo) -> St t b g (at_ t Idle todo [] (g_set_async v g))
| St_acquire todo : nth_error (g_threads g) t = Some (mkThread Acquiring todo) -> g_lock g = None -> St t b g (at_ t Checking todo [] (g_set_lock (Some t) g))
| St_done todo : nth_error (g_threads g) t = Some (mkThread Checking todo) -> g_queue g = [] -> St t b g (at_ t Idle todo [TFlushed t] (g_set_lock None g))
| St_more x q todo : nth_error (g_threads g) t = Some (mkThread Checking todo) -> g_queue g = x :: q -> St t b g (at_ t Popping todo [] g)
| St_index todo : nth_error (g_threads g) t = Some (mkThread Popping todo) -> g_queue g = [] -> St t b g (at_ t Idle todo [TFlushRaised t] (g_set_lock None g))
| St_pop k e q todo : nth_error (g_threads g) t = Some (mkThread Popping todo) -> g_queue g = (k, e) :: q ->
    St t b g (at_ t (Dispatching k e (match k with KExc => [] | _ => lis k end)) todo [TPop t (k, e)] (g_set_queue q g))
| St_next k e todo : nth_error (g_threads g) t = Some (mkThread (Dispatching k e []) todo) -> St t b g (at_ t Checking todo [] g)
| St_deliver k e s hs todo : nth_error (g_threads g) t = Some (mkThread (Dispatching k e (s :: hs)) todo) ->
    St t b g (at_ t (Delivering k e s hs) todo [TCall t s (k, e) true] g)
| St_delivered k e s hs todo : nth_error (g_threads g) t = Some (mkThread (Delivering k e s hs) todo) -> b = false -> St t b g (at_ t (Dispatching k e hs) todo [] g)
| St_raised k e s hs todo : nth_error (g_threads g) t = Some (mkThread (Delivering k e s hs) todo) -> b = true ->
    St t b g (at_ t Idle todo [TFlushRaised t] (g_set_lock None g)).

Lemma tstep_St t b g g' : tstep lis t b g = Some g' -> St t b g g'.
Proof.
  unfold tstep. destruct (nth_error (g_threads g) t) as [[p todo]|] eqn:E; [|discriminate]. cbn [th_pc th_todo].
  destruct p as [|k e|k e|k e hs|k e s hs|v| | | |k e hs|k e s hs].
  - destruct todo as [|[k e| |v] todo]; [discriminate| | |].
    + destruct k; inversion 1; subst; try (apply St_log; [discriminate|exact E]). apply St_logx; exact E.
    + inversion 1; apply St_flush; exact E.
    + inversion 1; apply St_set; exact E.
  - destruct (g_async g) eqn:A; inversion 1; [apply St_readt|apply St_readf]; auto.
  - unfold bounded_append. destruct (N.ltb_spec (N.of_nat (length (g_queue g))) QUEUE_LIMIT) as [L|L].
    + inversion 1. apply St_append; auto.
    + destruct (g_queue g) as [|x q] eqn:Q; [exfalso; cbn in L; unfold QUEUE_LIMIT in L; lia|]. inversion 1. cbn [tl app]. eapply St_drop; eauto. rewrite Q. lia.
  - destruct hs as [|s hs]; inversion 1; [eapply St_ret; eauto|apply St_call; auto].
  - destruct b; inversion 1; [eapply St_hookr; eauto|eapply St_hook; eauto].
  - inversion 1. eapply St_setting; eauto.
  - destruct (g_lock g) eqn:L; [discriminate|]. inversion 1. apply St_acquire; auto.
  - destruct (g_queue g) as [|x q] eqn:Q; inversion 1; [apply St_done; auto|eapply St_more; eauto].
  - destruct (g_queue g) as [|[k e] q] eqn:Q; inversion 1; [apply St_index; auto|eapply St_pop; eauto].
  - destruct hs as [|s hs]; inversion 1; [eapply St_next; eauto|apply St_deliver; auto].
  - destruct b; inversion 1; [eapply St_raised; eauto|eapply St_delivered; eauto].
Qed.

Lemma trun_app sc1 sc2 g : trun lis (sc1 ++ sc2) g = trun lis sc2 (trun lis sc1 g).
Proof. revert g. induction sc1 as [|[t b] sc1 IH]; intros g; [reflexivity|]. apply IH. Qed.
(** An invariant of every step is an invariant of every run. *)
Lemma trun_inv (I : gstate -> Prop) g sc : (forall t b g g', St t b g g' -> I g -> I g') -> I g -> I (trun lis sc g).
Proof.
  intros HS. revert g. induction sc as [|[t b] sc IH]; intros g H; [exact H|]. cbn [trun]. apply IH.
  destruct (tstep lis t b g) eqn:E; [eapply HS; [apply tstep_St; exact E|exact H]|exact H].
Qed.

(** *** The lock *)
Record lock_inv (g : gstate) : Prop := {
  li_held : forall t, g_lock g = Some t -> exists th, nth_error (g_threads g) t = Some th /\ flushing th;
  li_only : forall t th, nth_error (g_threads g) t = Some th -> flushing th -> g_lock g = Some t }.
Lemma nth_at t p todo new g t' th0 : nth_error (g_threads g) t = Some th0 ->
  nth_error (g_threads (at_ t p todo new g)) t' = if Nat.eqb t' t then Some (mkThread p todo) else nth_error (g_threads g) t'.
Proof.
  intros H. cbn. destruct (Nat.eqb_spec t' t) as [->|Hn]; [eapply nth_set_eq; eauto|apply nth_set_neq; auto].
Qed.

(** The shape of a step. *)
Lemma St_shape t b g g' : St t b g g' -> exists th th',
  nth_error (g_threads g) t = Some th /\ g_threads g' = list_set (g_threads g) t th' /\
  ((g_lock g' = g_lock g /\ (flushing th <-> flushing th')) \/
   (g_lock g = None /\ g_lock g' = Some t /\ flushing th') \/
   (flushing th /\ g_lock g' = None /\ ~ flushing th')).
Proof. destruct 1; do 2 eexists; (split; [eassumption|]); (split; [reflexivity|]); unfold flushing; cbn; tauto. Qed.
Lemma St_lock t b g g' : St t b g g' -> lock_inv g -> lock_inv g'.
Proof.
  intros HS [H1 H2]. destruct (St_shape _ _ _ _ HS) as (th & th' & A & B & C). constructor.
  - intros t' HL. rewrite B. destruct (Nat.eq_dec t' t) as [->|Hn].
    + exists th'. split; [eapply nth_set_eq; eauto|]. destruct C as [[C1 C2]|[(C1 & C2 & C3)|(C1 & C2 & C3)]]; auto; [|congruence].
      rewrite C1 in HL. destruct (H1 t HL) as (th0 & D1 & D2). rewrite A in D1. inversion D1; subst. tauto.
    + rewrite nth_set_neq by auto. destruct C as [[C1 C2]|[(C1 & C2 & C3)|(C1 & C2 & C3)]]; [|congruence|congruence]. apply H1. congruence.
  - intros t' th0 HN HF. rewrite B in HN. destruct (Nat.eq_dec t' t) as [->|Hn].
    + erewrite nth_set_eq in HN by eauto. inversion HN; subst. destruct C as [[C1 C2]|[(C1 & C2 & C3)|(C1 & C2 & C3)]]; auto; [|tauto].
      rewrite C1. apply (H2 t th A). tauto.
    + rewrite nth_set_neq in HN by auto. pose proof (H2 _ _ HN HF) as HL. destruct C as [[C1 C2]|[(C1 & C2 & C3)|(C1 & C2 & C3)]]; [congruence|congruence|].
      pose proof (H2 _ _ A C1). congruence.
Qed.

(** *** Per-thread facts *)
Definition th_ok (q : list item) (th : thread) : Prop :=
  match th_pc th with
  | Popping => q <> []
  | Logging k _ | Appending k _ => k <> KExc
  | Inline k _ hs => NoDup hs
  | InHook k _ s hs | Delivering k _ s hs => ~ In s hs /\ NoDup hs
  | Dispatching k _ hs => NoDup hs
  | _ => True
  end.
Definition tinv (g : gstate) : Prop := forall t th, nth_error (g_threads g) t = Some th -> th_ok (g_queue g) th.
Hypothesis Hlis : forall k, NoDup (lis k).
Lemma St_tinv t b g g' : St t b g g' -> lock_inv g -> tinv g -> tinv g'.
Proof.
  intros HS HL HI.
  assert (Hother : forall q', (g_queue g <> [] -> q' <> []) \/ g_lock g = Some t -> forall t' th', t' <> t -> nth_error (g_threads g) t' = Some th' -> th_ok q' th').
  { intros q' Hq t' th' Hn HN. pose proof (HI t' th' HN) as H. unfold th_ok in *. destruct (th_pc th') eqn:Ep; auto.
    destruct Hq as [Hq|Hq]; [auto|]. assert (HF : flushing th') by (unfold flushing; rewrite Ep; exact I). pose proof (li_only _ HL _ _ HN HF). congruence. }
  assert (Hkeep : forall p todo new g1, g_threads g1 = g_threads g -> (g_queue g <> [] -> g_queue g1 <> []) \/ g_lock g = Some t ->
            forall th, nth_error (g_threads g) t = Some th -> th_ok (g_queue g1) (mkThread p todo) -> tinv (at_ t p todo new g1)).
  { intros p todo new g1 E Hq th HN Hok t' th' HN'. cbn in HN'. rewrite E in HN'. destruct (Nat.eq_dec t' t) as [->|Hn].
    - erewrite nth_set_eq in HN' by eauto. inversion HN'; subst. exact Hok.
    - rewrite nth_set_neq in HN' by auto. cbn. eapply Hother; eauto. }
  destruct HS; (eapply Hkeep; [reflexivity| |eassumption|]; cbn [g_queue g_set_queue g_set_lock g_set_async]);
    try (left; intros; assumption); try (left; intros _; first [destruct (g_queue g) | destruct q]; discriminate);
    try (unfold th_ok; cbn; auto; fail).
  - pose proof (HI _ _ H) as K. exact K.
  - left. intros _. destruct q; discriminate.
  - pose proof (HI _ _ H) as K. unfold th_ok in *; cbn in *. inversion K; auto.
  - pose proof (HI _ _ H) as K. unfold th_ok in *; cbn in *. tauto.
  - unfold th_ok; cbn. congruence.
  - right. apply (li_only _ HL _ _ H). exact I.
  - unfold th_ok; cbn. destruct k; auto. constructor.
  - pose proof (HI _ _ H) as K. unfold th_ok in *; cbn in *. inversion K; auto.
  - pose proof (HI _ _ H) as K. unfold th_ok in *; cbn in *. tauto.
Qed.

(** *** Trace functions *)
Definition popped (tr : list tobs) : list item := flat_map (fun o => match o with TPop _ x => [x] | _ => [] end) tr.
Lemma appended_app a b : appended (a ++ b) = appended a ++ appended b. Proof. apply flat_map_app. Qed.
Lemma popped_app a b : popped (a ++ b) = popped a ++ popped b. Proof. apply flat_map_app. Qed.
Lemma logged_app a b : logged (a ++ b) = logged a ++ logged b. Proof. apply flat_map_app. Qed.
Lemma dropped_app a b : dropped (a ++ b) = dropped a ++ dropped b. Proof. apply flat_map_app. Qed.
Lemma appby_app t a b : appended_by t (a ++ b) = appended_by t a ++ appended_by t b. Proof. apply flat_map_app. Qed.
Lemma got_app s a b : got s (a ++ b) = got s a ++ got s b. Proof. apply flat_map_app. Qed.
Lemma gotq_app s a b : got_queued s (a ++ b) = got_queued s a ++ got_queued s b. Proof. apply flat_map_app. Qed.
Lemma goti_app s a b : got_inline s (a ++ b) = got_inline s a ++ got_inline s b. Proof. apply flat_map_app. Qed.
Lemma subseq_filter {A} (f : A -> bool) a b : subseq a b -> subseq (filter f a) (filter f b).
Proof. induction 1; cbn [filter]; [constructor| |]; destruct (f x); auto; constructor; exact IHsubseq. Qed.
Lemma got_queued_sub s tr : subseq (got_queued s tr) (got s tr).
Proof.
  induction tr as [|o tr IH]; [constructor|]. change (o :: tr) with ([o] ++ tr). rewrite gotq_app, got_app. apply subseq_app; [|exact IH].
  destruct o; cbn; try apply subseq_nil. destruct queued; destruct (Nat.eqb s0 s); cbn; first [apply subseq_refl|apply subseq_nil].
Qed.
Lemma appended_by_sub t tr : subseq (appended_by t tr) (appended tr).
Proof.
  induction tr as [|o tr IH]; [constructor|]. change (o :: tr) with ([o] ++ tr). rewrite appby_app, appended_app. apply subseq_app; [|exact IH].
  destruct o; cbn; try apply subseq_nil. destruct (Nat.eqb t0 t); cbn; first [apply subseq_refl|apply subseq_nil].
Qed.
Lemma list_set_len {A} (l : list A) t b : length (list_set l t b) = length l.
Proof. revert t. induction l; intros [|t]; cbn; auto. Qed.
Lemma trun_length sc g : length (g_threads (trun lis sc g)) = length (g_threads g).
Proof.
  revert g. induction sc as [|[t b] sc IH]; intros g; [reflexivity|]. cbn [trun]. rewrite IH.
  destruct (tstep lis t b g) eqn:E; [|reflexivity]. destruct (St_shape _ _ _ _ (tstep_St _ _ _ _ E)) as (th & th' & _ & B & _). rewrite B. apply list_set_len.
Qed.
Ltac tr := rewrite ?appended_app, ?popped_app, ?logged_app, ?dropped_app, ?appby_app, ?got_app, ?gotq_app, ?goti_app; cbn [appended popped logged dropped appended_by got got_queued got_inline flat_map app]; rewrite ?app_nil_r.
Ltac gs := cbn [at_ g_set_queue g_set_lock g_set_async g_async g_queue g_lock g_threads g_trace].

Definition queue_inv (g : gstate) : Prop := subseq (popped (g_trace g) ++ g_queue g) (appended (g_trace g)).
Lemma St_queue t b g g' : St t b g g' -> queue_inv g -> queue_inv g'.
Proof.
  intros HS HQ. unfold queue_inv in *. destruct HS; gs; tr; auto.
  - rewrite app_assoc. apply subseq_app; [exact HQ|apply subseq_refl].
  - rewrite app_assoc. apply subseq_app; [|apply subseq_refl]. eapply subseq_trans; [|exact HQ]. rewrite H1. apply subseq_app; [apply subseq_refl|]. constructor. apply subseq_refl.
  - rewrite <- app_assoc. rewrite H0 in HQ. exact HQ.
Qed.
Definition exact_inv (g : gstate) : Prop := dropped (g_trace g) = [] -> appended (g_trace g) = popped (g_trace g) ++ g_queue g.
Lemma St_exact t b g g' : St t b g g' -> exact_inv g -> exact_inv g'.
Proof.
  intros HS HQ. unfold exact_inv in *. destruct HS; gs; tr; auto; intros HD.
  - rewrite HQ, app_assoc; auto.
  - apply app_eq_nil in HD as [_ HD]. discriminate.
  - rewrite HQ, H0, <- app_assoc; auto.
Qed.
Lemma never_full_dropped sc g : never_full lis sc g -> dropped (g_trace (trun lis sc g)) = dropped (g_trace g).
Proof.
  induction sc as [|[t b] sc IH] using rev_ind; intros HN; [reflexivity|]. rewrite trun_app. cbn [trun].
  rewrite <- IH by (intros sc1 t' b' sc2 th E; apply (HN sc1 t' b' (sc2 ++ [(t, b)]) th); rewrite E, <- app_assoc; reflexivity).
  destruct (tstep lis t b (trun lis sc g)) eqn:E; [|reflexivity]. apply tstep_St in E.
  pose proof (fun th => HN sc t b [] th eq_refl) as K. destruct E; gs; tr; auto.
  specialize (K _ H). cbn in K. contradiction.
Qed.
Lemma St_bounded t b g g' : St t b g g' -> (N.of_nat (length (g_queue g)) <= QUEUE_LIMIT)%N -> (N.of_nat (length (g_queue g')) <= QUEUE_LIMIT)%N.
Proof.
  destruct 1; intros HB; gs; auto.
  - rewrite app_length; cbn [length]. lia.
  - rewrite H1 in HB. rewrite app_length; cbn [length] in *. lia.
  - rewrite H0 in HB. cbn [length] in *. lia.
Qed.
Definition noexc_inv (g : gstate) : Prop := forall e, ~ In (KExc, e) (g_queue g).
Lemma St_noexc t b g g' : St t b g g' -> tinv g -> noexc_inv g -> noexc_inv g'.
Proof.
  intros HS HT HQ e0 HI. destruct HS; cbn in HI; try (apply (HQ e0 HI)).
  - apply in_app_iff in HI as [HI|[HI|[]]]; [apply (HQ e0 HI)|]. inversion HI; subst. apply (HT _ _ H). reflexivity.
  - apply in_app_iff in HI as [HI|[HI|[]]]; [apply (HQ e0); rewrite H1; right; exact HI|]. inversion HI; subst. apply (HT _ _ H). reflexivity.
  - apply (HQ e0). rewrite H0. right. exact HI.
Qed.

(** *** Deliveries by flush *)
Definition inflight (s : nat) (th : thread) : list item :=
  match th_pc th with
  | Dispatching k e hs | Delivering k e _ hs => if existsb (Nat.eqb s) hs then [(k, e)] else []
  | _ => []
  end.
Definition qinfl (s : nat) (g : gstate) : list item :=
  match g_lock g with
  | Some t => match nth_error (g_threads g) t with Some th => inflight s th | None => [] end
  | None => []
  end.
Lemma qinfl_same s t p todo new g g1 th : lock_inv g -> nth_error (g_threads g) t = Some th -> ~ flushing th ->
  g_lock g1 = g_lock g -> g_threads g1 = g_threads g -> qinfl s (at_ t p todo new g1) = qinfl s g.
Proof.
  intros HL HN HF E1 E2. unfold qinfl. gs. rewrite E1, E2. destruct (g_lock g) as [t0|] eqn:EL; [|reflexivity].
  destruct (Nat.eq_dec t0 t) as [->|Hn]; [|rewrite nth_set_neq by auto; reflexivity].
  destruct (li_held _ HL _ EL) as (th0 & A & B). rewrite HN in A. inversion A; subst. contradiction.
Qed.
Lemma qinfl_at s t p todo new g1 th : g_lock g1 = Some t -> nth_error (g_threads g1) t = Some th -> qinfl s (at_ t p todo new g1) = inflight s (mkThread p todo).
Proof. intros E HN. unfold qinfl. gs. rewrite E. erewrite nth_set_eq by eauto. reflexivity. Qed.
Lemma qinfl_none s t p todo new g1 : g_lock g1 = None -> qinfl s (at_ t p todo new g1) = [].
Proof. intros E. unfold qinfl. gs. rewrite E. reflexivity. Qed.
Lemma qinfl_holder s t g th : lock_inv g -> nth_error (g_threads g) t = Some th -> flushing th -> g_lock g = Some t /\ qinfl s g = inflight s th.
Proof. intros HL HN HF. pose proof (li_only _ HL _ _ HN HF) as E. split; [exact E|]. unfold qinfl. rewrite E, HN. reflexivity. Qed.

Lemma existsb_notin s hs : ~ In s hs -> existsb (Nat.eqb s) hs = false.
Proof. intros H. destruct (existsb (Nat.eqb s) hs) eqn:E; [|reflexivity]. apply CoreWith.existsb_eqb_In in E. contradiction. Qed.
Definition got_inv (raised : bool) (s : nat) (g : gstate) : Prop :=
  if raised then subseq (got_queued s (g_trace g) ++ qinfl s g) (filter (wants lis s) (popped (g_trace g)))
  else got_queued s (g_trace g) ++ qinfl s g = filter (wants lis s) (popped (g_trace g)).
Lemma St_got s t b g g' : St t b g g' -> lock_inv g -> tinv g -> noexc_inv g -> forall r, (b = true -> r = true) -> got_inv r s g -> got_inv r s g'.
Proof.
  intros HS HL HT HX r Hr HG.
  assert (Hnf : forall p todo new g1 th, nth_error (g_threads g) t = Some th -> ~ flushing th -> g_lock g1 = g_lock g -> g_threads g1 = g_threads g ->
    g_trace g1 = g_trace g -> got_queued s new = [] -> popped new = [] -> got_inv r s (at_ t p todo new g1)).
  { intros p todo new g1 th HN HF E1 E2 E3 E4 E5. unfold got_inv in *. erewrite qinfl_same by eauto. gs. rewrite E3. rewrite gotq_app, popped_app, E4, E5, !app_nil_r. exact HG. }
  destruct HS;
    try (eapply Hnf; [eassumption|unfold flushing; cbn; tauto|reflexivity|reflexivity|reflexivity|reflexivity|reflexivity]; fail);
    try (destruct (qinfl_holder s _ _ _ HL H I) as [EL EQ]; unfold got_inv in *; rewrite EQ in HG; cbn in HG; rewrite ?app_nil_r in HG).
  - (* acquire *) unfold got_inv in *. erewrite qinfl_at by (cbn; eauto). gs. rewrite app_nil_r. cbn. rewrite app_nil_r.
    assert (E : qinfl s g = []) by (unfold qinfl; rewrite H0; reflexivity). rewrite E, app_nil_r in HG. exact HG.
  - rewrite qinfl_none by reflexivity. gs. tr. exact HG.
  - erewrite qinfl_at by eauto. gs. tr. cbn. rewrite ?app_nil_r. exact HG.
  - rewrite qinfl_none by reflexivity. gs. tr. exact HG.
  - (* pop *) erewrite qinfl_at by eauto. gs. tr. rewrite filter_app. cbn [inflight th_pc filter].
    assert (Hk : k <> KExc) by (intros ->; apply (HX e); rewrite H0; left; reflexivity).
    assert (E : existsb (Nat.eqb s) (match k with KExc => [] | _ => lis k end) = wants lis s (k, e)) by (destruct k; try reflexivity; congruence).
    rewrite E. destruct r.
    + apply subseq_app; [exact HG|]. apply subseq_refl.
    + rewrite HG. reflexivity.
  - erewrite qinfl_at by eauto. gs. tr. cbn. rewrite ?app_nil_r. exact HG.
  - (* deliver *) erewrite qinfl_at by eauto. gs. tr. cbn [inflight th_pc].
    pose proof (HT _ _ H) as K. unfold th_ok in K; cbn in K. inversion K as [|? ? K1 K2]; subst.
    rewrite (Nat.eqb_sym s0 s). destruct (Nat.eqb_spec s s0) as [->|Hn].
    + rewrite (existsb_notin _ _ K1), ?app_nil_r. exact HG.
    + cbn [orb] in HG. rewrite ?app_nil_r. exact HG.
  - erewrite qinfl_at by eauto. gs. tr. cbn. exact HG.
  - (* raised *) rewrite qinfl_none by reflexivity. gs. tr. rewrite (Hr H0) in *. eapply subseq_trans; [|exact HG].
    rewrite <- (app_nil_r (got_queued s (g_trace g))) at 1. apply subseq_app; [apply subseq_refl|apply subseq_nil].
Qed.

(** *** Program order *)
Definition pc_item (p : pc) : list item := match p with Logging k e | Appending k e => [(k, e)] | _ => [] end.
Definition th_ord (t : nat) (trc : list tobs) (p : list call) (th : thread) : Prop :=
  appended_by t trc ++ pc_item (th_pc th) ++ plain_logs (th_todo th) = plain_logs p /\
  (forall b, ~ In (CSetAsync b) (th_todo th)) /\ (forall b, th_pc th <> Setting b).
Definition ord_inv (progs : list (list call)) (g : gstate) : Prop :=
  g_async g = true /\
  forall t th, nth_error (g_threads g) t = Some th -> exists p, nth_error progs t = Some p /\ th_ord t (g_trace g) p th.
Lemma St_ord progs t b g g' : St t b g g' -> tinv g -> ord_inv progs g -> ord_inv progs g'.
Proof.
  intros HS HT [HA HO].
  assert (Hkeep : forall p todo new g1 th, nth_error (g_threads g) t = Some th -> g_async g1 = true -> g_threads g1 = g_threads g -> g_trace g1 = g_trace g ->
    (forall t', t' <> t -> appended_by t' new = []) ->
    (forall pr, th_ord t (g_trace g) pr th -> th_ord t (g_trace g ++ new) pr (mkThread p todo)) -> ord_inv progs (at_ t p todo new g1)).
  { intros p todo new g1 th HN E1 E2 E3 E4 E5. split; [exact E1|]. gs. rewrite E2, E3. intros t' th' HN'. destruct (Nat.eq_dec t' t) as [->|Hn].
    - erewrite nth_set_eq in HN' by eauto. inversion HN'; subst. destruct (HO _ _ HN) as (pr & P1 & P2). eauto.
    - rewrite nth_set_neq in HN' by auto. destruct (HO _ _ HN') as (pr & P1 & P2). exists pr. split; [exact P1|].
      unfold th_ord in *. rewrite appby_app, (E4 t' Hn), app_nil_r. exact P2. }
  assert (Hnew : forall t' x, t' <> t -> appended_by t' [TAppend t x] = []) by (intros t' x Hn; cbn; destruct (Nat.eqb_spec t t'); [congruence|reflexivity]).
  destruct HS;
    try (eapply Hkeep; [eassumption|exact HA|reflexivity|reflexivity|first [reflexivity|intros; apply Hnew; assumption]|];
         intros pr (P1 & P2 & P3); unfold th_ord; cbn [th_pc th_todo pc_item] in *; rewrite appby_app; cbn [appended_by flat_map app] in *; rewrite ?Nat.eqb_refl, ?app_nil_r;
         (split; [first [exact P1 | rewrite <- P1, <- app_assoc; reflexivity | (destruct k; try congruence; exact P1)] | split; [first [exact P2 | intros v Hv; apply (P2 v); right; exact Hv] | first [discriminate | exact P3]]])).
  - (* set *) destruct (HO _ _ H) as (pr & _ & _ & P2 & _). exfalso. apply (P2 v). left. reflexivity.
  - destruct (HO _ _ H) as (pr & _ & _ & _ & P3). exfalso. apply (P3 v). reflexivity.
Qed.

(** *** A completed flush leaves nothing behind *)
Definition flushed_inv (g : gstate) : Prop := forall t1 t t2, g_trace g = t1 ++ TFlushed t :: t2 -> appended t2 = [] -> g_queue g = [].
Lemma split_last {A} (l : list A) y a x c : l ++ [y] = a ++ x :: c -> (c = [] /\ l = a /\ y = x) \/ exists c', c = c' ++ [y] /\ l = a ++ x :: c'.
Proof.
  intros H. destruct c as [|z c] using rev_ind.
  - apply app_inj_tail in H as [-> ->]. auto.
  - right. exists c. change (a ++ x :: c ++ [z]) with (a ++ (x :: c) ++ [z]) in H. rewrite app_assoc in H. apply app_inj_tail in H as [-> ->]. auto.
Qed.
Lemma St_flushed t b g g' : St t b g g' -> flushed_inv g -> flushed_inv g'.
Proof.
  intros HS HF t1 t0 t2 ET EA.
  assert (Hone : forall o, o <> TFlushed t0 -> (forall x y, o <> TAppend x y) -> g_trace g ++ [o] = t1 ++ TFlushed t0 :: t2 -> g_queue g = []).
  { intros o Ho1 Ho2 E. apply split_last in E as [(_ & _ & E)|(c' & E1 & E2)]; [congruence|]. eapply HF; [exact E2|]. subst t2. rewrite appended_app in EA. apply app_eq_nil in EA. tauto. }
  assert (Happ : forall a y, g_trace g ++ a ++ [TAppend t y] = t1 ++ TFlushed t0 :: t2 -> False).
  { intros a y E. rewrite app_assoc in E. apply split_last in E as [(_ & _ & E)|(c' & E1 & E2)]; [discriminate|]. subst t2. rewrite appended_app in EA. apply app_eq_nil in EA as [_ EA]. discriminate. }
  destruct HS; cbn in ET; gs; rewrite ?app_nil_r in ET;
    try (eapply HF; eauto; fail);
    try (eapply Hone in ET; [exact ET|discriminate|discriminate]; fail).
  - exfalso. exact (Happ [] _ ET).
  - exfalso. exact (Happ [TDrop x] _ ET).
  - exact H0.
  - eapply Hone in ET; [|discriminate|discriminate]. rewrite H0 in ET. discriminate.
Qed.

(** *** Nothing disappears *)
Lemma item_dec (x y : item) : {x = y} + {x <> y}.
Proof. repeat (decide equality; try apply Z.eq_dec; try apply String.string_dec). Defined.
Definition cnt (x : item) (l : list item) : nat := count_occ item_dec l x.
Lemma cnt_app x a b : cnt x (a ++ b) = cnt x a + cnt x b. Proof. apply count_occ_app. Qed.
Lemma cnt_nil x : cnt x [] = 0. Proof. reflexivity. Qed.
(** Events thread [th] still has to queue or to hand to sink [s]. *)
Definition pend (s : nat) (th : thread) : list item :=
  match th_pc th with
  | Logging k e | Appending k e => if wants lis s (k, e) then [(k, e)] else []
  | Inline k e hs | InHook k e _ hs | Dispatching k e hs | Delivering k e _ hs => if existsb (Nat.eqb s) hs then [(k, e)] else []
  | _ => []
  end.
Definition cons_inv (s : nat) (g : gstate) : Prop := forall x,
  cnt x (filter (wants lis s) (logged (g_trace g))) =
  cnt x (got s (g_trace g)) + cnt x (filter (wants lis s) (g_queue g)) + cnt x (filter (wants lis s) (dropped (g_trace g))) + cnt x (flat_map (pend s) (g_threads g)).
Ltac fin := change (prod kind event) with item in *; repeat match goal with |- context [if ?b then _ else _] => destruct b | H : context [if ?b then _ else _] |- _ => destruct b end; unfold cnt in *; cbn [count_occ] in *;
  repeat match goal with |- context [item_dec ?a ?b] => destruct (item_dec a b) | H : context [item_dec ?a ?b] |- _ => destruct (item_dec a b) end; try congruence; lia.
Lemma St_cons s t g g' : St t false g g' -> tinv g -> noexc_inv g -> cons_inv s g -> cons_inv s g'.
Proof.
  intros HS HT HX HC x. specialize (HC x).
  destruct (St_shape _ _ _ _ HS) as (th & th' & A & _). destruct (list_set_split _ _ _ A) as (l1 & l2 & E1 & _ & E2).
  rewrite E1, flat_map_app in HC. cbn [flat_map] in HC. rewrite !cnt_app in HC.
  destruct HS; rewrite H in A || rewrite H0 in A; inversion A; subst th; clear A; gs; rewrite E2; tr; rewrite ?flat_map_app; cbn [flat_map]; rewrite ?filter_app, ?cnt_app; cbn [filter pend th_pc existsb fst] in *;
   rewrite ?cnt_nil in *; try lia.
  all: try (unfold wants in *; cbn [fst] in *; fin; fail).
  - rewrite H1 in HC. change (x0 :: q) with ([x0] ++ q) in HC. rewrite filter_app, cnt_app in HC. cbn [filter] in HC. fin.
  - pose proof (HT _ _ H) as K. unfold th_ok in K; cbn in K. inversion K as [|? ? K1 K2]; subst.
    rewrite (Nat.eqb_sym s0 s). destruct (Nat.eqb_spec s s0) as [->|Hn]; cbn [orb] in HC; rewrite ?(existsb_notin _ _ K1) in *; fin.
  - rewrite H0 in HC. change ((k, e) :: q) with ([(k, e)] ++ q) in HC. rewrite filter_app, cnt_app in HC. cbn [filter] in HC.
    assert (Hk : k <> KExc) by (intros ->; apply (HX e); rewrite H0; left; reflexivity).
    assert (E : existsb (Nat.eqb s) (match k with KExc => [] | _ => lis k end) = wants lis s (k, e)) by (destruct k; try reflexivity; congruence).
    rewrite E. fin.
  - pose proof (HT _ _ H) as K. unfold th_ok in K; cbn in K. inversion K as [|? ? K1 K2]; subst.
    rewrite (Nat.eqb_sym s0 s). destruct (Nat.eqb_spec s s0) as [->|Hn]; cbn [orb] in HC; rewrite ?(existsb_notin _ _ K1) in *; fin.
Qed.

(** *** Progress and termination *)
Lemma tstep_enabled t g th : nth_error (g_threads g) t = Some th -> ~ finished th -> (th_pc th = Acquiring -> g_lock g = None) ->
  exists g', tstep lis t false g = Some g'.
Proof.
  intros HN HF HA. unfold tstep. rewrite HN. destruct th as [p todo]; cbn [th_pc th_todo] in *. unfold finished in HF; cbn in HF.
  destruct p as [|k e|k e|k e hs|k e s hs|v| | | |k e hs|k e s hs]; eauto.
  - destruct todo as [|[[] e| |v] todo]; eauto. destruct HF; auto.
  - destruct (bounded_append _ _ _); eauto.
  - destruct hs; eauto.
  - rewrite HA; eauto.
  - destruct (g_queue g); eauto.
  - destruct (g_queue g) as [|[k e] q]; eauto.
  - destruct hs; eauto.
Qed.
Lemma no_deadlock g : lock_inv g -> (exists t th, nth_error (g_threads g) t = Some th /\ ~ finished th) -> exists t g', tstep lis t false g = Some g'.
Proof.
  intros HL (t & th & HN & HF). destruct (g_lock g) as [t0|] eqn:E.
  - destruct (li_held _ HL t0 E) as (th0 & A & B). exists t0. eapply tstep_enabled; eauto.
    + intros [C _]. unfold flushing in B. rewrite C in B. exact B.
    + intros C. unfold flushing in B. rewrite C in B. destruct B.
  - exists t. eapply tstep_enabled; eauto.
Qed.

(** An upper bound on the remaining work. *)
Definition item_work (x : item) : nat := 2 * length (lis (fst x)) + 3.
Definition pc_work (p : pc) : nat :=
  match p with
  | Idle => 0
  | Logging k e => 2 * length (lis k) + 5
  | Appending k e => 2 * length (lis k) + 4
  | Inline _ _ hs => 2 * length hs + 1
  | InHook _ _ _ hs => 2 * length hs + 2
  | Setting _ => 1
  | Acquiring => 3
  | Checking => 2
  | Popping => 1
  | Dispatching _ _ hs => 2 * length hs + 3
  | Delivering _ _ _ hs => 2 * length hs + 4
  end.
Definition call_work (c : call) : nat := match c with CLog k _ => 2 * length (lis k) + 6 | CFlush => 4 | CSetAsync _ => 2 end.
Definition th_work (th : thread) : nat := pc_work (th_pc th) + list_sum (map call_work (th_todo th)).
Definition work (g : gstate) : nat := list_sum (map th_work (g_threads g)) + list_sum (map item_work (g_queue g)).
Lemma sum_app l1 l2 : list_sum (l1 ++ l2) = list_sum l1 + list_sum l2. Proof. apply list_sum_app. Qed.
Lemma sum_cons a l : list_sum (a :: l) = a + list_sum l. Proof. reflexivity. Qed.
Lemma St_work t b g g' : St t b g g' -> work g' < work g.
Proof.
  intros HS. destruct (St_shape _ _ _ _ HS) as (th & th' & A & _). destruct (list_set_split _ _ _ A) as (l1 & l2 & E1 & _ & E2).
  unfold work. destruct HS; rewrite H in A || rewrite H0 in A; inversion A; subst th; clear A; gs; rewrite E2, E1; rewrite ?map_app, ?sum_app; cbn [map]; rewrite ?sum_cons;
   unfold th_work at 2 5; cbn [th_pc th_todo pc_work map]; rewrite ?H1, ?H0; cbn [map]; rewrite ?sum_cons; cbn [call_work]; unfold item_work; cbn [fst length]; try lia.
  all: change (list_sum []) with 0; change (prod kind event) with item in *; try lia.
  destruct k; cbn [length]; lia.
Qed.
Lemma steps_work sc g : steps lis sc g <= work g.
Proof.
  revert g. induction sc as [|[t b] sc IH]; intros g; cbn [steps]; [lia|].
  destruct (tstep lis t b g) as [g'|] eqn:E; [|apply IH]. pose proof (St_work _ _ _ _ (tstep_St _ _ _ _ E)). specialize (IH g'). lia.
Qed.

(** *** Runs in which no hook raises *)
Lemma trun_inv_f (I : gstate -> Prop) g sc : (forall t g g', St t false g g' -> I g -> I g') -> nobody_raises sc -> I g -> I (trun lis sc g).
Proof.
  intros HS HN. revert g. induction HN as [|[t b] sc E HN IH]; intros g H; [exact H|]. cbn in E. subst b. cbn [trun]. apply IH.
  destruct (tstep lis t false g) eqn:E; [eapply HS; [apply tstep_St; exact E|exact H]|exact H].
Qed.

(** Everything that holds of every reachable state. *)
Record Inv (g : gstate) : Prop := {
  iv_lock : lock_inv g; iv_t : tinv g; iv_x : noexc_inv g; iv_q : queue_inv g; iv_e : exact_inv g; iv_f : flushed_inv g }.
Lemma St_Inv t b g g' : St t b g g' -> Inv g -> Inv g'.
Proof.
  intros HS [A B C D E F]. constructor; [eapply St_lock|eapply St_tinv|eapply St_noexc|eapply St_queue|eapply St_exact|eapply St_flushed]; eauto.
Qed.
Lemma start_th a progs t th : nth_error (g_threads (start a progs)) t = Some th -> exists p, nth_error progs t = Some p /\ th = mkThread Idle p.
Proof. cbn. rewrite nth_error_map. destruct (nth_error progs t) as [p|]; cbn; [|discriminate]. inversion 1. eauto. Qed.
Lemma start_Inv a progs : Inv (start a progs).
Proof.
  constructor.
  - constructor; [discriminate|]. intros t th H F. destruct (start_th _ _ _ _ H) as (p & _ & ->). destruct F.
  - intros t th H. destruct (start_th _ _ _ _ H) as (p & _ & ->). exact I.
  - intros e [].
  - constructor.
  - intros _. reflexivity.
  - intros t1 t t2 E. destruct t1; discriminate.
Qed.
Lemma run_Inv a progs sc : Inv (trun lis sc (start a progs)).
Proof. apply trun_inv; [exact St_Inv|apply start_Inv]. Qed.

Lemma run_got r s a progs sc : (r = false -> nobody_raises sc) -> got_inv r s (trun lis sc (start a progs)).
Proof.
  intros Hr. enough (H : Inv (trun lis sc (start a progs)) /\ got_inv r s (trun lis sc (start a progs))) by apply H.
  assert (H0 : Inv (start a progs) /\ got_inv r s (start a progs)) by (split; [apply start_Inv|destruct r; cbn; constructor]).
  destruct r.
  - apply trun_inv; [|exact H0]. intros t b g g' HS [[A B C D E F] G]. split; [eapply St_Inv; eauto; constructor; auto|]. eapply St_got; eauto.
  - apply trun_inv_f; [|auto|exact H0]. intros t g g' HS [[A B C D E F] G]. split; [eapply St_Inv; eauto; constructor; auto|]. eapply St_got; eauto.
Qed.
Lemma run_cons s a progs sc : nobody_raises sc -> cons_inv s (trun lis sc (start a progs)).
Proof.
  intros HN. enough (H : Inv (trun lis sc (start a progs)) /\ cons_inv s (trun lis sc (start a progs))) by apply H.
  apply trun_inv_f; [|exact HN|].
  - intros t g g' HS [[A B C D E F] G]. split; [eapply St_Inv; eauto; constructor; auto|]. eapply St_cons; eauto.
  - split; [apply start_Inv|]. intros x. cbn. induction progs; cbn; auto.
Qed.

(** *** A completed flush has delivered everything *)
Definition busy (th : thread) : Prop := match th_pc th with Popping | Dispatching _ _ _ | Delivering _ _ _ _ => True | _ => False end.
Definition flushed_inv2 (g : gstate) : Prop := forall t1 t t2, g_trace g = t1 ++ TFlushed t :: t2 -> appended t2 = [] ->
  g_queue g = [] /\ forall t' th, nth_error (g_threads g) t' = Some th -> ~ busy th.
Lemma St_flushed2 t b g g' : St t b g g' -> lock_inv g -> flushed_inv2 g -> flushed_inv2 g'.
Proof.
  intros HS HL HF t1 t0 t2 ET EA.
  assert (Hone : forall o, o <> TFlushed t0 -> g_trace g ++ [o] = t1 ++ TFlushed t0 :: t2 -> g_queue g = [] /\ forall t' th, nth_error (g_threads g) t' = Some th -> ~ busy th).
  { intros o Ho1 E. apply split_last in E as [(_ & _ & E)|(c' & E1 & E2)]; [congruence|]. eapply HF; [exact E2|]. subst t2. rewrite appended_app in EA. apply app_eq_nil in EA. tauto. }
  assert (Happ : forall a y, g_trace g ++ a ++ [TAppend t y] = t1 ++ TFlushed t0 :: t2 -> False).
  { intros a y E. rewrite app_assoc in E. apply split_last in E as [(_ & _ & E)|(c' & E1 & E2)]; [discriminate|]. subst t2. rewrite appended_app in EA. apply app_eq_nil in EA as [_ EA]. discriminate. }
  assert (Hkeep : forall p todo new g1 th, nth_error (g_threads g) t = Some th -> g_threads g1 = g_threads g -> g_queue g1 = g_queue g ->
     (g_queue g = [] /\ forall t' th, nth_error (g_threads g) t' = Some th -> ~ busy th) -> ~ busy (mkThread p todo) ->
     g_queue (at_ t p todo new g1) = [] /\ forall t' th, nth_error (g_threads (at_ t p todo new g1)) t' = Some th -> ~ busy th).
  { intros p todo new g1 th HN E1 E2 [Q1 Q2] HB. gs. rewrite E1, E2. split; [exact Q1|]. intros t' th' HN'. destruct (Nat.eq_dec t' t) as [->|Hn].
    - erewrite nth_set_eq in HN' by eauto. inversion HN'; subst. exact HB.
    - rewrite nth_set_neq in HN' by auto. eauto. }
  assert (Hsame : g_trace g = t1 ++ TFlushed t0 :: t2 -> g_queue g = [] /\ forall t' th, nth_error (g_threads g) t' = Some th -> ~ busy th) by (intros E; eapply HF; eauto).
  destruct HS; cbn in ET; rewrite ?app_nil_r in ET;
   try (eapply Hkeep; [eassumption|reflexivity|reflexivity|first [apply Hsame; exact ET | eapply Hone; [|exact ET]; discriminate]|unfold busy; cbn; tauto]; fail);
   try (first [apply Hsame in ET | apply Hone in ET; [|discriminate]]; destruct ET as [_ ET]; exfalso; eapply ET; [exact H|exact I]).
  - exfalso. exact (Happ [] _ ET).
  - exfalso. exact (Happ [TDrop x] _ ET).
  - split; [exact H0|]. gs. intros t' th' HN'. destruct (Nat.eq_dec t' t) as [->|Hn].
    + erewrite nth_set_eq in HN' by eauto. inversion HN'; subst. intros [].
    + rewrite nth_set_neq in HN' by auto. intros HB. assert (HF' : flushing th') by (unfold busy, flushing in *; destruct (th_pc th'); auto).
      pose proof (li_only _ HL _ _ HN' HF'). pose proof (li_only _ HL _ _ H I). congruence.
  - apply Hsame in ET. destruct ET as [ET _]. rewrite ET in H0. discriminate.
Qed.
Lemma run_flushed2 a progs sc : flushed_inv2 (trun lis sc (start a progs)).
Proof.
  enough (H : lock_inv (trun lis sc (start a progs)) /\ flushed_inv2 (trun lis sc (start a progs))) by apply H.
  apply trun_inv.
  - intros t b g g' HS [A B]. split; [eapply St_lock; eauto|eapply St_flushed2; eauto].
  - split; [apply start_Inv|]. intros t1 t t2 E. destruct t1; discriminate.
Qed.

(** *** flush raises only when a hook does *)
Definition noraise_inv (g : gstate) : Prop := forall t, ~ In (TFlushRaised t) (g_trace g).
Lemma St_noraise t g g' : St t false g g' -> tinv g -> noraise_inv g -> noraise_inv g'.
Proof.
  intros HS HT HN t0 HI.
  assert (Hk : forall p todo new g1, g_trace g1 = g_trace g -> ~ In (TFlushRaised t0) new -> In (TFlushRaised t0) (g_trace (at_ t p todo new g1)) -> False).
  { intros p todo new g1 E H1 H2. cbn in H2. rewrite E in H2. apply in_app_iff in H2 as [H2|H2]; [apply (HN _ H2)|auto]. }
  remember false as b eqn:Eb.
  destruct HS; try discriminate; try (eapply Hk in HI; [exact HI|reflexivity|cbn; intuition congruence]; fail).
  pose proof (HT _ _ H). cbn in H1. contradiction.
Qed.

(** *** After a switch to synchronous mode *)
(** Asynchronous mode is off, nobody is about to queue an event or to switch it on. *)
Definition off_inv (n : list item) (g : gstate) : Prop :=
  g_async g = false /\ appended (g_trace g) = n /\
  forall t th, nth_error (g_threads g) t = Some th -> ~ In (CSetAsync true) (th_todo th) /\
    match th_pc th with Appending _ _ => False | Setting v => v = false | _ => True end.
Lemma St_off n t b g g' : St t b g g' -> off_inv n g -> off_inv n g'.
Proof.
  intros HS (HA & HP & HT).
  assert (Hk : forall p todo new g1 th, nth_error (g_threads g) t = Some th -> g_async g1 = false -> g_threads g1 = g_threads g -> g_trace g1 = g_trace g -> appended new = [] ->
     (~ In (CSetAsync true) (th_todo th) -> ~ In (CSetAsync true) todo) -> match p with Appending _ _ => False | Setting v => v = false | _ => True end -> off_inv n (at_ t p todo new g1)).
  { intros p todo new g1 th HN E1 E2 E3 E4 E5 E6. split; [exact E1|]. gs. rewrite E3, appended_app, E4, app_nil_r. split; [exact HP|]. rewrite E2. intros t' th' HN'.
    destruct (Nat.eq_dec t' t) as [->|Hn].
    - erewrite nth_set_eq in HN' by eauto. inversion HN'; subst. cbn. split; [apply E5; apply (HT _ _ HN)|exact E6].
    - rewrite nth_set_neq in HN' by auto. eauto. }
  destruct HS; try (eapply Hk; [eassumption|exact HA|reflexivity|reflexivity|reflexivity|cbn; tauto|cbn; auto]; fail).
  - eapply Hk; [eassumption|exact HA|reflexivity|reflexivity|reflexivity|cbn; tauto|]. destruct (HT _ _ H) as [K _]. destruct v; [|reflexivity]. exfalso. apply K. left. reflexivity.
  - congruence.
  - destruct (HT _ _ H) as [_ []].
  - destruct (HT _ _ H) as [_ []].
  - destruct (HT _ _ H) as [_ K]. cbn in K. subst. eapply Hk; [eassumption|reflexivity|reflexivity|reflexivity|reflexivity|cbn; tauto|exact I].
Qed.

(** *** The trace only grows *)
Lemma trun_trace sc g : exists new, g_trace (trun lis sc g) = g_trace g ++ new.
Proof.
  apply (trun_inv (fun g' => exists new, g_trace g' = g_trace g ++ new)); [|exists []; rewrite app_nil_r; reflexivity].
  intros t b g0 g' HS [new E]. destruct HS; gs; rewrite E; eexists; rewrite <- app_assoc; reflexivity.
Qed.
Lemma subseq_len {A} (a b : list A) : subseq a b -> length a <= length b.
Proof. induction 1; cbn; lia. Qed.
(** Fewer events than QUEUE_LIMIT never fill the queue. *)
Lemma few_never_full a progs sc : (N.of_nat (length (appended (g_trace (trun lis sc (start a progs))))) < QUEUE_LIMIT)%N -> never_full lis sc (start a progs).
Proof.
  intros H sc1 t b sc2 th -> _. destruct (th_pc th); auto. rewrite trun_app in H. destruct (trun_trace ((t, b) :: sc2) (trun lis sc1 (start a progs))) as [new E].
  rewrite E, appended_app, app_length in H. pose proof (subseq_len _ _ (iv_q _ (run_Inv a progs sc1))) as L. rewrite app_length in L. lia.
Qed.
End T.
