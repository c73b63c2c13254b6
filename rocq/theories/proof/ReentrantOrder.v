(** The order in which flush hands events over: proofs for C95. *)
From Coq Require Import Permutation.
From Verif Require Import model.PyBase model.Core model.Concurrent model.Reentrant spec.CoreSpec spec.ReentrantSpec.
From Verif Require Import proof.CoreDispatch proof.ConcurrentProofs proof.HookThreadsProofs proof.ReentrantProofs proof.ReentrantCounts.
Open Scope nat_scope.

Section R.
Variable H : hookset.
Hypothesis Once : registered_once H.
Notation q_of g l := (rl_queue (r_logs g l)).
Notation lk_of g l := (rl_lock (r_logs g l)).
Notation wants := (r_wants H).
Ltac logs := cbn [rat r_release r_set_lock r_set_queue r_set_async r_set r_logs r_trace r_threads rl_queue rl_async rl_lock] in *.
Notation pq l s := (flat_map (pend_queued l s)).

(** *** No second flush while an event waits for sink [s] *)
Definition risky (l : nat) (f : frame) : Prop := holding l f = true \/ f = FAcquire l \/ exists cs, f = FBody cs /\ In (l, CFlush) cs.
Fixpoint clean (l s : nat) (st : rthread) : Prop := match st with [] => True | f :: rest => (risky l f -> pq l s rest = []) /\ clean l s rest end.
Definition tops (l s : nat) (st : rthread) : Prop := match st with [] => True | f :: rest => pq l s rest = [] end.
Definition top_clear (l s : nat) (st : rthread) : Prop := match st with [] => True | f :: rest => holding l f = true -> pq l s rest = [] end.
Lemma clean_top l s st : clean l s st -> top_clear l s st.
Proof. destruct st; [exact (fun _ => I)|]. intros [C _] K. apply C. left. exact K. Qed.
Lemma tops_top l s st : tops l s st -> top_clear l s st.
Proof. destruct st; [exact (fun _ => I)|]. exact (fun C _ => C). Qed.

Ltac rk := unfold risky; cbn [holding]; intuition (try discriminate); repeat match goal with K : exists _, _ |- _ => destruct K as (? & ? & ?) | K : FBody _ = FBody _ |- _ => injection K as <- | K : FAcquire _ = FAcquire _ |- _ => injection K as <- end; try discriminate.
Lemma RSt_clean l s t b g g' st st' : hooks_do_not_flush H l -> RSt H t b g g' st st' -> clean l s st -> clean l s st'.
Proof.
  intros [D1 D2] S C.
  assert (RB : forall cs, risky l (FBody cs) -> In (l, CFlush) cs) by (intros cs; rk; assumption).
  assert (BR : forall cs, In (l, CFlush) cs -> risky l (FBody cs)) by (intros cs I; right; right; eauto).
  assert (RA : forall l0, risky l (FAcquire l0) -> l0 = l) by (intros l0 [K|[K|(cs & K & _)]]; [discriminate|congruence|discriminate]).
  assert (HR : forall f, holding l f = true -> risky l f) by (intros f K; left; exact K).
  destruct S; try subst st'; cbn [clean] in *.
  all: try (destruct C as [C1 C2]; exact C2).
  all: try (destruct C as [_ [_ C]]; exact C).
  - (* log *) destruct C as [C1 C2]. split; [|split; [|exact C2]].
    + intros K. exfalso. unfold log_frame in K. cbn [fst] in K. revert K. destruct k; rk.
    + intros K. apply C1, BR. right. apply RB, K.
  - (* flush *) destruct C as [C1 C2]. split; [|split; [|exact C2]].
    + intros K. cbn [flat_map pend_queued app]. apply C1, BR. left. apply RA in K. subst. reflexivity.
    + intros K. apply C1, BR. right. apply RB, K.
  - (* set *) destruct C as [C1 C2]. split; [|split; [|exact C2]].
    + intros K. exfalso. revert K. rk.
    + intros K. apply C1, BR. right. apply RB, K.
  - destruct C as [C1 C2]. split; [|exact C2]. intros K. exfalso. revert K. rk.
  - destruct C as [C1 C2]. split; [|exact C2]. intros K. exfalso. revert K. rk.
  - destruct C as [C1 C2]. split; [|split; [|exact C2]].
    + intros K. apply RB in K. destruct (D1 _ _ _ _ _ K).
    + intros K. exfalso. revert K. rk.
  - (* acquire *) destruct C as [C1 C2]. split; [|exact C2]. intros K. apply C1. right. left. revert K. rk. apply Nat.eqb_eq in H1. congruence.
  - destruct C as [C1 C2]. split; [|exact C2]. intros K. apply C1, HR. revert K. rk.
  - (* preflush hook *) destruct C as [C1 C2]. split; [|split; [|exact C2]].
    + intros K. apply RB in K. cbn [flat_map pend_queued app]. apply C1, HR. cbn [holding]. destruct (Nat.eqb_spec l0 l) as [->|N]; [reflexivity|]. destruct (D2 _ _ _ _ N K).
    + intros K. apply C1, HR. revert K. rk.
  - destruct C as [C1 C2]. split; [|exact C2]. intros K. apply C1, HR. revert K. rk.
  - destruct C as [C1 C2]. split; [|exact C2]. intros K. apply C1, HR. revert K. rk.
  - destruct C as [C1 C2]. split; [|exact C2]. intros K. apply C1, HR. revert K. rk.
  - (* dispatch *) destruct C as [C1 C2]. split; [|split; [|exact C2]].
    + intros K. apply RB in K. destruct (D1 _ _ _ _ _ K).
    + intros K. apply C1, HR. revert K. rk.
Qed.

Lemma first_once l s (x : item) a s0 hs : listed_first H l s -> h_lis H l (fst x) = a ++ s0 :: hs -> existsb (Nat.eqb s) hs = false.
Proof.
  intros L E. apply existsb_notin. intro I. pose proof (Once l (fst x)) as D.
  destruct (L (fst x)) as [r Er]; [rewrite E; apply in_or_app; right; right; exact I|]. rewrite Er in *.
  destruct a as [|a0 a]; cbn [app] in E; injection E as -> E; inversion D as [|? ? D1 D2]; subst; apply D1; [exact I|]. apply in_or_app. right. right. exact I.
Qed.
Lemma RSt_tops l s t b g g' st st' : listed_first H l s -> Forall (frame_ok H) st -> RSt H t b g g' st st' -> tops l s st -> tops l s st'.
Proof.
  intros L F S C.
  assert (Pop : forall f rest, pq l s (f :: rest) = [] -> pq l s rest = []) by (intros f rest E; cbn [flat_map] in E; apply app_eq_nil in E; tauto).
  assert (PT : forall rest, pq l s rest = [] -> tops l s rest) by (intros [|f rest] E; [exact I|]; exact (Pop _ _ E)).
  destruct S; try subst st'; cbn [tops] in *.
  all: try exact C.
  all: try (apply PT, C).
  all: try (apply Pop in C; exact C).
  all: try (cbn [flat_map pend_queued app] in *; exact C).
  all: try (apply Pop in C; apply PT, C).
  inversion F as [|? ? K _]; subst. destruct K as [_ [a E]]. cbn [flat_map pend_queued]. rewrite C, app_nil_r.
  destruct (Nat.eqb_spec l0 l) as [->|]; [|reflexivity]. rewrite (first_once _ _ _ _ _ _ L E). reflexivity.
Qed.

(** *** What flush hands over is what was queued, in order *)
Definition order_inv (l s : nat) (d : list item -> list item -> Prop) (g : rstate) : Prop :=
  d (r_got_queued l s (r_trace g) ++ all_pend (pend_queued l s) g ++ filter (wants l s) (q_of g l)) (filter (wants l s) (r_appended l (r_trace g))).
Lemma holds_pq l s st : holds l st = 0 -> pq l s st = [].
Proof.
  induction st as [|f st IH]; [reflexivity|]. rewrite holds_cons. intros E. cbn [flat_map]. rewrite IH by lia. destruct f; try reflexivity. cbn [holding] in E. cbn [pend_queued].
  destruct (Nat.eqb l0 l); [discriminate|reflexivity].
Qed.
Lemma flat_map_none {A B} (f : A -> list B) m : (forall a, In a m -> f a = []) -> flat_map f m = [].
Proof. induction m as [|a m IH]; intros E; [reflexivity|]. cbn [flat_map]. rewrite (E a (or_introl eq_refl)). apply IH. intros b Ib. apply E. right. exact Ib. Qed.
Lemma nth_lt {A} (m : list A) i a : nth_error m i = Some a -> i < length m.
Proof. intro E. apply nth_error_Some. rewrite E. discriminate. Qed.
Lemma alone l s g t st : linv l g -> nth_error (r_threads g) t = Some st -> holds l st > 0 ->
  exists l1 l2, r_threads g = l1 ++ st :: l2 /\ (forall b, list_set (r_threads g) t b = l1 ++ b :: l2) /\ flat_map (pq l s) l1 = [] /\ flat_map (pq l s) l2 = [].
Proof.
  intros L A P. destruct (list_set_split _ _ _ A) as (l1 & l2 & E1 & E & E2). exists l1, l2. split; [exact E1|]. split; [exact E2|].
  assert (Z : forall i si, i <> t -> nth_error (r_threads g) i = Some si -> pq l s si = []).
  { intros i si N Ai. apply holds_pq. destruct (holds l si) as [|n] eqn:Hn; [reflexivity|]. exfalso. apply N. apply (one_flusher l g i t si st L Ai A); lia. }
  split; apply flat_map_none; intros a Ia; apply In_nth_error in Ia; destruct Ia as [i Ei].
  - apply (Z i a).
    + assert (i < length l1) by (exact (nth_lt _ _ _ Ei)). lia.
    + rewrite E1, nth_error_app1; [exact Ei|]. exact (nth_lt _ _ _ Ei).
  - apply (Z (length l1 + S i) a); [lia|]. rewrite E1, nth_error_app2 by lia. replace (length l1 + S i - length l1) with (S i) by lia. exact Ei.
Qed.
Lemma pq_step l s t b g g' st st' : linv l g -> nth_error (r_threads g) t = Some st -> RSt H t b g g' st st' -> exists u v,
  all_pend (pend_queued l s) g = u ++ pq l s st ++ v /\ all_pend (pend_queued l s) g' = u ++ pq l s st' ++ v /\ (holds l st > 0 -> u = [] /\ v = []).
Proof.
  intros L A S. destruct (holds l st) as [|n] eqn:E.
  - destruct (all_pend_step H (pend_queued l s) _ _ _ _ _ _ A S) as (u & v & P1 & P2). exists u, v. split; [exact P1|]. split; [exact P2|lia].
  - destruct (alone l s g t st L A) as (l1 & l2 & E1 & E2 & N1 & N2); [lia|]. exists [], []. unfold all_pend. rewrite (RSt_threads _ _ _ _ _ _ _ S), E2. rewrite E1 at 1.
    rewrite !flat_map_app. cbn [flat_map]. unfold rthread in *. rewrite N1, N2. auto.
Qed.
Lemma RSt_order l s t b g g' st st' d : d = subseq \/ d = eq ->
  (d = eq -> b = false /\ (forall x rest, st = FAppending l x :: rest -> (N.of_nat (length (q_of g l)) < QUEUE_LIMIT)%N)) ->
  nth_error (r_threads g) t = Some st -> RSt H t b g g' st st' -> frames_inv H g -> linv l g -> top_clear l s st ->
  order_inv l s d g -> order_inv l s d g'.
Proof.
  intros Hd Heq A S [F Q] L TC. pose proof (F _ _ A) as Fst. unfold order_inv.
  assert (T : forall a b c : list item, subseq a b -> (d = eq -> a = b) -> d b c -> d a c).
  { intros a b0 c S1 S3 S2. destruct Hd as [E|E]; subst d; [exact (subseq_trans _ _ _ S1 S2)|]. rewrite (S3 eq_refl). exact S2. }
  assert (App : forall (a c : list item) u, d a c -> d (a ++ u) (c ++ u)).
  { intros a c u D. destruct Hd as [E|E]; subst d; [apply subseq_app; [exact D|apply subseq_refl]|congruence]. }
  destruct (pq_step l s _ _ _ _ _ _ L A S) as (u & v & P1 & P2 & P3).
  rewrite P1, P2. clear P1 P2.
  destruct S; logs; try subst st'; rewrite ?gotq_app', ?appended_app', ?app_nil_r; cbn [flat_map pend_queued app existsb] in *.
  all: try (exact (fun O => O)).
  all: try (destruct (Nat.eqb_spec l l0) as [<-|N]; logs; exact (fun O => O)).
  - (* a hook raises out of flush *)
    assert (Z : rl_queue (if l =? l0 then mkRL (rl_async (r_logs g l0)) (q_of g l0) (release (lk_of g l0)) else r_logs g l) = q_of g l) by (destruct (Nat.eqb_spec l l0) as [<-|N]; reflexivity).
    rewrite Z. apply T; [|intros E; destruct (Heq E); discriminate]. apply subseq_app; [apply subseq_refl|]. apply subseq_app; [|apply subseq_refl]. apply subseq_app; [apply subseq_refl|].
    apply subseq_app; [|apply subseq_refl]. rewrite <- (app_nil_l (pq l s out)) at 1. apply subseq_app; [apply subseq_nil|apply subseq_refl].
  - rewrite log_frame_queued. exact (fun O => O).
  - (* append *)
    destruct (dropped_silent l s l0 (q_of g l0)) as (_ & D2 & _ & D4). rewrite D2, D4, app_nil_r. cbn [app r_appended flat_map].
    destruct (Nat.eqb_spec l l0) as [<-|N]; logs.
    + rewrite Nat.eqb_refl. rewrite filter_app. intros O. apply (App _ _ (filter (wants l s) [x])) in O. revert O. apply T.
      * unfold bounded_append. destruct (_ <? _)%N; cbn [fst]; rewrite filter_app, <- !app_assoc; [apply subseq_refl|].
        repeat (apply subseq_app; [apply subseq_refl|]). apply subseq_app; [|apply subseq_refl]. destruct (q_of g l) as [|y q]; [apply subseq_refl|]. cbn [tl filter].
        destruct (wants l s y); [constructor|]; apply subseq_refl.
      * intros E. destruct (Heq E) as [_ K]. specialize (K _ _ eq_refl). unfold bounded_append. destruct (N.ltb_spec (N.of_nat (length (q_of g l))) QUEUE_LIMIT); [|lia].
        cbn [fst]. rewrite filter_app, <- !app_assoc. reflexivity.
    + rewrite (proj2 (Nat.eqb_neq l0 l)) by congruence. cbn [app]. rewrite app_nil_r. exact (fun O => O).
  - (* pop *)
    destruct (Nat.eqb_spec l l0) as [<-|N]; logs.
    + rewrite Nat.eqb_refl. cbn [andb]. pose proof (Q l) as Ql. rewrite H0 in *. inversion Ql; subst. rewrite queue_hooks_wants by assumption.
      destruct P3 as [-> ->]; [rewrite holds_cons; cbn [holding]; rewrite Nat.eqb_refl; lia|].
      cbn [top_clear holding] in TC. rewrite Nat.eqb_refl in TC. rewrite (TC eq_refl). cbn [app filter]. rewrite ?app_nil_r.
      destruct (wants l s x); exact (fun O => O).
    + rewrite (proj2 (Nat.eqb_neq l0 l)) by congruence. exact (fun O => O).
  - rewrite andb_false_r. exact (fun O => O).
  - (* hook call *)
    cbn [r_got_queued flat_map]. rewrite app_nil_r. destruct (Nat.eqb_spec l l0) as [<-|N].
    + rewrite Nat.eqb_refl. cbn [andb]. destruct P3 as [-> ->]; [rewrite holds_cons; cbn [holding]; rewrite Nat.eqb_refl; lia|].
      cbn [top_clear holding] in TC. rewrite Nat.eqb_refl in TC. rewrite (TC eq_refl). cbn [app]. rewrite ?app_nil_r.
      inversion Fst as [|? ? K _]; subst; destruct K as [_ [a E]]. pose proof (once_tail H Once _ _ _ _ _ E) as Tl. rewrite (Nat.eqb_sym s0 s).
      destruct (Nat.eqb_spec s s0) as [<-|]; cbn [orb].
      * rewrite Tl. cbn [app]. rewrite <- app_assoc. exact (fun O => O).
      * rewrite app_nil_r. exact (fun O => O).
    + rewrite (proj2 (Nat.eqb_neq l0 l)) by congruence. cbn [andb app]. rewrite app_nil_r. exact (fun O => O).
Qed.
End R.
