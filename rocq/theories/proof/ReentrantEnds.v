(** Every run ends when the hooks only log and always lower: proofs for C95. *)
From Verif Require Import model.PyBase model.Core model.Concurrent model.Reentrant spec.CoreSpec spec.ReentrantSpec.
From Verif Require Import proof.ConcurrentProofs proof.HookThreadsProofs proof.ReentrantProofs proof.ReentrantCounts proof.ReentrantOrder proof.ReentrantRuns.
Open Scope nat_scope.

Section R.
Variable H : hookset.
Variable rank : nat * item -> nat.
Variables B R n : nat.
Hypothesis G : grounded H rank B R.
Notation q_of g l := (rl_queue (r_logs g l)).
Ltac logs := cbn [rat r_release r_set_lock r_set_queue r_set_async r_set r_logs r_trace r_threads rl_queue rl_async rl_lock] in *.

(** The work an event of rank below [r] may cause. *)
Fixpoint ew (r : nat) : nat := match r with 0 => 0 | S r' => 4 + B * (3 + B * (6 + ew r')) end.
Lemma ew_mono_S r : ew r <= ew (S r).
Proof. induction r as [|r IH]; [cbn; lia|]. cbn [ew] in *. nia. Qed.
Lemma ew_mono r r' : r <= r' -> ew r <= ew r'.
Proof. intros L. induction L as [|m L IH]; [lia|]. pose proof (ew_mono_S m). lia. Qed.
Definition iw (l : nat) (x : item) : nat := ew (S (rank (l, x))).
Definition hw (l : nat) (x : item) : nat := 3 + B * (6 + ew (rank (l, x))).
Definition pw : nat := 3 + B * (6 + ew R).
Definition cw (c : rcall) : nat := match snd c with CLog k e => 6 + iw (fst c) (k, e) | CFlush => 5 + B * pw | CSetAsync _ => 3 end.
Definition fw (f : frame) : nat :=
  match f with
  | FBody cs => 1 + list_sum (map cw cs)
  | FLogging l x => 4 + iw l x
  | FAppending l x => 1 + iw l x
  | FInline l x hs => 1 + length hs * hw l x
  | FSetting _ _ => 1
  | FAcquire _ => 4 + B * pw
  | FPre _ hs => 3 + length hs * pw
  | FCheck _ => 2
  | FPop _ => 1
  | FDispatch l x hs => 3 + length hs * hw l x
  end.
Definition sw (st : rthread) : nat := list_sum (map fw st).
Definition qw (g : rstate) (l : nat) : nat := list_sum (map (iw l) (q_of g l)).
Definition work (g : rstate) : nat := list_sum (map sw (r_threads g)) + list_sum (map (qw g) (seq 0 n)).

Lemma body_weight r cs : calls_below rank r B cs -> list_sum (map cw cs) <= B * (6 + ew r).
Proof.
  intros [L K]. enough (list_sum (map cw cs) <= length cs * (6 + ew r)) by (pose proof (Nat.mul_le_mono_r _ _ (6 + ew r) L); lia). clear L. induction cs as [|c cs IH]; [cbn; lia|].
  cbn [map length]. rewrite sum_cons. specialize (IH (fun c' I => K c' (or_intror I))). destruct (K c (or_introl eq_refl)) as (l & k & e & -> & Lt).
  assert (E : cw (l, CLog k e) <= 6 + ew r) by (apply Nat.add_le_mono_l, ew_mono, Lt). rewrite Nat.mul_succ_l. lia.
Qed.
Lemma iw_hw l x (hs : list nat) : length hs <= B -> 4 + length hs * hw l x <= iw l x.
Proof. intros L. unfold iw, hw. cbn [ew]. pose proof (Nat.mul_le_mono_r _ _ (3 + B * (6 + ew (rank (l, x)))) L). lia. Qed.

(** The loggers are those below [n]. *)
Definition inrange (f : frame) : Prop := forall l, uses f l -> l < n.
Lemma RSt_range t b g g' st st' : (forall tr t l s x l' c, In (l', c) (h_react H tr t l s x) -> l' < n) -> (forall tr t l h l' c, In (l', c) (h_prereact H tr t l h) -> l' < n) ->
  RSt H t b g g' st st' -> Forall inrange st -> Forall inrange st'.
Proof.
  intros D1 D2 S F.
  destruct S; try subst st'; repeat match goal with K : Forall _ (_ :: _) |- _ => inversion K; subst; clear K end; repeat constructor; try assumption; unfold inrange in *; intros l' K.
  all: try (cbn [uses flog] in *; injection K as <-; match goal with M : forall l, Some ?a = Some l -> l < n |- _ => exact (M _ eq_refl) end).
  all: try (destruct K as [c K]; eauto; fail).
  all: try (destruct K as [c K]; match goal with M : forall l, uses (FBody _) l -> _ |- _ => apply M; exists c; right; exact K end).
  - assert (E : l' = l) by (unfold log_frame in K; cbn [fst] in K; destruct k; cbn in K; congruence). subst. match goal with M : forall l, uses (FBody _) l -> _ |- _ => apply M end. exists (CLog k e). left. reflexivity.
  - cbn in K. injection K as <-. match goal with M : forall l, uses (FBody _) l -> _ |- _ => apply M end. exists CFlush. left. reflexivity.
  - cbn in K. injection K as <-. match goal with M : forall l, uses (FBody _) l -> _ |- _ => apply M end. eexists. left. reflexivity.
Qed.

Lemma sum_upd (f f' : nat -> nat) l : l < n -> (forall i, i <> l -> f' i = f i) -> list_sum (map f' (seq 0 n)) + f l = list_sum (map f (seq 0 n)) + f' l.
Proof.
  intros Lt E. assert (S : seq 0 n = seq 0 l ++ l :: seq (S l) (n - S l)) by (replace n with (l + S (n - S l)) at 1 by lia; rewrite seq_app; reflexivity).
  rewrite S, !map_app, !sum_app. cbn [map]. rewrite !sum_cons.
  assert (E1 : map f' (seq 0 l) = map f (seq 0 l)) by (apply map_ext_in; intros i I; apply in_seq in I; apply E; lia).
  assert (E2 : map f' (seq (Datatypes.S l) (n - Datatypes.S l)) = map f (seq (Datatypes.S l) (n - Datatypes.S l))) by (apply map_ext_in; intros i I; apply in_seq in I; apply E; lia).
  rewrite E1, E2. lia.
Qed.
Lemma queue_same g g' : (forall l, q_of g' l = q_of g l) -> list_sum (map (qw g') (seq 0 n)) = list_sum (map (qw g) (seq 0 n)).
Proof. intros E. f_equal. apply map_ext. intro l. unfold qw. rewrite E. reflexivity. Qed.
Lemma log_frame_w l k e : fw (log_frame H l (k, e)) <= 4 + iw l (k, e).
Proof.
  unfold log_frame. cbn [fst]. destruct G as (_ & _ & K & _). destruct k; cbn [fw]; try lia. pose proof (iw_hw l (KExc, e) (h_lis H l KExc) (K l KExc)). lia.
Qed.
Lemma RSt_work t b g g' st st' : nth_error (r_threads g) t = Some st -> Forall inrange st -> RSt H t b g g' st st' -> work g' < work g.
Proof.
  intros A I S. unfold work. rewrite (RSt_threads _ _ _ _ _ _ _ S). destruct (list_set_split _ _ _ A) as (l1 & l2 & E1 & _ & E2). rewrite E2. rewrite E1 at 1.
  rewrite !map_app, !sum_app. cbn [map]. rewrite !sum_cons.
  enough (sw st' + list_sum (map (qw g') (seq 0 n)) < sw st + list_sum (map (qw g) (seq 0 n))) by lia. clear A E1 E2 l1 l2.
  destruct G as (G1 & G2 & G3 & G4).
  assert (Same : (forall l, q_of g' l = q_of g l) -> sw st' < sw st -> sw st' + list_sum (map (qw g') (seq 0 n)) < sw st + list_sum (map (qw g) (seq 0 n)))
    by (intros E L; rewrite (queue_same _ _ E); lia).
  destruct S; try (apply Same; [intro l'; logs; try reflexivity; destruct (Nat.eqb_spec l' l) as [->|]; reflexivity|]); try subst st'; unfold sw; cbn [map fw length cw snd fst]; rewrite ?sum_cons; cbn [map fw length]; rewrite ?sum_cons; try lia.
  - pose proof (log_frame_w l k e). lia.
  - pose proof (iw_hw l x (h_lis H l (fst x)) (G3 _ _)). lia.
  - (* append *)
    set (g' := rat _ _ _ _).
    assert (Il : l < n) by (inversion I; subst; match goal with K : inrange _ |- _ => apply K; reflexivity end).
    assert (U : list_sum (map (qw g') (seq 0 n)) + qw g l = list_sum (map (qw g) (seq 0 n)) + qw g' l).
    { apply sum_upd; [exact Il|]. intros i Ni. unfold qw, g'. logs. destruct (Nat.eqb_spec i l); [congruence|reflexivity]. }
    assert (Q : qw g' l <= qw g l + iw l x).
    { unfold qw, g'. logs. rewrite Nat.eqb_refl. logs. unfold bounded_append. destruct (_ <? _)%N; cbn [fst]; rewrite map_app, sum_app; cbn [map]; rewrite sum_cons; [cbn; lia|].
      destruct (q_of g l); cbn [tl map]; rewrite ?sum_cons; cbn; lia. }
    lia.
  - pose proof (body_weight _ _ (G1 (r_trace g) t l s x)). unfold hw. lia.
  - pose proof (Nat.mul_le_mono_r _ _ pw (G4 l)). lia.
  - pose proof (body_weight _ _ (G2 (r_trace g) t l h)). unfold pw. lia.
  - (* pop *)
    set (g' := rat _ _ _ _).
    assert (Il : l < n) by (inversion I; subst; match goal with K : inrange _ |- _ => apply K; reflexivity end).
    assert (U : list_sum (map (qw g') (seq 0 n)) + qw g l = list_sum (map (qw g) (seq 0 n)) + qw g' l).
    { apply sum_upd; [exact Il|]. intros i Ni. unfold qw, g'. logs. destruct (Nat.eqb_spec i l); [congruence|reflexivity]. }
    assert (Q : qw g' l + iw l x = qw g l).
    { unfold qw, g'. logs. rewrite Nat.eqb_refl. logs. rewrite H0. cbn [map]. rewrite sum_cons. lia. }
    assert (Lq : length (queue_hooks H l x) <= B) by (unfold queue_hooks; pose proof (G3 l (fst x)); destruct (fst x); cbn [length]; lia).
    pose proof (iw_hw l x _ Lq). lia.
  - pose proof (body_weight _ _ (G1 (r_trace g) t l s x)). unfold hw. lia.
Qed.
Lemma steps_work_r sc : (forall tr t l s x l' c, In (l', c) (h_react H tr t l s x) -> l' < n) -> (forall tr t l h l' c, In (l', c) (h_prereact H tr t l h) -> l' < n) ->
  forall g, (forall t st, nth_error (r_threads g) t = Some st -> Forall inrange st) -> r_steps H sc g <= work g.
Proof.
  intros D1 D2. induction sc as [|[t b] sc IH]; intros g I; [cbn; lia|]. cbn [r_steps]. destruct (rstep H t b g) as [g'|] eqn:E; [|exact (IH _ I)].
  destruct (rstep_RSt _ _ _ _ _ E) as (st & st' & A & S). pose proof (RSt_work _ _ _ _ _ _ A (I _ _ A) S).
  specialize (IH g' (stack_inv H (Forall inrange) _ _ _ _ _ _ A S (RSt_range _ _ _ _ _ _ D1 D2 S) I)). lia.
Qed.
End R.
