(** Sinks and preflush hooks that call back into the loggers: proofs for C95. *)
From Coq Require Import Permutation.
From Verif Require Import model.PyBase model.Core model.Concurrent model.Reentrant spec.CoreSpec spec.ReentrantSpec.
From Verif Require Import proof.ConcurrentProofs proof.HookThreadsProofs.
Open Scope nat_scope.

Section R.
Variable H : hookset.

(** The steps, one by one. *)
Definition dropped_of (l : nat) (q : list item) : list robs :=
  if (N.of_nat (length q) <? QUEUE_LIMIT)%N then [] else match q with y :: _ => [RDrop l y] | [] => [] end.
Definition log_frame (l : nat) (x : item) : frame :=
  match fst x with KExc => FInline l x (h_lis H l KExc) | _ => FLogging l x end.
Definition queue_hooks (l : nat) (x : item) : list nat := match fst x with KExc => [] | k => h_lis H l k end.
Notation q_of g l := (rl_queue (r_logs g l)).
Notation lk_of g l := (rl_lock (r_logs g l)).
Inductive RSt (t : nat) : bool -> rstate -> rstate -> rthread -> rthread -> Prop :=
| S_raise_inline g cs l x hs out : RSt t true g (rat t out [] g) (FBody cs :: FInline l x hs :: out) out
| S_raise_dispatch g cs l x hs out : RSt t true g (rat t out [RFlushRaised t l] (r_release l g)) (FBody cs :: FDispatch l x hs :: out) out
| S_raise_pre g cs l hs out : RSt t true g (rat t (FPre l hs :: out) [] g) (FBody cs :: FPre l hs :: out) (FPre l hs :: out)
| S_return g f rest : RSt t false g (rat t (f :: rest) [] g) (FBody [] :: f :: rest) (f :: rest)
| S_log g l k e cs rest : RSt t false g (rat t (log_frame l (k, e) :: FBody cs :: rest) [RLog t l (k, e)] g) (FBody ((l, CLog k e) :: cs) :: rest) (log_frame l (k, e) :: FBody cs :: rest)
| S_flush g l cs rest : RSt t false g (rat t (FAcquire l :: FBody cs :: rest) [] g) (FBody ((l, CFlush) :: cs) :: rest) (FAcquire l :: FBody cs :: rest)
| S_set g l b cs rest : RSt t false g (rat t (FSetting l b :: FBody cs :: rest) [] g) (FBody ((l, CSetAsync b) :: cs) :: rest) (FSetting l b :: FBody cs :: rest)
| S_async b g l x rest : rl_async (r_logs g l) = true -> RSt t b g (rat t (FAppending l x :: rest) [] g) (FLogging l x :: rest) (FAppending l x :: rest)
| S_sync b g l x rest : rl_async (r_logs g l) = false -> RSt t b g (rat t (FInline l x (h_lis H l (fst x)) :: rest) [] g) (FLogging l x :: rest) (FInline l x (h_lis H l (fst x)) :: rest)
| S_append b g l x rest : RSt t b g (rat t rest (dropped_of l (q_of g l) ++ [RAppend t l x]) (r_set_queue l (fst (bounded_append QUEUE_LIMIT (q_of g l) x)) g)) (FAppending l x :: rest) rest
| S_inlined b g l x rest : RSt t b g (rat t rest [] g) (FInline l x [] :: rest) rest
| S_inline b g l x s hs rest : let st' := FBody (h_react H (r_trace g) t l s x) :: FInline l x hs :: rest in
    RSt t b g (rat t st' [RCall t l s x false] g) (FInline l x (s :: hs) :: rest) st'
| S_setting b g l v rest : RSt t b g (rat t rest [] (r_set_async l v g)) (FSetting l v :: rest) rest
| S_acquire b g l k rest : acquire t (lk_of g l) = Some k -> RSt t b g (rat t (FPre l (h_pre H l) :: rest) [] (r_set_lock l k g)) (FAcquire l :: rest) (FPre l (h_pre H l) :: rest)
| S_preflushed b g l rest : RSt t b g (rat t (FCheck l :: rest) [] g) (FPre l [] :: rest) (FCheck l :: rest)
| S_pre b g l h hs rest : let st' := FBody (h_prereact H (r_trace g) t l h) :: FPre l hs :: rest in
    RSt t b g (rat t st' [RPre t l h] g) (FPre l (h :: hs) :: rest) st'
| S_flushed b g l rest : q_of g l = [] -> RSt t b g (rat t rest [RFlushed t l (last_hold (lk_of g l))] (r_release l g)) (FCheck l :: rest) rest
| S_more b g l rest : q_of g l <> [] -> RSt t b g (rat t (FPop l :: rest) [] g) (FCheck l :: rest) (FPop l :: rest)
| S_index b g l rest : q_of g l = [] -> RSt t b g (rat t rest [RFlushRaised t l] (r_release l g)) (FPop l :: rest) rest
| S_pop b g l x q rest : q_of g l = x :: q ->
    RSt t b g (rat t (FDispatch l x (queue_hooks l x) :: rest) [RPop t l x] (r_set_queue l q g)) (FPop l :: rest) (FDispatch l x (queue_hooks l x) :: rest)
| S_dispatched b g l x rest : RSt t b g (rat t (FCheck l :: rest) [] g) (FDispatch l x [] :: rest) (FCheck l :: rest)
| S_dispatch b g l x s hs rest : let st' := FBody (h_react H (r_trace g) t l s x) :: FDispatch l x hs :: rest in
    RSt t b g (rat t st' [RCall t l s x true] g) (FDispatch l x (s :: hs) :: rest) st'.

Lemma bounded_drop l (q : list item) x : (if snd (bounded_append QUEUE_LIMIT q x) then match q with y :: _ => [RDrop l y] | [] => [] end else []) = dropped_of l q.
Proof. unfold dropped_of, bounded_append. destruct (N.of_nat (length q) <? QUEUE_LIMIT)%N; reflexivity. Qed.

Lemma rstep_RSt t b g g' : rstep H t b g = Some g' -> exists st st', nth_error (r_threads g) t = Some st /\ RSt t b g g' st st'.
Proof.
  unfold rstep. destruct (nth_error (r_threads g) t) as [[|f rest]|] eqn:E; try discriminate.
  intros E1. exists (f :: rest). enough (exists st', RSt t b g g' (f :: rest) st') as [st' S] by (exists st'; split; [reflexivity|exact S]).
  destruct f as [cs|l x|l x|l x hs|l v|l|l hs|l|l|l x hs].
  - destruct b.
    + destruct rest as [|[] out]; try discriminate; injection E1 as <-; eexists; constructor.
    + destruct cs as [|[l [k e| |v]] cs].
      * destruct rest; [discriminate|]. injection E1 as <-. eexists; constructor.
      * injection E1 as <-. exists (log_frame l (k, e) :: FBody cs :: rest). pose proof (S_log t g l k e cs rest) as S. unfold log_frame in *. cbn [fst] in *. destruct k; exact S.
      * injection E1 as <-. eexists; constructor.
      * injection E1 as <-. eexists; constructor.
  - destruct (rl_async (r_logs g l)) eqn:A; injection E1 as <-; eexists; [apply S_async|apply S_sync]; exact A.
  - pose proof (bounded_drop l (q_of g l) x) as D. destruct (bounded_append QUEUE_LIMIT (q_of g l) x) as [q d] eqn:Q. cbn [snd] in D. injection E1 as <-.
    rewrite D. exists rest. pose proof (S_append t b g l x rest) as S. rewrite Q in S. exact S.
  - destruct hs; injection E1 as <-; eexists; constructor.
  - injection E1 as <-. eexists; constructor.
  - destruct (acquire t (lk_of g l)) eqn:A; [|discriminate]. injection E1 as <-. eexists; constructor. exact A.
  - destruct hs; injection E1 as <-; eexists; constructor.
  - destruct (q_of g l) eqn:Q; injection E1 as <-; eexists; [apply S_flushed|apply S_more]; rewrite Q; congruence.
  - destruct (q_of g l) as [|x q] eqn:Q; injection E1 as <-; eexists.
    + apply S_index, Q.
    + change (match fst x with KExc => [] | k => h_lis H l k end) with (queue_hooks l x). apply S_pop, Q.
  - destruct hs; injection E1 as <-; eexists; constructor.
Qed.

Lemma RSt_threads t b g g' st st' : RSt t b g g' st st' -> r_threads g' = list_set (r_threads g) t st'.
Proof. intros []; reflexivity. Qed.

Lemma rrun_app sc1 sc2 g : rrun H (sc1 ++ sc2) g = rrun H sc2 (rrun H sc1 g).
Proof. revert g. induction sc1 as [|[t b] sc1 IH]; intro g; [reflexivity|]. apply IH. Qed.
(** Invariants of single stacks, of states, with the trace so far. *)
Lemma rrun_inv (I : rstate -> Prop) sc g :
  (forall t b g g' st st', nth_error (r_threads g) t = Some st -> RSt t b g g' st st' -> I g -> I g') -> I g -> I (rrun H sc g).
Proof.
  intros S. revert g. induction sc as [|[t b] sc IH]; intros g HI; [exact HI|]. cbn [rrun].
  destruct (rstep H t b g) as [g'|] eqn:E; [|exact (IH _ HI)]. destruct (rstep_RSt _ _ _ _ E) as (st & st' & A & B). apply IH, (S _ _ _ _ _ _ A B HI).
Qed.
Lemma rrun_inv_f (I : rstate -> Prop) sc g :
  (forall t g g' st st', nth_error (r_threads g) t = Some st -> RSt t false g g' st st' -> I g -> I g') -> no_raises sc -> I g -> I (rrun H sc g).
Proof.
  intros S N. revert g. induction N as [|[t b] sc E N IH]; intros g HI; [exact HI|]. cbn [rrun]. cbn [snd] in E. subst b.
  destruct (rstep H t false g) as [g'|] eqn:E; [|exact (IH _ HI)]. destruct (rstep_RSt _ _ _ _ E) as (st & st' & A & B). apply IH, (S _ _ _ _ _ A B HI).
Qed.
(** With room in the queue of [l]: nothing is dropped. *)
Lemma rrun_inv_room (I : rstate -> Prop) l sc g (raising : bool) :
  (forall t b g g' st st', (raising = false -> b = false) -> nth_error (r_threads g) t = Some st ->
     (forall x rest, st = FAppending l x :: rest -> (N.of_nat (length (q_of g l)) < QUEUE_LIMIT)%N) -> RSt t b g g' st st' -> I g -> I g') ->
  (raising = false -> no_raises sc) -> room H l sc g -> I g -> I (rrun H sc g).
Proof.
  intros S. revert g. induction sc as [|[t b] sc IH]; intros g N R HI; [exact HI|]. cbn [rrun].
  assert (N' : raising = false -> no_raises sc) by (intro E; specialize (N E); inversion N; assumption).
  destruct (rstep H t b g) as [g'|] eqn:E.
  - apply IH; [exact N'| |].
    + intros sc1 t1 b1 sc2 x rest E1 E2. specialize (R ((t, b) :: sc1) t1 b1 sc2 x rest). cbn [app rrun] in R. rewrite E in R. apply R; [rewrite E1; reflexivity|exact E2].
    + destruct (rstep_RSt _ _ _ _ E) as (st & st' & A & B). apply (S t b g g' st st'); auto.
      * intro F. specialize (N F). inversion N; assumption.
      * intros x rest ->. exact (R [] t b sc x rest eq_refl A).
  - apply IH; [exact N'| |exact HI]. intros sc1 t1 b1 sc2 x rest E1 E2. specialize (R ((t, b) :: sc1) t1 b1 sc2 x rest). cbn [app rrun] in R. rewrite E in R. apply R; [rewrite E1; reflexivity|exact E2].
Qed.

(** *** Every stack ends in the thread's program *)
Fixpoint grounded_stack (st : rthread) : Prop :=
  match st with [] => False | [f] => match f with FBody _ => True | _ => False end | _ :: rest => grounded_stack rest end.
Lemma gs_cons f g rest : grounded_stack (f :: g :: rest) <-> grounded_stack (g :: rest). Proof. reflexivity. Qed.
Lemma gs_tail f rest : grounded_stack (f :: rest) -> rest <> [] -> grounded_stack rest. Proof. destruct rest; [congruence|]. exact (fun h _ => h). Qed.
Lemma gs_push f rest : grounded_stack rest -> grounded_stack (f :: rest). Proof. destruct rest; [intros []|]. exact (fun h => h). Qed.
Lemma gs_pop f rest : grounded_stack (f :: rest) -> (forall cs, f <> FBody cs) -> grounded_stack rest.
Proof. destruct rest; [|exact (fun h _ => h)]. destruct f; cbn; try tauto. intros _ N. destruct (N cs eq_refl). Qed.
Definition ground_inv (g : rstate) : Prop := forall t st, nth_error (r_threads g) t = Some st -> grounded_stack st.
Lemma RSt_ground t b g g' st st' : RSt t b g g' st st' -> grounded_stack st -> grounded_stack st'.
Proof.
  intros S G. destruct S; rewrite ?gs_cons in *; try (unfold log_frame; cbn [fst]; destruct k); rewrite ?gs_cons in *; try subst st';
  repeat first [assumption | apply gs_push; assumption | apply gs_pop in G; [|discriminate]];
  try (apply gs_pop in G; [|discriminate]; assumption).
  all: repeat (apply gs_push); try assumption.
  all: try (destruct rest; [exact I|]; exact G).
Qed.
Lemma stack_inv (P : rthread -> Prop) t b g g' st st' :
  nth_error (r_threads g) t = Some st -> RSt t b g g' st st' -> (P st -> P st') ->
  (forall i s, nth_error (r_threads g) i = Some s -> P s) -> forall i s, nth_error (r_threads g') i = Some s -> P s.
Proof.
  intros A S K I i s E. rewrite (RSt_threads _ _ _ _ _ _ S) in E. destruct (set_cases _ _ _ _ _ E) as [[-> ->]|[N E']]; eauto.
Qed.
Lemma start_stack a progs i s : nth_error (r_threads (rstart a progs)) i = Some s -> exists p, In p progs /\ s = [FBody p].
Proof. cbn. rewrite nth_error_map. destruct (nth_error progs i) eqn:E; [|discriminate]. intros [= <-]. exists l. split; [exact (nth_error_In _ _ E)|reflexivity]. Qed.
Lemma run_ground a progs sc : ground_inv (rrun H sc (rstart a progs)).
Proof.
  apply rrun_inv.
  - intros t b g g' st st' A S G. exact (stack_inv grounded_stack _ _ _ _ _ _ A S (RSt_ground _ _ _ _ _ _ S) G).
  - intros i s E. destruct (start_stack _ _ _ _ E) as (p & _ & ->). exact I.
Qed.

(** *** The frames *)
Definition holding (l : nat) (f : frame) : bool :=
  match f with FPre l' _ | FCheck l' | FPop l' | FDispatch l' _ _ => Nat.eqb l' l | _ => false end.
Definition holds (l : nat) (st : rthread) : nat := length (filter (holding l) st).
Lemma holds_cons l f st : holds l (f :: st) = (if holding l f then 1 else 0) + holds l st.
Proof. unfold holds. cbn [filter]. destruct (holding l f); reflexivity. Qed.
Lemma holds_nil l : holds l [] = 0. Proof. reflexivity. Qed.
Lemma in_flush_holds l st : in_flush l st <-> holds l st > 0.
Proof.
  unfold in_flush, holds. split.
  - intros (f & I & K). assert (J : In f (filter (holding l) st)) by (apply filter_In; split; [exact I|destruct f; try tauto; cbn; apply Nat.eqb_eq, K]).
    destruct (filter (holding l) st); [destruct J|cbn; lia].
  - destruct (filter (holding l) st) as [|f r] eqn:E; [cbn; lia|]. intros _. exists f. assert (J : In f (filter (holding l) st)) by (rewrite E; left; reflexivity).
    apply filter_In in J. destruct J as [I K]. split; [exact I|]. destruct f; try discriminate; apply Nat.eqb_eq, K.
Qed.
(** The lock of [l] is held by the thread inside flush, as often as it is inside. *)
Definition held_by (lk : option (nat * nat)) (t : nat) : nat := match lk with Some (o, n) => if Nat.eqb o t then n else 0 | None => 0 end.
Definition lock_ok (lk : option (nat * nat)) : Prop := match lk with Some (_, n) => n > 0 | None => True end.
Definition linv (l : nat) (g : rstate) : Prop :=
  lock_ok (lk_of g l) /\ forall t st, nth_error (r_threads g) t = Some st -> holds l st = held_by (lk_of g l) t.
Ltac logs := cbn [rat r_release r_set_lock r_set_queue r_set_async r_set r_logs r_trace r_threads] in *.
Lemma held_release lk t n : lock_ok lk -> held_by lk t = S n -> lock_ok (release lk) /\ held_by (release lk) t = n /\ forall t', t' <> t -> held_by (release lk) t' = held_by lk t'.
Proof.
  destruct lk as [[o [|[|m]]]|]; cbn; try discriminate; try lia.
  - intros _. destruct (Nat.eqb_spec o t) as [->|]; [|discriminate]. intros [= <-]. split; [exact I|]. split; [reflexivity|]. intros t' Ht. destruct (Nat.eqb_spec t t'); [congruence|reflexivity].
  - intros _. destruct (Nat.eqb_spec o t) as [->|]; [|discriminate]. intros [= <-]. split; [lia|]. split; [reflexivity|]. intros t' Ht. destruct (Nat.eqb_spec t t'); [congruence|reflexivity].
Qed.
Lemma held_acquire lk t k : lock_ok lk -> acquire t lk = Some k -> lock_ok k /\ held_by k t = S (held_by lk t) /\ forall t', t' <> t -> held_by k t' = held_by lk t'.
Proof.
  destruct lk as [[o n]|]; cbn.
  - destruct (Nat.eqb_spec o t) as [->|]; [|discriminate]. intros P [= <-]. cbn. rewrite Nat.eqb_refl. split; [lia|]. split; [reflexivity|]. intros t' Ht. destruct (Nat.eqb_spec t t'); [congruence|reflexivity].
  - intros _ [= <-]. cbn. rewrite Nat.eqb_refl. split; [lia|]. split; [reflexivity|]. intros t' Ht. destruct (Nat.eqb_spec t t'); [congruence|reflexivity].
Qed.
Lemma RSt_lock l t b g g' st st' : nth_error (r_threads g) t = Some st -> RSt t b g g' st st' -> linv l g -> linv l g'.
Proof.
  intros A S [L1 L2]. pose proof (L2 t st A) as L.
  assert (G : forall lk', lk_of g' l = lk' -> lock_ok lk' -> holds l st' = held_by lk' t -> (forall t', t' <> t -> held_by lk' t' = held_by (lk_of g l) t') -> linv l g').
  { intros lk' E K1 K2 K3. split; [rewrite E; exact K1|]. intros i s Ei. rewrite (RSt_threads _ _ _ _ _ _ S) in Ei. rewrite E.
    destruct (set_cases _ _ _ _ _ Ei) as [[-> ->]|[N Ei']]; [exact K2|]. rewrite K3 by exact N. apply L2, Ei'. }
  assert (Same : lk_of g' l = lk_of g l -> holds l st' = holds l st -> linv l g') by (intros E K; apply (G _ E L1); [congruence|auto]).
  destruct S; logs; try subst st'; rewrite ?holds_cons in *; cbn [holding] in *.
  all: try (apply Same; [reflexivity|]; rewrite ?holds_cons; cbn [holding]; unfold log_frame; cbn [fst]; try destruct k; cbn [holding]; reflexivity).
  - destruct (Nat.eqb_spec l0 l) as [->|N].
    + destruct (held_release (lk_of g l) t (holds l out) L1) as (K1 & K2 & K3); [lia|]. rewrite Nat.eqb_refl in G. apply (G _ eq_refl K1 (eq_sym K2) K3).
    + apply Same; [destruct (Nat.eqb_spec l l0); [congruence|reflexivity]|]. destruct (Nat.eqb_spec l0 l); [congruence|reflexivity].
  - apply Same; [destruct (Nat.eqb_spec l l0) as [->|]; reflexivity|reflexivity].
  - apply Same; [destruct (Nat.eqb_spec l l0) as [->|]; reflexivity|reflexivity].
  - destruct (Nat.eqb_spec l0 l) as [->|N].
    + destruct (held_acquire (lk_of g l) t k L1 H0) as (K1 & K2 & K3). apply (G k); try assumption.
      * rewrite Nat.eqb_refl. reflexivity.
      * rewrite ?Nat.eqb_refl, K2. lia.
    + apply Same; [destruct (Nat.eqb_spec l l0); [congruence|reflexivity]|]. destruct (Nat.eqb_spec l0 l); [congruence|reflexivity].
  - destruct (Nat.eqb_spec l0 l) as [->|N].
    + destruct (held_release (lk_of g l) t (holds l rest) L1) as (K1 & K2 & K3); [lia|]. rewrite Nat.eqb_refl in G. apply (G _ eq_refl K1 (eq_sym K2) K3).
    + apply Same; [destruct (Nat.eqb_spec l l0); [congruence|reflexivity]|]. destruct (Nat.eqb_spec l0 l); [congruence|reflexivity].
  - destruct (Nat.eqb_spec l0 l) as [->|N].
    + destruct (held_release (lk_of g l) t (holds l rest) L1) as (K1 & K2 & K3); [lia|]. rewrite Nat.eqb_refl in G. apply (G _ eq_refl K1 (eq_sym K2) K3).
    + apply Same; [destruct (Nat.eqb_spec l l0); [congruence|reflexivity]|]. destruct (Nat.eqb_spec l0 l); [congruence|reflexivity].
  - apply Same; [destruct (Nat.eqb_spec l l0) as [->|]; reflexivity|]. rewrite ?holds_cons; cbn [holding]. reflexivity.
Qed.
Lemma run_lock l a progs sc : linv l (rrun H sc (rstart a progs)).
Proof.
  apply rrun_inv.
  - intros t b g g' st st' A S. apply (RSt_lock l t b g g' st st' A S).
  - split; [exact I|]. intros i s E. destruct (start_stack _ _ _ _ E) as (p & _ & ->). reflexivity.
Qed.
Lemma one_flusher l g t1 t2 s1 s2 : linv l g -> nth_error (r_threads g) t1 = Some s1 -> nth_error (r_threads g) t2 = Some s2 ->
  holds l s1 > 0 -> holds l s2 > 0 -> t1 = t2.
Proof.
  intros [_ L] A1 A2 P1 P2. rewrite (L _ _ A1) in P1. rewrite (L _ _ A2) in P2. unfold held_by in *.
  destruct (lk_of g l) as [[o n]|]; [|lia]. destruct (Nat.eqb_spec o t1); [|lia]. destruct (Nat.eqb_spec o t2); [|lia]. congruence.
Qed.
End R.
