(** Nothing disappears and nothing is handed over twice: proofs for C95. *)
From Coq Require Import Permutation.
From Verif Require Import model.PyBase model.Core model.Concurrent model.Reentrant spec.CoreSpec spec.ReentrantSpec.
From Verif Require Import proof.ConcurrentProofs proof.HookThreadsProofs proof.ReentrantProofs.
Open Scope nat_scope.

Section R.
Variable H : hookset.
Hypothesis Once : registered_once H.
Notation q_of g l := (rl_queue (r_logs g l)).
Notation lk_of g l := (rl_lock (r_logs g l)).
Notation wants := (r_wants H).
Ltac logs := cbn [rat r_release r_set_lock r_set_queue r_set_async r_set r_logs r_trace r_threads rl_queue rl_async rl_lock] in *.

(** The hooks still to be called are a tail of the hook list. *)
Definition frame_ok (f : frame) : Prop :=
  match f with
  | FInline l x hs => exists a, h_lis H l (fst x) = a ++ hs
  | FDispatch l x hs => fst x <> KExc /\ exists a, h_lis H l (fst x) = a ++ hs
  | FLogging l x | FAppending l x => fst x <> KExc
  | _ => True
  end.
Definition frames_inv (g : rstate) : Prop :=
  (forall t st, nth_error (r_threads g) t = Some st -> Forall frame_ok st) /\ forall l, Forall (fun x => fst x <> KExc) (q_of g l).
Lemma RSt_frames t b g g' st st' : nth_error (r_threads g) t = Some st -> RSt H t b g g' st st' -> frames_inv g -> frames_inv g'.
Proof.
  intros A S [F Q]. assert (Fst := F _ _ A). split.
  - apply (stack_inv H (Forall frame_ok) _ _ _ _ _ _ A S); [intros _|exact F]. clear A F.
    destruct S; try subst st'; repeat match goal with K : Forall _ (_ :: _) |- _ => inversion K; subst; clear K end;
      repeat constructor; try assumption.
    + unfold log_frame. cbn [fst]. destruct k; cbn; try discriminate. exists []. reflexivity.
    + cbn. exists []. reflexivity.
    + cbn in *. destruct H2 as [a E]. exists (a ++ [s]). rewrite <- app_assoc. exact E.
    + specialize (Q l). rewrite H0 in Q. inversion Q; subst. assumption.
    + specialize (Q l). rewrite H0 in Q. inversion Q; subst. exists []. unfold queue_hooks. cbn [app]. destruct (fst x); try reflexivity. match goal with N : _ <> _ |- _ => destruct (N eq_refl) end.
    + destruct H2 as [N _]. exact N.
    + destruct H2 as [_ [a E]]. exists (a ++ [s]). rewrite <- app_assoc. exact E.
  - intro l'. destruct S; logs; try apply Q; destruct (Nat.eqb_spec l' l) as [->|]; try apply Q; logs; try apply Q.
    + inversion Fst; subst. cbn [frame_ok] in *. specialize (Q l). unfold bounded_append. destruct (_ <? _)%N; cbn [fst].
      * apply Forall_app. split; [exact Q|]. repeat constructor. assumption.
      * apply Forall_app. split; [|repeat constructor; assumption]. destruct (q_of g l); [constructor|]. inversion Q; assumption.
    + specialize (Q l). rewrite H0 in Q. inversion Q; assumption.
Qed.
Lemma run_frames a progs sc : frames_inv (rrun H sc (rstart a progs)).
Proof.
  apply rrun_inv.
  - intros t b g g' st st' A S. apply (RSt_frames t b g g' st st' A S).
  - split; [|intro; constructor]. intros i s E. destruct (start_stack _ _ _ _ E) as (p & _ & ->). repeat constructor.
Qed.

Lemma logged_app' l a b : r_logged l (a ++ b) = r_logged l a ++ r_logged l b. Proof. apply flat_map_app. Qed.
Lemma appended_app' l a b : r_appended l (a ++ b) = r_appended l a ++ r_appended l b. Proof. apply flat_map_app. Qed.
Lemma got_app' l s a b : r_got l s (a ++ b) = r_got l s a ++ r_got l s b. Proof. apply flat_map_app. Qed.
Lemma gotq_app' l s a b : r_got_queued l s (a ++ b) = r_got_queued l s a ++ r_got_queued l s b. Proof. apply flat_map_app. Qed.

(** What the frames still have to queue or to hand to sink [s]. *)
Definition pend_all (l s : nat) (f : frame) : list item :=
  match f with
  | FLogging l' x | FAppending l' x => if Nat.eqb l' l && wants l s x then [x] else []
  | FInline l' x hs | FDispatch l' x hs => if Nat.eqb l' l && existsb (Nat.eqb s) hs then [x] else []
  | _ => []
  end.
Definition pend_queued (l s : nat) (f : frame) : list item :=
  match f with FDispatch l' x hs => if Nat.eqb l' l && existsb (Nat.eqb s) hs then [x] else [] | _ => [] end.
Definition all_pend (p : frame -> list item) (g : rstate) : list item := flat_map (flat_map p) (r_threads g).
Lemma all_pend_step p t b g g' st st' : nth_error (r_threads g) t = Some st -> RSt H t b g g' st st' -> exists x y,
  all_pend p g = x ++ flat_map p st ++ y /\ all_pend p g' = x ++ flat_map p st' ++ y.
Proof.
  intros A S. unfold all_pend. rewrite (RSt_threads _ _ _ _ _ _ _ S). destruct (list_set_split _ _ _ A) as (l1 & l2 & E1 & _ & E2).
  exists (flat_map (flat_map p) l1), (flat_map (flat_map p) l2). rewrite E2. rewrite E1 at 1. rewrite !flat_map_app. split; reflexivity.
Qed.

(** [d]: how the right-hand side relates to the left-hand side. *)
Definition cons_all (l s : nat) (d : nat -> nat -> Prop) (g : rstate) : Prop := forall x,
  d (cnt x (r_got l s (r_trace g)) + cnt x (filter (wants l s) (q_of g l)) + cnt x (all_pend (pend_all l s) g)) (cnt x (filter (wants l s) (r_logged l (r_trace g)))).
Definition cons_queued (l s : nat) (d : nat -> nat -> Prop) (g : rstate) : Prop := forall x,
  d (cnt x (r_got_queued l s (r_trace g)) + cnt x (filter (wants l s) (q_of g l)) + cnt x (all_pend (pend_queued l s) g)) (cnt x (filter (wants l s) (r_appended l (r_trace g)))).

Lemma cnt_cons x y m : cnt x (y :: m) = cnt x [y] + cnt x m. Proof. apply (cnt_app x [y] m). Qed.
Lemma once_tail l (x : item) a s hs : h_lis H l (fst x) = a ++ s :: hs -> existsb (Nat.eqb s) hs = false.
Proof. intro E. apply existsb_notin. pose proof (Once l (fst x)) as D. rewrite E in D. apply NoDup_remove_2 in D. intro I. apply D, in_or_app. right. exact I. Qed.
Lemma queue_hooks_wants l s (x : item) : fst x <> KExc -> existsb (Nat.eqb s) (queue_hooks H l x) = wants l s x.
Proof. intros N. unfold queue_hooks, r_wants. destruct (fst x); congruence. Qed.
Lemma log_frame_all l s l' k e : flat_map (pend_all l s) [log_frame H l' (k, e)] = if Nat.eqb l' l && wants l s (k, e) then [(k, e)] else [].
Proof. unfold log_frame. cbn [fst]. destruct k; cbn [flat_map pend_all]; rewrite app_nil_r; unfold r_wants; cbn [fst]; destruct (Nat.eqb_spec l' l) as [->|]; reflexivity. Qed.
Lemma log_frame_all1 l s l' k e : pend_all l s (log_frame H l' (k, e)) = if Nat.eqb l' l && wants l s (k, e) then [(k, e)] else [].
Proof. rewrite <- log_frame_all. cbn [flat_map]. symmetry. apply app_nil_r. Qed.
Lemma log_frame_queued l s l' k e : pend_queued l s (log_frame H l' (k, e)) = [].
Proof. unfold log_frame. cbn [fst]. destruct k; reflexivity. Qed.
Lemma dropped_silent l s l' q : r_logged l (dropped_of l' q) = [] /\ r_appended l (dropped_of l' q) = [] /\ r_got l s (dropped_of l' q) = [] /\ r_got_queued l s (dropped_of l' q) = [].
Proof. unfold dropped_of. destruct (_ <? _)%N; [repeat split|]. destruct q; repeat split. Qed.

Ltac ch := change (prod kind event) with item in *; lia.
(** Counting: [d] is [le] in general and [eq] when nothing raises and the queue has room. *)
Ltac cntrw := rewrite ?logged_app', ?appended_app', ?got_app', ?gotq_app', ?filter_app, ?cnt_app;
  cbn [r_logged r_appended r_got r_got_queued flat_map app filter pend_all pend_queued existsb] in *; rewrite ?app_nil_r, ?cnt_nil, ?cnt_app, ?Nat.add_0_r in *.
Lemma filter_one l s x : filter (wants l s) [x] = if wants l s x then [x] else []. Proof. reflexivity. Qed.

Lemma RSt_cons_all l s t b g g' st st' d : d = le \/ d = eq ->
  (d = eq -> b = false /\ (forall x rest, st = FAppending l x :: rest -> (N.of_nat (length (q_of g l)) < QUEUE_LIMIT)%N)) ->
  nth_error (r_threads g) t = Some st -> RSt H t b g g' st st' -> frames_inv g -> cons_all l s d g -> cons_all l s d g'.
Proof.
  intros Hd Heq A S [F Q]. pose proof (F _ _ A) as Fst.
  destruct (all_pend_step (pend_all l s) _ _ _ _ _ _ A S) as (u & v & P1 & P2).
  unfold cons_all. rewrite P1, P2. clear P1 P2.
  assert (M : forall a a' c c' : nat, (d = eq -> a' + c = a + c') -> a' + c <= a + c' -> d a c -> d a' c').
  { intros a a' c c' K1 K2 Hac. destruct Hd as [E|E]; subst d; [lia|]. specialize (K1 eq_refl). lia. }
  assert (M1 : forall a a' c c' : nat, a' + c = a + c' -> d a c -> d a' c') by (intros a a' c c' K; apply M; lia).
  intros C x; specialize (C x); revert C.
  destruct S; logs; try subst st'.
  all: cntrw; try (apply M1; ch).
  all: destruct (Nat.eqb_spec l l0) as [<-|N]; rewrite ?Nat.eqb_refl; try (rewrite (proj2 (Nat.eqb_neq l0 l)) by congruence);
    cbn [andb]; logs; rewrite ?cnt_nil, ?log_frame_all1; try (apply M1; cbn [Nat.eqb andb]; lia).
  - apply M; [intros E; destruct (Heq E); discriminate|ch].
  - apply M; [intros E; destruct (Heq E); discriminate|ch].
  - cbn [filter]. rewrite Nat.eqb_refl. cbn [andb]. destruct (wants l s (k, e)); rewrite ?cnt_nil; apply M1; ch.
  - rewrite (proj2 (Nat.eqb_neq l0 l)) by congruence. apply M1. cbn [andb filter]. rewrite ?cnt_nil. lia.
  - apply M1. unfold r_wants. lia.
  - destruct (dropped_silent l s l (q_of g l)) as (D1 & D2 & D3 & D4). rewrite D1, D3. unfold bounded_append.
    cbn [filter]. rewrite ?cnt_nil. destruct (N.ltb_spec (N.of_nat (length (q_of g l))) QUEUE_LIMIT) as [R|R]; cbn [fst].
    + rewrite filter_app, filter_one, cnt_app. apply M1; ch.
    + apply M; [intros E; destruct (Heq E) as [_ K]; specialize (K _ _ eq_refl); lia|]. destruct (q_of g l) as [|y q]; cbn [tl app].
      * rewrite filter_one. cbn [filter]. rewrite ?cnt_nil. lia.
      * rewrite filter_app, filter_one, cnt_app. change (y :: q) with ([y] ++ q). rewrite filter_app, cnt_app. lia.
  - destruct (dropped_silent l s l0 (q_of g l0)) as (D1 & D2 & D3 & D4). rewrite D1, D3. cbn [filter]. rewrite ?cnt_nil. apply M1; ch.
  - inversion Fst as [|? ? K _]; subst; destruct K as [a E]. pose proof (once_tail _ _ _ _ _ E) as T. rewrite (Nat.eqb_sym s0 s). destruct (Nat.eqb_spec s s0) as [<-|]; cbn [orb].
    + rewrite T, cnt_nil. apply M1; ch.
    + rewrite cnt_nil. apply M1; ch.
  - pose proof (Q l) as Ql. rewrite H0 in *. inversion Ql; subst. rewrite queue_hooks_wants by assumption.
    change (x0 :: q) with ([x0] ++ q). rewrite filter_app, filter_one, cnt_app. apply M1; ch.
  - inversion Fst as [|? ? K _]; subst; destruct K as [_ [a E]]. pose proof (once_tail _ _ _ _ _ E) as T. rewrite (Nat.eqb_sym s0 s). destruct (Nat.eqb_spec s s0) as [<-|]; cbn [orb].
    + rewrite T, cnt_nil. apply M1; ch.
    + rewrite cnt_nil. apply M1; ch.
Qed.
Lemma RSt_cons_queued l s t b g g' st st' d : d = le \/ d = eq ->
  (d = eq -> b = false /\ (forall x rest, st = FAppending l x :: rest -> (N.of_nat (length (q_of g l)) < QUEUE_LIMIT)%N)) ->
  nth_error (r_threads g) t = Some st -> RSt H t b g g' st st' -> frames_inv g -> cons_queued l s d g -> cons_queued l s d g'.
Proof.
  intros Hd Heq A S [F Q]. pose proof (F _ _ A) as Fst.
  destruct (all_pend_step (pend_queued l s) _ _ _ _ _ _ A S) as (u & v & P1 & P2).
  unfold cons_queued. rewrite P1, P2. clear P1 P2.
  assert (M : forall a a' c c' : nat, (d = eq -> a' + c = a + c') -> a' + c <= a + c' -> d a c -> d a' c').
  { intros a a' c c' K1 K2 Hac. destruct Hd as [E|E]; subst d; [lia|]. specialize (K1 eq_refl). lia. }
  assert (M1 : forall a a' c c' : nat, a' + c = a + c' -> d a c -> d a' c') by (intros a a' c c' K; apply M; lia).
  intros C x; specialize (C x); revert C.
  destruct S; logs; try subst st'.
  all: cntrw; rewrite ?log_frame_queued; try (apply M1; rewrite ?cnt_nil; lia).
  all: destruct (Nat.eqb_spec l l0) as [<-|N]; rewrite ?Nat.eqb_refl; try (rewrite (proj2 (Nat.eqb_neq l0 l)) by congruence);
    cbn [andb]; logs; rewrite ?cnt_nil; try (apply M1; cbn [Nat.eqb andb]; lia).
  - apply M; [intros E; destruct (Heq E); discriminate|ch].
  - destruct (dropped_silent l s l (q_of g l)) as (D1 & D2 & D3 & D4). rewrite D2, D4. unfold bounded_append.
    cbn [filter]. rewrite ?cnt_nil. destruct (N.ltb_spec (N.of_nat (length (q_of g l))) QUEUE_LIMIT) as [R|R]; cbn [fst].
    + rewrite filter_app, filter_one, cnt_app. apply M1; ch.
    + apply M; [intros E; destruct (Heq E) as [_ K]; specialize (K _ _ eq_refl); lia|]. destruct (q_of g l) as [|y q]; cbn [tl app].
      * rewrite filter_one. cbn [filter]. rewrite ?cnt_nil. lia.
      * rewrite filter_app, filter_one, cnt_app. change (y :: q) with ([y] ++ q). rewrite filter_app, cnt_app. lia.
  - destruct (dropped_silent l s l0 (q_of g l0)) as (D1 & D2 & D3 & D4). rewrite D2, D4. cbn [filter]. rewrite ?cnt_nil. apply M1; ch.
  - pose proof (Q l) as Ql. rewrite H0 in *. inversion Ql; subst. rewrite queue_hooks_wants by assumption.
    change (x0 :: q) with ([x0] ++ q). rewrite filter_app, filter_one, cnt_app. apply M1; ch.
  - inversion Fst as [|? ? K _]; subst; destruct K as [_ [a E]]. pose proof (once_tail _ _ _ _ _ E) as T. rewrite (Nat.eqb_sym s0 s). destruct (Nat.eqb_spec s s0) as [<-|]; cbn [orb].
    + rewrite T, cnt_nil. apply M1; ch.
    + rewrite cnt_nil. apply M1; ch.
Qed.
End R.
