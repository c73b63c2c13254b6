(** A logger whose callers decide as they go what to call next: what it does is what a
    logger does whose callers' programs are known from the start. *)
From Verif Require Import model.PyBase model.Core model.Concurrent model.ThreadPrograms spec.CoreSpec spec.ConcurrentSpec
  proof.CoreLib proof.CoreDispatch proof.ConcurrentProofs proof.ConcurrentCalls.
Open Scope nat_scope.

Lemma list_set_same {A} (l : list A) t a b : list_set (list_set l t a) t b = list_set l t b.
Proof. revert t; induction l as [|x l IH]; intros [|t]; cbn; congruence. Qed.
Lemma list_set_comm {A} (l : list A) t u a b : t <> u -> list_set (list_set l t a) u b = list_set (list_set l u b) t a.
Proof. revert t u; induction l as [|x l IH]; intros [|t] [|u] H; cbn; try congruence. rewrite IH by congruence. reflexivity. Qed.
Lemma map_set {A B} (f : A -> B) l t a : map f (list_set l t a) = list_set (map f l) t (f a).
Proof. revert t; induction l as [|x l IH]; intros [|t]; cbn; congruence. Qed.

Section L.
Variable lis : kind -> list nat.

(** One more call at the end of what thread [t] has to do. *)
Definition addc (t : nat) (c : call) (g : gstate) : gstate :=
  match nth_error (g_threads g) t with
  | Some th => mkG (g_async g) (g_queue g) (g_lock g) (list_set (g_threads g) t (mkThread (th_pc th) (th_todo th ++ [c]))) (g_trace g)
  | None => g
  end.
Lemma tstep_addc t c u b g g' : tstep lis u b g = Some g' -> tstep lis u b (addc t c g) = Some (addc t c g').
Proof.
  intros H. unfold addc at 1. destruct (nth_error (g_threads g) t) as [[p todo]|] eqn:E.
  - destruct (Nat.eq_dec u t) as [-> |N].
    + unfold tstep in *. cbn [g_threads]. rewrite (nth_set_eq _ _ _ _ E). rewrite E in H. cbn [th_pc th_todo] in *.
      assert (K : forall p' todo' new g1, g_threads g1 = g_threads g ->
        addc t c (at_ t p' todo' new g1) = mkG (g_async g1) (g_queue g1) (g_lock g1) (list_set (g_threads g) t (mkThread p' (todo' ++ [c]))) (g_trace g1 ++ new)).
      { intros p' todo' new g1 E1. unfold addc, at_. cbn [g_threads]. rewrite E1, (nth_set_eq _ _ _ _ E). cbn. rewrite list_set_same. reflexivity. }
      destruct p; cbn [g_async g_queue g_lock g_trace] in *;
        repeat match goal with
        | H : match ?x with _ => _ end = Some _ |- _ => destruct x eqn:?; try discriminate H
        end; cbn [app];
        repeat match goal with
        | H : ?x = _ |- context [match ?x with _ => _ end] => rewrite H
        end;
        inversion H; subst; rewrite K by reflexivity; unfold at_; cbn; rewrite ?list_set_same; congruence.
    + destruct (St_shape lis _ _ _ _ (tstep_St lis _ _ _ _ H)) as (th & th' & A & B & _).
      assert (E' : nth_error (g_threads g') t = Some (mkThread p todo)) by (rewrite B, nth_set_neq by auto; exact E).
      unfold addc. rewrite E'. unfold tstep in *. cbn [g_threads]. rewrite nth_set_neq by auto. rewrite A in H |- *. clear B E'.
      destruct th as [q td]. cbn [th_pc th_todo] in *. cbn [g_async g_queue g_lock g_trace].
      destruct q; cbn [g_async g_queue g_lock g_trace] in *;
        repeat match goal with
        | H : match ?x with _ => _ end = Some _ |- _ => destruct x eqn:?; try discriminate H
        end; inversion H; subst; unfold at_; cbn; rewrite (list_set_comm _ t u) by auto; congruence.
  - rewrite H. destruct (St_shape lis _ _ _ _ (tstep_St lis _ _ _ _ H)) as (th & th' & A & B & _).
    unfold addc. destruct (nth_error (g_threads g') t) eqn:E'; [|reflexivity]. exfalso. rewrite B in E'.
    apply nth_error_None in E. assert (t < length (list_set (g_threads g) u th')) by (apply nth_error_Some; congruence). rewrite list_set_len in *. lia.
Qed.

(** Schedules without idle turns. *)
Fixpoint busy_run (sc : sched) (g : gstate) : Prop :=
  match sc with
  | [] => True
  | (t, b) :: sc' => match tstep lis t b g with Some g' => busy_run sc' g' | None => False end
  end.
Lemma busy_run_app a b g : busy_run (a ++ b) g <-> busy_run a g /\ busy_run b (trun lis a g).
Proof.
  revert g. induction a as [|[t x] a IH]; intros g; [cbn; tauto|]. cbn [busy_run trun app]. destruct (tstep lis t x g); [apply IH|tauto].
Qed.
Lemma busy_run_addc t c sc g : busy_run sc g -> busy_run sc (addc t c g) /\ trun lis sc (addc t c g) = addc t c (trun lis sc g).
Proof.
  revert g. induction sc as [|[u b] sc IH]; intros g H; [split; [exact I|reflexivity]|]. cbn [busy_run trun] in *.
  destruct (tstep lis u b g) as [g'|] eqn:E; [|contradiction]. rewrite (tstep_addc t c u b g g' E). apply IH, H.
Qed.

(** The states of a logger used by [n] threads. *)
Inductive gruns (a : bool) (n : nat) : gstate -> Prop :=
| gr_start : gruns a n (start a (repeat [] n))
| gr_step t g g' : gruns a n g -> tstep lis t false g = Some g' -> gruns a n g'
| gr_hand t c g : gruns a n g -> nth_error (g_threads g) t = Some (mkThread Idle []) -> (forall b, c <> CSetAsync b) -> gruns a n (hand t c g).
Theorem gruns_run a n g : gruns a n g ->
  exists ps sc, g = trun lis sc (start a ps) /\ length ps = n /\ nobody_raises sc /\ no_switch ps.
Proof.
  intros H. enough (exists ps sc, g = trun lis sc (start a ps) /\ length ps = n /\ nobody_raises sc /\ no_switch ps /\ busy_run sc (start a ps))
    as (ps & sc & K) by (exists ps, sc; tauto).
  induction H as [|t g g' H (ps & sc & -> & L & N & W & B) E|t c g H (ps & sc & -> & L & N & W & B) E C].
  - exists (repeat [] n), []. repeat split; auto using repeat_length. { constructor. }
    intros p b HI K. apply repeat_spec in HI. subst p. destruct K.
  - exists ps, (sc ++ [(t, false)]). split; [rewrite trun_app; cbn; rewrite E; reflexivity|]. split; [exact L|].
    split; [apply Forall_app; repeat constructor; exact N|]. split; [exact W|]. apply busy_run_app. split; [exact B|]. cbn. rewrite E. exact I.
  - destruct (nth_error ps t) as [p|] eqn:EP.
    2:{ exfalso. assert (X : t < length (g_threads (trun lis sc (start a ps)))) by (apply nth_error_Some; congruence).
        rewrite trun_length in X. cbn in X. rewrite map_length in X. apply nth_error_None in EP. lia. }
    destruct (busy_run_addc t c sc _ B) as (B' & T').
    assert (ES : addc t c (start a ps) = start a (list_set ps t (p ++ [c]))).
    { unfold addc, start. cbn. rewrite nth_error_map, EP. cbn. rewrite map_set. reflexivity. }
    rewrite ES in *. exists (list_set ps t (p ++ [c])), sc. rewrite T'. split; [|split; [rewrite list_set_len; exact L|split; [exact N|split; [|exact B']]]].
    + unfold addc. rewrite E. reflexivity.
    + intros p' b HI K. apply In_nth_error in HI as (i & HI). destruct (Nat.eq_dec i t) as [-> |D].
      * rewrite (nth_set_eq _ _ _ _ EP) in HI. injection HI as <-. apply in_app_or in K as [K|[K|[]]]; [|exact (C b K)].
        apply (W p b); [eapply nth_error_In; eauto|exact K].
      * rewrite nth_set_neq in HI by auto. apply (W p' b); [eapply nth_error_In; eauto|exact K].
Qed.
End L.
