(** Whole runs, progress and termination: proofs for C95. *)
From Coq Require Import Permutation.
From Verif Require Import model.PyBase model.Core model.Concurrent model.Reentrant spec.CoreSpec spec.ReentrantSpec.
From Verif Require Import proof.CoreDispatch proof.ConcurrentProofs proof.HookThreadsProofs proof.ReentrantProofs proof.ReentrantCounts proof.ReentrantOrder.
Open Scope nat_scope.

Section R.
Variable H : hookset.
Notation q_of g l := (rl_queue (r_logs g l)).
Notation lk_of g l := (rl_lock (r_logs g l)).
Notation wants := (r_wants H).
Ltac logs := cbn [rat r_release r_set_lock r_set_queue r_set_async r_set r_logs r_trace r_threads rl_queue rl_async rl_lock] in *.
Notation pq l s := (flat_map (pend_queued l s)).

Lemma start_pend p a progs : (forall cs, p (FBody cs) = []) -> all_pend p (rstart a progs) = [].
Proof.
  intros E. unfold all_pend. apply flat_map_none. intros st I. cbn in I. apply in_map_iff in I. destruct I as (cs & <- & _). cbn [flat_map]. rewrite E. reflexivity.
Qed.
Lemma run_cons_all l s a progs sc : registered_once H -> no_raises sc -> room H l sc (rstart a progs) -> cons_all H l s eq (rrun H sc (rstart a progs)).
Proof.
  intros O N R. apply (rrun_inv_room H (fun g => frames_inv H g /\ cons_all H l s eq g) l sc _ false); [|exact (fun _ => N)|exact R|].
  - intros t b g g' st st' Hb A K S [F C]. split; [exact (RSt_frames H _ _ _ _ _ _ A S F)|].
    refine (RSt_cons_all H O _ _ _ _ _ _ _ _ _ (or_intror eq_refl) _ A S F C). intros _. split; [exact (Hb eq_refl)|exact K].
  - split; [exact (run_frames H a progs [])|]. intro x. rewrite start_pend by reflexivity. reflexivity.
Qed.
Lemma run_cons_queued l s a progs sc : registered_once H -> no_raises sc -> room H l sc (rstart a progs) -> cons_queued H l s eq (rrun H sc (rstart a progs)).
Proof.
  intros O N R. apply (rrun_inv_room H (fun g => frames_inv H g /\ cons_queued H l s eq g) l sc _ false); [|exact (fun _ => N)|exact R|].
  - intros t b g g' st st' Hb A K S [F C]. split; [exact (RSt_frames H _ _ _ _ _ _ A S F)|].
    refine (RSt_cons_queued H O _ _ _ _ _ _ _ _ _ (or_intror eq_refl) _ A S F C). intros _. split; [exact (Hb eq_refl)|exact K].
  - split; [exact (run_frames H a progs [])|]. intro x. rewrite start_pend by reflexivity. reflexivity.
Qed.
Lemma run_cons_le l s a progs sc : registered_once H -> cons_all H l s le (rrun H sc (rstart a progs)) /\ cons_queued H l s le (rrun H sc (rstart a progs)).
Proof.
  intros O. enough (frames_inv H (rrun H sc (rstart a progs)) /\ cons_all H l s le (rrun H sc (rstart a progs)) /\ cons_queued H l s le (rrun H sc (rstart a progs))) by tauto.
  apply (rrun_inv H (fun g => frames_inv H g /\ cons_all H l s le g /\ cons_queued H l s le g)).
  - intros t b g g' st st' A S (F & C1 & C2). split; [exact (RSt_frames H _ _ _ _ _ _ A S F)|].
    assert (Ne : @le = eq -> False) by (intro E; assert (L : 0 <= 1) by lia; rewrite E in L; discriminate). split.
    + refine (RSt_cons_all H O _ _ _ _ _ _ _ _ _ (or_introl eq_refl) _ A S F C1). intros E; destruct (Ne E).
    + refine (RSt_cons_queued H O _ _ _ _ _ _ _ _ _ (or_introl eq_refl) _ A S F C2). intros E; destruct (Ne E).
  - split; [exact (run_frames H a progs [])|]. split; intro x; rewrite start_pend by reflexivity; cbn; lia.
Qed.

(** Sinks for which order is kept. *)
Definition kept_stack (l s : nat) (st : rthread) : Prop := (hooks_do_not_flush H l /\ clean l s st) \/ (listed_first H l s /\ tops l s st).
Lemma RSt_kept l s t b g g' st st' : registered_once H -> Forall (frame_ok H) st -> RSt H t b g g' st st' -> kept_stack l s st -> kept_stack l s st'.
Proof.
  intros O F S [[D C]|[D C]]; [left|right]; (split; [exact D|]).
  - exact (RSt_clean H _ _ _ _ _ _ _ _ D S C).
  - exact (RSt_tops H O _ _ _ _ _ _ _ _ D F S C).
Qed.
Lemma kept_top l s st : kept_stack l s st -> top_clear l s st.
Proof. intros [[_ C]|[_ C]]; [exact (clean_top _ _ _ C)|exact (tops_top _ _ _ C)]. Qed.
Definition kept (l s : nat) : Prop := hooks_do_not_flush H l \/ listed_first H l s.
Definition ord_inv (l s : nat) (d : list item -> list item -> Prop) (g : rstate) : Prop :=
  frames_inv H g /\ linv l g /\ (forall t st, nth_error (r_threads g) t = Some st -> kept_stack l s st) /\ order_inv H l s d g.
Lemma start_ord l s d a progs : d = subseq \/ d = eq -> kept l s -> ord_inv l s d (rstart a progs).
Proof.
  intros Hd K. split; [exact (run_frames H a progs [])|]. split; [exact (run_lock H l a progs [])|]. split.
  - intros t st E. destruct (start_stack _ _ _ _ E) as (p & _ & ->). destruct K as [K|K]; [left|right]; (split; [exact K|]); cbn; auto.
  - unfold order_inv. rewrite start_pend by reflexivity. destruct Hd as [->| ->]; [constructor|reflexivity].
Qed.
Lemma run_order l s a progs sc : registered_once H -> kept l s -> order_inv H l s subseq (rrun H sc (rstart a progs)).
Proof.
  intros O K. apply (rrun_inv H (ord_inv l s subseq)); [|exact (start_ord _ _ _ _ _ (or_introl eq_refl) K)].
  intros t b g g' st st' A S (F & L & C & D). split; [exact (RSt_frames H _ _ _ _ _ _ A S F)|]. split; [exact (RSt_lock H _ _ _ _ _ _ _ A S L)|]. split.
  - exact (stack_inv H (kept_stack l s) _ _ _ _ _ _ A S (RSt_kept _ _ _ _ _ _ _ _ O (proj1 F _ _ A) S) C).
  - refine (RSt_order H O _ _ _ _ _ _ _ _ _ (or_introl eq_refl) _ A S F L (kept_top _ _ _ (C _ _ A)) D).
    intros E. exfalso. assert (L1 : @subseq item [] [(KBegin, mkEvent KBegin 0 0 0%Z EmptyString None None)]) by apply subseq_nil. rewrite E in L1. discriminate.
Qed.
Lemma run_order_eq l s a progs sc : registered_once H -> kept l s -> no_raises sc -> room H l sc (rstart a progs) -> order_inv H l s eq (rrun H sc (rstart a progs)).
Proof.
  intros O K N R. apply (rrun_inv_room H (ord_inv l s eq) l sc _ false); [|exact (fun _ => N)|exact R|exact (start_ord _ _ _ _ _ (or_intror eq_refl) K)].
  intros t b g g' st st' Hb A Hr S (F & L & C & D). split; [exact (RSt_frames H _ _ _ _ _ _ A S F)|]. split; [exact (RSt_lock H _ _ _ _ _ _ _ A S L)|]. split.
  - exact (stack_inv H (kept_stack l s) _ _ _ _ _ _ A S (RSt_kept _ _ _ _ _ _ _ _ O (proj1 F _ _ A) S) C).
  - refine (RSt_order H O _ _ _ _ _ _ _ _ _ (or_intror eq_refl) _ A S F L (kept_top _ _ _ (C _ _ A)) D). intros _. split; [exact (Hb eq_refl)|exact Hr].
Qed.

(** *** The state in which a flush returned *)
Lemma flush_moment l t0 sc : forall g0 before after, r_trace (rrun H sc g0) = before ++ RFlushed t0 l true :: after ->
  (exists a0, r_trace g0 = before ++ RFlushed t0 l true :: a0) \/
  exists sc1 b sc2, sc = sc1 ++ (t0, b) :: sc2 /\ r_trace (rrun H sc1 g0) = before /\
    (exists rest, nth_error (r_threads (rrun H sc1 g0)) t0 = Some (FCheck l :: rest)) /\ q_of (rrun H sc1 g0) l = [] /\ last_hold (lk_of (rrun H sc1 g0) l) = true.
Proof.
  induction sc as [|[t b] sc IH]; intros g0 before after E; [left; exists after; exact E|]. cbn [rrun] in E.
  destruct (rstep H t b g0) as [g1|] eqn:St.
  - destruct (IH _ _ _ E) as [[a0 E1]|(sc1 & b1 & sc2 & -> & K)].
    + destruct (rstep_RSt _ _ _ _ _ St) as (st & st' & A & S).
      assert (Old : forall new, r_trace g1 = r_trace g0 ++ new -> ~ In (RFlushed t0 l true) new -> exists a0, r_trace g0 = before ++ RFlushed t0 l true :: a0)
        by (intros new En Nn; rewrite En in E1; exact (split_old _ _ _ _ _ E1 Nn)).
      inversion S; subst; logs; try (left; apply (Old _ eq_refl); cbn [In]; intuition discriminate).
      * left. apply (Old _ eq_refl). intros I. apply in_app_or in I. destruct I as [I|[I|[]]]; [|discriminate]. unfold dropped_of in I. destruct (_ <? _)%N; [destruct I|]. destruct (rl_queue _); [destruct I|]. destruct I as [I|[]]; discriminate.
      * destruct (split_last _ _ _ _ _ E1) as [(_ & E2 & E3)|(a1 & _ & E2)]; [|left; exists a1; exact E2]. injection E3 as -> -> E3. right.
        exists [], b, sc. split; [reflexivity|]. split; [exact E2|]. split; [exists st'; exact A|]. split; [assumption|exact E3].
    + right. exists ((t, b) :: sc1), b1, sc2. cbn [app rrun]. rewrite St. split; [reflexivity|exact K].
  - destruct (IH _ _ _ E) as [K|(sc1 & b1 & sc2 & -> & K)]; [left; exact K|]. right. exists ((t, b) :: sc1), b1, sc2. cbn [app rrun]. rewrite St. split; [reflexivity|exact K].
Qed.
Lemma room_prefix l sc1 sc2 g : room H l (sc1 ++ sc2) g -> room H l sc1 g.
Proof. intros R sc3 t b sc4 x rest E A. apply (R sc3 t b (sc4 ++ sc2) x rest); [rewrite E, <- app_assoc; reflexivity|exact A]. Qed.
Lemma no_raises_prefix sc1 sc2 : no_raises (sc1 ++ sc2) -> no_raises sc1.
Proof. intros N. apply Forall_app in N. tauto. Qed.
(** Then nothing is under way for [l]. *)
Lemma flush_moment_idle l s g t rest : linv l g -> nth_error (r_threads g) t = Some (FCheck l :: rest) -> last_hold (lk_of g l) = true -> all_pend (pend_queued l s) g = [].
Proof.
  intros L A Lh. assert (E : holds l (FCheck l :: rest) = 1).
  { pose proof (proj2 L _ _ A) as E. rewrite holds_cons in E |- *. cbn [holding] in *. rewrite Nat.eqb_refl in *. unfold held_by in E. destruct (lk_of g l) as [[o [|[|n]]]|]; try discriminate Lh; repeat match goal with K : context [?o =? t] |- _ => destruct (o =? t) end; lia. }
  destruct (alone l s g t _ L A) as (l1 & l2 & E1 & _ & N1 & N2); [lia|]. unfold all_pend. rewrite E1, flat_map_app. cbn [flat_map]. unfold rthread in *. rewrite N1, N2.
  cbn [app pend_queued]. rewrite app_nil_r. apply holds_pq. rewrite holds_cons in E. cbn [holding] in E. rewrite Nat.eqb_refl in E. lia.
Qed.

(** *** Counting and permutations *)
Lemma cnt_perm a b : (forall x, cnt x a = cnt x b) -> Permutation a b.
Proof. apply (Permutation_count_occ item_dec). Qed.
Lemma cnt_sub a : forall b, (forall x, cnt x a <= cnt x b) -> exists r, Permutation (a ++ r) b.
Proof.
  induction a as [|y a IH]; intros b E; [exists b; reflexivity|].
  assert (I : In y b). { apply (count_occ_In item_dec). specialize (E y). unfold cnt in E. cbn [count_occ] in E. destruct (item_dec y y); [lia|congruence]. }
  destruct (in_split _ _ I) as (b1 & b2 & ->). destruct (IH (b1 ++ b2)) as [r P].
  - intros x. specialize (E x). rewrite !cnt_app in *. rewrite (cnt_cons x y a), (cnt_cons x y b2) in E. lia.
  - exists r. cbn [app]. rewrite P. apply Permutation_middle.
Qed.

(** *** No deadlock *)
Definition flog (f : frame) : option nat :=
  match f with FBody _ => None | FLogging l _ | FAppending l _ | FInline l _ _ | FSetting l _ | FAcquire l | FPre l _ | FCheck l | FPop l | FDispatch l _ _ => Some l end.
Definition uses (f : frame) (l : nat) : Prop := match f with FBody cs => exists c, In (l, c) cs | _ => flog f = Some l end.
Definition under (l : nat) (rest : rthread) : Prop := forall f' l', In f' rest -> flog f' = Some l' -> l' <= l.
Fixpoint up (st : rthread) : Prop := match st with [] => True | f :: rest => (forall l, uses f l -> under l rest) /\ up rest end.
Lemma under_body l cs rest : under l rest -> under l (FBody cs :: rest).
Proof. intros U f' l' [<-|I] E; [discriminate|]. exact (U _ _ I E). Qed.
Lemma under_more l f l0 rest : flog f = Some l0 -> l0 <= l -> under l0 rest -> under l (f :: rest).
Proof. intros F Le U f' l' [<-|I] E; [rewrite F in E; injection E as <-; exact Le|]. specialize (U _ _ I E). lia. Qed.
Lemma RSt_up t b g g' st st' : hooks_upwards H -> RSt H t b g g' st st' -> up st -> up st'.
Proof.
  intros [D1 D2] S U.
  destruct S; try subst st'; cbn [up] in *.
  all: try (destruct U as [_ U]; exact U).
  all: try (destruct U as [_ [_ U]]; exact U).
  all: try (destruct U as [U1 U2]; split; [|exact U2]; intros l' K; cbn [uses flog] in K; injection K as <-; apply U1; reflexivity).
  - destruct U as [U1 U2]. split; [|split; [|exact U2]].
    + intros l' K. apply under_body, U1. exists (CLog k e). left. assert (E : l' = l) by (unfold log_frame in K; cbn [fst] in K; destruct k; cbn in K; congruence). subst. reflexivity.
    + intros l' [c K]. apply U1. exists c. right. exact K.
  - destruct U as [U1 U2]. split; [|split; [|exact U2]].
    + intros l' K. apply under_body, U1. exists CFlush. left. cbn in K. congruence.
    + intros l' [c K]. apply U1. exists c. right. exact K.
  - destruct U as [U1 U2]. split; [|split; [|exact U2]].
    + intros l' K. apply under_body, U1. exists (CSetAsync b). left. cbn in K. congruence.
    + intros l' [c K]. apply U1. exists c. right. exact K.
  - destruct U as [U1 U2]. split; [|split; [|exact U2]].
    + intros l' [c K]. apply (under_more _ _ l); [reflexivity|exact (D1 _ _ _ _ _ _ _ K)|apply U1; reflexivity].
    + intros l' K. apply U1. exact K.
  - destruct U as [U1 U2]. split; [|split; [|exact U2]].
    + intros l' [c K]. apply (under_more _ _ l); [reflexivity|exact (D2 _ _ _ _ _ _ K)|apply U1; reflexivity].
    + intros l' K. apply U1. exact K.
  - destruct U as [U1 U2]. split; [|split; [|exact U2]].
    + intros l' [c K]. apply (under_more _ _ l); [reflexivity|exact (D1 _ _ _ _ _ _ _ K)|apply U1; reflexivity].
    + intros l' K. apply U1. exact K.
Qed.
Lemma run_up a progs sc : hooks_upwards H -> forall t st, nth_error (r_threads (rrun H sc (rstart a progs))) t = Some st -> up st.
Proof.
  intros U. apply (rrun_inv H (fun g => forall t st, nth_error (r_threads g) t = Some st -> up st)).
  - intros t b g g' st st' A S I. exact (stack_inv H up _ _ _ _ _ _ A S (RSt_up _ _ _ _ _ _ U S) I).
  - intros i s E. destruct (start_stack _ _ _ _ E) as (p & _ & ->). split; [|exact I]. intros l _ f' l' [].
Qed.
Definition owner_inv (g : rstate) : Prop := forall l o n, lk_of g l = Some (o, n) -> o < length (r_threads g).
Lemma run_owner a progs sc : owner_inv (rrun H sc (rstart a progs)).
Proof.
  apply (rrun_inv H owner_inv); [|intros l o n E; discriminate].
  intros t b g g' st st' A S O l o n E. rewrite (RSt_threads _ _ _ _ _ _ _ S), list_set_len.
  assert (Rel : forall l0, release (lk_of g l0) = Some (o, n) -> o < length (r_threads g)).
  { intros l0 R. destruct (lk_of g l0) as [[o' [|[|m]]]|] eqn:E0; try discriminate R. injection R as -> _. exact (O _ _ _ E0). }
  destruct S; logs; try exact (O _ _ _ E); destruct (Nat.eqb_spec l l0) as [<-|N]; logs; try exact (O _ _ _ E); try exact (Rel _ E).
  unfold acquire in H0. destruct (lk_of g l) as [[o' n']|] eqn:E0.
  - destruct (o' =? t); [|discriminate]. injection H0 as <-. injection E as <- _. exact (O _ _ _ E0).
  - injection H0 as <-. injection E as <- _. exact (nth_lt _ _ _ A).
Qed.
Lemma blocked g t st : nth_error (r_threads g) t = Some st -> grounded_stack st -> rstep H t false g = None ->
  r_finished st \/ exists l rest o n, st = FAcquire l :: rest /\ lk_of g l = Some (o, n) /\ o <> t.
Proof.
  intros A G E. unfold rstep in E. rewrite A in E. destruct st as [|f rest]; [destruct G|].
  destruct f as [cs|l x|l x|l x hs|l v|l|l hs|l|l|l x hs]; try discriminate.
  - destruct cs as [|[l [k e| |v]] cs]; try discriminate. destruct rest; [left; reflexivity|discriminate].
  - destruct (bounded_append _ _ _); discriminate.
  - destruct hs; discriminate.
  - right. unfold acquire in E. destruct (lk_of g l) as [[o n]|] eqn:L; [|discriminate]. destruct (Nat.eqb_spec o t); [discriminate|]. exists l, rest, o, n. auto.
  - destruct hs; discriminate.
  - destruct (q_of g l); discriminate.
  - destruct (q_of g l); discriminate.
  - destruct hs; discriminate.
Qed.
Definition wanted (st : rthread) : nat := match st with FAcquire l :: _ => l | _ => 0 end.
Lemma list_max_ge m x : In x m -> x <= list_max m.
Proof. induction m as [|y m IH]; [intros []|]. cbn [list_max fold_right]. intros [<-|I]; [lia|]. specialize (IH I). unfold list_max in IH. lia. Qed.
Lemma progress g : (forall l, linv l g) -> owner_inv g -> ground_inv g -> (forall t st, nth_error (r_threads g) t = Some st -> up st) ->
  forall t st, nth_error (r_threads g) t = Some st -> ~ r_finished st -> exists t' g', rstep H t' false g = Some g'.
Proof.
  intros L O G U. set (M := list_max (map wanted (r_threads g))).
  assert (B : forall t st, nth_error (r_threads g) t = Some st -> wanted st <= M) by (intros t st A; apply list_max_ge, in_map, (nth_error_In _ _ A)).
  assert (K : forall n t st l rest o m, nth_error (r_threads g) t = Some st -> st = FAcquire l :: rest -> lk_of g l = Some (o, m) -> o <> t -> M - l < n -> exists t' g', rstep H t' false g = Some g').
  { induction n as [|n IH]; intros t st l rest o m A E Lk N Lt; [lia|].
    pose proof (O _ _ _ Lk) as Io. destruct (nth_error (r_threads g) o) as [so|] eqn:Ao; [|apply nth_error_None in Ao; lia].
    destruct (rstep H o false g) as [g'|] eqn:St; [exists o, g'; exact St|].
    assert (Hd : holds l so > 0). { rewrite (proj2 (L l) _ _ Ao), Lk. cbn [held_by]. rewrite Nat.eqb_refl. pose proof (proj1 (L l)) as P. rewrite Lk in P. exact P. }
    destruct (blocked _ _ _ Ao (G _ _ Ao) St) as [F|(l' & rest' & o' & m' & E' & Lk' & N')]; [rewrite F in Hd; cbn in Hd; lia|].
    apply in_flush_holds in Hd. destruct Hd as (f & If & Kf). rewrite E' in If. destruct If as [<-|If]; [destruct Kf|].
    assert (Le : l <= l'). { pose proof (U _ _ Ao) as Uo. rewrite E' in Uo. destruct Uo as [Uo _]. apply (Uo l' eq_refl f); [exact If|]. destruct f; cbn; try tauto; congruence. }
    assert (Ne : l <> l') by (intros ->; congruence).
    pose proof (B _ _ Ao) as Bo. rewrite E' in Bo. cbn [wanted] in Bo.
    apply (IH o so l' rest' o' m' Ao E' Lk' N'). lia. }
  intros t st A N. destruct (rstep H t false g) as [g'|] eqn:St; [exists t, g'; exact St|].
  destruct (blocked _ _ _ A (G _ _ A) St) as [F|(l & rest & o & m & E & Lk & No)]; [destruct (N F)|].
  exact (K (S (M - l)) t st l rest o m A E Lk No (Nat.lt_succ_diag_r _)).
Qed.
End R.
