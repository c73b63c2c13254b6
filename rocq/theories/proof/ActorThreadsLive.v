(** disable_async returns: C98. *)
From Verif Require Import model.PyBase model.Core model.ActorThreads spec.ActorThreadsSpec proof.CoreLib proof.ActorThreadsProofs proof.ActorThreadsStop proof.ActorThreadsContext proof.ActorThreadsSwitch.
Open Scope nat_scope.

(** The steps of its own a thread in disable_async has to go *)
Definition mu (p : tpc) : nat :=
  match p with
  | TDisable1 _ => 15 | TDisable2 _ => 14 | TStop1 _ _ => 13 | TStop2 _ _ _ => 12 | TStop3 _ _ _ => 11 | TDisable3 _ => 10
  | TJoin1 _ _ _ => 9 | TJoin2 _ _ _ => 8 | TJoin3 _ _ _ _ => 7 | TJoin4 _ _ => 6 | TJoin5 _ _ _ => 5 | TJoin6 _ _ => 4 | TJoin7 _ _ _ => 3
  | TDisable4 => 2 | TDisable5 _ => 1 | _ => 0
  end.
(** The steps of its own the worker has to go *)
Definition work_left (n : nat) (s : cstate) : nat := match thr s n with Some w => steps_left (wpc s w) | None => 0 end.
Lemma told_keep n p s s' t : SP n s -> in_disable (pc s t) -> told_stop n s -> cstep p s = Some s' ->
  told_stop n s' /\ work_left n s' + (match p with PW v _ => if match thr s n with Some w => Nat.eqb v w | None => false end then 1 else 0 | _ => 0 end) <= work_left n s.
Proof.
  intros [P D] Dt Td HS. destruct (still_keeps n p s s' t P D (or_introl Dt) HS) as (Et & _ & Sm). pose proof (pW n s P) as W. pose proof (pI n s P) as I.
  destruct p as [u b|v b].
  - destruct Sm as [Sm|(w & b' & X)]; [|discriminate X].
    assert (Ws : forall w, thr s n = Some w -> wpc s' w = wpc s w) by (intros w Tw; exact (same_wpc n s s' w W Sm Tw)).
    assert (Fl : flag s' n = flag s n \/ flag s' n = true \/ thread_dead s n).
    { pose proof (e3 n s D u) as Ku. pose proof (c2 n s (pC n s P) u) as Ok. pose proof (c1 n s (pC n s P)) as C1. assert (Ne : ~ in_enable (pc s u)) by (intros X; exact (e2 n s D u t X Dt)).
      cbn [cstep] in HS. unfold cmove in HS. cbv zeta in HS. destruct (ct_pc (cs_threads s u)) eqn:Ep; case_step HS; cbn; try (left; reflexivity); unfold upd; (match goal with |- context[Nat.eqb n ?x] => destruct (Nat.eqb_spec n x) as [Ex|Nx] end; [|left; reflexivity]); cbn; subst; cbn in Ku, Ok, Ne.
      all: try (left; reflexivity).
      all: try (exfalso; tauto).
      all: try (destruct Ok as [[-> La]|(Hk & _)]; [lia|]; destruct k; cbn in Hk, Ne, Ku; try discriminate Hk; try tauto).
      - destruct alive; [right; left; reflexivity|right; right; apply Ku; reflexivity]. }
    split.
    + intros w Tw. rewrite Et in Tw. rewrite (Ws w Tw). destruct Fl as [->|[->|Dd]]; [exact (Td w Tw)|left; reflexivity|right; right; exact (Dd w Tw)].
    + unfold work_left. rewrite Et. destruct (thr s n) as [w|]; [rewrite (Ws w eq_refl); lia|lia].
  - cbn [cstep] in HS. unfold work_left. rewrite Et. destruct (thr s n) as [w|] eqn:Tw; [|split; [intros w0 T0; congruence|lia]]. destruct (Nat.eqb_spec v w) as [->|Nv].
    + destruct (wG s W _ _ Tw) as [Ea _]. unfold wmove in HS. cbv zeta in HS. rewrite Ea in HS. specialize (Td w Tw).
      destruct (wpc s w) eqn:Ew; try discriminate HS; injection HS as <-; (destruct Td as [Fl|[X|X]]; [|try discriminate X|try discriminate X]); cbn; rewrite ?upd_eq; cbn; rewrite ?Fl.
      all: (split; [intros w0 T0; cbn in *; rewrite ?upd_eq in *; cbn in *; rewrite ?upd_eq; cbn; try (assert (w0 = w) by congruence; subst w0; rewrite ?upd_eq; cbn)|destruct b; cbn; lia]).
      all: try tauto.
    + destruct (wclassify v b s s' HS) as (_ & q & _ & _ & _ & _ & _ & _ & Ews & _). rewrite Ews, upd_neq by congruence. split; [|lia].
      intros w0 T0. assert (w0 = w) by congruence. subst w0. rewrite Ews, upd_neq by congruence.
      assert (Fl : flag s' n = flag s n). { assert (Na : wof s v <> n \/ wpc s v = WDead). { destruct (Nat.eq_dec (wof s v) n) as [Ea|Na]; [|left; exact Na]. right. destruct (wpc s v) eqn:Ev; try reflexivity; exfalso; apply Nv; pose proof (iC n s I v Ea); rewrite Ev in *; assert (X : thr s n = Some v) by (apply H; discriminate); congruence. }
        unfold wmove in HS. cbv zeta in HS. case_step HS; cbn; try reflexivity. destruct Na as [Na|Na]; [rewrite upd_neq by congruence; reflexivity|congruence]. }
      rewrite Fl. exact (Td w Tw).
Qed.
(** Past its call of stop, a disabling thread knows that the worker is told to stop *)
Definition TI (n : nat) (s : cstate) : Prop := forall t, post (pc s t) -> told_stop n s.
Lemma enters_post n t b s s' : SP n s -> cmove t b s = Some s' -> ~ post (pc s t) -> post (pc s' t) -> told_stop n s'.
Proof.
  intros [P D] HS Np Pp. pose proof (e3 n s D t) as Kt. pose proof (c2 n s (pC n s P) t) as Ok. unfold cmove in HS. cbv zeta in HS. revert Np Pp.
  destruct (ct_pc (cs_threads s t)) eqn:Ep; case_step HS; cbn; rewrite ?upd_eq; cbn; intros Np Pp; try tauto; try (destruct k; cbn in *; tauto).
  destruct k; cbn in *; try tauto. destruct Ok as [[X _]|(_ & -> & _)]; [discriminate X|]. destruct Kt as (_ & _ & Kt). intros w Tw. cbn in Tw |- *. rewrite upd_eq in Tw |- *. cbn in Tw |- *. destruct alive; [left; reflexivity|right; right; exact (Kt eq_refl w Tw)].
Qed.
Lemma post_dec p : post p \/ ~ post p.
Proof. destruct p; cbn; try tauto; destruct k; tauto. Qed.
Lemma ti_step n p s s' : SP n s -> TI n s -> cstep p s = Some s' -> TI n s'.
Proof.
  intros S Ti HS t Pt. destruct (post_dec (pc s t)) as [P0|N0]; [exact (proj1 (told_keep n p s s' t S (post_dis _ P0) (Ti t P0) HS))|].
  destruct p as [u b|w b]; cbn [cstep] in HS.
  - destruct (Nat.eq_dec t u) as [->|Nt]; [exact (enters_post n u b s s' S HS N0 Pt)|]. rewrite (classify_other u b s s' HS t Nt) in Pt. destruct (N0 Pt).
  - destruct (wclassify w b s s' HS) as (_ & q & _ & Eth & _). rewrite Eth in Pt. destruct (N0 Pt).
Qed.
Record LP (n : nat) (s : cstate) : Prop := mkLP { lS : SP n s; lT : TI n s }.
Lemma lp_step n p s s' : LP n s -> cstep p s = Some s' -> switches_apart (cs_trace s') -> LP n s'.
Proof. intros [S Ti] HS Ap. constructor; [exact (sp_step n p s s' S HS Ap)|exact (ti_step n p s s' S Ti HS)]. Qed.
Lemma lp_run n progs sc : own_actors n progs -> patient progs -> switches_apart (cs_trace (crun sc (cstart n progs))) -> LP n (crun sc (cstart n progs)).
Proof. intros O Pt Ap. apply (crun_ind (LP n) switches_apart); [exact sw_pre| |constructor; [exact (sp_start n progs O Pt)|intros t []]|exact Ap]. intros p u u' Lu. apply lp_step; exact Lu. Qed.

Lemma own_move n t b s s' : SP n s -> in_disable (pc s t) -> cmove t b s = Some s' ->
  cs_trace s' = cs_trace s ++ [EDisableRet t true] \/ (in_disable (pc s' t) /\ mu (pc s' t) < mu (pc s t)).
Proof.
  intros [P D] Dt HS. pose proof (e3 n s D t) as Kt. pose proof (c2 n s (pC n s P) t) as Ok. unfold cmove in HS. cbv zeta in HS. revert Dt Kt Ok.
  destruct (ct_pc (cs_threads s t)) eqn:Ep; case_step HS; cbn; rewrite ?upd_eq; cbn; intros Dt Kt Ok; try tauto; try discriminate Dt.
  all: try (right; split; [first [exact Dt|exact Logic.I|reflexivity]|lia]; fail).
  all: try (subst k; cbn; try (right; split; [first [exact Logic.I|reflexivity]|lia]); fail).
  all: try (destruct k; cbn in *; try tauto; right; split; [first [exact Logic.I|reflexivity]|lia]; fail).
  left. destruct Kt as [-> _]. reflexivity.
Qed.
Lemma own_blocked n t b s : SP n s -> in_disable (pc s t) -> cmove t b s = None -> mu (pc s t) = 7 /\ ~ thread_dead s n.
Proof.
  intros [P D] Dt HS. pose proof (e3 n s D t) as Kt. pose proof (c2 n s (pC n s P) t) as Ok. unfold cmove in HS. cbv zeta in HS. revert Dt Kt Ok.
  destruct (ct_pc (cs_threads s t)) eqn:Ep; cbn; intros Dt Kt Ok; try tauto; try discriminate HS; try discriminate Dt.
  all: try (match type of HS with context[match ?x with Some _ => _ | None => _ end] => destruct x eqn:Ex; [discriminate HS|] end).
  all: try (match type of HS with context[if ?x then _ else _] => destruct x eqn:Ex; discriminate HS end; fail).
  all: subst k || idtac; cbn in *.
  all: try (exfalso; destruct Kt as [_ Kt]; congruence).
  all: try (exfalso; destruct Ok as [[X _]|(_ & -> & _)]; [discriminate X|destruct Kt as [_ Kt]; congruence]).
  all: try congruence.
  all: try (split; [reflexivity|]; intros Dd; destruct Kt as [_ Kt]; pose proof (Dd _ Kt) as X; rewrite X in HS; discriminate HS).
Qed.
Definition wpicks (n : nat) (s : cstate) (sc : list pick) : nat := match thr s n with Some w => picks w sc | None => 0 end.
Lemma past_told n s t : LP n s -> in_disable (pc s t) -> mu (pc s t) <= 7 -> told_stop n s.
Proof.
  intros [S Ti] Dt Lm. destruct (post_dec (pc s t)) as [Pp|Np]; [exact (Ti t Pp)|]. pose proof (e3 n s (sD n s S) t) as Kt.
  assert (Dd : thread_dead s n) by (destruct (pc s t); cbn in *; try lia; try tauto; subst k; cbn in *; tauto). intros w Tw. right. right. exact (Dd w Tw).
Qed.
Lemma live_run n t sc : forall s z, LP n s -> in_disable (pc s t) -> cs_trace (crun sc s) = cs_trace s ++ z -> switches_apart (cs_trace s ++ z) ->
  In (EDisableRet t true) z \/
  (LP n (crun sc s) /\ in_disable (pc (crun sc s) t) /\ thr (crun sc s) n = thr s n /\ mu (pc (crun sc s) t) <= mu (pc s t) /\
   (mu (pc (crun sc s) t) <= 7 \/ mu (pc (crun sc s) t) + turns t sc <= mu (pc s t)) /\
   (mu (pc s t) <= 7 -> work_left n (crun sc s) <= work_left n s - wpicks n s sc) /\
   (thread_dead s n -> thread_dead (crun sc s) n /\ mu (pc (crun sc s) t) + turns t sc <= mu (pc s t))).
Proof.
  induction sc as [|p sc IH]; intros s z L Dt Etr Ap.
  - right. cbn [crun]. unfold turns, wpicks, picks. cbn. split; [exact L|]. split; [exact Dt|]. split; [reflexivity|]. split; [lia|]. split; [right; lia|]. split; [destruct (thr s n); lia|]. intros Dd. split; [exact Dd|lia].
  - cbn [crun] in *. destruct (cstep p s) as [s1|] eqn:HS.
    + destruct (cstep_trace _ _ _ HS) as (n1 & E1 & _). destruct (crun_trace sc s1) as (n2 & E2).
      assert (z = n1 ++ n2) by (rewrite E2, E1, <- app_assoc in Etr; apply app_inv_head in Etr; symmetry; exact Etr). subst z.
      assert (Ap1 : switches_apart (cs_trace s1)) by (rewrite E1; rewrite app_assoc in Ap; exact (sw_pre _ _ Ap)). pose proof (lp_step n p s s1 L HS Ap1) as L1.
      assert (M1 : In (EDisableRet t true) n1 \/ (in_disable (pc s1 t) /\ mu (pc s1 t) + (match p with PT u _ => if Nat.eqb u t then 1 else 0 | _ => 0 end) <= mu (pc s t))).
      { destruct p as [u b|w b]; cbn [cstep] in HS.
        - destruct (Nat.eqb_spec u t) as [->|Nu].
          + destruct (own_move n t b s s1 (lS n s L) Dt HS) as [X|[X Y]]; [left; rewrite E1 in X; apply app_inv_head in X; subst n1; left; reflexivity|right; split; [exact X|lia]].
          + right. rewrite (classify_other u b s s1 HS t) by congruence. split; [exact Dt|lia].
        - right. destruct (wclassify w b s s1 HS) as (_ & q & _ & Eth & _). rewrite Eth. split; [exact Dt|lia]. }
      destruct M1 as [M1|[D1 M1]]; [left; apply in_or_app; left; exact M1|].
      destruct (still_keeps n p s s1 t (sP n s (lS n s L)) (sD n s (lS n s L)) (or_introl Dt) HS) as (Et & Dk & _).
      destruct (IH s1 n2 L1 D1 E2) as [R|(L2 & D2 & Et2 & M2 & B2 & C2 & F2)]; [rewrite E1, <- app_assoc; exact Ap|left; apply in_or_app; right; exact R|].
      right. split; [exact L2|]. split; [exact D2|]. split; [congruence|]. split; [lia|].
      assert (Tn : turns t (p :: sc) = (match p with PT u _ => if Nat.eqb u t then 1 else 0 | _ => 0 end) + turns t sc) by (unfold turns; cbn; destruct p as [u b|w b]; [destruct (Nat.eqb u t)|]; reflexivity).
      split; [|split].
      * rewrite Tn. lia.
      * intros L7. destruct (told_keep n p s s1 t (lS n s L) Dt (past_told n s t L Dt L7) HS) as [_ Lf]. assert (L71 : mu (pc s1 t) <= 7) by lia. specialize (C2 L71). unfold wpicks in *. rewrite Et in C2. destruct (thr s n) as [w|]; [|lia].
        unfold picks in *. cbn [filter]. destruct p as [u b|v b]; [lia|]. destruct (Nat.eqb v w); cbn [length]; lia.
      * intros Dd. destruct (F2 (Dk Dd)) as [F2a F2b]. split; [exact F2a|]. rewrite Tn. lia.
    + destruct (IH s z L Dt Etr Ap) as [R|(L2 & D2 & Et2 & M2 & B2 & C2 & F2)]; [left; exact R|]. right. split; [exact L2|]. split; [exact D2|]. split; [exact Et2|]. split; [exact M2|].
      destruct p as [u b|v b]; cbn [cstep] in HS.
      * destruct (Nat.eqb_spec u t) as [->|Nu].
        -- destruct (own_blocked n t b s (lS n s L) Dt HS) as [M7 Nd]. split; [left; lia|]. split; [exact C2|]. intros Dd. destruct (Nd Dd).
        -- apply Nat.eqb_neq in Nu. unfold turns, wpicks, picks in *. cbn [filter]. rewrite Nu. split; [exact B2|]. split; [exact C2|exact F2].
      * split; [exact B2|]. split; [|exact F2]. intros L7. specialize (C2 L7). unfold wpicks in *. destruct (thr s n) as [w|] eqn:Tw; [|exact C2]. unfold picks in *. cbn [filter]. destruct (Nat.eqb_spec v w) as [->|Nv]; [|exact C2]. cbn [length].
        assert (L0 : work_left n s = 0). { unfold work_left. rewrite Tw. unfold wmove in HS. cbv zeta in HS. destruct (wpc s w); try discriminate HS; reflexivity. } lia.
Qed.
Lemma mu_bound p : mu p <= 15.
Proof. destruct p; cbn; lia. Qed.
Lemma disable_returns n progs sc t sc1 sc2 sc3 z : own_actors n progs -> patient progs ->
  let s := crun sc (cstart n progs) in let s' := crun (sc1 ++ sc2 ++ sc3) s in
  switches_apart (cs_trace s') -> cs_trace s' = cs_trace s ++ z -> In t (disabling (cs_trace s)) ->
  8 <= turns t sc1 -> (forall a w, n <= a -> works s a w -> 5 <= picks w sc2) -> 8 <= turns t sc3 -> In (EDisableRet t true) z.
Proof.
  intros O Pt s s' Ap Etr It H1 H2 H3. unfold s' in *. rewrite crun_app, crun_app in Etr, Ap. set (s1 := crun sc1 s) in *. set (s2 := crun sc2 s1) in *.
  destruct (crun_trace sc1 s) as (z1 & E1). fold s1 in E1. destruct (crun_trace sc2 s1) as (z2 & E2). fold s2 in E2. destruct (crun_trace sc3 s2) as (z3 & E3).
  rewrite E3, E2, E1 in Ap. assert (z = z1 ++ z2 ++ z3) by (rewrite E3, E2, E1, <- !app_assoc in Etr; apply app_inv_head in Etr; symmetry; exact Etr). subst z.
  pose proof (sw_pre _ _ Ap) as Ap2. pose proof (sw_pre _ _ Ap2) as Ap1. pose proof (sw_pre _ _ Ap1) as Ap0.
  assert (L : LP n s) by (apply lp_run; assumption).
  assert (Dt : in_disable (pc s t)) by (apply (e1 n s (sD n s (lS n s L))); exact It).
  destruct (live_run n t sc1 s z1 L Dt E1 Ap1) as [R|(L1 & D1 & Et1 & M1 & B1 & _ & F1)]; [apply in_or_app; left; exact R|]. fold s1 in L1, D1, Et1, M1, B1, F1.
  assert (M7 : mu (pc s1 t) <= 7) by (pose proof (mu_bound (pc s t)); lia).
  rewrite <- E1 in Ap2. destruct (live_run n t sc2 s1 z2 L1 D1 E2 Ap2) as [R|(L2 & D2 & Et2 & M2 & _ & C2 & F2)]; [apply in_or_app; right; apply in_or_app; left; exact R|]. fold s2 in L2, D2, Et2, M2, C2, F2.
  specialize (C2 M7).
  assert (Wk : forall w, thr s n = Some w -> wpc s w <> WNew).
  { intros w Tw. apply (not_new n s w (pI n s (sP n s (lS n s L))) (pW n s (sP n s (lS n s L)))); [|exact Tw]. exact (still_quiet n s t (sP n s (lS n s L)) (sD n s (lS n s L)) (or_introl Dt)). }
  assert (Dd2 : thread_dead s2 n).
  { destruct (thr s n) as [w|] eqn:Tw; [|intros w Tw2; congruence].
    destruct (wG s (pW n s (sP n s (lS n s L))) _ _ Tw) as [Ea _].
    assert (Cs : wpc s w = WDead \/ wpc s w <> WDead) by (destruct (wpc s w); (left; reflexivity) + (right; discriminate)). destruct Cs as [Dw|Nw].
    - apply F2, F1. intros v Tv. assert (v = w) by congruence. subst v. exact Dw.
    - assert (Pk : 5 <= picks w sc2) by (apply (H2 n w (le_n n)); split; [exact Ea|split; [exact (Wk w eq_refl)|exact Nw]]).
      unfold wpicks in C2. rewrite Et1 in C2. assert (L5 : work_left n s1 <= 5) by (unfold work_left; rewrite Et1; destruct (wpc s1 w); cbn; lia). unfold work_left at 1 in C2. rewrite Et2, Et1 in C2.
      intros v Tv. assert (v = w) by congruence. subst v.
      pose proof (not_new n s2 w (pI n s2 (sP n s2 (lS n s2 L2))) (pW n s2 (sP n s2 (lS n s2 L2))) (still_quiet n s2 t (sP n s2 (lS n s2 L2)) (sD n s2 (lS n s2 L2)) (or_introl D2)) Tv) as Nn.
      destruct (wpc s2 w); cbn in C2; try lia; congruence. }
  rewrite <- E1, <- E2 in Ap. destruct (live_run n t sc3 s2 z3 L2 D2 E3 Ap) as [R|(_ & D3 & _ & _ & _ & _ & F3)]; [apply in_or_app; right; apply in_or_app; right; exact R|]. exfalso. destruct (F3 Dd2) as [_ X]. lia.
Qed.

(** disable_async flushes after the worker has ended *)
Definition flushed (n t : nat) (tr : list cevent) : Prop := exists x1 x2, tr = x1 ++ EFlush t :: x2 /\ task_calls (Nat.leb n) x2 = 0 /\ ~ In (EDisable t) x2.
Definition FI (n : nat) (s : cstate) : Prop := forall t ok, pc s t = TDisable5 ok -> flushed n t (cs_trace s).
Lemma disable_event p s s' t : cstep p s = Some s' -> cs_trace s' = cs_trace s ++ [EDisable t] -> pc s t = TIdle.
Proof.
  intros HS Etr. destruct p as [u b|w b]; cbn [cstep] in HS; [|destruct (no_task_event _ _ _ _ _ HS Etr) as (f & X); discriminate X].
  event_cases HS Etr; injection Etr as <-; exact Ep.
Qed.
Lemma to_disable5 t b s s' ok : cmove t b s = Some s' -> pc s' t = TDisable5 ok -> ok = false \/ cs_trace s' = cs_trace s ++ [EFlush t].
Proof.
  intros HS. unfold cmove in HS. cbv zeta in HS. destruct (ct_pc (cs_threads s t)) eqn:Ep; case_step HS; cbn; rewrite ?upd_eq; cbn; intros X; try discriminate X; try (destruct k; cbn in X; try discriminate X; injection X as <-; left; reflexivity).
  right. reflexivity.
Qed.
Lemma fi_step n p s s' : SP n s -> FI n s -> cstep p s = Some s' -> switches_apart (cs_trace s') -> FI n s'.
Proof.
  intros S F HS Ap t ok Ep. pose proof (sp_step n p s s' S HS Ap) as S'. destruct (cstep_trace _ _ _ HS) as (new & Etr & Ln).
  assert (Oth : pc s t = pc s' t -> flushed n t (cs_trace s')).
  { intros E. rewrite Ep in E. destruct (F t ok E) as (x1 & x2 & Ex & Tx & Nx). exists x1, (x2 ++ new). rewrite Etr, Ex, <- app_assoc. split; [reflexivity|].
    pose proof (e3 n s (sD n s S) t) as Kt. rewrite E in Kt. cbn in Kt. destruct Kt as [_ Dd]. split.
    - rewrite task_app, Tx, (tasks_of_context n p s s' new (pC n s (sP n s S)) HS Etr). destruct (task_step n p s s' new (pI n s (sP n s S)) HS Etr) as [->|(w & b & _ & T & Ew & _)]; [reflexivity|]. pose proof (Dd w T). congruence.
    - intros I. apply in_app_or in I. destruct I as [I|I]; [exact (Nx I)|]. destruct new as [|e [|]]; [destruct I| |cbn in Ln; lia]. destruct I as [->|[]]. pose proof (disable_event p s s' t HS Etr). congruence. }
  destruct p as [u b|w b]; cbn [cstep] in HS.
  - destruct (Nat.eq_dec t u) as [->|Nt]; [|apply Oth; rewrite (classify_other u b s s' HS t Nt); reflexivity].
    destruct (to_disable5 u b s s' ok HS Ep) as [->|E]; [|exists (cs_trace s), []; split; [exact E|split; [reflexivity|intros []]]].
    exfalso. pose proof (e3 n s' (sD n s' S') u) as Ku. rewrite Ep in Ku. destruct Ku as [X _]. discriminate X.
  - apply Oth. destruct (wclassify w b s s' HS) as (_ & q & _ & Eth & _). rewrite Eth. reflexivity.
Qed.
Lemma disable_flushes n progs sc x t ok y : own_actors n progs -> patient progs -> let s := crun sc (cstart n progs) in
  switches_apart (cs_trace s) -> cs_trace s = x ++ EDisableRet t ok :: y -> flushed n t x.
Proof.
  intros O Pt s Ap Etr. destruct (crun_event sc _ _ _ _ Etr (Nat.le_0_l _)) as (sc1 & p1 & sc2 & s1 & Esc & Ex & Es1 & Et1 & Er). set (s0 := crun sc1 (cstart n progs)) in *.
  assert (S0 : SP n s0 /\ FI n s0).
  { apply (crun_ind (fun u => SP n u /\ FI n u) switches_apart); [exact sw_pre| |split; [exact (sp_start n progs O Pt)|intros u o X; discriminate X]|fold s0; rewrite Ex; rewrite Etr in Ap; exact (sw_pre _ _ Ap)].
    intros p u u' [Su Fu] HS Au. split; [exact (sp_step n p u u' Su HS Au)|exact (fi_step n p u u' Su Fu HS Au)]. }
  destruct (ev_disable_ret p1 s0 s1 t ok Es1) as (Ep & _); [rewrite Et1, Ex; reflexivity|]. rewrite <- Ex. exact (proj2 S0 t ok Ep).
Qed.
