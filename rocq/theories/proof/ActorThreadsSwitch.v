(** enable_async and disable_async called by several threads, not at the same time: C98. *)
From Verif Require Import model.PyBase model.Core model.ActorThreads spec.ActorThreadsSpec proof.CoreLib proof.ActorThreadsProofs proof.ActorThreadsStop proof.ActorThreadsContext.
Open Scope nat_scope.

(** What a thread in enable_async or disable_async knows *)
Definition Kd (n : nat) (s : cstate) (p : tpc) : Prop :=
  match p with
  | TDisable1 b => b = false
  | TDisable2 b | TDisable3 b | TStop1 _ (KStopped b) | TJoin1 _ b KJoined | TJoin2 _ b KJoined => b = false /\ thr s n <> None
  | TStop2 _ w (KStopped b) | TJoin3 _ w b KJoined => b = false /\ thr s n = Some w
  | TStop3 _ al (KStopped b) => b = false /\ thr s n <> None /\ (al = false -> thread_dead s n)
  | TJoin4 _ KJoined | TJoin6 _ KJoined | TDisable4 => thread_dead s n
  | TJoin5 _ w KJoined => thr s n = Some w /\ thread_dead s n
  | TJoin7 _ r KJoined => r = false /\ thread_dead s n
  | TDisable5 ok => ok = true /\ thread_dead s n
  | TEnable4 ok => ok = true /\ thr s n <> None
  | _ => True
  end.
(** In disable_async, after stop and before the flag is cleared *)
Definition post (p : tpc) : Prop :=
  match p with TDisable3 _ | TJoin1 _ _ KJoined | TJoin2 _ _ KJoined | TJoin3 _ _ _ KJoined | TJoin4 _ KJoined | TJoin5 _ _ KJoined | TJoin6 _ KJoined => True | _ => False end.
Definition waiting (p : tpc) : Prop :=
  match p with TDisable3 _ | TJoin1 _ _ KJoined | TJoin2 _ _ KJoined | TJoin3 _ _ _ KJoined => True | _ => False end.
Definition alive3 (n : nat) (s : cstate) : Prop := exists w, thr s n = Some w /\ (wpc s w = WTest \/ wpc s w = WTask \/ wpc s w = WWait).
Definition waits_op (o : cop) : Prop := match o with OpDisable b => b = false | _ => True end.
Record DI (n : nat) (s : cstate) : Prop := mkDI {
  e1 : forall t, In t (disabling (cs_trace s)) <-> in_disable (pc s t);
  e2 : forall t u, in_enable (pc s t) -> in_disable (pc s u) -> False;
  e3 : forall t, Kd n s (pc s t);
  e5 : cs_ctx s = Some n -> thr s n = None -> exists t, in_enable (pc s t);
  e6 : flag s n = true -> exists t, post (pc s t);
  e8 : no_fatal (cs_trace s) -> forall t ok, pc s t = TEnable4 ok -> alive3 n s;
  e9 : no_fatal (cs_trace s) -> forall w, wof s w = n -> wpc s w = WFinally \/ wpc s w = WExit -> exists t, waiting (pc s t);
  e10 : forall t, Forall waits_op (ct_todo (cs_threads s t)) }.

Lemma post_dis p : post p -> in_disable p.
Proof. destruct p; cbn; try tauto; destruct k; tauto. Qed.
Lemma waiting_post p : waiting p -> post p.
Proof. destruct p; cbn; try tauto; destruct k; tauto. Qed.
Lemma Kd_move n s s' p : thr s' n = thr s n -> (thread_dead s n -> thread_dead s' n) -> Kd n s p -> Kd n s' p.
Proof. intros E D. destruct p; cbn; rewrite ?E; try tauto; destruct k; tauto. Qed.
Lemma no_fatal_pre x y : no_fatal (x ++ y) -> no_fatal x.
Proof. intros H a w I. apply (H a w), in_or_app. left. exact I. Qed.

(** Who is in disable_async or about to return from enable_async keeps others from starting the actor *)
Definition still (p : tpc) : Prop := in_disable p \/ exists ok, p = TEnable4 ok.
Lemma still_quiet n s u : CP n s -> DI n s -> still (pc s u) -> quiet n s.
Proof.
  intros P D St t It. pose proof (in_start_enable n _ _ (c2 n s (pC n s P) t) It) as Et. destruct St as [Du|(ok & Eu)].
  - exact (e2 n s D t u Et Du).
  - assert (t = u) by (apply (c4 n s (pC n s P)); [exact Et|rewrite Eu; exact Logic.I]). subst t. rewrite Eu in It. destruct It.
Qed.
Lemma still_starts n p s s' u new : CP n s -> DI n s -> still (pc s u) -> cstep p s = Some s' -> cs_trace s' = cs_trace s ++ new -> no_start_of n new.
Proof.
  intros P D St HS Etr t It. destruct (cstep_trace _ _ _ HS) as (new' & Etr' & Ln). rewrite Etr in Etr'. apply app_inv_head in Etr'. subst new'.
  destruct new as [|e [|]]; [destruct It| |cbn in Ln; lia]. destruct It as [->|[]]. pose proof (start_event n p s s' t (pC n s P) HS Etr) as Ep. destruct St as [Du|(ok & Eu)].
  - apply (e2 n s D t u); [rewrite Ep; exact Logic.I|exact Du].
  - assert (t = u) by (apply (c4 n s (pC n s P)); [rewrite Ep|rewrite Eu]; exact Logic.I). subst t. congruence.
Qed.
Lemma cp_good n s : CP n s -> Good n 0 s.
Proof. intros P. constructor; [exact (pW n s P)|exact (pI n s P)|lia]. Qed.
Lemma cp_na n s : CP n s -> cs_na s = n -> thr s n = None.
Proof. intros P E. destruct (c1 n s (pC n s P)) as [(_ & _ & T)|[_ X]]; [exact T|lia]. Qed.
Lemma still_keeps n p s s' u : CP n s -> DI n s -> still (pc s u) -> cstep p s = Some s' ->
  thr s' n = thr s n /\ (thread_dead s n -> thread_dead s' n) /\ (same n s s' \/ exists w b, p = PW w b).
Proof.
  intros P D St HS. destruct (cstep_trace _ _ _ HS) as (new & Etr & _). pose proof (still_quiet n s u P D St) as Q. pose proof (still_starts n p s s' u new P D St HS Etr) as Ns.
  pose proof (or_intror (n < 0) (cp_na n s P)) as La.
  split; [exact (thr_step n 0 p s s' new La (cp_good n s P) Q HS Etr Ns)|]. split; [exact (dead_step n 0 p s s' new La (cp_good n s P) Q HS Etr Ns)|exact (proj2 (quiet_step n 0 p s s' new La (cp_good n s P) Q HS Etr Ns))].
Qed.
Lemma Kd_trivial n s p : ~ still p -> Kd n s p.
Proof. intros N. destruct p; cbn; try exact Logic.I; try (exfalso; apply N; left; cbn; tauto); try (destruct k; cbn; try exact Logic.I; exfalso; apply N; left; cbn; tauto). exfalso. apply N. right. eexists. reflexivity. Qed.
Lemma still_dec p : still p \/ ~ still p.
Proof. destruct (disable_dec p) as [H|H]; [left; left; exact H|]. destruct p; try (right; intros [X|(ok2 & X)]; [exact (H X)|discriminate X]). left. right. eexists. reflexivity. Qed.

(** *** One step of a controlling thread *)
Lemma di_thread n t b s s' : CP n s -> DI n s -> cmove t b s = Some s' ->
  Kd n s' (pc s' t) /\
  (in_enable (pc s' t) \/ (thr s' n = thr s n /\ cs_ctx s' = cs_ctx s /\ (in_enable (pc s t) -> thr s n <> None))) /\
  (flag s' n = false \/ post (pc s' t) \/ (flag s' n = flag s n /\ ~ post (pc s t))) /\
  (forall w, wof s' w = n -> wpc s' w = WFinally \/ wpc s' w = WExit -> cs_workers s' w = cs_workers s w) /\
  (forall w, wof s w = n -> wpc s w = WFinally \/ wpc s w = WExit -> waiting (pc s t) -> waiting (pc s' t)) /\
  (forall ok, pc s' t = TEnable4 ok -> no_fatal (cs_trace s) -> alive3 n s') /\
  Forall waits_op (ct_todo (cs_threads s' t)).
Proof.
  intros P D HS. pose proof (c2 n s (pC n s P) t) as Okt. pose proof (e10 n s D t) as Td. pose proof (e3 n s D t) as Kt. pose proof (c1 n s (pC n s P)) as C1.
  pose proof (pI n s P) as I. pose proof (pW n s P) as W.
  assert (Qt : still (pc s t) -> quiet n s) by (exact (still_quiet n s t P D)).
  assert (Up : in_disable (pc s t) -> cs_ctx s = Some n -> thr s n <> None).
  { intros Dt Ec Et. destruct (e5 n s D Ec Et) as (u & Eu). exact (e2 n s D u t Eu Dt). }
  assert (Wn : forall w, wof s w = n -> wpc s w = WFinally \/ wpc s w = WExit -> thr s n = Some w) by (intros w Ew [X|X]; apply (iC n s I); congruence).
  unfold cmove in HS. cbv zeta in HS. destruct (ct_pc (cs_threads s t)) eqn:Ep; case_step HS; cbn; rewrite ?upd_eq; cbn.
  all: cbn [pc_ok Kd] in Okt, Kt.
  all: try (match type of Td with Forall _ (_ :: _) => pose proof (Forall_inv Td) as Op; pose proof (Forall_inv_tail Td) as Tl; cbn in Op end).
  all: try (destruct Okt as [[-> La]|(Hk & -> & Ec)]; [cbn; rewrite ?upd_neq by lia|]).
  all: try (destruct k; cbn in Hk; try discriminate Hk; try (destruct Hk; fail); clear Hk).
  all: rewrite ?upd_eq; cbn in Kt |- *.
  all: try (split; [first [exact Logic.I|exact Op|exact Kt]|]; split; [first [left; first [exact Logic.I|reflexivity]|right; split; [reflexivity|split; [reflexivity|cbn; first [tauto|discriminate]]]]|]; split; [first [right; right; split; [reflexivity|tauto]|right; left; exact Logic.I]|]; split; [reflexivity|]; split; [tauto|]; split; [discriminate|]; assumption).
  all: try (exfalso; destruct (iE _ _ I t) as (w0 & T0 & N0); [rewrite Ep; reflexivity|]; congruence).
  all: try (split; [exact Logic.I|]; split; [left; reflexivity|]; split; [left; reflexivity|]; split; [reflexivity|]; split; [tauto|]; split; [discriminate|]; assumption).
  - (* TStart2: the worker is alive *)
    pose proof (iD1 n s I t w KEnable Ep) as Tw. split; [split; [reflexivity|congruence]|]. split; [left; exact Logic.I|]. split; [right; right; split; [reflexivity|tauto]|]. split; [reflexivity|]. split; [tauto|]. split; [|exact Td].
    intros ok _ Nf. exists w. split; [exact Tw|]. change (wpc s w = WTest \/ wpc s w = WTask \/ wpc s w = WWait). destruct (wpc s w) eqn:Ew; try discriminate E; try tauto; exfalso.
    + destruct (e9 n s D Nf w (proj1 (wG s W _ _ Tw)) (or_introl Ew)) as (u & Wu). apply (e2 n s D t u); [rewrite Ep; reflexivity|exact (post_dis _ (waiting_post _ Wu))].
    + destruct (e9 n s D Nf w (proj1 (wG s W _ _ Tw)) (or_intror Ew)) as (u & Wu). apply (e2 n s D t u); [rewrite Ep; reflexivity|exact (post_dis _ (waiting_post _ Wu))].
  - (* TStart4: the flag is set *)
    exfalso. destruct (e6 n s D E) as (u & Pu). apply (e2 n s D t u); [rewrite Ep; reflexivity|exact (post_dis _ Pu)].
  - (* TStart7 *)
    split; [exact Logic.I|]. split; [right; split; [reflexivity|split; [reflexivity|first [tauto|discriminate]]]|]. split; [right; right; split; [reflexivity|tauto]|]. split; [|split; [tauto|split; [discriminate|exact Td]]].
    intros w. unfold upd. destruct (Nat.eqb w (cs_nw s)); cbn; [lia|reflexivity].
  - split; [exact Logic.I|]. split; [left; reflexivity|]. split; [right; right; split; [reflexivity|tauto]|]. split; [|split; [tauto|split; [discriminate|exact Td]]].
    intros w. unfold upd. destruct (Nat.eqb w (cs_nw s)); cbn; [intros _ [X|X]; discriminate X|reflexivity].
  - (* TStart9 *)
    split; [exact Logic.I|]. split; [right; split; [reflexivity|split; [reflexivity|first [tauto|discriminate]]]|]. split; [right; right; split; [reflexivity|tauto]|]. split; [|split; [tauto|split; [discriminate|exact Td]]].
    intros w. unfold upd. destruct (Nat.eqb w n0); cbn; [intros _ [X|X]; discriminate X|reflexivity].
  - split; [split; [reflexivity|congruence]|]. split; [left; exact Logic.I|]. split; [right; right; split; [reflexivity|tauto]|]. split; [|split; [tauto|split; [|exact Td]]].
    + intros w. unfold upd. destruct (Nat.eqb w n0); cbn; [intros _ [X|X]; discriminate X|reflexivity].
    + intros ok _ _. exists n0. split; [exact E|]. cbn. rewrite upd_eq. left. reflexivity.
  - (* TStop1 *)
    split; [split; [exact (proj1 Kt)|exact E]|]. split; [right; split; [reflexivity|split; [reflexivity|tauto]]|]. split; [right; right; split; [reflexivity|tauto]|]. split; [reflexivity|]. split; [tauto|]. split; [discriminate|exact Td].
  - exfalso. destruct Kt as [_ Kt]. exact (Kt E).
  - (* TStop2 *)
    destruct Kt as [Kb Kt]. assert (Q : quiet n s) by (apply Qt; left; exact Logic.I). split; [split; [exact Kb|split; [congruence|]]|].
    { intros Al. exact (not_alive_dead n s w I W Q Kt Al). }
    split; [right; split; [reflexivity|split; [reflexivity|tauto]]|]. split; [right; right; split; [reflexivity|tauto]|]. split; [reflexivity|]. split; [tauto|]. split; [discriminate|exact Td].
  - (* TStop3 *)
    destruct Kt as (Kb & Kt & _). rewrite upd_eq. cbn. split; [split; [exact Kb|exact Kt]|]. split; [right; split; [reflexivity|split; [reflexivity|tauto]]|]. split; [right; left; exact Logic.I|]. split; [reflexivity|]. split; [tauto|]. split; [discriminate|exact Td].
  - (* TJoin1 *)
    exfalso. destruct Kt as [_ Kt]. exact (Kt E).
  - (* TJoin2 *)
    split; [split; [exact (proj1 Kt)|exact E]|]. split; [right; split; [reflexivity|split; [reflexivity|tauto]]|]. split; [right; left; exact Logic.I|]. split; [reflexivity|]. split; [tauto|]. split; [discriminate|exact Td].
  - (* TJoin3 *)
    exfalso. destruct Kt as [_ Kt]. apply (not_new n s w I W); [apply Qt; left; reflexivity|exact Kt|exact E].
  - exfalso. destruct Kt as [-> _]. discriminate.
  - exfalso. destruct Kt as [-> _]. discriminate.
  - exfalso. destruct Kt as [-> _]. discriminate.
  - exfalso. destruct Kt as [-> _]. discriminate.
  - exfalso. destruct Kt as [-> _]. discriminate.
  - destruct Kt as [_ Kt]. assert (Dd : thread_dead s n) by (intros v Tv; assert (v = w) by congruence; subst v; exact E).
    split; [exact Dd|]. split; [right; split; [reflexivity|split; [reflexivity|first [tauto|discriminate]]]|]. split; [right; left; exact Logic.I|]. split; [reflexivity|]. split; [|split; [discriminate|exact Td]].
    intros v Ev Fv _. pose proof (Dd v (Wn v Ev Fv)) as X. destruct Fv; congruence.
  - (* TJoin4 *)
    split; [split; [exact E|exact Kt]|]. split; [right; split; [reflexivity|split; [reflexivity|first [tauto|discriminate]]]|]. split; [right; left; exact Logic.I|]. split; [reflexivity|]. split; [tauto|]. split; [discriminate|exact Td].
  - (* TJoin5 *)
    exfalso. destruct Kt as [Tw Kt]. rewrite (Kt w Tw) in E. discriminate E.
  - split; [exact (proj2 Kt)|]. split; [right; split; [reflexivity|split; [reflexivity|first [tauto|discriminate]]]|]. split; [right; left; exact Logic.I|]. split; [reflexivity|]. split; [tauto|]. split; [discriminate|exact Td].
  - (* TJoin6 *)
    split; [split; [reflexivity|]|].
    { intros v. cbn. rewrite upd_eq. cbn. exact (Kt v). }
    split; [right; split; [reflexivity|split; [reflexivity|first [tauto|discriminate]]]|]. split; [left; reflexivity|]. split; [reflexivity|]. split; [tauto|]. split; [discriminate|exact Td].
  - (* TJoin7 *)
    split; [exact (proj2 Kt)|]. split; [right; split; [reflexivity|split; [reflexivity|first [tauto|discriminate]]]|]. split; [right; right; split; [reflexivity|tauto]|]. split; [reflexivity|]. split; [tauto|]. split; [discriminate|exact Td].
  - (* TEnable2 *)
    destruct C1 as [(_ & Y & _)|[X _]]; [|congruence]. rewrite Y, upd_eq. cbn. split; [exact Logic.I|]. split; [left; exact Logic.I|]. split; [left; reflexivity|]. split; [reflexivity|]. split; [tauto|]. split; [discriminate|exact Td].
  - (* TDisable1 *)
    split; [split; [exact Kt|apply Up; [exact Logic.I|destruct C1 as [(X & _)|[X _]]; congruence]]|]. split; [right; split; [reflexivity|split; [first [reflexivity|assumption|congruence]|tauto]]|]. split; [right; right; split; [reflexivity|tauto]|]. split; [reflexivity|]. split; [tauto|]. split; [discriminate|exact Td].
  - destruct C1 as [(_ & _ & T)|[X _]]; [|congruence]. split; [intros w Tw; change (thr s n = Some w) in Tw; congruence|]. split; [right; split; [reflexivity|split; [first [reflexivity|assumption|congruence]|tauto]]|]. split; [right; right; split; [reflexivity|tauto]|]. split; [reflexivity|]. split; [tauto|]. split; [discriminate|exact Td].
  - split; [exact Kt|]. split; [right; split; [reflexivity|split; [first [reflexivity|assumption|congruence]|tauto]]|]. split; [right; right; split; [reflexivity|tauto]|]. split; [reflexivity|]. split; [tauto|]. split; [discriminate|exact Td].
  - split; [exact Kt|]. split; [right; split; [reflexivity|split; [first [reflexivity|assumption|congruence]|tauto]]|]. split; [right; left; exact Logic.I|]. split; [reflexivity|]. split; [tauto|]. split; [discriminate|exact Td].
  - split; [split; [reflexivity|exact Kt]|]. split; [right; split; [reflexivity|split; [reflexivity|tauto]]|]. split; [right; right; split; [reflexivity|tauto]|]. split; [reflexivity|]. split; [tauto|]. split; [discriminate|exact Td].
Qed.
Lemma alive3_step n p s s' : CP n s -> DI n s -> cstep p s = Some s' -> (forall u, ~ in_disable (pc s u)) -> thr s' n = thr s n -> (same n s s' \/ exists w b, p = PW w b) ->
  no_fatal (cs_trace s') -> alive3 n s -> alive3 n s'.
Proof.
  intros P D HS Nd Et Sm Nf (w & Tw & Ew). exists w. split; [congruence|]. destruct Sm as [Sm|(v & b & ->)]; [rewrite (same_wpc n s s' w (pW n s P) Sm Tw); exact Ew|].
  cbn [cstep] in HS. destruct (Nat.eq_dec v w) as [->|Nv].
  - destruct (wG s (pW n s P) _ _ Tw) as [Ea _]. unfold wmove in HS. cbv zeta in HS. rewrite Ea in HS. destruct Ew as [Ew|[Ew|Ew]]; rewrite Ew in HS; injection HS as <-; cbn; rewrite ?upd_eq; cbn.
    + destruct (flag s n) eqn:Ef; [|tauto]. destruct (e6 n s D Ef) as (u & Pu). destruct (Nd u (post_dis _ Pu)).
    + destruct b; [|tauto]. exfalso. apply (Nf n w). cbn. apply in_or_app. right. left. reflexivity.
    + tauto.
  - destruct (wclassify v b s s' HS) as (_ & q & _ & _ & _ & _ & _ & _ & Ews & _). rewrite Ews, upd_neq by congruence. exact Ew.
Qed.
Lemma sw_en tr : switches_apart tr -> enables_apart tr.
Proof. intros [H _] x t y E. exact (proj1 (H x t y E)). Qed.
Lemma sw_pre x y : switches_apart (x ++ y) -> switches_apart x.
Proof.
  intros [H1 H2]. split.
  - exact (apart_prefix (P := fun x => enabling x = [] /\ disabling x = []) EEnable x y H1).
  - exact (apart_prefix (P := fun x => enabling x = []) EDisable x y H2).
Qed.

Lemma di_step n p s s' : CP n s -> DI n s -> cstep p s = Some s' -> switches_apart (cs_trace s') -> DI n s'.
Proof.
  intros P D HS Ap. pose proof (pC n s P) as C.
  assert (E2 : forall t u, in_enable (pc s' t) -> in_disable (pc s' u) -> False).
  { intros t u Ht Hu. destruct (enable_dec (pc s t)) as [Dt|Dt]; destruct (disable_dec (pc s u)) as [Du|Du]; [exact (e2 n s D t u Dt Du)| | |].
    - pose proof (enters_dis p s s' u HS Du Hu) as E. pose proof (proj2 Ap _ _ _ E) as X. apply (c3 n s C) in Dt. rewrite X in Dt. destruct Dt.
    - pose proof (enters p s s' t HS Dt Ht) as E. destruct (proj1 Ap _ _ _ E) as [_ X]. apply (e1 n s D) in Du. rewrite X in Du. destruct Du.
    - pose proof (enters_dis p s s' u HS Du Hu) as E. pose proof (enters p s s' t HS Dt Ht) as E2. rewrite E in E2. apply app_inv_head in E2. discriminate E2. }
  destruct (cstep_trace _ _ _ HS) as (new & Etr & _).
  assert (Nfp : no_fatal (cs_trace s') -> no_fatal (cs_trace s)) by (rewrite Etr; apply no_fatal_pre).
  assert (E8 : forall t, (forall b, p <> PT t b) -> forall ok, pc s t = TEnable4 ok -> no_fatal (cs_trace s') -> alive3 n s').
  { intros t Np ok Ept Nf. assert (St : still (pc s t)) by (right; exists ok; exact Ept). destruct (still_keeps n p s s' t P D St HS) as (Et & _ & Sm).
    apply (alive3_step n p s s' P D HS); [|exact Et|exact Sm|exact Nf|exact (e8 n s D (Nfp Nf) t ok Ept)]. intros u Du. apply (e2 n s D t u); [rewrite Ept; exact Logic.I|exact Du]. }
  pose proof (dis_step p s s' (e1 n s D) HS) as E1'.
  destruct p as [t b|w b].
  - pose proof (classify_other t b s s' HS) as Oth. destruct (di_thread n t b s s' P D HS) as (K3 & K5 & K6 & K9 & K9' & K8 & K10).
    constructor; [exact E1'|exact E2| | | | | |].
    + intros u. destruct (Nat.eq_dec u t) as [->|Nu]; [exact K3|]. rewrite (Oth u Nu). destruct (still_dec (pc s u)) as [St|Ns]; [|exact (Kd_trivial n s' _ Ns)].
      destruct (still_keeps n _ s s' u P D St HS) as (Et & Dd & _). exact (Kd_move n s s' _ Et Dd (e3 n s D u)).
    + intros Ec Et. destruct K5 as [K5|(K5a & K5b & K5c)]; [exists t; exact K5|]. rewrite K5a in Et. rewrite K5b in Ec. destruct (e5 n s D Ec Et) as (u & Eu). destruct (Nat.eq_dec u t) as [->|Nu]; [destruct (K5c Eu Et)|].
      exists u. rewrite (Oth u Nu). exact Eu.
    + intros Ef. destruct K6 as [K6|[K6|[K6 Np]]]; [congruence|exists t; exact K6|]. rewrite K6 in Ef. destruct (e6 n s D Ef) as (u & Pu). destruct (Nat.eq_dec u t) as [->|Nu]; [destruct (Np Pu)|]. exists u. rewrite (Oth u Nu). exact Pu.
    + intros Nf u ok Epu. destruct (Nat.eq_dec u t) as [->|Nu]; [exact (K8 ok Epu (Nfp Nf))|]. rewrite (Oth u Nu) in Epu. apply (E8 u) with (ok := ok); [congruence|exact Epu|exact Nf].
    + intros Nf w Ew Fw. pose proof (K9 w Ew Fw) as Es. rewrite Es in Ew, Fw. destruct (e9 n s D (Nfp Nf) w Ew Fw) as (u & Wu). exists u. destruct (Nat.eq_dec u t) as [->|Nu]; [exact (K9' w Ew Fw Wu)|rewrite (Oth u Nu); exact Wu].
    + intros u. destruct (Nat.eq_dec u t) as [->|Nu]; [exact K10|rewrite (Oth u Nu); exact (e10 n s D u)].
  - pose proof HS as HS0. cbn [cstep] in HS. destruct (wclassify w b s s' HS) as (new' & q & Etr' & Eth & Et & _ & _ & _ & Ews & _ & _ & _ & Ec).
    constructor; [exact E1'|exact E2| | | | | |].
    + intros u. rewrite Eth. exact (Kd_move n s s' _ (Et n) (dead_worker n w b s s' HS) (e3 n s D u)).
    + rewrite Ec, Et. intros X Y. destruct (e5 n s D X Y) as (u & Eu). exists u. rewrite Eth. exact Eu.
    + intros Ef. assert (Ef0 : flag s n = true). { clear - HS Ef. unfold wmove in HS. cbv zeta in HS. case_step HS; cbn in Ef; try exact Ef. unfold upd in Ef. destruct (Nat.eqb n (wof s w)); [discriminate Ef|exact Ef]. }
      destruct (e6 n s D Ef0) as (u & Pu). exists u. rewrite Eth. exact Pu.
    + intros Nf u ok Epu. rewrite Eth in Epu. apply (E8 u) with (ok := ok); [discriminate|exact Epu|exact Nf].
    + intros Nf v Ev Fv. destruct (Nat.eq_dec v w) as [->|Nv].
      * assert (Ea : wof s w = n) by (rewrite Ews, upd_eq in Ev; exact Ev).
        assert (X : (wpc s w = WFinally \/ wpc s w = WExit) \/ (wpc s w = WTest /\ flag s n = true)).
        { unfold wmove in HS. cbv zeta in HS. rewrite Ea in HS. destruct (wpc s w) eqn:Ew; try discriminate HS; injection HS as <-; cbn in Fv; rewrite upd_eq in Fv; cbn in Fv; try tauto.
          - right. split; [reflexivity|]. destruct (flag s n); [reflexivity|destruct Fv; discriminate].
          - destruct b; [|destruct Fv; discriminate]. exfalso. apply (Nf n w). cbn. apply in_or_app. right. left. reflexivity.
          - destruct Fv; discriminate. }
        destruct X as [X|[Ew Ef]].
        -- destruct (e9 n s D (Nfp Nf) w Ea X) as (u & Wu). exists u. rewrite Eth. exact Wu.
        -- destruct (e6 n s D Ef) as (u & Pu). exists u. rewrite Eth. pose proof (e3 n s D u) as Ku. assert (Tw : thr s n = Some w) by (apply (iC n s (pI n s P)); [exact Ea|congruence]).
           assert (Nd : ~ thread_dead s n) by (intros X; pose proof (X w Tw); congruence).
           destruct (pc s u); cbn in *; try tauto; destruct k; cbn in *; tauto.
      * rewrite Ews, upd_neq in Ev by exact Nv. rewrite Ews, upd_neq in Fv by exact Nv. destruct (e9 n s D (Nfp Nf) v Ev Fv) as (u & Wu). exists u. rewrite Eth. exact Wu.
    + intros u. rewrite Eth. exact (e10 n s D u).
Qed.

Record SP (n : nat) (s : cstate) : Prop := mkSP { sP : CP n s; sD : DI n s }.
Lemma sp_step n p s s' : SP n s -> cstep p s = Some s' -> switches_apart (cs_trace s') -> SP n s'.
Proof. intros [P D] HS Ap. constructor; [exact (cp_step n p s s' P HS (sw_en _ Ap))|exact (di_step n p s s' P D HS Ap)]. Qed.
Lemma sp_start n progs : own_actors n progs -> patient progs -> SP n (cstart n progs).
Proof.
  intros O Pt. constructor; [exact (own_start n progs O)|]. constructor; cbn; try tauto; try discriminate.
  { intros _ w _ [X|X]; discriminate X. }
  intros t. apply Forall_forall. intros o Io. destruct (nth_in_or_default t progs []) as [Ip|E]; [|rewrite E in Io; destruct Io].
  destruct o as [a|a|a b| |b]; cbn; try exact Logic.I. destruct b; [|reflexivity]. destruct (Pt _ Ip Io).
Qed.
Lemma sp_run n sc s : SP n s -> switches_apart (cs_trace (crun sc s)) -> SP n (crun sc s).
Proof. intros S Ap. apply (crun_ind (SP n) switches_apart); [exact sw_pre| |exact S|exact Ap]. intros p u u' Su. apply sp_step; exact Su. Qed.

(** *** After disable_async *)
Lemma ev_disable_ret p s s' t ok : cstep p s = Some s' -> cs_trace s' = cs_trace s ++ [EDisableRet t ok] -> pc s t = TDisable5 ok /\ cs_workers s' = cs_workers s /\ cs_actors s' = cs_actors s /\ (exists b, p = PT t b).
Proof.
  intros HS Etr. destruct p as [u b|w b]; cbn [cstep] in HS; [|destruct (no_task_event _ _ _ _ _ HS Etr) as (f & X); discriminate X].
  event_cases HS Etr. injection Etr as <- <-. split; [exact Ep|]. split; [reflexivity|]. split; [reflexivity|]. exists b. reflexivity.
Qed.
Lemma ev_enable_ret p s s' t ok : cstep p s = Some s' -> cs_trace s' = cs_trace s ++ [EEnableRet t ok] -> pc s t = TEnable4 ok /\ cs_workers s' = cs_workers s /\ cs_actors s' = cs_actors s /\ (exists b, p = PT t b).
Proof.
  intros HS Etr. destruct p as [u b|w b]; cbn [cstep] in HS; [|destruct (no_task_event _ _ _ _ _ HS Etr) as (f & X); discriminate X].
  event_cases HS Etr. injection Etr as <- <-. split; [exact Ep|]. split; [reflexivity|]. split; [reflexivity|]. exists b. reflexivity.
Qed.
Lemma tasks_of_context n p s s' new : CI n s -> cstep p s = Some s' -> cs_trace s' = cs_trace s ++ new -> task_calls (Nat.leb n) new = task_calls (Nat.eqb n) new.
Proof.
  intros C HS Etr. destruct p as [t b|w b]; cbn [cstep] in HS.
  - unfold cmove in HS. cbv zeta in HS. destruct (ct_pc (cs_threads s t)); case_step HS; cbn in Etr; apply app_inv_head in Etr; subst new; reflexivity.
  - destruct (cstep_trace (PW w b) s s' HS) as (new' & Etr' & Ln). rewrite Etr in Etr'. apply app_inv_head in Etr'. subst new'. destruct new as [|e [|]]; [reflexivity| |cbn in Ln; lia].
    destruct (no_task_event w b s s' e HS Etr) as (f & ->). unfold task_calls. cbn. pose proof (c6 n s C w). destruct (Nat.leb_spec n (wof s w)); destruct (Nat.eqb_spec n (wof s w)); try reflexivity; exfalso; lia.
Qed.
Definition no_one_enables (s : cstate) : Prop := forall t, ~ in_enable (pc s t).
Definition no_one_disables (s : cstate) : Prop := forall t, ~ in_disable (pc s t).
Lemma no_enable_app x y : no_enable (x ++ y) -> no_enable x /\ no_enable y.
Proof. intros H. split; intros t I; apply (H t), in_or_app; [left|right]; exact I. Qed.
Lemma off_step n p s s' new : SP n s -> no_one_enables s -> thread_dead s n -> cstep p s = Some s' -> cs_trace s' = cs_trace s ++ new -> no_enable new ->
  no_one_enables s' /\ thread_dead s' n /\ task_calls (Nat.leb n) new = 0.
Proof.
  intros [P D] Ne Dd HS Etr Nn.
  assert (Q : quiet n s) by (intros t It; exact (Ne t (in_start_enable n _ _ (c2 n s (pC n s P) t) It))).
  assert (Ns : no_start_of n new).
  { intros t It. destruct (cstep_trace _ _ _ HS) as (new' & Etr' & Ln). rewrite Etr in Etr'. apply app_inv_head in Etr'. subst new'. destruct new as [|e [|]]; [destruct It| |cbn in Ln; lia].
    destruct It as [->|[]]. apply (Ne t). rewrite (start_event n p s s' t (pC n s P) HS Etr). exact Logic.I. }
  split; [|split].
  - intros t Et. pose proof (enters p s s' t HS (Ne t) Et) as E. rewrite Etr in E. apply app_inv_head in E. subst new. apply (Nn t). left. reflexivity.
  - exact (dead_step n 0 p s s' new (or_intror (cp_na n s P)) (cp_good n s P) Q HS Etr Ns Dd).
  - rewrite (tasks_of_context n p s s' new (pC n s P) HS Etr). destruct (task_step n p s s' new (pI n s P) HS Etr) as [->|(w & b & _ & T & Ew & _)]; [reflexivity|]. pose proof (Dd w T). congruence.
Qed.
Lemma off_run n tr0 sc : forall s z, SP n s -> no_one_enables s -> thread_dead s n -> cs_trace s = tr0 -> cs_trace (crun sc s) = tr0 ++ z -> switches_apart (tr0 ++ z) -> no_enable z ->
  thread_dead (crun sc s) n /\ task_calls (Nat.leb n) z = 0.
Proof.
  revert tr0. induction sc as [|p sc IH]; intros tr0 s z S Ne Dd E0 Etr Ap Nz.
  - cbn [crun] in *. split; [exact Dd|]. rewrite E0 in Etr. rewrite <- (app_nil_r tr0) in Etr at 1. apply app_inv_head in Etr. subst z. reflexivity.
  - cbn [crun] in *. destruct (cstep p s) as [s1|] eqn:HS; [|exact (IH tr0 s z S Ne Dd E0 Etr Ap Nz)]. destruct (cstep_trace _ _ _ HS) as (n1 & E1 & _). destruct (crun_trace sc s1) as (n2 & E2).
    assert (z = n1 ++ n2) by (rewrite E2, E1, <- app_assoc, E0 in Etr; apply app_inv_head in Etr; symmetry; exact Etr). subst z. apply no_enable_app in Nz. destruct Nz as [N1 N2].
    destruct (off_step n p s s1 n1 S Ne Dd HS E1 N1) as (Ne1 & Dd1 & T1). rewrite app_assoc in Ap.
    assert (Ap1 : switches_apart (cs_trace s1)) by (rewrite E1, E0; exact (sw_pre _ _ Ap)).
    destruct (IH (tr0 ++ n1) s1 n2 (sp_step n p s s1 S HS Ap1) Ne1 Dd1) as [A B]; [rewrite E1, E0; reflexivity|rewrite E2, E1, E0; reflexivity|exact Ap|exact N2|]. split; [exact A|]. rewrite task_app, T1, B. reflexivity.
Qed.
Lemma disabled n progs sc x t ok y : own_actors n progs -> patient progs -> let s := crun sc (cstart n progs) in
  switches_apart (cs_trace s) -> cs_trace s = x ++ EDisableRet t ok :: y -> no_enable y ->
  ok = true /\ task_calls (Nat.leb n) y = 0 /\ forall a w, n <= a -> ~ works s a w.
Proof.
  intros O Pt s Ap Etr Ny. destruct (crun_event sc _ _ _ _ Etr (Nat.le_0_l _)) as (sc1 & p1 & sc2 & s1 & Esc & Ex & Es1 & Et1 & Er). set (s0 := crun sc1 (cstart n progs)) in *.
  assert (S0 : SP n s0) by (apply sp_run; [exact (sp_start n progs O Pt)|fold s0; rewrite Ex; rewrite Etr in Ap; exact (sw_pre _ _ Ap)]).
  assert (Ap1 : switches_apart (cs_trace s1)) by (rewrite Et1; rewrite Etr in Ap; apply (sw_pre _ y); rewrite <- app_assoc; exact Ap).
  pose proof (sp_step n p1 s0 s1 S0 Es1 Ap1) as S1. destruct (ev_disable_ret p1 s0 s1 t ok Es1) as (Ep & Ews & Eas & _); [rewrite Et1, Ex; reflexivity|].
  pose proof (e3 n s0 (sD n s0 S0) t) as Kt. rewrite Ep in Kt. cbn in Kt. destruct Kt as [-> Dd].
  assert (Ne1 : no_one_enables s1).
  { intros u Hu. destruct (enable_dec (pc s0 u)) as [Eu|Nu]; [apply (e2 n s0 (sD n s0 S0) u t Eu); rewrite Ep; exact Logic.I|]. pose proof (enters p1 s0 s1 u Es1 Nu Hu) as E. rewrite Et1, Ex in E. apply app_inv_head in E. discriminate E. }
  assert (Dd1 : thread_dead s1 n) by (intros w Tw; rewrite Eas in Tw; rewrite Ews; exact (Dd w Tw)).
  assert (Ap2 : switches_apart ((x ++ [EDisableRet t true]) ++ y)) by (rewrite <- app_assoc; rewrite Etr in Ap; exact Ap).
  destruct (off_run n (x ++ [EDisableRet t true]) sc2 s1 y S1 Ne1 Dd1 Et1) as [Df Tf]; [rewrite <- app_assoc; rewrite <- Er; exact Etr|exact Ap2|exact Ny|].
  split; [reflexivity|]. split; [exact Tf|]. intros a w La Wk. unfold s in Wk. rewrite Er in Wk.
  assert (Sf : SP n (crun sc2 s1)) by (apply sp_run; [exact S1|rewrite <- Er; exact Ap]). assert (a = n) by (destruct Wk as (Ea & _); pose proof (c6 n _ (pC n _ (sP n _ Sf)) w); lia). subst a.
  exact (dead_not_working n _ w (pI n _ (sP n _ Sf)) Df Wk).
Qed.

(** *** After enable_async *)
Lemma alive3_keeps n p s s' : CP n s -> alive3 n s -> cstep p s = Some s' -> thr s' n = thr s n /\ (same n s s' \/ exists w b, p = PW w b).
Proof.
  intros P (w & Tw & Ew) HS. destruct p as [t b|v b]; cbn [cstep] in HS.
  - destruct (classify t b s s' n (pW n s P) HS (cp_na n s P)) as (new & Etr & _ & Cl).
    assert (Sm : same n s s').
    { destruct Cl as [k En Nin Ep Sm|ok En In0 Nin Sm Npost|v En Po Nin T Ev T' Ws|k En Pre Ep T' Ws|v k En In0 Npo Ep T Sm|En In0 Pre Prem Sm|En Po Po' Sm|Nin Nin' Nnew Sm]; try exact Sm; exfalso.
      - assert (v = w) by congruence. subst v. rewrite Ev in Ew. destruct Ew as [X|[X|X]]; discriminate X.
      - pose proof (iD n s (pI n s P) t Pre w Tw) as X. rewrite X in Ew. destruct Ew as [Y|[Y|Y]]; discriminate Y. }
    split; [exact (proj1 Sm)|left; exact Sm].
  - destruct (wclassify v b s s' HS) as (_ & q & _ & _ & Et & _). split; [apply Et|right; exists v, b; reflexivity].
Qed.
Lemma on_run n sc : forall s z, SP n s -> no_one_disables s -> alive3 n s -> cs_trace (crun sc s) = cs_trace s ++ z -> switches_apart (cs_trace s ++ z) -> no_fatal (cs_trace s ++ z) -> (forall t, ~ In (EDisable t) z) ->
  alive3 n (crun sc s).
Proof.
  induction sc as [|p sc IH]; intros s z S Nd A Etr Ap Nf Nz; [exact A|].
  cbn [crun] in *. destruct (cstep p s) as [s1|] eqn:HS; [|exact (IH s z S Nd A Etr Ap Nf Nz)]. destruct (cstep_trace _ _ _ HS) as (n1 & E1 & _). destruct (crun_trace sc s1) as (n2 & E2).
  assert (z = n1 ++ n2) by (rewrite E2, E1, <- app_assoc in Etr; apply app_inv_head in Etr; symmetry; exact Etr). subst z.
  assert (Ap1 : switches_apart (cs_trace s1)) by (rewrite E1; rewrite app_assoc in Ap; exact (sw_pre _ _ Ap)). assert (Nf1 : no_fatal (cs_trace s1)) by (rewrite E1; rewrite app_assoc in Nf; exact (no_fatal_pre _ _ Nf)).
  destruct (alive3_keeps n p s s1 (sP n s S) A HS) as [Et Sm].
  apply (IH s1 n2); [exact (sp_step n p s s1 S HS Ap1)| |exact (alive3_step n p s s1 (sP n s S) (sD n s S) HS Nd Et Sm Nf1 A)|exact E2|rewrite E1, <- app_assoc; exact Ap|rewrite E1, <- app_assoc; exact Nf|intros t It; apply (Nz t), in_or_app; right; exact It].
  intros t Dt. pose proof (enters_dis p s s1 t HS (Nd t) Dt) as E. rewrite E1 in E. apply app_inv_head in E. subst n1. apply (Nz t). left. reflexivity.
Qed.
Lemma ctx_step n p s s' : CI n s -> cstep p s = Some s' -> cs_ctx s = Some n -> cs_ctx s' = Some n.
Proof.
  intros C HS Ec. destruct p as [t b|w b]; cbn [cstep] in HS.
  - pose proof (c2 n s C t) as Ok. unfold cmove in HS. cbv zeta in HS. destruct (ct_pc (cs_threads s t)) eqn:Ep; case_step HS; cbn; cbn in Ok; congruence.
  - destruct (wclassify w b s s' HS) as (_ & q & _ & _ & _ & _ & _ & _ & _ & _ & _ & _ & ->). exact Ec.
Qed.
Lemma ctx_run n sc : forall s, SP n s -> switches_apart (cs_trace (crun sc s)) -> cs_ctx s = Some n -> cs_ctx (crun sc s) = Some n.
Proof.
  induction sc as [|p sc IH]; intros s S Ap Ec; [exact Ec|]. cbn [crun] in *. destruct (cstep p s) as [s1|] eqn:HS; [|exact (IH s S Ap Ec)].
  apply IH; [|exact Ap|exact (ctx_step n p s s1 (pC n s (sP n s S)) HS Ec)]. apply (sp_step n p s s1 S HS). destruct (crun_trace sc s1) as (n2 & E2). rewrite E2 in Ap. exact (sw_pre _ _ Ap).
Qed.
Lemma enabled n progs sc x t ok y : own_actors n progs -> patient progs -> let s := crun sc (cstart n progs) in
  switches_apart (cs_trace s) -> cs_trace s = x ++ EEnableRet t ok :: y ->
  ok = true /\ cs_ctx s = Some n /\ (no_fatal (cs_trace s) -> (forall u, ~ In (EDisable u) y) -> exists w, works s n w).
Proof.
  intros O Pt s Ap Etr. destruct (crun_event sc _ _ _ _ Etr (Nat.le_0_l _)) as (sc1 & p1 & sc2 & s1 & Esc & Ex & Es1 & Et1 & Er). set (s0 := crun sc1 (cstart n progs)) in *.
  assert (S0 : SP n s0) by (apply sp_run; [exact (sp_start n progs O Pt)|fold s0; rewrite Ex; rewrite Etr in Ap; exact (sw_pre _ _ Ap)]).
  assert (Ap1 : switches_apart (cs_trace s1)) by (rewrite Et1; rewrite Etr in Ap; apply (sw_pre _ y); rewrite <- app_assoc; exact Ap).
  pose proof (sp_step n p1 s0 s1 S0 Es1 Ap1) as S1. destruct (ev_enable_ret p1 s0 s1 t ok Es1) as (Ep & Ews & Eas & _); [rewrite Et1, Ex; reflexivity|].
  pose proof (e3 n s0 (sD n s0 S0) t) as Kt. rewrite Ep in Kt. cbn in Kt. destruct Kt as [-> Tn].
  assert (Ec : cs_ctx s0 = Some n) by (destruct (c1 n s0 (pC n s0 (sP n s0 S0))) as [(_ & _ & T)|[X _]]; [congruence|exact X]).
  assert (Ec1 : cs_ctx s1 = Some n) by (exact (ctx_step n p1 s0 s1 (pC n s0 (sP n s0 S0)) Es1 Ec)).
  split; [reflexivity|]. split; [unfold s; rewrite Er; apply ctx_run; [exact S1|rewrite <- Er; exact Ap|exact Ec1]|].
  intros Nf Nd. assert (Nf0 : no_fatal (cs_trace s0)) by (rewrite Ex; rewrite Etr in Nf; exact (no_fatal_pre _ _ Nf)).
  assert (A1 : alive3 n s1). { destruct (e8 n s0 (sD n s0 S0) Nf0 t true Ep) as (w & Tw & Ew). exists w. rewrite Eas, Ews. split; assumption. }
  assert (Nd1 : no_one_disables s1).
  { intros u Hu. destruct (disable_dec (pc s0 u)) as [Eu|Nu]; [apply (e2 n s0 (sD n s0 S0) t u); [rewrite Ep; exact Logic.I|exact Eu]|]. pose proof (enters_dis p1 s0 s1 u Es1 Nu Hu) as E. rewrite Et1, Ex in E. apply app_inv_head in E. discriminate E. }
  assert (E2 : cs_trace (crun sc2 s1) = cs_trace s1 ++ y) by (rewrite Et1, <- app_assoc, <- Er; exact Etr).
  destruct (on_run n sc2 s1 y S1 Nd1 A1 E2) as (w & Tw & Ew); [rewrite <- E2, <- Er; exact Ap|rewrite <- E2, <- Er; exact Nf|exact Nd|].
  exists w. unfold s. rewrite Er. assert (Sf : SP n (crun sc2 s1)) by (apply sp_run; [exact S1|rewrite <- Er; exact Ap]).
  split; [exact (proj1 (wG _ (pW n _ (sP n _ Sf)) _ _ Tw))|]. destruct Ew as [-> |[-> | ->]]; split; discriminate.
Qed.
