(** Actors controlled by several threads: C98. *)
From Verif Require Import model.PyBase model.Core model.ActorThreads spec.ActorThreadsSpec proof.CoreLib.
Open Scope nat_scope.

(** *** Calls in progress *)
Lemma inp_snoc on off now tr e : in_progress on off now (tr ++ [e]) =
  let now1 := match on e with Some t => t :: in_progress on off now tr | None => in_progress on off now tr end in
  match off e with Some t => filter (fun u => negb (Nat.eqb u t)) now1 | None => now1 end.
Proof. revert now. induction tr as [|x tr IH]; intros now; [reflexivity|]. cbn [app in_progress]. apply IH. Qed.
Lemma apart_prefix {P : list cevent -> Prop} (f : nat -> cevent) tr new :
  (forall x t y, tr ++ new = x ++ f t :: y -> P x) -> forall x t y, tr = x ++ f t :: y -> P x.
Proof. intros H x t y E. apply (H x t (y ++ new)). rewrite E, <- app_assoc. reflexivity. Qed.
Lemma apart_nothing {P : list cevent -> Prop} (f : nat -> cevent) tr new : (forall t, ~ In (f t) new) ->
  (forall x t y, tr = x ++ f t :: y -> P x) -> forall x t y, tr ++ new = x ++ f t :: y -> P x.
Proof.
  intros N H x t y E. destruct (le_lt_dec (length tr) (length x)) as [L|L].
  - exfalso. apply (N t). assert (E2 : new = skipn (length tr) x ++ f t :: y).
    { apply (f_equal (skipn (length tr))) in E. rewrite skipn_app, skipn_all, Nat.sub_diag, skipn_app in E. cbn in E. rewrite E. replace (length tr - length x) with 0 by lia. reflexivity. }
    rewrite E2. apply in_or_app. right. left. reflexivity.
  - apply (f_equal (firstn (length tr))) in E. rewrite firstn_app, Nat.sub_diag, firstn_all, firstn_app in E. cbn [firstn] in E. rewrite app_nil_r in E.
    destruct (length tr - length x) as [|k] eqn:Ek; [lia|]. rewrite (firstn_all2 x) in E by lia. cbn [firstn] in E. exact (H x t _ E).
Qed.

(** *** Where threads are *)
Definition in_start (a : nat) (p : tpc) : Prop :=
  match p with TStart1 b _ | TStart2 b _ _ | TStart3 b _ | TStart4 b _ | TStart5 b _ | TStart6 b _ | TStart7 b _ | TStart8 b _ | TStart9 b _ => b = a | _ => False end.
(** found no live worker, has not created one *)
Definition pre_spawn (a : nat) (p : tpc) : Prop :=
  match p with TStart3 b _ | TStart4 b _ | TStart5 b _ | TStart6 b _ | TStart7 b _ => b = a | _ => False end.
Definition post_spawn (a : nat) (p : tpc) : Prop := match p with TStart8 b _ | TStart9 b _ => b = a | _ => False end.
Notation pc s t := (ct_pc (cs_threads s t)).
Notation wpc s w := (wk_pc (cs_workers s w)).
Notation wof s w := (wk_actor (cs_workers s w)).
Notation thr s a := (af_thread (cs_actors s a)).
(** The actor has no live or new worker *)
Definition thread_dead (s : cstate) (a : nat) : Prop := forall w, thr s a = Some w -> wpc s w = WDead.

Ltac case_step H :=
  repeat match type of H with
    | None = Some _ => discriminate H
    | context[match ?x with _ => _ end] => let E := fresh "E" in destruct x eqn:E
    | Some _ = Some _ => injection H as <-
    end.
Lemma cstep_trace p s s' : cstep p s = Some s' -> exists new, cs_trace s' = cs_trace s ++ new /\ length new <= 1.
Proof.
  destruct p as [t b|w b]; cbn [cstep].
  - unfold cmove. intros H. cbv zeta in H. destruct (ct_pc (cs_threads s t)); case_step H; cbn; eexists; (split; [reflexivity|cbn; lia]).
  - unfold wmove. intros H. cbv zeta in H. case_step H; cbn; first [eexists; split; [reflexivity|cbn; lia]|exists []; split; [symmetry; apply app_nil_r|cbn; lia]].
Qed.
Lemma crun_app sc1 sc2 s : crun (sc1 ++ sc2) s = crun sc2 (crun sc1 s).
Proof. revert s. induction sc1 as [|p sc1 IH]; intros s; [reflexivity|]. cbn [app crun]. apply IH. Qed.
Lemma crun_trace sc s : exists new, cs_trace (crun sc s) = cs_trace s ++ new.
Proof.
  revert s. induction sc as [|p sc IH]; intros s; [exists []; symmetry; apply app_nil_r|]. cbn [crun]. destruct (cstep p s) as [s1|] eqn:E; [|apply IH].
  destruct (cstep_trace _ _ _ E) as (n1 & E1 & _). destruct (IH s1) as (n2 & E2). exists (n1 ++ n2). rewrite E2, E1, app_assoc. reflexivity.
Qed.
(** Steps preserve what they preserve as long as the trace has a property. *)
Lemma crun_ind (P : cstate -> Prop) (Q : list cevent -> Prop) : (forall x y, Q (x ++ y) -> Q x) ->
  (forall p s s', P s -> cstep p s = Some s' -> Q (cs_trace s') -> P s') -> forall sc s, P s -> Q (cs_trace (crun sc s)) -> P (crun sc s).
Proof.
  intros Qp St. induction sc as [|p sc IH]; intros s Ps Qs; [exact Ps|]. cbn [crun] in *. destruct (cstep p s) as [s1|] eqn:E; [|exact (IH s Ps Qs)].
  apply IH; [|exact Qs]. apply (St p s s1 Ps E). destruct (crun_trace sc s1) as (new & En). rewrite En in Qs. exact (Qp _ _ Qs).
Qed.
(** The point at which an event happened *)
Lemma crun_event sc : forall s x e y, cs_trace (crun sc s) = x ++ e :: y -> length (cs_trace s) <= length x ->
  exists sc1 p sc2 s1, sc = sc1 ++ p :: sc2 /\ cs_trace (crun sc1 s) = x /\ cstep p (crun sc1 s) = Some s1 /\ cs_trace s1 = x ++ [e] /\ crun sc s = crun sc2 s1.
Proof.
  induction sc as [|p sc IH]; intros s x e y E L.
  - exfalso. cbn [crun] in E. apply (f_equal (@length _)) in E. rewrite app_length in E. cbn in E. lia.
  - cbn [crun] in E. destruct (cstep p s) as [s1|] eqn:Es.
    + destruct (cstep_trace _ _ _ Es) as (new & En & Ln). destruct (crun_trace sc s1) as (more & Em). rewrite E, En in Em.
      destruct (le_lt_dec (length (cs_trace s1)) (length x)) as [L1|L1].
      * destruct (IH s1 x e y E L1) as (sc1 & p1 & sc2 & s2 & A & B & C & D & F). exists (p :: sc1), p1, sc2, s2. cbn [app crun]. rewrite Es, A. repeat split; try assumption. rewrite <- A. exact F.
      * rewrite En, app_length in L1. destruct new as [|n1 [|n2 new]]; cbn in L1, Ln; [lia| |lia].
        assert (Ex : cs_trace s = x). { assert (Lx : length x = length (cs_trace s)) by lia. apply (f_equal (firstn (length x))) in Em. rewrite firstn_app, Nat.sub_diag, firstn_all, <- app_assoc, firstn_app, Lx, Nat.sub_diag, firstn_all in Em. cbn in Em. rewrite !app_nil_r in Em. symmetry. exact Em. }
        exists [], p, sc, s1. cbn [app crun]. rewrite Es. subst x. rewrite <- app_assoc in Em. apply app_inv_head in Em. cbn in Em. injection Em as <- <-. repeat split. exact En.
    + destruct (IH s x e y E L) as (sc1 & p1 & sc2 & s2 & A & B & C & D & F). exists (p :: sc1), p1, sc2, s2. cbn [app crun]. rewrite Es, A. repeat split; try assumption. rewrite <- A. exact F.
Qed.

(** *** References to threads *)
Record Wf (s : cstate) : Prop := mkWf {
  wG : forall b w, thr s b = Some w -> wof s w = b /\ w < cs_nw s;
  wH : forall w, cs_nw s <= w -> wpc s w = WDead }.
Ltac split_upd := repeat match goal with
  | |- context[Nat.eqb ?x ?y] => destruct (Nat.eqb_spec x y); subst
  | H : context[Nat.eqb ?x ?y] |- _ => destruct (Nat.eqb_spec x y); subst
  end.
Lemma wf_step p s s' : Wf s -> cstep p s = Some s' -> Wf s'.
Proof.
  intros [G H] HS. destruct p as [t b|w b]; cbn [cstep] in HS.
  - unfold cmove in HS. cbv zeta in HS. destruct (ct_pc (cs_threads s t)); case_step HS; cbn; (try (split; [exact G|exact H])).
    + split; cbn; [|exact H]. intros c w. unfold upd. split_upd; cbn; apply G.
    + split; cbn; [|exact H]. intros c w. unfold upd. split_upd; cbn; apply G.
    + split; cbn.
      * intros c w. unfold upd. destruct (Nat.eqb_spec c a) as [->|N]; cbn; [intros [= <-]; rewrite Nat.eqb_refl; cbn; split; [reflexivity|lia]|].
        intros T. destruct (G c w T) as [A B]. destruct (Nat.eqb_spec w (cs_nw s)); [lia|]. split; [exact A|lia].
      * intros w L. unfold upd. destruct (Nat.eqb_spec w (cs_nw s)); [lia|]. apply H. lia.
    + split; cbn.
      * intros c v T. unfold upd. destruct (Nat.eqb_spec v n); subst; cbn; apply G; exact T.
      * intros v L. unfold upd. destruct (Nat.eqb_spec v n) as [->|N]; [|apply H; exact L]. destruct (G _ _ E) as [_ B]. lia.
    + split; cbn; [|exact H]. intros c w. unfold upd. split_upd; cbn; apply G.
    + split; cbn; [|exact H]. intros c w. unfold upd. split_upd; cbn; apply G.
    + split; cbn; [|exact H]. intros c w. unfold upd. split_upd; cbn; [discriminate|apply G].
  - unfold wmove in HS. cbv zeta in HS.
    assert (L : wpc s w <> WDead -> w < cs_nw s) by (intros N; destruct (le_lt_dec (cs_nw s) w) as [X|X]; [destruct (N (H w X))|exact X]).
    assert (K : forall q, wpc s w <> WDead -> Wf (set_worker w q s)).
    { intros q N. split; cbn.
      - intros c v T. unfold upd. destruct (Nat.eqb_spec v w); subst; cbn; apply G; exact T.
      - intros v Lv. unfold upd. destruct (Nat.eqb_spec v w) as [->|Nv]; [specialize (L N); lia|apply H; exact Lv]. }
    destruct (wk_pc (cs_workers s w)) eqn:Ew; try discriminate; injection HS as <-; try (apply K; discriminate).
    + destruct (K (if b then WFinally else WWait)) as [G1 H1]; [discriminate|]. split; [exact G1|exact H1].
    + destruct (K WExit) as [G1 H1]; [discriminate|]. split; cbn; [|exact H1]. intros c v T. apply G1. cbn. revert T. unfold upd at 1. destruct (Nat.eqb_spec c (wof s w)); subst; cbn; tauto.
Qed.
(** *** What a step of a controlling thread means for an actor *)
Definition same (a : nat) (s s' : cstate) : Prop :=
  thr s' a = thr s a /\ (forall w, w < cs_nw s -> wof s w = a -> cs_workers s' w = cs_workers s w) /\ (forall w, wof s' w = a -> cs_workers s' w = cs_workers s w).
Inductive Cls (a t : nat) (s s' : cstate) (new : list cevent) : Prop :=
| ClEnter k : new = [EStart t a] -> ~ in_start a (pc s t) -> pc s' t = TStart1 a k -> same a s s' -> Cls a t s s' new
| ClExit ok : new = [EStartRet t a ok] -> in_start a (pc s t) -> ~ in_start a (pc s' t) -> same a s s' ->
    (post_spawn a (pc s t) -> forall w, thr s a = Some w -> wpc s w <> WNew) -> Cls a t s s' new
| ClSpawn w : new = [EStartRet t a true] -> post_spawn a (pc s t) -> ~ in_start a (pc s' t) -> thr s a = Some w -> wpc s w = WNew -> thr s' a = Some w ->
    cs_workers s' = upd (cs_workers s) w (mkWk (wof s w) WTest) -> Cls a t s s' new
| ClNew k : new = [] -> pre_spawn a (pc s t) -> pc s' t = TStart8 a k -> thr s' a = Some (cs_nw s) -> cs_workers s' = upd (cs_workers s) (cs_nw s) (mkWk a WNew) -> Cls a t s s' new
| ClRead w k : new = [] -> in_start a (pc s t) -> ~ post_spawn a (pc s t) -> pc s' t = TStart2 a w k -> thr s a = Some w -> same a s s' -> Cls a t s s' new
| ClPre : new = [] -> in_start a (pc s t) -> pre_spawn a (pc s' t) ->
    (pre_spawn a (pc s t) \/ (~ post_spawn a (pc s t) /\ thr s a = None) \/ exists w k, pc s t = TStart2 a w k /\ started_alive (wpc s w) = false) -> same a s s' -> Cls a t s s' new
| ClPost : new = [] -> post_spawn a (pc s t) -> post_spawn a (pc s' t) -> same a s s' -> Cls a t s s' new
| ClOther : ~ in_start a (pc s t) -> ~ in_start a (pc s' t) -> (forall e, In e new -> start_on a e = None /\ start_off a e = None) -> same a s s' -> Cls a t s s' new.
Lemma same_refl a s s' : cs_actors s' = cs_actors s -> cs_workers s' = cs_workers s -> same a s s'.
Proof. intros E1 E2. unfold same. rewrite E1, E2. repeat split; reflexivity. Qed.
Lemma same_thr a s s' : thr s' a = thr s a -> cs_workers s' = cs_workers s -> same a s s'.
Proof. intros E1 E2. unfold same. rewrite E1, E2. repeat split; reflexivity. Qed.
Lemma other_pc t p todo new s u : u <> t -> cs_threads (cat t p todo new s) u = cs_threads s u.
Proof. intros N. cbn. apply upd_neq, N. Qed.
Ltac simp_pc := cbn; rewrite ?upd_eq; cbn.
Lemma after_start_not a k ok : ~ in_start a (after_start k ok). Proof. destruct k; cbn; tauto. Qed.
Lemma after_stop_not a k : ~ in_start a (after_stop k). Proof. destruct k; cbn; tauto. Qed.
Lemma after_join_not a k ok : ~ in_start a (after_join k ok). Proof. destruct k, ok; cbn; tauto. Qed.
Lemma thr_flag s b v a : thr (set_flag b v s) a = thr s a.
Proof. cbn. unfold upd. destruct (Nat.eqb_spec a b) as [->|N]; reflexivity. Qed.
Lemma thr_pid s b a : thr (set_pid b s) a = thr s a.
Proof. cbn. unfold upd. destruct (Nat.eqb_spec a b) as [->|N]; reflexivity. Qed.
Ltac easy_new := let e := fresh in let H := fresh in intros e H; cbn in H; repeat (destruct H as [<-|H] || destruct H); cbn; try (split; reflexivity);
  repeat match goal with |- context[Nat.eqb ?x ?y] => destruct (Nat.eqb_spec x y); [exfalso; subst; tauto|] end; split; reflexivity.

Lemma classify t b s s' a : Wf s -> cmove t b s = Some s' -> (cs_na s = a -> thr s a = None) ->
  exists new, cs_trace s' = cs_trace s ++ new /\ (forall u, u <> t -> cs_threads s' u = cs_threads s u) /\ Cls a t s s' new.
Proof.
  intros [WG WH] HS La. unfold cmove in HS. cbv zeta in HS. destruct (ct_pc (cs_threads s t)) eqn:Ep; case_step HS.
  all: try (eexists; split; [reflexivity|]; split; [intros u Hu; cbn; apply upd_neq; exact Hu|];
    apply ClOther; [rewrite Ep; cbn; tauto|simp_pc; auto using after_stop_not, after_join_not|easy_new|first [apply same_refl; reflexivity|apply same_thr; [apply thr_flag|reflexivity]]]; fail).
  all: eexists; split; [reflexivity|]; split; [intros u Hu; cbn; apply upd_neq; exact Hu|].
  all: try (match goal with |- Cls ?a _ _ (cat _ (TStart1 ?b _) _ _ _) _ => destruct (Nat.eq_dec b a) as [->|N] | _ : _ = TStart1 ?b _ |- Cls ?a _ _ _ _ => destruct (Nat.eq_dec b a) as [->|N]
     | _ : _ = TStart2 ?b _ _ |- Cls ?a _ _ _ _ => destruct (Nat.eq_dec b a) as [->|N] | _ : _ = TStart3 ?b _ |- Cls ?a _ _ _ _ => destruct (Nat.eq_dec b a) as [->|N]
     | _ : _ = TStart4 ?b _ |- Cls ?a _ _ _ _ => destruct (Nat.eq_dec b a) as [->|N] | _ : _ = TStart5 ?b _ |- Cls ?a _ _ _ _ => destruct (Nat.eq_dec b a) as [->|N]
     | _ : _ = TStart6 ?b _ |- Cls ?a _ _ _ _ => destruct (Nat.eq_dec b a) as [->|N] | _ : _ = TStart7 ?b _ |- Cls ?a _ _ _ _ => destruct (Nat.eq_dec b a) as [->|N]
     | _ : _ = TStart8 ?b _ |- Cls ?a _ _ _ _ => destruct (Nat.eq_dec b a) as [->|N] | _ : _ = TStart9 ?b _ |- Cls ?a _ _ _ _ => destruct (Nat.eq_dec b a) as [->|N] end;
   [|try (apply ClOther; [rewrite Ep; cbn; tauto|simp_pc; auto using after_start_not|easy_new|first [apply same_refl; reflexivity|apply same_thr; [first [apply thr_flag|apply thr_pid]|reflexivity]]]; fail)]).
  all: try (eapply ClEnter; [reflexivity|rewrite Ep; cbn; tauto|simp_pc; reflexivity|apply same_refl; reflexivity]; fail).
  all: try (eapply ClRead; [reflexivity|rewrite Ep; cbn; tauto|rewrite Ep; cbn; tauto|simp_pc; reflexivity|assumption|apply same_refl; reflexivity]; fail).
  all: try (eapply ClPre; [reflexivity|rewrite Ep; cbn; tauto|simp_pc; reflexivity|rewrite Ep; cbn; first [left; reflexivity|right; left; split; [tauto|assumption]|right; right; do 2 eexists; split; [reflexivity|assumption]]|first [apply same_refl; reflexivity|apply same_thr; [first [apply thr_flag|apply thr_pid]|reflexivity]]]; fail).
  all: try (eapply ClPost; [reflexivity|rewrite Ep; cbn; tauto|simp_pc; reflexivity|apply same_refl; reflexivity]; fail).
  all: try (eapply ClExit; [reflexivity|rewrite Ep; cbn; tauto|simp_pc; apply after_start_not|apply same_refl; reflexivity|rewrite Ep; cbn; first [tauto|intros _ v Ev; congruence]]; fail).
  - apply (ClNew a t s _ _ k); [reflexivity|rewrite Ep; cbn; tauto|simp_pc; reflexivity|cbn; rewrite upd_eq; reflexivity|reflexivity].
  - apply ClOther; [rewrite Ep; cbn; tauto|simp_pc; exact N|easy_new|]. unfold same. cbn. rewrite upd_neq by (intros ->; apply N; reflexivity). split; [reflexivity|]. split.
    + intros w Lw _. apply upd_neq. lia.
    + intros w. unfold upd. destruct (Nat.eqb_spec w (cs_nw s)); [cbn; intros ->; destruct (N eq_refl)|reflexivity].
  - apply (ClSpawn a t s _ _ n); [reflexivity|rewrite Ep; cbn; tauto|simp_pc; apply after_start_not|exact E|exact E0|exact E|reflexivity].
  - apply ClOther; [rewrite Ep; cbn; tauto|simp_pc; apply after_start_not|easy_new|]. destruct (WG _ _ E) as [Wn _]. unfold same. cbn. split; [reflexivity|]. split.
    + intros w Lw Ew. apply upd_neq. intros ->. congruence.
    + intros w. unfold upd. destruct (Nat.eqb_spec w n); [cbn; intros Ew; exfalso; congruence|reflexivity].
  - apply ClOther; [rewrite Ep; cbn; tauto|simp_pc; tauto|easy_new|]. apply same_thr; [|reflexivity]. cbn. unfold upd. destruct (Nat.eqb_spec a (cs_na s)) as [->|Na]; [symmetry; apply La; reflexivity|reflexivity].
Qed.
Lemma classify_other t b s s' : cmove t b s = Some s' -> forall u, u <> t -> cs_threads s' u = cs_threads s u.
Proof. intros HS u Hu. unfold cmove in HS. cbv zeta in HS. destruct (ct_pc (cs_threads s t)) eqn:Ep; case_step HS; cbn; apply upd_neq; exact Hu. Qed.
Lemma wclassify w b s s' : wmove w b s = Some s' ->
  exists new q, cs_trace s' = cs_trace s ++ new /\ cs_threads s' = cs_threads s /\ (forall a, thr s' a = thr s a) /\
    wpc s w <> WNew /\ wpc s w <> WDead /\ q <> WNew /\ cs_workers s' = upd (cs_workers s) w (mkWk (wof s w) q) /\
    (forall e, In e new -> exists f, e = ETask (wof s w) w f) /\ cs_na s' = cs_na s /\ cs_nw s' = cs_nw s /\ cs_ctx s' = cs_ctx s.
Proof.
  unfold wmove. cbv zeta. intros HS. case_step HS.
  all: try (exists [], WFinally + exists [], WTask + exists [], WTest + exists [], WDead; cbn; rewrite app_nil_r; repeat split; try discriminate; try reflexivity; intros e []; fail).
  - exists [ETask (wof s w) w true], WFinally. cbn. repeat split; try discriminate; try reflexivity. intros e [<-|[]]. exists true. reflexivity.
  - exists [ETask (wof s w) w false], WWait. cbn. repeat split; try discriminate; try reflexivity. intros e [<-|[]]. exists false. reflexivity.
  - exists [], WExit. cbn. rewrite app_nil_r. repeat split; try discriminate; try reflexivity; [|intros e []]. intros a. unfold upd. destruct (Nat.eqb_spec a (wof s w)) as [->|N]; reflexivity.
Qed.
(** *** One actor, no overlapping starts *)
Record Inv (a : nat) (s : cstate) : Prop := mkInv {
  iA : forall t, In t (starting a (cs_trace s)) <-> in_start a (pc s t);
  iB : forall t u, in_start a (pc s t) -> in_start a (pc s u) -> t = u;
  iC : forall w, wof s w = a -> wpc s w <> WDead -> thr s a = Some w;
  iD1 : forall t w k, pc s t = TStart2 a w k -> thr s a = Some w;
  iD : forall t, pre_spawn a (pc s t) -> thread_dead s a;
  iE : forall t, post_spawn a (pc s t) -> exists w, thr s a = Some w /\ wpc s w = WNew;
  iF : forall w, wof s w = a -> wpc s w = WNew -> exists t, post_spawn a (pc s t) }.

Lemma in_filter_ne t u l : In t (filter (fun v => negb (Nat.eqb v u)) l) <-> In t l /\ t <> u.
Proof. rewrite filter_In. rewrite negb_true_iff, Nat.eqb_neq. reflexivity. Qed.
Lemma pre_in a p : pre_spawn a p -> in_start a p.
Proof. destruct p; cbn; tauto. Qed.
Lemma post_in a p : post_spawn a p -> in_start a p.
Proof. destruct p; cbn; tauto. Qed.
Lemma pre_not_post a p : pre_spawn a p -> post_spawn a p -> False.
Proof. destruct p; cbn; tauto. Qed.
Lemma starting_other a tr new : (forall e, In e new -> start_on a e = None /\ start_off a e = None) -> starting a (tr ++ new) = starting a tr.
Proof.
  revert tr. induction new as [|e new IH]; intros tr H; [rewrite app_nil_r; reflexivity|]. replace (tr ++ e :: new) with ((tr ++ [e]) ++ new) by (rewrite <- app_assoc; reflexivity).
  rewrite IH by (intros x I0; apply H; right; exact I0). unfold starting. rewrite inp_snoc. destruct (H e (or_introl eq_refl)) as [-> ->]. reflexivity.
Qed.
Lemma same_wpc a s s' w : Wf s -> same a s s' -> thr s a = Some w -> wpc s' w = wpc s w.
Proof. intros [WG _] (_ & S2 & _) T. destruct (WG _ _ T) as [A B]. rewrite (S2 w B A). reflexivity. Qed.
(** Steps that leave the actor's thread alone *)
Lemma inv_same a s s' : Wf s -> same a s s' -> Inv a s ->
  (forall t, In t (starting a (cs_trace s')) <-> in_start a (pc s' t)) ->
  (forall t u, in_start a (pc s' t) -> in_start a (pc s' u) -> t = u) ->
  (forall t w k, pc s' t = TStart2 a w k -> thr s a = Some w) ->
  (forall t, pre_spawn a (pc s' t) -> thread_dead s a) ->
  (forall t, post_spawn a (pc s' t) -> exists u, post_spawn a (pc s u)) ->
  (forall t, post_spawn a (pc s t) -> forall w, thr s a = Some w -> wpc s w = WNew -> exists u, post_spawn a (pc s' u)) -> Inv a s'.
Proof.
  intros W Sm I HA HB HD1 HD HE HF. pose proof (same_wpc a s s') as Sw. destruct Sm as (S1 & S2 & S3). constructor; try assumption.
  - intros w Ew Nd. rewrite S1. pose proof (S3 w Ew) as X. rewrite X in Ew, Nd. apply (iC a s I); assumption.
  - intros t w k Ep. rewrite S1. exact (HD1 t w k Ep).
  - intros t Pt w T. rewrite S1 in T. rewrite (Sw w W); [|repeat split; assumption|exact T]. exact (HD t Pt w T).
  - intros t Pt. destruct (HE t Pt) as (u & Pu). destruct (iE a s I u Pu) as (w & T & Ew). exists w. rewrite S1. split; [exact T|]. rewrite (Sw w W); [exact Ew|repeat split; assumption|exact T].
  - intros w Ew Nw. pose proof (S3 w Ew) as X. rewrite X in Ew, Nw. destruct (iF a s I w Ew Nw) as (t & Pt). apply (HF t Pt w); [|exact Nw]. apply (iC a s I); congruence.
Qed.
Lemma inv_step a p s s' : Wf s -> Inv a s -> cstep p s = Some s' -> (cs_na s = a -> thr s a = None) -> starts_apart a (cs_trace s') -> Inv a s'.
Proof.
  intros W I HS Hna Ap. destruct p as [t b|w b]; cbn [cstep] in HS.
  - destruct (classify t b s s' a W HS Hna) as (new & Etr & Oth & Cl).
    assert (Opc : forall u, u <> t -> pc s' u = pc s u) by (intros u Nu; rewrite (Oth u Nu); reflexivity).
    destruct Cl as [k En Nin Ep Sm|ok En In0 Nin Sm Npost|w En Po Nin T Ew T' Ws|k En Pre Ep T' Ws|w k En In0 Npo Ep T Sm|En In0 Pre Prem Sm|En Po Po' Sm|Nin Nin' Nnew Sm].
    + subst new. assert (E0 : starting a (cs_trace s) = []) by (apply (Ap (cs_trace s) t []); exact Etr).
      assert (None0 : forall u, ~ in_start a (pc s u)) by (intros u Hu; apply (iA a s I) in Hu; rewrite E0 in Hu; exact Hu).
      assert (In1 : forall u, in_start a (pc s' u) -> u = t) by (intros u Hu; destruct (Nat.eq_dec u t) as [->|Nu]; [reflexivity|]; rewrite (Opc u Nu) in Hu; destruct (None0 u Hu)).
      apply (inv_same a s s' W Sm I).
      * intros u. rewrite Etr. unfold starting. rewrite inp_snoc. cbn [start_on start_off]. rewrite Nat.eqb_refl. fold (starting a (cs_trace s)). rewrite E0. cbn [In]. split; [intros [<-|[]]; rewrite Ep; reflexivity|intros Hu; left; symmetry; exact (In1 u Hu)].
      * intros u v Hu Hv. rewrite (In1 u Hu), (In1 v Hv). reflexivity.
      * intros u w k' Eu. assert (Hu : u = t) by (apply In1; rewrite Eu; reflexivity). subst u. congruence.
      * intros u Pu. assert (Hu : u = t) by (apply In1, pre_in, Pu). subst u. rewrite Ep in Pu. destruct Pu.
      * intros u Pu. assert (Hu : u = t) by (apply In1, post_in, Pu). subst u. rewrite Ep in Pu. destruct Pu.
      * intros u Pu. destruct (None0 u (post_in _ _ Pu)).
    + subst new. assert (Only : forall u, in_start a (pc s u) -> u = t) by (intros u Hu; exact (iB a s I u t Hu In0)).
      assert (None1 : forall u, ~ in_start a (pc s' u)) by (intros u Hu; destruct (Nat.eq_dec u t) as [->|Nu]; [exact (Nin Hu)|]; rewrite (Opc u Nu) in Hu; exact (Nu (Only u Hu))).
      apply (inv_same a s s' W Sm I).
      * intros u. rewrite Etr. unfold starting. rewrite inp_snoc. cbn [start_on start_off]. rewrite Nat.eqb_refl. fold (starting a (cs_trace s)). rewrite in_filter_ne, (iA a s I u). split; [intros [Hu Nu]; destruct (Nu (Only u Hu))|intros Hu; destruct (None1 u Hu)].
      * intros u v Hu. destruct (None1 u Hu).
      * intros u w k' Eu. destruct (None1 u). rewrite Eu. reflexivity.
      * intros u Pu. destruct (None1 u (pre_in _ _ Pu)).
      * intros u Pu. destruct (None1 u (post_in _ _ Pu)).
      * intros u Pu w T Ew. assert (u = t) by (apply Only, post_in, Pu). subst u. destruct (Npost Pu w T Ew).
    + subst new. assert (Only : forall u, in_start a (pc s u) -> u = t) by (intros u Hu; exact (iB a s I u t Hu (post_in _ _ Po))).
      assert (None1 : forall u, ~ in_start a (pc s' u)) by (intros u Hu; destruct (Nat.eq_dec u t) as [->|Nu]; [exact (Nin Hu)|]; rewrite (Opc u Nu) in Hu; exact (Nu (Only u Hu))).
      destruct (wG s W _ _ T) as [Wa _].
      constructor.
      * intros u. rewrite Etr. unfold starting. rewrite inp_snoc. cbn [start_on start_off]. rewrite Nat.eqb_refl. fold (starting a (cs_trace s)). rewrite in_filter_ne, (iA a s I u). split; [intros [Hu Nu]; destruct (Nu (Only u Hu))|intros Hu; destruct (None1 u Hu)].
      * intros u v Hu. destruct (None1 u Hu).
      * intros v. rewrite Ws. unfold upd. destruct (Nat.eqb_spec v w) as [->|Nv]; cbn; [intros _ _; exact T'|]. intros Ev Nd. rewrite T', <- T. apply (iC a s I); assumption.
      * intros u v k' Eu. destruct (None1 u). rewrite Eu. reflexivity.
      * intros u Pu. destruct (None1 u (pre_in _ _ Pu)).
      * intros u Pu. destruct (None1 u (post_in _ _ Pu)).
      * intros v. rewrite Ws. unfold upd. destruct (Nat.eqb_spec v w) as [->|Nv]; cbn; [discriminate|]. intros Ev Nd. exfalso. assert (X : thr s a = Some v) by (apply (iC a s I); congruence). congruence.
    + subst new. rewrite app_nil_r in Etr. assert (In0 := pre_in _ _ Pre). assert (Only : forall u, in_start a (pc s u) -> u = t) by (intros u Hu; exact (iB a s I u t Hu In0)).
      assert (In1 : forall u, in_start a (pc s' u) -> u = t) by (intros u Hu; destruct (Nat.eq_dec u t) as [->|Nu]; [reflexivity|]; rewrite (Opc u Nu) in Hu; exact (Only u Hu)).
      assert (Dead : forall v, wof s v = a -> wpc s v = WDead).
      { intros v Ev. destruct (wpc s v) eqn:Epv; try reflexivity; exfalso; assert (X : thr s a = Some v) by (apply (iC a s I); congruence); pose proof (iD a s I t Pre v X); congruence. }
      constructor.
      * intros u. rewrite Etr, (iA a s I u). split; [intros Hu; rewrite (Only u Hu), Ep; reflexivity|intros Hu; rewrite (In1 u Hu); exact In0].
      * intros u v Hu Hv. rewrite (In1 u Hu), (In1 v Hv). reflexivity.
      * intros v. rewrite Ws. unfold upd. destruct (Nat.eqb_spec v (cs_nw s)) as [->|Nv]; cbn; [intros _ _; exact T'|]. intros Ev Nd. destruct (Nd (Dead v Ev)).
      * intros u v k' Eu. assert (u = t) by (apply In1; rewrite Eu; reflexivity). subst u. congruence.
      * intros u Pu. assert (u = t) by (apply In1, pre_in, Pu). subst u. rewrite Ep in Pu. destruct Pu.
      * intros u Pu. exists (cs_nw s). split; [exact T'|]. rewrite Ws, upd_eq. reflexivity.
      * intros v. rewrite Ws. unfold upd. destruct (Nat.eqb_spec v (cs_nw s)) as [->|Nv]; cbn; [intros _ _; exists t; rewrite Ep; reflexivity|]. intros Ev Nd. rewrite (Dead v Ev) in Nd. discriminate.
    + subst new. rewrite app_nil_r in Etr. assert (Only : forall u, in_start a (pc s u) -> u = t) by (intros u Hu; exact (iB a s I u t Hu In0)).
      assert (In1 : forall u, in_start a (pc s' u) -> u = t) by (intros u Hu; destruct (Nat.eq_dec u t) as [->|Nu]; [reflexivity|]; rewrite (Opc u Nu) in Hu; exact (Only u Hu)).
      apply (inv_same a s s' W Sm I).
      * intros u. rewrite Etr, (iA a s I u). split; [intros Hu; rewrite (Only u Hu), Ep; reflexivity|intros Hu; rewrite (In1 u Hu); exact In0].
      * intros u v Hu Hv. rewrite (In1 u Hu), (In1 v Hv). reflexivity.
      * intros u v k' Eu. assert (u = t) by (apply In1; rewrite Eu; reflexivity). subst u. congruence.
      * intros u Pu. assert (u = t) by (apply In1, pre_in, Pu). subst u. rewrite Ep in Pu. destruct Pu.
      * intros u Pu. assert (u = t) by (apply In1, post_in, Pu). subst u. rewrite Ep in Pu. destruct Pu.
      * intros u Pu. assert (u = t) by (apply Only, post_in, Pu). subst u. destruct (Npo Pu).
    + subst new. rewrite app_nil_r in Etr. assert (Only : forall u, in_start a (pc s u) -> u = t) by (intros u Hu; exact (iB a s I u t Hu In0)).
      assert (In1 : forall u, in_start a (pc s' u) -> u = t) by (intros u Hu; destruct (Nat.eq_dec u t) as [->|Nu]; [reflexivity|]; rewrite (Opc u Nu) in Hu; exact (Only u Hu)).
      assert (Npo : ~ post_spawn a (pc s t)). { intros Po. destruct Prem as [P|[[P _]|(w & k & P & _)]]; [exact (pre_not_post _ _ P Po)|exact (P Po)|rewrite P in Po; destruct Po]. }
      assert (Td : thread_dead s a).
      { destruct Prem as [P|[[_ P]|(w & k & P & Na)]]; [exact (iD a s I t P)|intros w T; congruence|]. pose proof (iD1 a s I t w k P) as T. intros v T2. assert (v = w) by congruence. subst v.
        destruct (wpc s w) eqn:Ew; try discriminate; [|reflexivity]. destruct (wG s W _ _ T) as [Wa _]. destruct (iF a s I w Wa Ew) as (u & Pu). assert (u = t) by (apply Only, post_in, Pu). subst u. destruct (Npo Pu). }
      apply (inv_same a s s' W Sm I).
      * intros u. rewrite Etr, (iA a s I u). split; [intros Hu; rewrite (Only u Hu); apply pre_in, Pre|intros Hu; rewrite (In1 u Hu); exact In0].
      * intros u v Hu Hv. rewrite (In1 u Hu), (In1 v Hv). reflexivity.
      * intros u v k' Eu. assert (u = t) by (apply In1; rewrite Eu; reflexivity). subst u. rewrite Eu in Pre. destruct Pre.
      * intros u Pu. exact Td.
      * intros u Pu. assert (u = t) by (apply In1, post_in, Pu). subst u. destruct (pre_not_post _ _ Pre Pu).
      * intros u Pu. assert (u = t) by (apply Only, post_in, Pu). subst u. destruct (Npo Pu).
    + subst new. rewrite app_nil_r in Etr. assert (In0 := post_in _ _ Po). assert (Only : forall u, in_start a (pc s u) -> u = t) by (intros u Hu; exact (iB a s I u t Hu In0)).
      assert (In1 : forall u, in_start a (pc s' u) -> u = t) by (intros u Hu; destruct (Nat.eq_dec u t) as [->|Nu]; [reflexivity|]; rewrite (Opc u Nu) in Hu; exact (Only u Hu)).
      apply (inv_same a s s' W Sm I).
      * intros u. rewrite Etr, (iA a s I u). split; [intros Hu; rewrite (Only u Hu); apply post_in, Po'|intros Hu; rewrite (In1 u Hu); exact In0].
      * intros u v Hu Hv. rewrite (In1 u Hu), (In1 v Hv). reflexivity.
      * intros u v k' Eu. assert (u = t) by (apply In1; rewrite Eu; reflexivity). subst u. rewrite Eu in Po'. destruct Po'.
      * intros u Pu. assert (u = t) by (apply In1, pre_in, Pu). subst u. destruct (pre_not_post _ _ Pu Po').
      * intros u Pu. exists t. exact Po.
      * intros u Pu w T Ew. exists t. exact Po'.
    + apply (inv_same a s s' W Sm I).
      * intros u. rewrite Etr, (starting_other a _ _ Nnew), (iA a s I u). destruct (Nat.eq_dec u t) as [->|Nu]; [tauto|]. rewrite (Opc u Nu). reflexivity.
      * intros u v. destruct (Nat.eq_dec u t) as [->|Nu]; [intros Hu; destruct (Nin' Hu)|]. destruct (Nat.eq_dec v t) as [->|Nv]; [intros _ Hv; destruct (Nin' Hv)|]. rewrite (Opc u Nu), (Opc v Nv). apply (iB a s I).
      * intros u w k Eu. destruct (Nat.eq_dec u t) as [->|Nu]; [destruct Nin'; rewrite Eu; reflexivity|]. rewrite (Opc u Nu) in Eu. exact (iD1 a s I u w k Eu).
      * intros u Pu. destruct (Nat.eq_dec u t) as [->|Nu]; [destruct (Nin' (pre_in _ _ Pu))|]. rewrite (Opc u Nu) in Pu. exact (iD a s I u Pu).
      * intros u Pu. destruct (Nat.eq_dec u t) as [->|Nu]; [destruct (Nin' (post_in _ _ Pu))|]. rewrite (Opc u Nu) in Pu. exists u. exact Pu.
      * intros u Pu w T Ew. exists u. destruct (Nat.eq_dec u t) as [->|Nu]; [destruct (Nin (post_in _ _ Pu))|]. rewrite (Opc u Nu). exact Pu.
  - destruct (wclassify w b s s' HS) as (new & q & Etr & Eth & Ethr & N1 & N2 & N3 & Ews & Ene & _).
    constructor.
    + intros t. rewrite Etr, Eth, starting_other; [apply (iA a s I)|]. intros e He. destruct (Ene e He) as (f & ->). split; reflexivity.
    + rewrite Eth. apply (iB a s I).
    + intros v. rewrite Ews, Ethr. unfold upd. destruct (Nat.eqb_spec v w) as [->|Nv]; cbn; [intros Ew _; apply (iC a s I); assumption|apply (iC a s I)].
    + intros t v k. rewrite Eth, Ethr. apply (iD1 a s I).
    + intros t Pt v. rewrite Eth in Pt. rewrite Ethr, Ews. intros T. pose proof (iD a s I t Pt v T) as Dv. unfold upd. destruct (Nat.eqb_spec v w) as [->|Nv]; [congruence|exact Dv].
    + intros t. rewrite Eth, Ethr, Ews. intros Pt. destruct (iE a s I t Pt) as (v & T & Ev). exists v. split; [exact T|]. unfold upd. destruct (Nat.eqb_spec v w) as [->|Nv]; [congruence|exact Ev].
    + intros v. rewrite Ews, Eth. unfold upd. destruct (Nat.eqb_spec v w) as [->|Nv]; cbn; [congruence|]. apply (iF a s I).
Qed.
Lemma na_step p s s' : cstep p s = Some s' -> cs_na s <= cs_na s'.
Proof.
  destruct p as [t b|w b]; cbn [cstep]; intros HS.
  - unfold cmove in HS. cbv zeta in HS. destruct (ct_pc (cs_threads s t)); case_step HS; cbn; lia.
  - destruct (wclassify _ _ _ _ HS) as (? & ? & _ & _ & _ & _ & _ & _ & _ & _ & -> & _). lia.
Qed.
Record Good (a n : nat) (s : cstate) : Prop := mkGood { gW : Wf s; gI : Inv a s; gN : n <= cs_na s }.
Lemma wf_start n progs : Wf (cstart n progs).
Proof. split; cbn; [discriminate|reflexivity]. Qed.
Lemma inv_start a n progs : Inv a (cstart n progs).
Proof. constructor; cbn; try tauto; try congruence; try discriminate. Qed.
Lemma good_step a n p s s' : a < n -> Good a n s -> cstep p s = Some s' -> starts_apart a (cs_trace s') -> Good a n s'.
Proof.
  intros La [W I N] HS Ap. constructor; [exact (wf_step _ _ _ W HS)| |pose proof (na_step _ _ _ HS); lia]. apply (inv_step a p s s' W I HS); [lia|exact Ap].
Qed.
Lemma apart_pre a x y : starts_apart a (x ++ y) -> starts_apart a x.
Proof. intros H. exact (apart_prefix (fun t => EStart t a) x y H). Qed.
Lemma good_run a n sc s : a < n -> Good a n s -> starts_apart a (cs_trace (crun sc s)) -> Good a n (crun sc s).
Proof. intros La G Ap. apply (crun_ind (Good a n) (starts_apart a)); [exact (apart_pre a)| |exact G|exact Ap]. intros p u u' Gu. apply good_step; assumption. Qed.

Lemma one_worker a s w v : Inv a s -> works s a w -> works s a v -> w = v.
Proof. intros I (A & _ & B) (C & _ & D). pose proof (iC a s I w A B). pose proof (iC a s I v C D). congruence. Qed.

(** *** While nobody starts the actor *)
Definition quiet (a : nat) (s : cstate) : Prop := forall t, ~ in_start a (pc s t).
Lemma quiet_starting a s : Inv a s -> starting a (cs_trace s) = [] -> quiet a s.
Proof. intros I E t H. apply (iA a s I) in H. rewrite E in H. exact H. Qed.
Lemma quiet_step a n p s s' new : a < n \/ (cs_na s = a -> thr s a = None) -> Good a n s -> quiet a s -> cstep p s = Some s' -> cs_trace s' = cs_trace s ++ new -> no_start_of a new ->
  quiet a s' /\ (same a s s' \/ exists w b, p = PW w b).
Proof.
  intros La [W I N] Q HS Etr Ns. destruct p as [t b|w b].
  - cbn [cstep] in HS. destruct (classify t b s s' a W HS) as (new' & Etr' & Oth & Cl); [destruct La as [La|La]; [lia|exact La]|].
    assert (new' = new) by (rewrite Etr in Etr'; apply app_inv_head in Etr'; symmetry; exact Etr'). subst new'.
    assert (Opc : forall u, u <> t -> pc s' u = pc s u) by (intros u Nu; rewrite (Oth u Nu); reflexivity).
    destruct Cl as [k En Nin Ep Sm|ok En In0 Nin Sm Npost|w En Po Nin T Ew T' Ws|k En Pre Ep T' Ws|w k En In0 Npo Ep T Sm|En In0 Pre Prem Sm|En Po Po' Sm|Nin Nin' Nnew Sm].
    + exfalso. apply (Ns t). rewrite En. left. reflexivity.
    + destruct (Q t In0).
    + destruct (Q t (post_in _ _ Po)).
    + destruct (Q t (pre_in _ _ Pre)).
    + destruct (Q t In0).
    + destruct (Q t In0).
    + destruct (Q t (post_in _ _ Po)).
    + split; [|left; exact Sm]. intros u Hu. destruct (Nat.eq_dec u t) as [->|Nu]; [exact (Nin' Hu)|]. rewrite (Opc u Nu) in Hu. exact (Q u Hu).
  - cbn [cstep] in HS. destruct (wclassify w b s s' HS) as (_ & _ & _ & Eth & _). split; [|right; exists w, b; reflexivity]. intros u. rewrite Eth. apply Q.
Qed.
Lemma dead_same a s s' : Wf s -> same a s s' -> thread_dead s a -> thread_dead s' a.
Proof. intros W Sm D w T. rewrite (same_wpc a s s' w W Sm); [apply D|]; destruct Sm as (S1 & _); rewrite <- S1; exact T. Qed.
Lemma dead_worker a w b s s' : wmove w b s = Some s' -> thread_dead s a -> thread_dead s' a.
Proof.
  intros HS D v T. destruct (wclassify w b s s' HS) as (_ & q & _ & _ & Et & N1 & N2 & _ & Ew & _). rewrite Et in T. pose proof (D v T) as Dv. rewrite Ew. unfold upd. destruct (Nat.eqb_spec v w) as [->|Nv]; [congruence|exact Dv].
Qed.
Lemma dead_step a n p s s' new : a < n \/ (cs_na s = a -> thr s a = None) -> Good a n s -> quiet a s -> cstep p s = Some s' -> cs_trace s' = cs_trace s ++ new -> no_start_of a new -> thread_dead s a -> thread_dead s' a.
Proof.
  intros La G Q HS Etr Ns D. destruct (quiet_step a n p s s' new La G Q HS Etr Ns) as [_ [Sm|(w & b & ->)]]; [exact (dead_same a s s' (gW _ _ _ G) Sm D)|exact (dead_worker a w b s s' HS D)].
Qed.
Lemma thr_step a n p s s' new : a < n \/ (cs_na s = a -> thr s a = None) -> Good a n s -> quiet a s -> cstep p s = Some s' -> cs_trace s' = cs_trace s ++ new -> no_start_of a new -> thr s' a = thr s a.
Proof.
  intros La G Q HS Etr Ns. destruct (quiet_step a n p s s' new La G Q HS Etr Ns) as [_ [(Sm & _)|(w & b & ->)]]; [exact Sm|]. destruct (wclassify w b s s' HS) as (_ & q & _ & _ & Et & _). apply Et.
Qed.
Lemma not_new a s w : Inv a s -> Wf s -> quiet a s -> thr s a = Some w -> wpc s w <> WNew.
Proof. intros I W Q T Ew. destruct (wG s W _ _ T) as [Wa _]. destruct (iF a s I w Wa Ew) as (t & Pt). exact (Q t (post_in _ _ Pt)). Qed.
Lemma not_alive_dead a s w : Inv a s -> Wf s -> quiet a s -> thr s a = Some w -> started_alive (wpc s w) = false -> thread_dead s a.
Proof. intros I W Q T Al v Tv. assert (v = w) by congruence. subst v. pose proof (not_new a s w I W Q T). destruct (wpc s w); try discriminate; congruence. Qed.
(** What a thread in stop or join knows *)
Definition knows (a : nat) (s : cstate) (p : tpc) : Prop :=
  match p with
  | TStop2 b w _ | TJoin5 b w _ => b = a -> thr s a = Some w
  | TStop3 b false _ | TJoin6 b _ | TJoin7 b false _ => b = a -> thread_dead s a
  | _ => True
  end.
Lemma knows_move a s s' p : thr s' a = thr s a -> (thread_dead s a -> thread_dead s' a) -> knows a s p -> knows a s' p.
Proof. intros T D. destruct p; cbn; try tauto; rewrite ?T; try tauto; destruct alive + destruct r; tauto. Qed.
Lemma knows_step a n p s s' new t : a < n \/ (cs_na s = a -> thr s a = None) -> Good a n s -> quiet a s -> cstep p s = Some s' -> cs_trace s' = cs_trace s ++ new -> no_start_of a new -> knows a s (pc s t) -> knows a s' (pc s' t).
Proof.
  intros La G Q HS Etr Ns K. pose proof (thr_step a n p s s' new La G Q HS Etr Ns) as T. pose proof (dead_step a n p s s' new La G Q HS Etr Ns) as D.
  destruct p as [u b|w b].
  - destruct (Nat.eq_dec t u) as [->|Nt].
    + clear Etr. cbn [cstep] in HS. unfold cmove in HS. cbv zeta in HS. revert K. destruct (ct_pc (cs_threads s u)) eqn:Ep; case_step HS; intros K; try (cbn; rewrite upd_eq; cbn; exact Logic.I).
      all: try (cbn in T |- *; rewrite ?upd_eq; cbn; destruct k; exact Logic.I).
      all: try (cbn; rewrite upd_eq; cbn; intros ->; assumption).
      all: cbn; rewrite upd_eq; cbn [ct_pc knows].
      * intros ->. apply D. intros v Tv. congruence.
      * destruct (started_alive (wpc s w)) eqn:Al; [exact Logic.I|]. intros ->. apply D. exact (not_alive_dead a s w (gI _ _ _ G) (gW _ _ _ G) Q (K eq_refl) Al).
      * intros ->. apply D. intros v Tv. congruence.
      * intros ->. apply D. exact (not_alive_dead a s w (gI _ _ _ G) (gW _ _ _ G) Q (K eq_refl) E).
      * intros ->. apply D. exact (K eq_refl).
    + assert (Eu : pc s' t = pc s t). { cbn [cstep] in HS. destruct (classify u b s s' a (gW _ _ _ G) HS) as (_ & _ & Oth & _); [destruct La as [La|La]; [pose proof (gN _ _ _ G); lia|exact La]|]. rewrite (Oth t Nt). reflexivity. }
      rewrite Eu. exact (knows_move a s s' _ T D K).
  - assert (Eu : pc s' t = pc s t) by (destruct (wclassify w b s s' HS) as (_ & _ & _ & -> & _); reflexivity). rewrite Eu. exact (knows_move a s s' _ T D K).
Qed.

(** *** Calls in progress and where threads are *)
Section Progress.
Variables (on off : cevent -> option nat) (P : tpc -> Prop).
Definition progress_step (t : nat) (s s' : cstate) (new : list cevent) : Prop :=
  (exists e, new = [e] /\ on e = Some t /\ off e = None /\ P (pc s' t)) \/
  (exists e, new = [e] /\ on e = None /\ off e = Some t /\ ~ P (pc s' t)) \/
  ((forall e, In e new -> on e = None /\ off e = None) /\ (P (pc s t) <-> P (pc s' t))).
Hypothesis task_neutral : forall a w f, on (ETask a w f) = None /\ off (ETask a w f) = None.
Hypothesis move_ok : forall t b s s', cmove t b s = Some s' -> exists new, cs_trace s' = cs_trace s ++ new /\ progress_step t s s' new.
Lemma neutral tr new : (forall e, In e new -> on e = None /\ off e = None) -> in_progress on off [] (tr ++ new) = in_progress on off [] tr.
Proof.
  revert tr. induction new as [|e new IH]; intros tr H; [rewrite app_nil_r; reflexivity|]. replace (tr ++ e :: new) with ((tr ++ [e]) ++ new) by (rewrite <- app_assoc; reflexivity).
  rewrite IH by (intros x I0; apply H; right; exact I0). rewrite inp_snoc. destruct (H e (or_introl eq_refl)) as [-> ->]. reflexivity.
Qed.
Lemma progress_inv p s s' : (forall t, In t (in_progress on off [] (cs_trace s)) <-> P (pc s t)) -> cstep p s = Some s' ->
  forall t, In t (in_progress on off [] (cs_trace s')) <-> P (pc s' t).
Proof.
  intros H HS. destruct p as [t b|w b]; cbn [cstep] in HS.
  - destruct (move_ok t b s s' HS) as (new & Etr & St). pose proof (classify_other t b s s' HS) as Oth.
    intros u. rewrite Etr. destruct St as [(e & -> & On & Off & Pt)|[(e & -> & On & Off & Pt)|[Nn Iff]]].
    + rewrite inp_snoc, On, Off. cbn [In]. destruct (Nat.eq_dec u t) as [->|Nu]; [tauto|]. rewrite (Oth u Nu), (H u). split; [intros [->|X]; [congruence|exact X]|tauto].
    + rewrite inp_snoc, On, Off. rewrite in_filter_ne, (H u). destruct (Nat.eq_dec u t) as [->|Nu]; [tauto|]. rewrite (Oth u Nu). tauto.
    + rewrite (neutral _ _ Nn), (H u). destruct (Nat.eq_dec u t) as [->|Nu]; [exact Iff|]. rewrite (Oth u Nu). reflexivity.
  - destruct (wclassify w b s s' HS) as (new & q & Etr & Eth & _ & _ & _ & _ & _ & Ene & _). intros u. rewrite Etr, Eth, neutral; [apply H|]. intros e He. destruct (Ene e He) as (f & ->). apply task_neutral.
Qed.
End Progress.
Definition in_call (a : nat) (p : tpc) : Prop :=
  in_start a p \/ match p with TStop1 b _ | TStop2 b _ _ | TStop3 b _ _ | TJoin1 b _ _ | TJoin2 b _ _ | TJoin3 b _ _ _ | TJoin4 b _ | TJoin5 b _ _ | TJoin6 b _ | TJoin7 b _ _ => b = a | _ => False end.
Lemma after_start_not_call a k ok : ~ in_call a (after_start k ok). Proof. unfold in_call. destruct k; cbn; tauto. Qed.
Lemma after_stop_not_call a k : ~ in_call a (after_stop k). Proof. unfold in_call. destruct k; cbn; tauto. Qed.
Lemma after_join_not_call a k ok : ~ in_call a (after_join k ok). Proof. unfold in_call. destruct k, ok; cbn; tauto. Qed.
Lemma calling_move a t b s s' : cmove t b s = Some s' -> exists new, cs_trace s' = cs_trace s ++ new /\ progress_step (call_on a) (call_off a) (in_call a) t s s' new.
Proof.
  intros HS. unfold cmove in HS. cbv zeta in HS. destruct (ct_pc (cs_threads s t)) eqn:Ep; case_step HS; (eexists; split; [reflexivity|]).
  all: unfold progress_step; cbn [cat cs_threads]; rewrite ?upd_eq, Ep; cbn [ct_pc].
  all: try (right; right; split; [intros e He; cbn in He; tauto|unfold in_call; cbn; tauto]; fail).
  all: try (match goal with |- context[[EStart _ ?b]] => destruct (Nat.eq_dec b a) as [->|N] | |- context[[EStop _ ?b]] => destruct (Nat.eq_dec b a) as [->|N] | |- context[[EJoin _ ?b]] => destruct (Nat.eq_dec b a) as [->|N] end;
     [left; eexists; split; [reflexivity|]; cbn; rewrite Nat.eqb_refl; repeat split; unfold in_call; cbn; tauto
     |right; right; split; [intros e He; cbn in He; destruct He as [<-|[]]; cbn; apply Nat.eqb_neq in N; rewrite N; split; reflexivity|unfold in_call; cbn; tauto]]; fail).
  all: try (match goal with |- context[[EStartRet _ ?b _]] => destruct (Nat.eq_dec b a) as [->|N] | |- context[[EStopRet _ ?b]] => destruct (Nat.eq_dec b a) as [->|N] | |- context[[EJoinRet _ ?b _]] => destruct (Nat.eq_dec b a) as [->|N] end;
     [right; left; eexists; split; [reflexivity|]; cbn; rewrite Nat.eqb_refl; repeat split; auto using after_start_not_call, after_stop_not_call, after_join_not_call
     |right; right; split; [intros e He; cbn in He; destruct He as [<-|[]]; cbn; apply Nat.eqb_neq in N; rewrite N; split; reflexivity
        |pose proof (after_start_not_call a k true); pose proof (after_start_not_call a k false); pose proof (after_stop_not_call a k); pose proof (after_join_not_call a k true); pose proof (after_join_not_call a k false); split; [unfold in_call at 1; cbn; tauto|tauto]]]; fail).
  all: right; right; (split; [intros e He; cbn in He; destruct He as [<-|[]]; split; reflexivity|unfold in_call; cbn; tauto]).
Qed.
Definition Calls (a : nat) (s : cstate) : Prop := forall t, In t (calling a (cs_trace s)) <-> in_call a (pc s t).
Lemma calls_step a p s s' : Calls a s -> cstep p s = Some s' -> Calls a s'.
Proof. intros H HS. exact (progress_inv (call_on a) (call_off a) (in_call a) (fun _ _ _ => conj eq_refl eq_refl) (calling_move a) p s s' H HS). Qed.
Lemma calls_run a sc s : Calls a s -> Calls a (crun sc s).
Proof. intros H. apply (crun_ind (Calls a) (fun _ => True)); [tauto| |exact H|exact Logic.I]. intros p u u' Hu HS _. exact (calls_step a p u u' Hu HS). Qed.
Lemma calls_start a n progs : Calls a (cstart n progs).
Proof. intros t. unfold in_call. cbn. tauto. Qed.
