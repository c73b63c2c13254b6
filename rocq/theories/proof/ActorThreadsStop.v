(** Stopping an actor used by several threads: C98. *)
From Verif Require Import model.PyBase model.Core model.ActorThreads spec.ActorThreadsSpec proof.CoreLib proof.ActorThreadsProofs.
Open Scope nat_scope.
Notation pc s t := (ct_pc (cs_threads s t)).
Notation wpc s w := (wk_pc (cs_workers s w)).
Notation wof s w := (wk_actor (cs_workers s w)).
Notation thr s a := (af_thread (cs_actors s a)).
Notation flag s a := (af_stopping (cs_actors s a)).

(** *** Which step emits an event *)
Ltac event_cases HS Etr := unfold cmove in HS; cbv zeta in HS;
  match type of HS with context[ct_pc (cs_threads ?s ?u)] => let Ep := fresh "Ep" in destruct (ct_pc (cs_threads s u)) eqn:Ep end; case_step HS; cbn in Etr; apply app_inv_head in Etr; try discriminate Etr.
Lemma no_task_event w b s s' e : wmove w b s = Some s' -> cs_trace s' = cs_trace s ++ [e] -> exists f, e = ETask (wof s w) w f.
Proof.
  intros HS Etr. destruct (wclassify w b s s' HS) as (new & q & Etr' & _ & _ & _ & _ & _ & _ & Ene & _). rewrite Etr in Etr'. apply app_inv_head in Etr'. subst new. apply Ene. left. reflexivity.
Qed.
Lemma ev_join p s s' t a : cstep p s = Some s' -> cs_trace s' = cs_trace s ++ [EJoin t a] -> exists timed k, pc s' t = TJoin1 a timed k.
Proof.
  intros HS Etr. destruct p as [u b|w b]; cbn [cstep] in HS; [|destruct (no_task_event _ _ _ _ _ HS Etr) as (f & X); discriminate X].
  event_cases HS Etr; injection Etr as <- <-; do 2 eexists; cbn; rewrite upd_eq; reflexivity.
Qed.
Lemma ev_join_ret p s s' t a r : cstep p s = Some s' -> cs_trace s' = cs_trace s ++ [EJoinRet t a (Some r)] -> exists b k, p = PT t b /\ pc s t = TJoin7 a r k.
Proof.
  intros HS Etr. destruct p as [u b|w b]; cbn [cstep] in HS; [|destruct (no_task_event _ _ _ _ _ HS Etr) as (f & X); discriminate X].
  event_cases HS Etr. injection Etr as <- <- <-. exists b, k. split; [reflexivity|exact Ep].
Qed.
Lemma ev_stop_ret p s s' t a : cstep p s = Some s' -> cs_trace s' = cs_trace s ++ [EStopRet t a] ->
  exists b al k, p = PT t b /\ pc s t = TStop3 a al k /\ flag s' a = al /\ cs_workers s' = cs_workers s /\ thr s' a = thr s a.
Proof.
  intros HS Etr. destruct p as [u b|w b]; cbn [cstep] in HS; [|destruct (no_task_event _ _ _ _ _ HS Etr) as (f & X); discriminate X].
  event_cases HS Etr. injection Etr as <- <-. exists b, alive, k. split; [reflexivity|]. split; [exact Ep|]. cbn. rewrite upd_eq. repeat split.
Qed.

(** *** Stretches of a run without calls of start *)
Lemma no_start_app a x y : no_start_of a (x ++ y) -> no_start_of a x /\ no_start_of a y.
Proof. intros H. split; intros t I; apply (H t), in_or_app; [left|right]; exact I. Qed.
Lemma apart_more a tr new : starts_apart a tr -> no_start_of a new -> starts_apart a (tr ++ new).
Proof. intros Ap Ns. exact (apart_nothing (fun t => EStart t a) tr new Ns Ap). Qed.
Lemma region a n (R : cstate -> Prop) : a < n ->
  (forall p s s' new, Good a n s -> quiet a s -> R s -> cstep p s = Some s' -> cs_trace s' = cs_trace s ++ new -> no_start_of a new -> R s') ->
  forall sc s z, Good a n s -> quiet a s -> starts_apart a (cs_trace s) -> R s -> cs_trace (crun sc s) = cs_trace s ++ z -> no_start_of a z ->
  Good a n (crun sc s) /\ quiet a (crun sc s) /\ R (crun sc s).
Proof.
  intros La St. induction sc as [|p sc IH]; intros s z G Q Ap Rs Etr Ns; [split; [exact G|split; [exact Q|exact Rs]]|]. cbn [crun] in *. destruct (cstep p s) as [s1|] eqn:E; [|exact (IH s z G Q Ap Rs Etr Ns)].
  destruct (cstep_trace _ _ _ E) as (n1 & E1 & _). destruct (crun_trace sc s1) as (n2 & E2).
  assert (z = n1 ++ n2) by (rewrite E2, E1, <- app_assoc in Etr; apply app_inv_head in Etr; symmetry; exact Etr). subst z. apply no_start_app in Ns. destruct Ns as [Ns1 Ns2].
  assert (Ap1 : starts_apart a (cs_trace s1)) by (rewrite E1; exact (apart_more a _ _ Ap Ns1)).
  destruct (quiet_step a n p s s1 n1 (or_introl La) G Q E E1 Ns1) as [Q1 _].
  apply (IH s1 n2 (good_step a n p s s1 La G E Ap1) Q1 Ap1 (St p s s1 n1 G Q Rs E E1 Ns1) E2 Ns2).
Qed.
Lemma task_app sel x y : task_calls sel (x ++ y) = task_calls sel x + task_calls sel y.
Proof. unfold task_calls. rewrite filter_app, app_length. reflexivity. Qed.
(** The task calls of an actor are those of its thread *)
Lemma task_step a p s s' new : Inv a s -> cstep p s = Some s' -> cs_trace s' = cs_trace s ++ new ->
  task_calls (Nat.eqb a) new = 0 \/ (exists w b, p = PW w b /\ thr s a = Some w /\ wpc s w = WTask /\ task_calls (Nat.eqb a) new = 1).
Proof.
  intros I HS Etr. destruct p as [t b|w b]; cbn [cstep] in HS.
  - left. unfold cmove in HS. cbv zeta in HS. destruct (ct_pc (cs_threads s t)); case_step HS; cbn in Etr; apply app_inv_head in Etr; subst new; reflexivity.
  - unfold wmove in HS. cbv zeta in HS. destruct (wpc s w) eqn:Ew; try discriminate HS.
    2: { injection HS as <-. cbn in Etr. apply app_inv_head in Etr. subst new. unfold task_calls. cbn. destruct (Nat.eqb_spec a (wof s w)) as [->|N]; [right|left; reflexivity]. exists w, b. split; [reflexivity|]. split; [apply (iC _ s I); congruence|]. split; [exact Ew|reflexivity]. }
    all: left; injection HS as <-; cbn in Etr; rewrite <- (app_nil_r (cs_trace s)) in Etr at 1; apply app_inv_head in Etr; subst new; reflexivity.
Qed.
Lemma dead_not_working a s w : Inv a s -> thread_dead s a -> ~ works s a w.
Proof. intros I D (A & _ & B). pose proof (D w (iC a s I w A B)). congruence. Qed.

Lemma dead_quiet a n tr0 sc s z : a < n -> Good a n s -> quiet a s -> starts_apart a (cs_trace s) -> thread_dead s a -> cs_trace s = tr0 ->
  cs_trace (crun sc s) = tr0 ++ z -> no_start_of a z -> task_calls (Nat.eqb a) z = 0 /\ forall w, ~ works (crun sc s) a w.
Proof.
  intros La G Q Ap D E0 Etr Ns.
  destruct (region a n (fun u => thread_dead u a /\ exists y, cs_trace u = tr0 ++ y /\ task_calls (Nat.eqb a) y = 0) La) with (sc := sc) (s := s) (z := z) as (Gr & Qr & Dr & y & Ey & Ty); try assumption.
  - intros p u u' new Gu Qu (Du & y & Ey & Ty) HS En Nn. split; [exact (dead_step a n p u u' new (or_introl La) Gu Qu HS En Nn Du)|].
    exists (y ++ new). split; [rewrite En, Ey, app_assoc; reflexivity|]. rewrite task_app, Ty. destruct (task_step a p u u' new (gI _ _ _ Gu) HS En) as [->|(w & b & _ & T & Ew & _)]; [reflexivity|]. pose proof (Du w T). congruence.
  - split; [exact D|]. exists []. rewrite E0, app_nil_r. split; reflexivity.
  - rewrite E0. exact Etr.
  - rewrite Ey in Etr. apply app_inv_head in Etr. subst y. split; [exact Ty|]. intros w. exact (dead_not_working a _ w (gI _ _ _ Gr) Dr).
Qed.
Lemma joined_quiet n progs sc a x t m y : a < n -> let s := crun sc (cstart n progs) in
  starts_apart a (cs_trace s) -> cs_trace s = x ++ EJoin t a :: m ++ EJoinRet t a (Some false) :: y -> starting a x = [] -> no_start_of a (m ++ y) ->
  task_calls (Nat.eqb a) y = 0 /\ forall w, ~ works s a w.
Proof.
  intros La s Ap Etr E0 Ns. apply no_start_app in Ns. destruct Ns as [Nm Ny].
  destruct (crun_event sc _ _ _ _ Etr (Nat.le_0_l _)) as (sc1 & p1 & sc2 & s1 & Esc & Ex & Es1 & Et1 & Er). set (s0 := crun sc1 (cstart n progs)) in *.
  assert (A0 : starts_apart a (cs_trace s0)) by (rewrite Ex; rewrite Etr in Ap; exact (apart_pre a _ _ Ap)).
  assert (G0 : Good a n s0) by (apply good_run; [exact La|constructor; [apply wf_start|apply inv_start|apply le_n]|exact A0]).
  assert (Q0 : quiet a s0) by (apply (quiet_starting a s0 (gI _ _ _ G0)); rewrite Ex; exact E0).
  assert (Et1' : cs_trace s1 = cs_trace s0 ++ [EJoin t a]) by (rewrite Et1, Ex; reflexivity).
  assert (Nj : no_start_of a [EJoin t a]) by (intros u [X|[]]; discriminate).
  assert (A1 : starts_apart a (cs_trace s1)) by (rewrite Et1'; exact (apart_more a _ _ A0 Nj)).
  pose proof (good_step a n p1 s0 s1 La G0 Es1 A1) as G1. destruct (quiet_step a n p1 s0 s1 _ (or_introl La) G0 Q0 Es1 Et1' Nj) as [Q1 _].
  destruct (ev_join p1 s0 s1 t a Es1 Et1') as (timed & k & Ep1).
  unfold s in Etr. rewrite Er in Etr. assert (Etr2 : cs_trace (crun sc2 s1) = (x ++ EJoin t a :: m) ++ EJoinRet t a (Some false) :: y) by (rewrite Etr, <- app_assoc; reflexivity).
  destruct (crun_event sc2 s1 _ _ _ Etr2) as (sc3 & p2 & sc4 & s3 & Esc2 & Ex2 & Es3 & Et3 & Er3); [rewrite Et1, !app_length; cbn; lia|]. set (s2 := crun sc3 s1) in *.
  assert (R2 : Good a n s2 /\ quiet a s2 /\ knows a s2 (pc s2 t)).
  { apply (region a n (fun u => knows a u (pc u t)) La) with (z := m); try assumption.
    - intros p u u' new Gu Qu K HS En Nn. exact (knows_step a n p u u' new t (or_introl La) Gu Qu HS En Nn K).
    - rewrite Ep1. exact Logic.I.
    - fold s2. rewrite Ex2, Et1, <- app_assoc. reflexivity. }
  destruct R2 as (G2 & Q2 & K2). assert (Et3' : cs_trace s3 = cs_trace s2 ++ [EJoinRet t a (Some false)]) by (rewrite Et3, Ex2; reflexivity).
  destruct (ev_join_ret p2 s2 s3 t a false Es3 Et3') as (b & k2 & _ & Ep2). rewrite Ep2 in K2. specialize (K2 eq_refl).
  assert (Nr : no_start_of a [EJoinRet t a (Some false)]) by (intros u [X|[]]; discriminate).
  assert (A2 : starts_apart a (cs_trace s2)) by (rewrite Ex2; replace (x ++ EJoin t a :: m) with (cs_trace s1 ++ m) by (rewrite Et1, <- app_assoc; reflexivity); exact (apart_more a _ _ A1 Nm)).
  assert (A3 : starts_apart a (cs_trace s3)) by (rewrite Et3'; exact (apart_more a _ _ A2 Nr)).
  pose proof (good_step a n p2 s2 s3 La G2 Es3 A3) as G3. destruct (quiet_step a n p2 s2 s3 _ (or_introl La) G2 Q2 Es3 Et3' Nr) as [Q3 _].
  pose proof (dead_step a n p2 s2 s3 _ (or_introl La) G2 Q2 Es3 Et3' Nr K2) as D3.
  unfold s. rewrite Er, Er3. apply (dead_quiet a n (cs_trace s3) sc4 s3 y La G3 Q3 A3 D3 eq_refl); [|exact Ny]. rewrite Et3, <- Er3, Etr2, <- (app_assoc _ [_] y). reflexivity.
Qed.

(** *** Told to stop *)
Definition told_stop (a : nat) (s : cstate) : Prop := forall w, thr s a = Some w -> flag s a = true \/ wpc s w = WExit \/ wpc s w = WDead.
Definition steps_left (p : wstate) : nat := match p with WTask => 5 | WWait => 4 | WTest => 3 | WFinally => 2 | WExit => 1 | _ => 0 end.
Definition tasks_left (a : nat) (s : cstate) : nat := match thr s a with Some w => match wpc s w with WTask => 1 | _ => 0 end | None => 0 end.
Definition all_know (a : nat) (s : cstate) : Prop := forall t, knows a s (pc s t).
Lemma ats_told_step a n p s s' new : a < n -> Good a n s -> quiet a s -> all_know a s -> told_stop a s -> cstep p s = Some s' -> cs_trace s' = cs_trace s ++ new -> no_start_of a new ->
  told_stop a s' /\ tasks_left a s' + task_calls (Nat.eqb a) new <= tasks_left a s /\
  (forall w, wof s w = a -> wpc s w <> WDead -> steps_left (wpc s' w) + (match p with PW v _ => if Nat.eqb v w then 1 else 0 | _ => 0 end) <= steps_left (wpc s w)).
Proof.
  intros La G Q K T HS Etr Ns. pose proof (thr_step a n p s s' new (or_introl La) G Q HS Etr Ns) as Et.
  destruct p as [t b|w b].
  - destruct (quiet_step a n _ s s' new (or_introl La) G Q HS Etr Ns) as [_ [Sm|(w & b' & X)]]; [|discriminate X].
    destruct (task_step a _ s s' new (gI _ _ _ G) HS Etr) as [Tc|(w & b' & X & _)]; [|discriminate X].
    assert (Wsame : forall w, thr s a = Some w -> wpc s' w = wpc s w) by (intros w Tw; exact (same_wpc a s s' w (gW _ _ _ G) Sm Tw)).
    assert (Fl : flag s' a = flag s a \/ flag s' a = true \/ thread_dead s a).
    { specialize (K t). cbn [cstep] in HS. unfold cmove in HS. cbv zeta in HS. destruct (ct_pc (cs_threads s t)) eqn:Ep; case_step HS; cbn; try (left; reflexivity); unfold upd; (match goal with |- context[Nat.eqb a ?x] => destruct (Nat.eqb_spec a x) as [Ex|Nx] end; [|left; reflexivity]); cbn; subst.
      - left. reflexivity.
      - exfalso. apply (Q t). rewrite Ep. reflexivity.
      - left. reflexivity.
      - destruct alive; [right; left; reflexivity|]. right. right. exact (K eq_refl).
      - right. right. exact (K eq_refl).
      - pose proof (gN _ _ _ G). lia. }
    split; [|split].
    + intros w Tw. rewrite Et in Tw. rewrite (Wsame w Tw). destruct Fl as [->|[->|D]]; [exact (T w Tw)|left; reflexivity|right; right; exact (D w Tw)].
    + rewrite Tc, Nat.add_0_r. unfold tasks_left. rewrite Et. destruct (thr s a) as [w|]; [|lia]. rewrite (Wsame w eq_refl). lia.
    + intros w Ew Nd. rewrite (Wsame w (iC a s (gI _ _ _ G) w Ew Nd)). lia.
  - cbn [cstep] in HS. destruct (Nat.eq_dec (wof s w) a) as [Ew|Ew].
    + destruct (wclassify w b s s' HS) as (_ & _ & _ & _ & _ & _ & Nd & _). pose proof (iC a s (gI _ _ _ G) w Ew Nd) as Tw.
      unfold wmove in HS. cbv zeta in HS. rewrite Ew in HS. destruct (wpc s w) eqn:Epw; try discriminate HS; try congruence; injection HS as <-; unfold tasks_left; rewrite Et, Tw, Epw.
      * destruct (T w Tw) as [Fl|[X|X]]; [|congruence|congruence]. rewrite Fl. cbn in Etr. rewrite <- (app_nil_r (cs_trace s)) in Etr at 1. apply app_inv_head in Etr. subst new. cbn. rewrite upd_eq. cbn. split; [|split; [lia|]].
        -- intros v Tv. left. exact Fl.
        -- intros v Ev Ndv. assert (v = w) by (pose proof (iC a s (gI _ _ _ G) v Ev Ndv); congruence). subst v. rewrite upd_eq, Epw, Nat.eqb_refl. cbn. lia.
      * cbn in Etr. apply app_inv_head in Etr. subst new. cbn. rewrite upd_eq. unfold task_calls. cbn. rewrite Nat.eqb_refl. destruct (T w Tw) as [Fl|[X|X]]; [|congruence|congruence]. split; [|split; [destruct b; cbn; lia|]].
        -- intros v Tv. left. exact Fl.
        -- intros v Ev Ndv. assert (v = w) by (pose proof (iC a s (gI _ _ _ G) v Ev Ndv); congruence). subst v. rewrite upd_eq, Epw, Nat.eqb_refl. destruct b; cbn; lia.
      * cbn in Etr. rewrite <- (app_nil_r (cs_trace s)) in Etr at 1. apply app_inv_head in Etr. subst new. cbn. rewrite upd_eq. cbn. destruct (T w Tw) as [Fl|[X|X]]; [|congruence|congruence]. split; [|split; [lia|]].
        -- intros v Tv. left. exact Fl.
        -- intros v Ev Ndv. assert (v = w) by (pose proof (iC a s (gI _ _ _ G) v Ev Ndv); congruence). subst v. rewrite upd_eq, Epw, Nat.eqb_refl. cbn. lia.
      * cbn in Etr. rewrite <- (app_nil_r (cs_trace s)) in Etr at 1. apply app_inv_head in Etr. subst new. cbn. rewrite upd_eq. cbn. split; [|split; [lia|]].
        -- intros v Tv. cbn in Tv. rewrite upd_eq in Tv. cbn in Tv. assert (v = w) by congruence. subst v. right. left. cbn. rewrite upd_eq. reflexivity.
        -- intros v Ev Ndv. assert (v = w) by (pose proof (iC a s (gI _ _ _ G) v Ev Ndv); congruence). subst v. rewrite upd_eq, Epw, Nat.eqb_refl. cbn. lia.
      * cbn in Etr. rewrite <- (app_nil_r (cs_trace s)) in Etr at 1. apply app_inv_head in Etr. subst new. cbn. rewrite upd_eq. cbn. split; [|split; [lia|]].
        -- intros v Tv. cbn in Tv. assert (v = w) by congruence. subst v. right. right. cbn. rewrite upd_eq. reflexivity.
        -- intros v Ev Ndv. assert (v = w) by (pose proof (iC a s (gI _ _ _ G) v Ev Ndv); congruence). subst v. rewrite upd_eq, Epw, Nat.eqb_refl. cbn. lia.
    + assert (Nv : forall v, thr s a = Some v -> v <> w) by (intros v Tv ->; destruct (wG s (gW _ _ _ G) _ _ Tv); congruence).
      destruct (task_step a (PW w b) s s' new (gI _ _ _ G) HS Etr) as [Tc|(v & b' & X & Tv & _)]; [|injection X as <- _; destruct (Nv w Tv eq_refl)].
      destruct (wclassify w b s s' HS) as (_ & q & _ & _ & _ & _ & _ & _ & Ews & _).
      assert (Fl : flag s' a = flag s a). { unfold wmove in HS. cbv zeta in HS. case_step HS; cbn; try reflexivity. rewrite upd_neq by congruence. reflexivity. }
      split; [|split].
      * intros v Tv. rewrite Et in Tv. rewrite Fl, Ews, (upd_neq _ _ _ _ (Nv v Tv)). exact (T v Tv).
      * rewrite Tc, Nat.add_0_r. unfold tasks_left. rewrite Et. destruct (thr s a) as [v|] eqn:Tv; [|lia]. rewrite Ews, (upd_neq _ _ _ _ (Nv v eq_refl)). lia.
      * intros v Ev Ndv. assert (v <> w) by congruence. rewrite Ews, upd_neq by assumption. destruct (Nat.eqb_spec w v); [congruence|]. lia.
Qed.

Lemma ats_told_run a n tr0 sc s z : a < n -> Good a n s -> quiet a s -> starts_apart a (cs_trace s) -> all_know a s -> told_stop a s -> cs_trace s = tr0 ->
  cs_trace (crun sc s) = tr0 ++ z -> no_start_of a z -> task_calls (Nat.eqb a) z <= 1.
Proof.
  intros La G Q Ap K T E0 Etr Ns.
  destruct (region a n (fun u => all_know a u /\ told_stop a u /\ exists y, cs_trace u = tr0 ++ y /\ tasks_left a u + task_calls (Nat.eqb a) y <= 1) La) with (sc := sc) (s := s) (z := z) as (_ & _ & _ & _ & y & Ey & Ty); try assumption.
  - intros p u u' new Gu Qu (Ku & Tu & y & Ey & Ty) HS En Nn. split; [intros t; exact (knows_step a n p u u' new t (or_introl La) Gu Qu HS En Nn (Ku t))|].
    destruct (ats_told_step a n p u u' new La Gu Qu Ku Tu HS En Nn) as (Tu' & Le & _). split; [exact Tu'|]. exists (y ++ new). split; [rewrite En, Ey, app_assoc; reflexivity|]. rewrite task_app. lia.
  - split; [exact K|]. split; [exact T|]. exists []. rewrite E0, app_nil_r. split; [reflexivity|]. unfold tasks_left, task_calls. cbn. destruct (thr s a) as [w|]; [destruct (wpc s w); lia|lia].
  - rewrite E0. exact Etr.
  - rewrite Ey in Etr. apply app_inv_head in Etr. subst y. lia.
Qed.
Lemma dead_forever a w p s s' : Wf s -> Inv a s -> quiet a s -> wof s w = a -> w < cs_nw s -> wpc s w = WDead -> cstep p s = Some s' -> (cs_na s = a -> thr s a = None) ->
  (forall new, cs_trace s' = cs_trace s ++ new -> no_start_of a new) -> wof s' w = a /\ w < cs_nw s' /\ wpc s' w = WDead.
Proof.
  intros W I Q Ew Lw Dw HS Hn Ns. destruct p as [t b|v b]; cbn [cstep] in HS.
  - assert (Lnw : cs_nw s <= cs_nw s') by (unfold cmove in HS; cbv zeta in HS; destruct (ct_pc (cs_threads s t)); case_step HS; cbn; lia).
    destruct (classify t b s s' a W HS Hn) as (new & Etr & _ & Cl). specialize (Ns new Etr).
    assert (Sm : same a s s').
    { destruct Cl as [k En Nin Ep Sm|ok En In0 Nin Sm Npost|v En Po Nin T Ev T' Ws|k En Pre Ep T' Ws|v k En In0 Npo Ep T Sm|En In0 Pre Prem Sm|En Po Po' Sm|Nin Nin' Nnew Sm]; try exact Sm; exfalso.
      - exact (Q t (post_in _ _ Po)).
      - exact (Q t (pre_in _ _ Pre)). }
    destruct Sm as (_ & S2 & _). rewrite (S2 w Lw Ew). repeat split; [exact Ew|lia|exact Dw].
  - destruct (wclassify v b s s' HS) as (_ & q & _ & _ & _ & _ & Nd & _ & Ews & _ & _ & En & _). rewrite Ews, En, upd_neq by congruence. repeat split; assumption.
Qed.
Lemma nw_step p s s' : cstep p s = Some s' -> cs_nw s <= cs_nw s'.
Proof.
  destruct p as [t b|w b]; cbn [cstep]; intros HS.
  - unfold cmove in HS. cbv zeta in HS. destruct (ct_pc (cs_threads s t)); case_step HS; cbn; lia.
  - destruct (wclassify _ _ _ _ HS) as (? & ? & _ & _ & _ & _ & _ & _ & _ & _ & _ & -> & _). lia.
Qed.
Lemma wof_step a n p s s' new w : a < n -> Good a n s -> quiet a s -> cstep p s = Some s' -> cs_trace s' = cs_trace s ++ new -> no_start_of a new ->
  wof s w = a -> w < cs_nw s -> wof s' w = a /\ w < cs_nw s'.
Proof.
  intros La G Q HS Etr Ns Ew Lw. pose proof (nw_step _ _ _ HS) as Lnw. split; [|lia]. destruct (quiet_step a n p s s' new (or_introl La) G Q HS Etr Ns) as [_ [(_ & S2 & _)|(v & b & ->)]]; [rewrite (S2 w Lw Ew); exact Ew|].
  destruct (wclassify v b s s' HS) as (_ & q & _ & _ & _ & _ & _ & _ & Ews & _). rewrite Ews. unfold upd. destruct (Nat.eqb_spec w v) as [->|Nv]; exact Ew.
Qed.
Lemma ends_run a n sc w : a < n -> forall s z, Good a n s -> quiet a s -> starts_apart a (cs_trace s) -> all_know a s -> told_stop a s -> wof s w = a -> w < cs_nw s ->
  cs_trace (crun sc s) = cs_trace s ++ z -> no_start_of a z -> steps_left (wpc (crun sc s) w) <= steps_left (wpc s w) - picks w sc /\ wpc (crun sc s) w <> WNew.
Proof.
  intros La. induction sc as [|p sc IH]; intros s z G Q Ap K T Ew Lw Etr Ns.
  - split; [cbn; lia|]. intros X. destruct (iF a s (gI _ _ _ G) w Ew X) as (t & Pt). exact (Q t (post_in _ _ Pt)).
  - cbn [crun] in *. destruct (cstep p s) as [s1|] eqn:E.
    + destruct (cstep_trace _ _ _ E) as (n1 & E1 & _). destruct (crun_trace sc s1) as (n2 & E2).
      assert (z = n1 ++ n2) by (rewrite E2, E1, <- app_assoc in Etr; apply app_inv_head in Etr; symmetry; exact Etr). subst z. apply no_start_app in Ns. destruct Ns as [Ns1 Ns2].
      assert (Ap1 : starts_apart a (cs_trace s1)) by (rewrite E1; exact (apart_more a _ _ Ap Ns1)).
      destruct (quiet_step a n p s s1 n1 (or_introl La) G Q E E1 Ns1) as [Q1 _]. pose proof (good_step a n p s s1 La G E Ap1) as G1.
      assert (K1 : all_know a s1) by (intros t; exact (knows_step a n p s s1 n1 t (or_introl La) G Q E E1 Ns1 (K t))).
      destruct (ats_told_step a n p s s1 n1 La G Q K T E E1 Ns1) as (T1 & _ & St). destruct (wof_step a n p s s1 n1 w La G Q E E1 Ns1 Ew Lw) as [Ew1 Lw1].
      destruct (IH s1 n2 G1 Q1 Ap1 K1 T1 Ew1 Lw1 E2 Ns2) as [Le Nn]. split; [|exact Nn].
      assert (Cs : wpc s w = WDead \/ wpc s w <> WDead) by (destruct (wpc s w); (left; reflexivity) + (right; discriminate)). destruct Cs as [D|Nd].
      * destruct (dead_forever a w p s s1 (gW _ _ _ G) (gI _ _ _ G) Q Ew Lw D E) as (_ & _ & D1); [pose proof (gN _ _ _ G); lia|intros new En; rewrite E1 in En; apply app_inv_head in En; subst new; exact Ns1|].
        rewrite D1 in Le. cbn in Le. lia.
      * specialize (St w Ew Nd). unfold picks in *. cbn [filter]. destruct p as [t b|v b]; [|destruct (Nat.eqb v w)]; cbn [length]; lia.
    + destruct (IH s z G Q Ap K T Ew Lw Etr Ns) as [Le Nn]. split; [|exact Nn]. destruct p as [t b|v b]; [exact Le|]. unfold picks in *. cbn [filter]. destruct (Nat.eqb_spec v w) as [->|Nv]; [|exact Le].
      cbn [cstep] in E. assert (D : wpc s w = WDead).
      { unfold wmove in E. cbv zeta in E. destruct (wpc s w) eqn:Ep; try discriminate E; [|reflexivity]. exfalso. destruct (iF a s (gI _ _ _ G) w Ew Ep) as (t & Pt). exact (Q t (post_in _ _ Pt)). }
      rewrite D in Le |- *. cbn in Le |- *. exact Le.
Qed.

(** A call of stop, made and returned while nobody starts the actor *)
Lemma ats_stopped n progs sc a x y t : a < n -> let s := crun sc (cstart n progs) in
  starts_apart a (cs_trace s) -> cs_trace s = x ++ y ++ [EStopRet t a] -> calling a x = [] -> no_start_of a y ->
  Good a n s /\ quiet a s /\ all_know a s /\ told_stop a s.
Proof.
  intros La s Ap Etr E0 Ny.
  assert (Etr' : cs_trace s = (x ++ y) ++ EStopRet t a :: []) by (rewrite Etr, app_assoc; reflexivity).
  destruct (crun_event sc _ _ _ _ Etr' (Nat.le_0_l _)) as (sc1 & p1 & sc2 & s1 & Esc & Ex & Es1 & Et1 & Er). set (s0 := crun sc1 (cstart n progs)) in *.
  (* where x ends *)
  assert (H0 : exists sa sb, sc1 = sa ++ sb /\ cs_trace (crun sa (cstart n progs)) = x).
  { destruct y as [|e y]; [exists sc1, []; rewrite app_nil_r in *; split; [reflexivity|exact Ex]|].
    destruct (crun_event sc1 (cstart n progs) x e y Ex (Nat.le_0_l _)) as (sa & p & sb & u & A & B & _). exists sa, (p :: sb). split; assumption. }
  destruct H0 as (sa & sb & Esc1 & Exa). set (sx := crun sa (cstart n progs)) in *.
  assert (Es0 : s0 = crun sb sx) by (unfold s0, sx; rewrite Esc1; apply crun_app).
  assert (Ax : starts_apart a (cs_trace sx)) by (rewrite Exa; rewrite Etr in Ap; exact (apart_pre a _ _ Ap)).
  assert (Gx : Good a n sx) by (apply good_run; [exact La|constructor; [apply wf_start|apply inv_start|apply le_n]|exact Ax]).
  assert (Cx : forall u, ~ in_call a (pc sx u)) by (intros u Hu; apply (calls_run a sa _ (calls_start a n progs)) in Hu; fold sx in Hu; rewrite Exa, E0 in Hu; exact Hu).
  assert (Qx : quiet a sx) by (intros u Hu; apply (Cx u); left; exact Hu).
  assert (Kx : all_know a sx). { intros u. specialize (Cx u). unfold in_call in Cx. destruct (pc sx u); cbn in *; try exact Logic.I; try (intros ->; tauto); destruct alive + destruct r; try exact Logic.I; intros ->; tauto. }
  assert (R0 : Good a n s0 /\ quiet a s0 /\ all_know a s0).
  { rewrite Es0. apply (region a n (all_know a) La) with (z := y); try assumption.
    - intros p u u' new Gu Qu Ku HS En Nn v. exact (knows_step a n p u u' new v (or_introl La) Gu Qu HS En Nn (Ku v)).
    - rewrite <- Es0, Ex, Exa. reflexivity. }
  destruct R0 as (G0 & Q0 & K0).
  assert (Et1' : cs_trace s1 = cs_trace s0 ++ [EStopRet t a]) by (rewrite Et1, Ex; reflexivity).
  assert (Nr : no_start_of a [EStopRet t a]) by (intros u [X|[]]; discriminate).
  assert (A0 : starts_apart a (cs_trace s0)) by (rewrite Ex, <- Exa; exact (apart_more a _ _ Ax Ny)).
  assert (A1 : starts_apart a (cs_trace s1)) by (rewrite Et1'; exact (apart_more a _ _ A0 Nr)).
  pose proof (good_step a n p1 s0 s1 La G0 Es1 A1) as G1. destruct (quiet_step a n p1 s0 s1 _ (or_introl La) G0 Q0 Es1 Et1' Nr) as [Q1 _].
  assert (K1 : all_know a s1) by (intros u; exact (knows_step a n p1 s0 s1 _ u (or_introl La) G0 Q0 Es1 Et1' Nr (K0 u))).
  assert (T1 : told_stop a s1).
  { destruct (ev_stop_ret p1 s0 s1 t a Es1 Et1') as (b & al & k & _ & Ep & Fl & Ews & Eth). intros w Tw. destruct al; [left; exact Fl|]. right. right. specialize (K0 t). rewrite Ep in K0. rewrite Ews. apply (K0 eq_refl). rewrite <- Eth. exact Tw. }
  (* sc2 emits nothing *)
  assert (E2 : cs_trace (crun sc2 s1) = cs_trace s1 ++ []). { rewrite <- Er. fold s. rewrite Etr', Et1, app_nil_r. reflexivity. }
  assert (Nn : no_start_of a []) by (intros u []).
  unfold s. rewrite Er.
  destruct (region a n (fun u => all_know a u /\ told_stop a u) La) with (sc := sc2) (s := s1) (z := @nil cevent) as (A & B & C & D); try assumption; [|split; assumption|split; [exact A|split; [exact B|split; [exact C|exact D]]]].
  intros p u u' new Gu Qu (Ku & Tu) HS En Nw. split; [intros v; exact (knows_step a n p u u' new v (or_introl La) Gu Qu HS En Nw (Ku v))|exact (proj1 (ats_told_step a n p u u' new La Gu Qu Ku Tu HS En Nw))].
Qed.

(** start of an actor that nobody stops *)
Definition in_stop (a : nat) (p : tpc) : Prop := match p with TStop1 b _ | TStop2 b _ _ | TStop3 b _ _ => b = a | _ => False end.
Record SO (a n : nat) (tr0 : list cevent) (s : cstate) : Prop := mkSO {
  oG : Good a n s; oF : flag s a = false; oS : forall t, ~ in_stop a (pc s t); oR : exists y, cs_trace s = tr0 ++ y /\ forall t, ~ In (EStartRet t a false) y }.
Lemma so_step a n tr0 p s s' : a < n -> SO a n tr0 s -> cstep p s = Some s' -> starts_apart a (cs_trace s') -> (forall new, cs_trace s' = cs_trace s ++ new -> no_stop_of a new) -> SO a n tr0 s'.
Proof.
  intros La [G F S (y & Ey & R)] HS Ap Ns. pose proof (good_step a n p s s' La G HS Ap) as G'. destruct (cstep_trace _ _ _ HS) as (new & Etr & _). specialize (Ns new Etr).
  assert (Fin : (forall u, ~ In (EStartRet u a false) new) -> exists y, cs_trace s' = tr0 ++ y /\ forall t, ~ In (EStartRet t a false) y).
  { intros Nr. exists (y ++ new). split; [rewrite Etr, Ey, app_assoc; reflexivity|]. intros u Iu. apply in_app_or in Iu. destruct Iu as [Iu|Iu]; [exact (R u Iu)|exact (Nr u Iu)]. }
  destruct p as [t b|w b]; cbn [cstep] in HS.
  - pose proof (classify_other t b s s' HS) as Oth.
    assert (Key : flag s' a = false /\ ~ in_stop a (pc s' t) /\ (forall u, ~ In (EStartRet u a false) new)).
    { clear Fin. pose proof (S t) as St. pose proof (iE a s (gI _ _ _ G) t) as Et. pose proof (gN _ _ _ G) as Nn. unfold cmove in HS. cbv zeta in HS.
      destruct (ct_pc (cs_threads s t)) eqn:Ep; case_step HS; cbn in *; rewrite ?upd_eq; cbn; apply app_inv_head in Etr; subst new.
      all: split; [first [exact F|unfold upd; match goal with |- context[Nat.eqb ?x ?y] => destruct (Nat.eqb_spec x y); cbn; subst; first [exact F|reflexivity|exfalso; lia|exfalso; exact (St eq_refl)] end]|].
      all: split; [first [tauto|destruct k; cbn; tauto|intros ->; apply (Ns t); left; reflexivity]|].
      all: intros u Iu; cbn in Iu; try tauto; destruct Iu as [Iu|[]]; try discriminate Iu; injection Iu as <- <-; try congruence.
      all: destruct (Et eq_refl) as (w0 & T0 & N0); congruence. }
    destruct Key as (K1 & K2 & K3). constructor; [exact G'|exact K1| |exact (Fin K3)]. intros u. destruct (Nat.eq_dec u t) as [->|Nu]; [exact K2|rewrite (Oth u Nu); exact (S u)].
  - pose proof HS as HS0. destruct (wclassify w b s s' HS) as (new' & q & Etr' & Eth & _ & _ & _ & _ & _ & Ene & _). constructor; [exact G'| |intros u; rewrite Eth; exact (S u)|].
    + unfold wmove in HS. cbv zeta in HS. case_step HS; cbn; try exact F. unfold upd. destruct (Nat.eqb a (wof s w)); [reflexivity|exact F].
    + apply Fin. intros u Iu. rewrite Etr in Etr'. apply app_inv_head in Etr'. subst new'. destruct (Ene _ Iu) as (f & X). discriminate X.
Qed.
Lemma no_stop_app a x y : no_stop_of a (x ++ y) -> no_stop_of a x /\ no_stop_of a y.
Proof. intros H. split; intros t I; apply (H t), in_or_app; [left|right]; exact I. Qed.
(** Stretches of a run without calls of stop *)
Lemma unstopped a n (R : cstate -> Prop) : a < n ->
  (forall p s s' new, Good a n s -> R s -> cstep p s = Some s' -> cs_trace s' = cs_trace s ++ new -> starts_apart a (cs_trace s') -> no_stop_of a new -> R s') ->
  forall sc s z, Good a n s -> R s -> cs_trace (crun sc s) = cs_trace s ++ z -> starts_apart a (cs_trace s ++ z) -> no_stop_of a z -> Good a n (crun sc s) /\ R (crun sc s).
Proof.
  intros La St. induction sc as [|p sc IH]; intros s z G Rs Etr Ap Ns; [split; [exact G|exact Rs]|]. cbn [crun] in *. destruct (cstep p s) as [s1|] eqn:E; [|exact (IH s z G Rs Etr Ap Ns)].
  destruct (cstep_trace _ _ _ E) as (n1 & E1 & _). destruct (crun_trace sc s1) as (n2 & E2).
  assert (z = n1 ++ n2) by (rewrite E2, E1, <- app_assoc in Etr; apply app_inv_head in Etr; symmetry; exact Etr). subst z. apply no_stop_app in Ns. destruct Ns as [Ns1 Ns2].
  assert (Ap1 : starts_apart a (cs_trace s1)) by (rewrite E1; rewrite app_assoc in Ap; exact (apart_pre a _ _ Ap)).
  apply (IH s1 n2 (good_step a n p s s1 La G E Ap1) (St p s s1 n1 G Rs E E1 Ap1 Ns1) E2); [rewrite E1, <- app_assoc; exact Ap|exact Ns2].
Qed.
Lemma so_run a n tr0 sc s z : a < n -> SO a n tr0 s -> cs_trace (crun sc s) = cs_trace s ++ z -> starts_apart a (cs_trace s ++ z) -> no_stop_of a z -> SO a n tr0 (crun sc s).
Proof.
  intros La So Etr Ap Ns. apply (unstopped a n (SO a n tr0) La) with (z := z); try assumption; [|exact (oG _ _ _ _ So)].
  intros p u u' new _ Su HS En Au Nn. apply (so_step a n tr0 p u u' La Su HS Au). intros new' En'. rewrite En in En'. apply app_inv_head in En'. subst new'. exact Nn.
Qed.
Lemma never_stopped n progs sc a t ok : a < n -> let s := crun sc (cstart n progs) in
  starts_apart a (cs_trace s) -> no_stop_of a (cs_trace s) -> In (EStartRet t a ok) (cs_trace s) -> ok = true.
Proof.
  intros La s Ap Ns I. destruct ok; [reflexivity|]. exfalso.
  assert (So : SO a n [] s).
  { apply (so_run a n [] sc (cstart n progs) (cs_trace s) La); [|reflexivity|exact Ap|exact Ns]. constructor; cbn; try tauto; [constructor; [apply wf_start|apply inv_start|apply le_n]|exists []; split; [reflexivity|intros u []]]. }
  destruct (oR _ _ _ _ So) as (y & Ey & R). cbn in Ey. rewrite Ey in I. exact (R t I).
Qed.

(** start after join *)
Lemma stopping_move a t b s s' : cmove t b s = Some s' -> exists new, cs_trace s' = cs_trace s ++ new /\ progress_step (stop_on a) (stop_off a) (in_stop a) t s s' new.
Proof.
  intros HS. unfold cmove in HS. cbv zeta in HS. destruct (ct_pc (cs_threads s t)) eqn:Ep; case_step HS; (eexists; split; [reflexivity|]).
  all: unfold progress_step; cbn [cat cs_threads]; rewrite ?upd_eq, Ep; cbn [ct_pc].
  all: try (right; right; split; [intros e He; cbn in He; tauto|cbn; tauto]; fail).
  all: try (right; right; split; [intros e He; cbn in He; destruct He as [<-|[]]; split; reflexivity|cbn; first [tauto|destruct k; cbn; tauto]]; fail).
  all: match goal with |- context[EStop _ ?z] => destruct (Nat.eqb_spec z a) as [Ez|Nz] | |- context[EStopRet _ ?z] => destruct (Nat.eqb_spec z a) as [Ez|Nz] end.
  all: try (left; eexists; split; [reflexivity|]; cbn; subst; rewrite Nat.eqb_refl; tauto).
  all: try (right; left; eexists; split; [reflexivity|]; cbn; subst; rewrite Nat.eqb_refl; split; [reflexivity|split; [reflexivity|destruct k; cbn; tauto]]).
  all: try (right; right; split; [intros e He; cbn in He; destruct He as [<-|[]]; cbn; rewrite (proj2 (Nat.eqb_neq _ _) Nz); split; reflexivity|cbn; first [tauto|destruct k; cbn; tauto]]).
Qed.
Definition Stops (a : nat) (s : cstate) : Prop := forall t, In t (stopping a (cs_trace s)) <-> in_stop a (pc s t).
Lemma stops_run a sc s : Stops a s -> Stops a (crun sc s).
Proof.
  intros H. apply (crun_ind (Stops a) (fun _ => True)); try tauto. intros p u u' Hu HS _. exact (progress_inv (stop_on a) (stop_off a) (in_stop a) (fun _ _ _ => conj eq_refl eq_refl) (stopping_move a) p u u' Hu HS).
Qed.

Lemma stops_start a n progs : Stops a (cstart n progs).
Proof. intros t. cbn. tauto. Qed.
Definition joins (a t : nat) (s : cstate) : Prop := (forall u, ~ in_stop a (pc s u)) /\ (forall k, pc s t = TJoin7 a false k -> flag s a = false).
Lemma joins_step a n t p s s' new : a < n -> Good a n s -> joins a t s -> cstep p s = Some s' -> cs_trace s' = cs_trace s ++ new -> no_stop_of a new -> joins a t s'.
Proof.
  intros La G [S J] HS Etr Ns. destruct p as [u b|w b]; cbn [cstep] in HS.
  - pose proof (classify_other u b s s' HS) as Oth. pose proof (gN _ _ _ G) as Nn.
    assert (Key : ~ in_stop a (pc s' u) /\ (flag s' a = false \/ flag s' a = flag s a) /\ (forall k, pc s' u = TJoin7 a false k -> flag s' a = false)).
    { pose proof (S u) as St. unfold cmove in HS. cbv zeta in HS. destruct (ct_pc (cs_threads s u)) eqn:Ep; case_step HS; cbn in *; rewrite ?upd_eq; cbn; apply app_inv_head in Etr; subst new.
      all: split; [first [tauto|destruct k; cbn; tauto|intros ->; apply (Ns u); left; reflexivity]|].
      all: split; [first [right; reflexivity|unfold upd; match goal with |- context[Nat.eqb ?x ?y] => destruct (Nat.eqb_spec x y); cbn; subst; first [right; reflexivity|left; reflexivity|exfalso; lia|exfalso; exact (St eq_refl)] end]|].
      all: intros k0 X; try discriminate X; try (destruct k; discriminate X).
      all: injection X as <- <-; rewrite upd_eq; reflexivity. }
    destruct Key as (K1 & K2 & K3). split.
    + intros v. destruct (Nat.eq_dec v u) as [->|Nv]; [exact K1|rewrite (Oth v Nv); exact (S v)].
    + intros k X. destruct (Nat.eq_dec t u) as [->|Nt]; [exact (K3 k X)|]. rewrite (Oth t Nt) in X. pose proof (J k X). destruct K2; congruence.
  - destruct (wclassify w b s s' HS) as (_ & q & _ & Eth & _). split; [intros v; rewrite Eth; exact (S v)|]. intros k X. rewrite Eth in X. pose proof (J k X) as F. unfold wmove in HS. cbv zeta in HS. case_step HS; cbn; try exact F. unfold upd. destruct (Nat.eqb a (wof s w)); [reflexivity|exact F].
Qed.
Lemma start_after_join n progs sc a x t m y u ok : a < n -> let s := crun sc (cstart n progs) in
  starts_apart a (cs_trace s) -> cs_trace s = x ++ EJoin t a :: m ++ EJoinRet t a (Some false) :: y -> stopping a x = [] -> no_stop_of a (m ++ y) ->
  In (EStartRet u a ok) y -> ok = true.
Proof.
  intros La s Ap Etr E0 Ns Iu. apply no_stop_app in Ns. destruct Ns as [Nm Ny].
  destruct (crun_event sc _ _ _ _ Etr (Nat.le_0_l _)) as (sc1 & p1 & sc2 & s1 & Esc & Ex & Es1 & Et1 & Er). set (s0 := crun sc1 (cstart n progs)) in *.
  assert (A0 : starts_apart a (cs_trace s0)) by (rewrite Ex; rewrite Etr in Ap; exact (apart_pre a _ _ Ap)).
  assert (G0 : Good a n s0) by (apply good_run; [exact La|constructor; [apply wf_start|apply inv_start|apply le_n]|exact A0]).
  assert (Q0 : forall v, ~ in_stop a (pc s0 v)) by (intros v Hv; apply (stops_run a sc1 _ (stops_start a n progs)) in Hv; fold s0 in Hv; rewrite Ex, E0 in Hv; exact Hv).
  assert (Et1' : cs_trace s1 = cs_trace s0 ++ [EJoin t a]) by (rewrite Et1, Ex; reflexivity).
  assert (Ap' : starts_apart a ((x ++ [EJoin t a]) ++ m ++ EJoinRet t a (Some false) :: y)) by (rewrite <- app_assoc; rewrite Etr in Ap; exact Ap).
  assert (A1 : starts_apart a (cs_trace s1)) by (rewrite Et1; exact (apart_pre a _ _ Ap')).
  pose proof (good_step a n p1 s0 s1 La G0 Es1 A1) as G1.
  destruct (ev_join p1 s0 s1 t a Es1 Et1') as (timed & k & Ep1).
  assert (J1 : joins a t s1).
  { split; [|intros k0 X; congruence]. intros v Hv. pose proof (stops_run a sc1 _ (stops_start a n progs)) as S0. fold s0 in S0. pose proof (stops_run a [p1] s0 S0) as S1. cbn [crun] in S1. rewrite Es1 in S1. apply S1 in Hv. rewrite Et1' in Hv. unfold stopping in Hv. rewrite inp_snoc in Hv. cbn in Hv. apply (S0 v) in Hv. exact (Q0 v Hv). }
  unfold s in Etr. rewrite Er in Etr. assert (Etr2 : cs_trace (crun sc2 s1) = (x ++ EJoin t a :: m) ++ EJoinRet t a (Some false) :: y) by (rewrite Etr, <- app_assoc; reflexivity).
  destruct (crun_event sc2 s1 _ _ _ Etr2) as (sc3 & p2 & sc4 & s3 & Esc2 & Ex2 & Es3 & Et3 & Er3); [rewrite Et1, !app_length; cbn; lia|]. set (s2 := crun sc3 s1) in *.
  assert (Ap2 : starts_apart a (((x ++ EJoin t a :: m) ++ [EJoinRet t a (Some false)]) ++ y)) by (rewrite <- !app_assoc; cbn; rewrite <- app_assoc in Ap'; exact Ap').
  assert (R2 : Good a n s2 /\ joins a t s2).
  { apply (unstopped a n (joins a t) La) with (z := m); try assumption.
    - intros p v v' new Gv Jv HS En _ Nn. exact (joins_step a n t p v v' new La Gv Jv HS En Nn).
    - fold s2. rewrite Ex2, Et1, <- app_assoc. reflexivity.
    - rewrite Et1, <- app_assoc. cbn. apply apart_pre in Ap2. apply apart_pre in Ap2. exact Ap2. }
  destruct R2 as (G2 & S2 & J2). assert (Et3' : cs_trace s3 = cs_trace s2 ++ [EJoinRet t a (Some false)]) by (rewrite Et3, Ex2; reflexivity).
  destruct (ev_join_ret p2 s2 s3 t a false Es3 Et3') as (b & k2 & Ep & Ep2).
  assert (So2 : SO a n (cs_trace s2) s2) by (constructor; [exact G2|exact (J2 k2 Ep2)|exact S2|exists []; split; [rewrite app_nil_r; reflexivity|intros v []]]).
  assert (A3 : starts_apart a (cs_trace s3)) by (rewrite Et3; exact (apart_pre a _ _ Ap2)).
  assert (So3 : SO a n (cs_trace s2) s3).
  { apply (so_step a n _ p2 s2 s3 La So2 Es3 A3). intros new En v Iv. rewrite Et3' in En. apply app_inv_head in En. subst new. destruct Iv as [X|[]]; discriminate X. }
  assert (Sof : SO a n (cs_trace s2) (crun sc4 s3)).
  { apply (so_run a n _ sc4 s3 y La So3); [rewrite <- Er3, Et3, <- (app_assoc _ [_] y); exact Etr2|rewrite Et3; exact Ap2|exact Ny]. }
  destruct (oR _ _ _ _ Sof) as (z & Ez & Rz). rewrite <- Er3, Etr2, Ex2 in Ez. apply app_inv_head in Ez. subst z. destruct ok; [reflexivity|]. exfalso. apply (Rz u). right. exact Iu.
Qed.
