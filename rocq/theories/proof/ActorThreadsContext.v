(** The actor of a context switched by several threads: C98. *)
From Verif Require Import model.PyBase model.Core model.ActorThreads spec.ActorThreadsSpec proof.CoreLib proof.ActorThreadsProofs proof.ActorThreadsStop.
Open Scope nat_scope.

Definition in_enable (p : tpc) : Prop :=
  match p with
  | TEnable1 | TEnable2 | TEnable3 | TEnable4 _ => True
  | TStart1 _ k | TStart2 _ _ k | TStart3 _ k | TStart4 _ k | TStart5 _ k | TStart6 _ k | TStart7 _ k | TStart8 _ k | TStart9 _ k => k = KEnable
  | _ => False
  end.
Definition stop_kont (k : kont) : Prop := match k with KStopped _ => True | _ => False end.
Definition in_disable (p : tpc) : Prop :=
  match p with
  | TDisable1 _ | TDisable2 _ | TDisable3 _ | TDisable4 | TDisable5 _ => True
  | TStop1 _ k | TStop2 _ _ k | TStop3 _ _ k => stop_kont k
  | TJoin1 _ _ k | TJoin2 _ _ k | TJoin3 _ _ _ k | TJoin4 _ k | TJoin5 _ _ k | TJoin6 _ k | TJoin7 _ _ k => k = KJoined
  | _ => False
  end.
Definition pc_ok (n : nat) (c : option nat) (p : tpc) : Prop :=
  match p with
  | TStart1 a k | TStart2 a _ k | TStart3 a k | TStart4 a k | TStart5 a k | TStart6 a k | TStart7 a k | TStart8 a k | TStart9 a k =>
    (k = KApp /\ a < n) \/ (k = KEnable /\ a = n /\ c = Some n)
  | TStop1 a k | TStop2 a _ k | TStop3 a _ k => (k = KApp /\ a < n) \/ (stop_kont k /\ a = n /\ c = Some n)
  | TJoin1 a _ k | TJoin2 a _ k | TJoin3 a _ _ k | TJoin4 a k | TJoin5 a _ k | TJoin6 a k | TJoin7 a _ k => (k = KApp /\ a < n) \/ (k = KJoined /\ a = n /\ c = Some n)
  | TEnable2 => c = None
  | TEnable3 | TDisable2 _ | TDisable3 _ => c = Some n
  | _ => True
  end.
Definition op_ok (n : nat) (o : cop) : Prop := match o with OpStart a | OpStop a | OpJoin a _ => a < n | _ => True end.

Definition en_on (e : cevent) : option nat := match e with EEnable t => Some t | _ => None end.
Definition en_off (e : cevent) : option nat := match e with EEnableRet t _ => Some t | _ => None end.
Definition dis_on (e : cevent) : option nat := match e with EDisable t => Some t | _ => None end.
Definition dis_off (e : cevent) : option nat := match e with EDisableRet t _ => Some t | _ => None end.
Lemma enabling_move t b s s' : cmove t b s = Some s' -> exists new, cs_trace s' = cs_trace s ++ new /\ progress_step en_on en_off in_enable t s s' new.
Proof.
  intros HS. unfold cmove in HS. cbv zeta in HS. destruct (ct_pc (cs_threads s t)) eqn:Ep; case_step HS; (eexists; split; [reflexivity|]).
  all: unfold progress_step; cbn [cat cs_threads]; rewrite ?upd_eq, Ep; cbn [ct_pc].
  all: try (right; right; split; [intros e He; cbn in He; tauto|cbn; tauto]; fail).
  all: try (right; right; split; [intros e He; cbn in He; destruct He as [<-|[]]; split; reflexivity|destruct k; cbn; (split; intros X; first [exact Logic.I|reflexivity|discriminate X|destruct X; fail|exact X])]; fail).
  all: try (right; right; split; [intros e He; cbn in He; destruct He as [<-|[]]; split; reflexivity|cbn; (tauto || (split; intros X; first [exact Logic.I|reflexivity|discriminate X|destruct X; fail|exact X]))]; fail).
  all: try (left; eexists; split; [reflexivity|]; cbn; tauto).
  all: try (right; left; eexists; split; [reflexivity|]; cbn; tauto).
Qed.
Lemma disabling_move t b s s' : cmove t b s = Some s' -> exists new, cs_trace s' = cs_trace s ++ new /\ progress_step dis_on dis_off in_disable t s s' new.
Proof.
  intros HS. unfold cmove in HS. cbv zeta in HS. destruct (ct_pc (cs_threads s t)) eqn:Ep; case_step HS; (eexists; split; [reflexivity|]).
  all: unfold progress_step; cbn [cat cs_threads]; rewrite ?upd_eq, Ep; cbn [ct_pc].
  all: try (right; right; split; [intros e He; cbn in He; tauto|cbn; tauto]; fail).
  all: try (right; right; split; [intros e He; cbn in He; destruct He as [<-|[]]; split; reflexivity|destruct k; cbn; (split; intros X; first [exact Logic.I|reflexivity|discriminate X|destruct X; fail|exact X])]; fail).
  all: try (right; right; split; [intros e He; cbn in He; destruct He as [<-|[]]; split; reflexivity|cbn; (tauto || (split; intros X; first [exact Logic.I|reflexivity|discriminate X|destruct X; fail|exact X]))]; fail).
  all: try (left; eexists; split; [reflexivity|]; cbn; tauto).
  all: try (right; left; eexists; split; [reflexivity|]; cbn; tauto).
Qed.

(** *** Calls of enable_async that do not overlap *)
Record CI (n : nat) (s : cstate) : Prop := mkCI {
  c1 : (cs_ctx s = None /\ cs_na s = n /\ thr s n = None) \/ (cs_ctx s = Some n /\ cs_na s = S n);
  c2 : forall t, pc_ok n (cs_ctx s) (pc s t);
  c3 : forall t, In t (enabling (cs_trace s)) <-> in_enable (pc s t);
  c4 : forall t u, in_enable (pc s t) -> in_enable (pc s u) -> t = u;
  c5 : forall t, Forall (op_ok n) (ct_todo (cs_threads s t));
  c6 : forall w, wof s w <= n }.
Record CP (n : nat) (s : cstate) : Prop := mkCP { pW : Wf s; pC : CI n s; pI : Inv n s; pA : starts_apart n (cs_trace s) }.

Lemma en_step p s s' : (forall t, In t (enabling (cs_trace s)) <-> in_enable (pc s t)) -> cstep p s = Some s' -> forall t, In t (enabling (cs_trace s')) <-> in_enable (pc s' t).
Proof. intros H HS. exact (progress_inv en_on en_off in_enable (fun _ _ _ => conj eq_refl eq_refl) enabling_move p s s' H HS). Qed.
Lemma dis_step p s s' : (forall t, In t (disabling (cs_trace s)) <-> in_disable (pc s t)) -> cstep p s = Some s' -> forall t, In t (disabling (cs_trace s')) <-> in_disable (pc s' t).
Proof. intros H HS. exact (progress_inv dis_on dis_off in_disable (fun _ _ _ => conj eq_refl eq_refl) disabling_move p s s' H HS). Qed.
(** Entering enable_async *)
Lemma enters p s s' t : cstep p s = Some s' -> ~ in_enable (pc s t) -> in_enable (pc s' t) -> cs_trace s' = cs_trace s ++ [EEnable t].
Proof.
  intros HS N P. destruct p as [u b|w b]; cbn [cstep] in HS.
  - destruct (Nat.eq_dec t u) as [->|Nt]; [|rewrite (classify_other u b s s' HS t Nt) in P; destruct (N P)].
    unfold cmove in HS. cbv zeta in HS. revert N P. destruct (ct_pc (cs_threads s u)) eqn:Ep; case_step HS; cbn; rewrite upd_eq; cbn; intros N P; try tauto; try discriminate P; try (destruct k; cbn in *; tauto).
  - destruct (wclassify w b s s' HS) as (_ & _ & _ & Eth & _). rewrite Eth in P. destruct (N P).
Qed.
Lemma enters_dis p s s' t : cstep p s = Some s' -> ~ in_disable (pc s t) -> in_disable (pc s' t) -> cs_trace s' = cs_trace s ++ [EDisable t].
Proof.
  intros HS N P. destruct p as [u b|w b]; cbn [cstep] in HS.
  - destruct (Nat.eq_dec t u) as [->|Nt]; [|rewrite (classify_other u b s s' HS t Nt) in P; destruct (N P)].
    unfold cmove in HS. cbv zeta in HS. revert N P. destruct (ct_pc (cs_threads s u)) eqn:Ep; case_step HS; cbn; rewrite upd_eq; cbn; intros N P; try tauto; try discriminate P; try (destruct k; cbn in *; tauto).
  - destruct (wclassify w b s s' HS) as (_ & _ & _ & Eth & _). rewrite Eth in P. destruct (N P).
Qed.
Lemma enable_dec p : in_enable p \/ ~ in_enable p.
Proof. destruct p; cbn; try (left; exact Logic.I); try (right; tauto); destruct k; first [left; reflexivity|right; discriminate]. Qed.
Lemma disable_dec p : in_disable p \/ ~ in_disable p.
Proof. destruct p; cbn; try (left; exact Logic.I); try (right; tauto); destruct k; cbn; first [left; exact Logic.I|left; reflexivity|right; tauto|right; discriminate]. Qed.

Lemma ci_step n p s s' : Wf s -> CI n s -> cstep p s = Some s' -> enables_apart (cs_trace s') -> CI n s'.
Proof.
  intros W C HS Ap.
  assert (Uq : forall t u, in_enable (pc s' t) -> in_enable (pc s' u) -> t = u).
  { intros t u Ht Hu. destruct (enable_dec (pc s t)) as [Dt|Dt]; destruct (enable_dec (pc s u)) as [Du|Du]; [exact (c4 n s C t u Dt Du)| | |].
    - pose proof (enters p s s' u HS Du Hu) as E. pose proof (Ap _ _ _ E) as X. apply (c3 n s C) in Dt. rewrite X in Dt. destruct Dt.
    - pose proof (enters p s s' t HS Dt Ht) as E. pose proof (Ap _ _ _ E) as X. apply (c3 n s C) in Du. rewrite X in Du. destruct Du.
    - pose proof (enters p s s' u HS Du Hu) as E. pose proof (enters p s s' t HS Dt Ht) as E2. rewrite E in E2. apply app_inv_head in E2. congruence. }
  destruct p as [t b|w b].
  - assert (Oth := classify_other t b s s' HS). pose proof (c2 n s C t) as Okt. pose proof (c5 n s C t) as Td.
    assert (Key : ((cs_ctx s' = None /\ cs_na s' = n /\ thr s' n = None) \/ (cs_ctx s' = Some n /\ cs_na s' = S n)) /\ pc_ok n (cs_ctx s') (pc s' t) /\ (cs_ctx s' = cs_ctx s \/ (in_enable (pc s t) /\ cs_ctx s' = Some n /\ cs_ctx s = None)) /\ Forall (op_ok n) (ct_todo (cs_threads s' t)) /\ (forall w, wof s' w <= n)).
    { pose proof (c1 n s C) as C1. pose proof (c6 n s C) as C6. cbn [cstep] in HS. unfold cmove in HS. cbv zeta in HS. revert Okt. destruct (ct_pc (cs_threads s t)) eqn:Ep; case_step HS; intros Okt; cbn; rewrite ?upd_eq; cbn.
      all: cbn [pc_ok] in Okt.
      all: try (match type of Td with Forall _ (_ :: _) => pose proof (Forall_inv Td) as Op; pose proof (Forall_inv_tail Td) as Tl; cbn in Op end).
      all: try (split; [exact C1|]; split; [cbn [pc_ok]; first [exact Logic.I|exact Okt|left; split; [reflexivity|assumption]|tauto]|]; split; [left; reflexivity|]; split; [assumption|exact C6]; fail).
      all: try (split; [exact C1|]; split; [destruct Okt as [[-> _]|[-> _]]; cbn; exact Logic.I|]; split; [left; reflexivity|]; split; [assumption|exact C6]; fail).
      all: try (split; [unfold upd; match goal with |- context[Nat.eqb ?z ?x] => destruct (Nat.eqb_spec z x) as [Ez|Nx]; cbn; try subst z; exact C1 end|]; split; [exact Okt|]; split; [left; reflexivity|]; split; [assumption|exact C6]; fail).
      all: try (match goal with E : cs_ctx _ = _ |- _ => rewrite E end).
      - split; [destruct Okt as [[_ La]|(_ & _ & Ec)]; [rewrite upd_neq by lia; exact C1|destruct C1 as [(X & _)|C1]; [congruence|right; exact C1]]|]. split; [exact Okt|]. split; [left; reflexivity|]. split; [exact Td|].
        intros w. unfold upd. destruct (Nat.eqb w (cs_nw s)); [cbn; lia|apply C6].
      - split; [exact C1|]. split; [destruct Okt as [[-> _]|[-> _]]; cbn; exact Logic.I|]. split; [left; reflexivity|]. split; [exact Td|]. intros w. unfold upd. destruct (Nat.eqb w n0); [cbn; apply C6|apply C6].
      - split; [unfold upd; destruct (Nat.eqb_spec n a) as [<-|Nx]; cbn; exact C1|]. split; [destruct Okt as [[-> _]|(Sk & _ & Ec)]; [exact Logic.I|destruct k; try exact Logic.I; exact Ec]|]. split; [left; reflexivity|]. split; [exact Td|exact C6].
      - split; [exact C1|]. split; [destruct C1 as [(X & _)|[X _]]; [congruence|exact X]|]. split; [left; first [reflexivity|assumption]|]. split; [exact Td|exact C6].
      - split; [exact C1|]. split; [first [reflexivity|assumption]|]. split; [left; first [reflexivity|assumption]|]. split; [exact Td|exact C6].
      - destruct C1 as [(X & Y & _)|[X _]]; [|congruence]. rewrite Y. split; [right; split; reflexivity|]. split; [reflexivity|]. split; [right; split; [exact Logic.I|split; [reflexivity|first [exact X|reflexivity]]]|]. split; [exact Td|exact C6].
      - assert (n0 = n) by congruence. subst n0. split; [exact C1|]. split; [right; split; [reflexivity|split; [reflexivity|first [assumption|congruence]]]|]. split; [left; first [reflexivity|assumption]|]. split; [exact Td|exact C6].
      - split; [exact C1|]. split; [destruct C1 as [(X & _)|[X _]]; [congruence|exact X]|]. split; [left; first [reflexivity|assumption]|]. split; [exact Td|exact C6].
      - split; [exact C1|]. split; [exact Logic.I|]. split; [left; first [reflexivity|assumption]|]. split; [exact Td|exact C6].
      - assert (n0 = n) by congruence. subst n0. split; [exact C1|]. split; [right; split; [exact Logic.I|split; [reflexivity|first [assumption|congruence]]]|]. split; [left; first [reflexivity|assumption]|]. split; [exact Td|exact C6].
      - assert (n0 = n) by congruence. subst n0. split; [exact C1|]. split; [right; split; [reflexivity|split; [reflexivity|first [assumption|congruence]]]|]. split; [left; first [reflexivity|assumption]|]. split; [exact Td|exact C6]. }
    destruct Key as (K1 & K2 & K3 & K4 & K5). constructor; [exact K1| |exact (en_step _ s s' (c3 n s C) HS)|exact Uq| |exact K5].
    + intros u. destruct (Nat.eq_dec u t) as [->|Nu]; [exact K2|]. rewrite (Oth u Nu). pose proof (c2 n s C u) as Ou. destruct K3 as [->|(En & E1 & E2)]; [exact Ou|]. rewrite E1. rewrite E2 in Ou.
      assert (Ne : ~ in_enable (pc s u)) by (intros X; exact (Nu (c4 n s C u t X En))).
      destruct (pc s u); cbn in *; try exact Logic.I; try tauto; try (destruct Ou as [Ou|(_ & _ & X)]; [left; exact Ou|discriminate X]); try discriminate.
    + intros u. destruct (Nat.eq_dec u t) as [->|Nu]; [exact K4|]. rewrite (Oth u Nu). exact (c5 n s C u).
  - pose proof HS as HS0. cbn [cstep] in HS. destruct (wclassify w b s s' HS) as (new & q & Etr & Eth & Et & _ & _ & _ & Ews & _ & Ena & _ & Ec).
    constructor; [rewrite Ec, Ena, Et; exact (c1 n s C)|intros t; rewrite Ec, Eth; exact (c2 n s C t)|exact (en_step _ s s' (c3 n s C) HS0)|exact Uq|intros t; rewrite Eth; exact (c5 n s C t)|].
    intros v. rewrite Ews. unfold upd. destruct (Nat.eqb_spec v w) as [->|Nv]; cbn; apply (c6 n s C).
Qed.
Lemma start_event n p s s' t : CI n s -> cstep p s = Some s' -> cs_trace s' = cs_trace s ++ [EStart t n] -> pc s t = TEnable3.
Proof.
  intros C HS Etr. destruct p as [u b|w b]; cbn [cstep] in HS; [|destruct (no_task_event _ _ _ _ _ HS Etr) as (f & X); discriminate X].
  pose proof (c5 n s C u) as Td. event_cases HS Etr; injection Etr as <- <-; [|reflexivity || assumption]. pose proof (Forall_inv Td) as Op. cbn in Op. lia.
Qed.
Lemma in_start_enable n c p : pc_ok n c p -> in_start n p -> in_enable p.
Proof. destruct p; cbn; try tauto; intros [[_ L]|[-> _]] E; try reflexivity; subst; lia. Qed.
Lemma cp_step n p s s' : CP n s -> cstep p s = Some s' -> enables_apart (cs_trace s') -> CP n s'.
Proof.
  intros [W C I A] HS Ap.
  assert (A' : starts_apart n (cs_trace s')).
  { destruct (cstep_trace _ _ _ HS) as (new & Etr & Ln). destruct new as [|e [|e2 new]]; [rewrite Etr, app_nil_r; exact A| |cbn in Ln; lia].
    assert (D : (exists t, e = EStart t n) \/ no_start_of n [e]).
    { destruct e as [t a| | | | | | | | | | |]; try (right; intros u [X|[]]; discriminate X). destruct (Nat.eq_dec a n) as [->|Na]; [left; exists t; reflexivity|right; intros u [X|[]]; congruence]. }
    destruct D as [(t & ->)|Ns]; [|rewrite Etr; exact (apart_more n _ _ A Ns)].
    pose proof (start_event n p s s' t C HS Etr) as Ep.
    assert (E0 : starting n (cs_trace s) = []).
    { destruct (starting n (cs_trace s)) as [|u l] eqn:El; [reflexivity|]. exfalso. assert (Iu : in_start n (pc s u)) by (apply (iA n s I); rewrite El; left; reflexivity).
      pose proof (in_start_enable n _ _ (c2 n s C u) Iu) as Eu. assert (u = t) by (apply (c4 n s C); [exact Eu|rewrite Ep; exact Logic.I]). subst u. rewrite Ep in Iu. destruct Iu. }
    rewrite Etr. intros x u y E. destruct y as [|y0 y] using rev_ind.
    - apply app_inj_tail in E. destruct E as [<- _]. exact E0.
    - clear IHy. replace (x ++ EStart u n :: y ++ [y0]) with ((x ++ EStart u n :: y) ++ [y0]) in E by (rewrite <- app_assoc; reflexivity). apply app_inj_tail in E. destruct E as [E _]. exact (A x u y E). }
  constructor; [exact (wf_step _ _ _ W HS)|exact (ci_step n p s s' W C HS Ap)| |exact A'].
  apply (inv_step n p s s' W I HS); [|exact A']. intros E. destruct (c1 n s C) as [(_ & _ & T)|[_ X]]; [exact T|lia].
Qed.
Lemma en_pre x y : enables_apart (x ++ y) -> enables_apart x.
Proof. intros H. exact (apart_prefix EEnable x y H). Qed.
Lemma own_start n progs : own_actors n progs -> CP n (cstart n progs).
Proof.
  intros O. constructor; [apply wf_start| |apply inv_start|intros x t y E; destruct x; discriminate E]. constructor; cbn; try tauto; try lia.
  intros t. apply Forall_forall. intros o Io. destruct (nth_in_or_default t progs []) as [Ip|E]; [|rewrite E in Io; destruct Io].
  destruct o as [a|a|a b| |b]; cbn; try exact Logic.I; apply (O _ Ip); [left; exact Io|right; left; exact Io|right; right; exists b; exact Io].
Qed.
Lemma cp_run n progs sc : own_actors n progs -> enables_apart (cs_trace (crun sc (cstart n progs))) -> CP n (crun sc (cstart n progs)).
Proof. intros O Ap. apply (crun_ind (CP n) enables_apart); [exact en_pre| |exact (own_start n progs O)|exact Ap]. intros p u u' Pu. apply cp_step; exact Pu. Qed.
