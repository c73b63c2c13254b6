(** A moving average read by one thread: invariant for PEwmaThreads.v. *)
From Coq Require Import Lra Lia.
From Verif Require Import model.PyBase model.Ewma model.EwmaThreads spec.EwmaSpec spec.EwmaThreadSpec proof.EwmaThreadProofs.
Open Scope R_scope.

Definition prior (k : nat) (l : list (R * option R)) : Prop := forall j e, (j < k)%nat -> nth_error l j = Some e -> snd e <> None.
Definition rate_at (k : nat) (l : list (R * option R)) (r : option R) : Prop := exists p, nth_error l k = Some (p, r).
Definition complete (l : list (R * option R)) : Prop := Forall (fun e => snd e <> None) l.
Definition ok_rate (b : R) (e : R * option R) : Prop := 0 < fst e /\ match snd e with Some x => 0 <= x <= b | None => True end.

Definition PCI (b c : R) (p : pc) (a : ewma) : Prop :=
  match p with
  | Idle | AddStore _ _ _ | ReadLast _ | ReadForce => ew_force a = false -> complete (ew_rates a)
  | ClearForce | UpdClock => True
  | UpdLast cur => ew_last a < cur <= c
  | UpdLoop cur itv k => 0 < itv /\ cur <= c /\ prior k (ew_rates a)
  | UpdTest cur itv k nr => 0 < itv /\ cur <= c /\ prior k (ew_rates a) /\ 0 <= nr <= b /\ exists r, rate_at k (ew_rates a) r
  | UpdFirst cur itv k nr => 0 < itv /\ cur <= c /\ prior k (ew_rates a) /\ 0 <= nr <= b /\ exists r, rate_at k (ew_rates a) r
  | UpdLeft cur itv k nr => 0 < itv /\ cur <= c /\ prior k (ew_rates a) /\ 0 <= nr <= b /\ exists r, rate_at k (ew_rates a) (Some r)
  | UpdRight cur itv k nr l => 0 < itv /\ cur <= c /\ prior k (ew_rates a) /\ 0 <= nr <= b /\ rate_at k (ew_rates a) (Some l)
  | UpdStore cur itv k x => 0 < itv /\ cur <= c /\ prior k (ew_rates a) /\ 0 <= x <= b /\ exists r, rate_at k (ew_rates a) r
  | UpdReset cur | UpdDone cur => cur <= c /\ complete (ew_rates a)
  | Copy => complete (ew_rates a)
  end.
Definition ok_obs (b : R) (o : obs) : Prop :=
  match o with
  | Raised _ => False
  | Returned _ r => rates_within b r
  | Sample _ _ itv u => 0 < itv /\ 0 <= u
  | Added _ => True
  end.
Record OI (b : R) (t : nat) (c : R) (s : est) : Prop := mkOI {
  oi_others : forall t', t' <> t -> es_pc s t' = Idle \/ exists i v tmp, es_pc s t' = AddStore i v tmp;
  oi_adds : forall t' i v tmp, es_pc s t' = AddStore i v tmp -> 0 <= v /\ 0 <= tmp;
  oi_uncounted : 0 <= ew_uncounted (es_acc s);
  oi_last : ew_last (es_acc s) <= c;
  oi_rates : Forall (ok_rate b) (ew_rates (es_acc s));
  oi_log : Forall (ok_obs b) (es_log s);
  oi_pc : PCI b c (es_pc s t) (es_acc s) }.
Definition samples_below (b : R) (log : list obs) : Prop := forall t k itv u, In (Sample t k itv u) log -> u / itv <= b.

Lemma PCI_clock b c c' p a : c <= c' -> PCI b c p a -> PCI b c' p a.
Proof. intros H. destruct p; cbn; intuition lra. Qed.
Lemma complete_all l : complete l <-> prior (length l) l.
Proof.
  unfold complete, prior. rewrite Forall_forall. split.
  - intros H j e _ K. apply H. eapply nth_error_In; eauto.
  - intros H e K. apply In_nth_error in K as (j & K). eapply H; [|exact K]. apply nth_error_Some. congruence.
Qed.
Lemma within b l : complete l -> Forall (ok_rate b) l -> rates_within b l.
Proof.
  unfold complete, rates_within. rewrite !Forall_forall. intros H K e HE. specialize (H e HE). destruct (K e HE) as (_ & Q). destruct (snd e) as [x|]; [|destruct (H eq_refl)].
  exists x. auto.
Qed.
Lemma nth_set l : forall k j x e, nth_error (set_rate l k x) j = Some e -> (j = k /\ exists p r, nth_error l j = Some (p, r) /\ e = (p, Some x)) \/ (j <> k /\ nth_error l j = Some e).
Proof.
  induction l as [|[p r] l IH]; intros [|k] [|j] x e H; cbn in H; try discriminate.
  - injection H as <-. left. split; [reflexivity|]. cbn. eauto.
  - right. split; [lia|exact H].
  - injection H as <-. right. split; [lia|reflexivity].
  - destruct (IH _ _ _ _ H) as [(-> & Q)|(N & Q)]; [left; auto|right; split; [lia|exact Q]].
Qed.
Lemma prior_set l k x : prior k l -> prior (S k) (set_rate l k x).
Proof.
  intros H j e L K. apply nth_set in K as [(-> & p & r & _ & ->)|(N & K)]; [cbn; discriminate|]. eapply H; [|exact K]. lia.
Qed.
Lemma ok_set b l k x : 0 <= x <= b -> Forall (ok_rate b) l -> Forall (ok_rate b) (set_rate l k x).
Proof.
  intros H. rewrite !Forall_forall. intros K e HE. apply In_nth_error in HE as (j & HE). apply nth_set in HE as [(_ & p & r & Q & ->)|(_ & Q)].
  - apply nth_error_In, K in Q. destruct Q as (Q & _). split; [exact Q|exact H].
  - apply K. eapply nth_error_In; eauto.
Qed.
Lemma weigh b itv p l nr : 0 < itv -> 0 < p -> 0 <= l <= b -> 0 <= nr <= b -> 0 <= l + (1 - exp (- itv / p)) * (nr - l) <= b.
Proof.
  intros H1 H2 H3 H4. pose proof (exp_pos (- itv / p)) as E1.
  assert (E2 : exp (- itv / p) < 1).
  { rewrite <- exp_0. apply exp_increasing. unfold Rdiv. assert (0 < / p) by (apply Rinv_0_lt_compat, H2). nra. }
  set (x := exp (- itv / p)) in *. split; nra.
Qed.
Lemma quotient u itv : 0 < itv -> 0 <= u -> 0 <= u / itv.
Proof. intros. unfold Rdiv. assert (0 < / itv) by (apply Rinv_0_lt_compat; assumption). nra. Qed.

Lemma OI_advance b t c p a a' p' o :
  PCI b c p a -> (forall i v tmp, p = AddStore i v tmp -> 0 <= v /\ 0 <= tmp) -> 0 <= ew_uncounted a -> ew_last a <= c -> Forall (ok_rate b) (ew_rates a) ->
  advance t p a = Some (a', p', o) -> samples_below b o ->
  PCI b c p' a' /\ (forall i v tmp, p' <> AddStore i v tmp) /\ 0 <= ew_uncounted a' /\ ew_last a' <= c /\ Forall (ok_rate b) (ew_rates a') /\ Forall (ok_obs b) o.
Proof.
  intros HP HA HU HL HR H HS. destruct p; cbn [advance] in H; try discriminate.
  - injection H as <- <- <-. destruct (HA _ _ _ eq_refl). cbn in *. split; [exact HP|]. split; [discriminate|]. split; [lra|]. split; [exact HL|]. split; [exact HR|]. repeat constructor.
  - injection H as <- <- <-. split; [|split; [|auto 6]]; destruct (Rle_dec _ _); try discriminate; cbn in *; auto.
  - injection H as <- <- <-. split; [|split; [|auto 6]]; destruct (ew_force a) eqn:EF; try discriminate; cbn in *; auto.
  - injection H as <- <- <-. cbn in *. split; [exact I|]. split; [discriminate|]. auto 6.
  - injection H as <- <- <-. cbn in *. split; [|split; [discriminate|]; auto 6]. split; [lra|]. split; [lra|]. intros j e L. lia.
  - cbn in HP. destruct HP as (P1 & P2 & P3). destruct (nth_error (ew_rates a) k) as [[q r]|] eqn:EK.
    + destruct (Req_EM_T itv 0) as [Z|NZ]; [lra|]. injection H as <- <- <-. cbn. split; [|split; [discriminate|]].
      * split; [exact P1|]. split; [exact P2|]. split; [exact P3|]. split; [|exists r, q; exact EK]. split; [apply quotient; assumption|]. eapply HS. left. reflexivity.
      * split; [exact HU|]. split; [exact HL|]. split; [exact HR|]. constructor; [|constructor]. cbn. auto.
    + injection H as <- <- <-. cbn. split; [|split; [discriminate|]; auto 6]. split; [exact P2|]. apply complete_all. intros j e L K. eapply P3; [|exact K]. apply nth_error_None in EK. lia.
  - cbn in HP. destruct HP as (P1 & P2 & P3 & P4 & r0 & q & EK). rewrite EK in H. destruct r0 as [r|].
    + assert (0 < q) by (apply nth_error_In in EK; rewrite Forall_forall in HR; apply HR in EK; exact (proj1 EK)).
      destruct (Req_EM_T q 0); [lra|]. injection H as <- <- <-. cbn. split; [|split; [discriminate|]; auto 6]. do 3 (split; [assumption|]). split; [exact P4|]. exists r, q. exact EK.
    + injection H as <- <- <-. cbn. split; [|split; [discriminate|]; auto 6]. do 3 (split; [assumption|]). split; [exact P4|]. exists None, q. exact EK.
  - cbn in HP. destruct HP as (P1 & P2 & P3 & P4 & _). injection H as <- <- <-. cbn. split; [|split; [discriminate|]].
    + split; [exact P1|]. split; [exact P2|]. apply prior_set, P3.
    + split; [exact HU|]. split; [exact HL|]. split; [apply ok_set; assumption|]. constructor.
  - cbn in HP. destruct HP as (P1 & P2 & P3 & P4 & r & q & EK). rewrite EK in H. injection H as <- <- <-. cbn. split; [|split; [discriminate|]; auto 6].
    do 3 (split; [assumption|]). split; [exact P4|]. exists q. exact EK.
  - cbn in HP. destruct HP as (P1 & P2 & P3 & P4 & q & EK). rewrite EK in H. injection H as <- <- <-. cbn. split; [|split; [discriminate|]; auto 6].
    do 3 (split; [assumption|]). apply nth_error_In in EK as EI. rewrite Forall_forall in HR. destruct (HR _ EI) as (Q1 & Q2). cbn in Q1, Q2.
    split; [apply weigh; assumption|]. exists (Some l), q. exact EK.
  - cbn in HP. destruct HP as (P1 & P2 & P3 & P4 & _). injection H as <- <- <-. cbn. split; [|split; [discriminate|]].
    + split; [exact P1|]. split; [exact P2|]. apply prior_set, P3.
    + split; [exact HU|]. split; [exact HL|]. split; [apply ok_set; assumption|]. constructor.
  - injection H as <- <- <-. cbn in *. split; [exact HP|]. split; [discriminate|]. split; [lra|]. auto.
  - injection H as <- <- <-. cbn in *. destruct HP as (P1 & P2). split; [exact P2|]. split; [discriminate|]. auto.
  - injection H as <- <- <-. cbn in *. split; [intros _; exact HP|]. split; [discriminate|]. split; [exact HU|]. split; [exact HL|]. split; [exact HR|].
    constructor; [|constructor]. cbn. apply within; assumption.
Qed.

(** What is asked of a step: who reads, what is added, and the clock. *)
Definition clock_after (c : R) (e : ev) : R := match e with EvRead _ now | EvClock _ now => now | _ => c end.
Definition good_step (t : nat) (c : R) (e : ev) : Prop :=
  match e with EvAdd _ v => 0 <= v | EvRead t' now => t' = t /\ c < now | EvClock _ now => c < now | EvStep _ => True end.
Lemma OI_step b t c e s s' : estep e s = Some s' -> good_step t c e -> samples_below b (es_log s') -> OI b t c s -> OI b t (clock_after c e) s'.
Proof.
  intros H HG HS HI. destruct HI as [H1 H2 H3 H4 H5 H6 H7]. destruct e as [t' v|t' now|t' now|t']; cbn in H, HG; cbn [clock_after].
  - destruct (es_pc s t') eqn:EP; try discriminate. injection H as <-. constructor; cbn; auto.
    + intros t1 N. destruct (Nat.eq_dec t1 t') as [-> |M]; [rewrite upd_same; eauto|]. rewrite upd_other by exact M. auto.
    + intros t1 i v1 tmp K. destruct (Nat.eq_dec t1 t') as [-> |M]; [rewrite upd_same in K; injection K as <- <- <-; auto|]. rewrite upd_other in K by exact M. eauto.
    + destruct (Nat.eq_dec t t') as [-> |M]; [rewrite upd_same; rewrite EP in H7; exact H7|]. rewrite upd_other by exact M. exact H7.
  - destruct HG as (-> & HG). destruct (es_pc s t) eqn:EP; try discriminate. injection H as <-. constructor; cbn; auto; try lra.
    + intros t1 N. rewrite upd_other by exact N. auto.
    + intros t1 i v1 tmp K. destruct (Nat.eq_dec t1 t) as [-> |M]; [rewrite upd_same in K; discriminate|]. rewrite upd_other in K by exact M. eauto.
    + rewrite upd_same. exact H7.
  - destruct (es_pc s t') eqn:EP; try discriminate. injection H as <-.
    assert (t' = t) as ->. { destruct (Nat.eq_dec t' t) as [E|N]; [exact E|]. destruct (H1 t' N) as [K|(? & ? & ? & K)]; congruence. }
    constructor; cbn; auto; try lra.
    + intros t1 N. rewrite upd_other by exact N. auto.
    + intros t1 i v1 tmp K. destruct (Nat.eq_dec t1 t) as [-> |M]; [rewrite upd_same in K; discriminate|]. rewrite upd_other in K by exact M. eauto.
    + rewrite upd_same. cbn. lra.
  - destruct (advance t' (es_pc s t') (es_acc s)) as [[[a p] o]|] eqn:EA; [|discriminate]. injection H as <-. cbn in HS.
    assert (HSo : samples_below b o) by (intros x k itv u K; eapply HS; apply in_or_app; left; exact K).
    destruct (Nat.eq_dec t' t) as [-> |N].
    + destruct (OI_advance b t c _ _ _ _ _ H7 (fun i v tmp => H2 t i v tmp) H3 H4 H5 EA HSo) as (A & B & C & D & E & F).
      constructor; cbn; auto.
      * intros t1 M. rewrite upd_other by exact M. auto.
      * intros t1 i v1 tmp K. destruct (Nat.eq_dec t1 t) as [-> |M]; [rewrite upd_same in K; destruct (B _ _ _ K)|]. rewrite upd_other in K by exact M. eauto.
      * apply Forall_app. auto.
      * rewrite upd_same. exact A.
    + destruct (H1 t' N) as [K|(i & v & tmp & K)]; rewrite K in EA; cbn in EA; [discriminate|]. injection EA as <- <- <-. destruct (H2 _ _ _ _ K) as (V1 & V2).
      constructor; cbn; auto; try lra.
      * intros t1 M. destruct (Nat.eq_dec t1 t') as [-> |M']; [rewrite upd_same; auto|]. rewrite upd_other by exact M'. auto.
      * intros t1 j v1 tmp1 Q. destruct (Nat.eq_dec t1 t') as [-> |M']; [rewrite upd_same in Q; discriminate|]. rewrite upd_other in Q by exact M'. eauto.
      * rewrite upd_other by auto. destruct (es_pc s t); exact H7.
Qed.
Lemma OI_run b t evs : forall c s s', eruns evs s = Some s' -> rising c evs -> only_reader t evs -> nonnegative evs -> samples_below b (es_log s') -> OI b t c s ->
  exists c', OI b t c' s'.
Proof.
  induction evs as [|e evs IH]; intros c s s' H HR HO HN HS HI; cbn in H; [injection H as <-; eauto|].
  destruct (estep e s) as [s1|] eqn:E; [|discriminate].
  assert (HS1 : samples_below b (es_log s1)).
  { destruct (log_grows _ _ _ H) as (l & EL). rewrite EL in HS. intros x k itv u K. eapply HS. apply in_or_app. right. exact K. }
  assert (G : good_step t c e).
  { destruct e as [t' v|t' now|t' now|t']; cbn in *; [eapply HN; left; reflexivity| |apply HR|exact I]. split; [eapply HO; left; reflexivity|apply HR]. }
  apply (IH (clock_after c e) s1); auto.
  - destruct e; cbn in *; try apply HR; exact HR.
  - intros t' now K. eapply HO. right. exact K.
  - intros t' v K. eapply HN. right. exact K.
  - eapply OI_step; eauto.
Qed.
