(** A moving average used by several threads: C101. *)
From Coq Require Import Lra Lia.
From Verif Require Import model.PyBase model.Ewma model.EwmaThreads spec.EwmaSpec spec.EwmaThreadSpec proof.EwmaThreadProofs proof.EwmaOneReader.
Open Scope R_scope.

(** C101.  However the calls of the threads interleave, what is waiting to be counted, and
    whatever an update counts, is the sum of the values of different calls of add that had
    returned by then: nothing is made up and no value is in one sum twice. *)
Theorem C101_sums : forall periods interval now a evs s,
  ew_new periods interval now = Some a -> eruns evs (est_new a) = Some s ->
  sum_of_returned (es_started s) (es_log s) (ew_uncounted (es_acc s)) /\
  forall t k itv u after before, es_log s = after ++ Sample t k itv u :: before -> sum_of_returned (es_started s) before u.
Proof.
  intros periods interval now a evs s HA HR. unfold ew_new in HA. destruct (Rlt_dec 0 interval); [|discriminate]. injection HA as <-.
  destruct (SI_run _ _ _ HR (SI_new (mkEwma interval (period_map [] periods) 0 now true) eq_refl)) as (_ & H & _ & _ & K). split; [exact H|]. intros t k itv u l1 l2. apply K.
Qed.
Print Assumptions C101_sums.
(** C101.  So with values that are not negative, the sums are between 0 and the sum of all
    values given to add so far. *)
Theorem C101_bounds : forall periods interval now a evs s,
  ew_new periods interval now = Some a -> eruns evs (est_new a) = Some s -> nonnegative evs ->
  0 <= ew_uncounted (es_acc s) <= total (es_started s) /\
  forall t k itv u, In (Sample t k itv u) (es_log s) -> 0 <= u <= total (es_started s).
Proof.
  intros periods interval now a evs s HA HR HN. unfold ew_new in HA. destruct (Rlt_dec 0 interval); [|discriminate]. injection HA as <-.
  destruct (SI_run _ _ _ HR (SI_new (mkEwma interval (period_map [] periods) 0 now true) eq_refl)) as (L & H & _ & _ & K).
  assert (F : Forall (Rle 0) (es_started s)) by (eapply started_run; [exact HR|exact HN|constructor]).
  split; [eapply returned_bounds; eauto|]. intros t k itv u HI. apply in_split in HI as (l1 & l2 & EL).
  eapply returned_bounds; [|exact F|eapply K; exact EL]. intros i Q. apply L. rewrite EL. apply in_or_app. right. right. exact Q.
Qed.
Print Assumptions C101_bounds.

(** C101.  If calls do not overlap (one thread, or a lock around the calls) and none raises,
    every value is counted exactly once for every period, or is still waiting. *)
Theorem C101_exact : forall periods interval now a evs s k,
  ew_new periods interval now = Some a -> eruns evs (est_new a) = Some s -> apart evs (est_new a) ->
  (forall t, ~ In (Raised t) (es_log s)) -> (forall t, es_pc s t = Idle) -> (k < length (ew_rates a))%nat ->
  counted k (es_log s) + ew_uncounted (es_acc s) = total (es_started s).
Proof.
  intros periods interval now a evs s k HA HR HP HN HI HK. unfold ew_new in HA. destruct (Rlt_dec 0 interval); [|discriminate]. injection HA as <-.
  apply EJ_idle; [|exact HI]. eapply EJ_run; [exact HR|exact HP|exact HN|exact HK|]. exists 0%nat. split; [reflexivity|]. unfold EI, total. cbn. lra.
Qed.
Print Assumptions C101_exact.

(** C101.  A call that no other call overlaps does what the model of one thread (Ewma.v, C37)
    says: add adds. *)
Theorem C101_add_alone : forall s t v, es_pc s t = Idle ->
  exists s', eruns [EvAdd t v; EvStep t] s = Some s' /\ es_acc s' = ew_add (es_acc s) v /\ es_started s' = es_started s ++ [v] /\
  (forall t', es_pc s' t' = es_pc s t').
Proof.
  intros s t v HI. cbn. rewrite HI. cbn. rewrite upd_same. cbn. eexists. split; [reflexivity|]. cbn. split; [reflexivity|]. split; [reflexivity|].
  intros t'. destruct (Nat.eq_dec t' t) as [-> |N]; [rewrite upd_same; auto|]. rewrite !upd_other by exact N. reflexivity.
Qed.
Print Assumptions C101_add_alone.
(** And get_rates returns the rates of the state that model computes, or raises if it fails;
    on its own it always comes to an end. *)
Theorem C101_read_alone : forall s t t1 t2 evs s',
  es_pc s t = Idle -> own_steps t t2 evs -> eruns (EvRead t t1 :: evs) s = Some s' -> es_pc s' t = Idle ->
  es_started s' = es_started s /\ (forall t', es_pc s' t' = es_pc s t') /\
  match ew_read t1 t2 (es_acc s) with
  | Some a => es_acc s' = a /\ exists samples, es_log s' = Returned t (ew_rates a) :: samples ++ es_log s
  | None => exists samples, es_log s' = Raised t :: samples ++ es_log s
  end.
Proof.
  intros s t t1 t2 evs s' HI HO HR HE. cbn [eruns estep] in HR. rewrite HI in HR.
  edestruct alone_run as (A & B & samples & _ & C); [exact HO|exact HR|..]; cbn [es_pc es_acc]; rewrite ?upd_same; try discriminate; try exact I; [exact HE|].
  cbn [es_pc es_acc es_log es_started] in *. rewrite upd_same in C. cbn [finish] in C. split; [exact A|]. split.
  - intros t'. destruct (Nat.eq_dec t' t) as [-> |N]; [congruence|]. rewrite (B t' N). apply upd_other, N.
  - destruct C as [(-> & C)|(-> & C)]; eauto.
Qed.
Print Assumptions C101_read_alone.
Theorem C101_read_ends : forall s t t1 t2, es_pc s t = Idle ->
  exists evs s', own_steps t t2 evs /\ eruns (EvRead t t1 :: evs) s = Some s' /\ es_pc s' t = Idle.
Proof.
  intros s t t1 t2 HI. cbn [eruns estep]. rewrite HI. eapply alone_completes; cbn [es_pc es_acc]; rewrite ?upd_same; try discriminate; [exact I|reflexivity].
Qed.
Print Assumptions C101_read_ends.

(** C101.  One thread reads while any threads add values that are not negative, with positive
    periods and a clock that rises: no read raises, and every rate returned is between 0 and
    any bound on the rates counted (value per second in one interval). *)
Theorem C101_one_reader : forall periods interval now a evs s t b,
  ew_new periods interval now = Some a -> Forall (Rlt 0) periods ->
  eruns evs (est_new a) = Some s -> rising now evs -> only_reader t evs -> nonnegative evs ->
  (forall t' k itv u, In (Sample t' k itv u) (es_log s) -> u / itv <= b) ->
  (forall t', ~ In (Raised t') (es_log s)) /\
  (forall t' k itv u, In (Sample t' k itv u) (es_log s) -> 0 < itv /\ 0 <= u) /\
  (forall t' r, In (Returned t' r) (es_log s) -> rates_within b r).
Proof.
  intros periods interval now a evs s t b HA HP HR HC HO HN HB. unfold ew_new in HA. destruct (Rlt_dec 0 interval); [|discriminate]. injection HA as <-.
  assert (P : forall seen, Forall (fun e => ok_rate b e /\ snd e = None) (period_map seen periods)).
  { clear - HP. induction HP as [|p ps HP _ IH]; intros seen; cbn; [constructor|]. destruct (in_dec _ _ _); [apply IH|]. constructor; [|apply IH]. split; [split; [exact HP|exact I]|reflexivity]. }
  edestruct (OI_run b t) as (c & HI); [exact HR|exact HC|exact HO|exact HN|exact HB| |].
  - constructor; cbn; auto; try discriminate; try lra. eapply Forall_impl; [|apply P]. intros e K. exact (proj1 K).
  - destruct HI as [_ _ _ _ _ HL _]. rewrite Forall_forall in HL. split; [|split].
    + intros t' K. exact (HL _ K).
    + intros t' k itv u K. exact (HL _ K).
    + intros t' rr K. exact (HL _ K).
Qed.
Print Assumptions C101_one_reader.

(** ** What goes wrong when calls overlap
    A new accumulator with one period of a minute, at time 0. *)
Definition a101 : ewma := mkEwma 5 [(60, None)] 0 0 true.
Example C101_new : ew_new [60] 5 0 = Some a101.
Proof. unfold ew_new. destruct (Rlt_dec 0 5); [|lra]. cbn. destruct (in_dec Req_EM_T 60 []); [contradiction|reflexivity]. Qed.
(** Thread [t] reads from the start to the first sample, and on to the end. *)
Definition first_half (t : nat) : list ev := [EvRead t 1; EvStep t; EvStep t; EvStep t; EvClock t 2; EvStep t; EvStep t].
Definition second_half (t : nat) : list ev := [EvStep t; EvStep t; EvStep t; EvStep t; EvStep t; EvStep t].
Ltac go := repeat (cbn -[counted Rplus Rminus Rdiv]; unfold upd_pc;
  repeat match goal with
  | |- context [Rle_dec ?a ?b] => destruct (Rle_dec a b); [try (exfalso; lra)|try (exfalso; lra)]
  | |- context [Req_EM_T ?a ?b] => destruct (Req_EM_T a b); [exfalso; lra|]
  end).
(** Two threads that add at the same time: one value is lost. *)
Theorem C101_lost_add_refuted : exists evs s, eruns evs (est_new a101) = Some s /\ (forall t, es_pc s t = Idle) /\
  es_started s = [1; 2] /\ ew_uncounted (es_acc s) = 2 /\ counted 0 (es_log s) = 0.
Proof.
  exists [EvAdd 0 1; EvAdd 1 2; EvStep 0; EvStep 1]. eexists. split; [reflexivity|]. cbn. split; [|repeat split; lra].
  intros [|[|t]]; reflexivity.
Qed.
Print Assumptions C101_lost_add_refuted.
(** One thread adds and one reads: a value added between the sample and the reset is lost. *)
Theorem C101_lost_in_update_refuted : exists evs s, eruns evs (est_new a101) = Some s /\ only_reader 1 evs /\ rising 0 evs /\ (forall t, es_pc s t = Idle) /\
  es_started s = [1; 3] /\ counted 0 (es_log s) + ew_uncounted (es_acc s) = 1.
Proof.
  exists ([EvAdd 0 1; EvStep 0] ++ first_half 1 ++ [EvAdd 0 3; EvStep 0] ++ second_half 1). eexists. split; [go; reflexivity|].
  split; [intros t now K; cbn in K; intuition congruence|]. split; [cbn; lra|]. cbn. split; [intros [|[|t]]; reflexivity|]. split; [reflexivity|lra].
Qed.
Print Assumptions C101_lost_in_update_refuted.
(** The same threads: an add that began before an update and ends after it brings back all
    that was counted. *)
Theorem C101_counted_again_refuted : exists evs s, eruns evs (est_new a101) = Some s /\ only_reader 1 evs /\ rising 0 evs /\ (forall t, es_pc s t = Idle) /\
  es_started s = [1; 1] /\ counted 0 (es_log s) + ew_uncounted (es_acc s) = 3.
Proof.
  exists ([EvAdd 0 1; EvStep 0; EvAdd 0 1] ++ first_half 1 ++ second_half 1 ++ [EvStep 0]). eexists. split; [go; reflexivity|].
  split; [intros t now K; cbn in K; intuition congruence|]. split; [cbn; lra|]. cbn. split; [intros [|[|t]]; reflexivity|]. split; [reflexivity|lra].
Qed.
Print Assumptions C101_counted_again_refuted.
(** Two readers: although the clock rises and no value is negative, a rate can be negative. *)
Theorem C101_negative_rate_refuted : exists evs s r, eruns evs (est_new a101) = Some s /\ rising 0 evs /\ nonnegative evs /\
  In (Returned 1 [(60, Some r)]) (es_log s) /\ r < 0.
Proof.
  exists (first_half 1 ++ second_half 1 ++
    [EvRead 1 10; EvStep 1; EvClock 1 11; EvStep 1; EvStep 1; EvStep 1; EvStep 1; EvAdd 0 1; EvStep 0;
     EvRead 2 12; EvStep 2; EvClock 2 13; EvStep 2; EvStep 2; EvStep 2; EvStep 2; EvStep 2; EvStep 2;
     EvStep 1; EvStep 1; EvStep 1; EvStep 1; EvStep 1; EvStep 1]).
  eexists. eexists. split; [go; reflexivity|]. split; [cbn; lra|]. split; [intros t v K; cbn in K; intuition; try congruence; match goal with H : EvAdd _ _ = _ |- _ => injection H as <- <-; lra end|].
  cbn. split; [left; reflexivity|].
  assert (E1 : exp (- (11 - 2) / 60) < 1) by (rewrite <- exp_0; apply exp_increasing; lra).
  assert (E2 : exp (- (13 - 2) / 60) < 1) by (rewrite <- exp_0; apply exp_increasing; lra).
  set (x := exp (- (11 - 2) / 60)) in *. set (y := exp (- (13 - 2) / 60)) in *. clearbody x y.
  replace (0 / (2 - 0)) with 0 by lra. replace (0 / (11 - 2)) with 0 by lra. replace ((0 + 1) / (13 - 2)) with (1 / 11) by lra. nra.
Qed.
Print Assumptions C101_negative_rate_refuted.

(** A schedule that meets the conditions of the theorems: two threads add and one reads, all at the same time. *)
Definition s101 : list ev := [EvAdd 0 1; EvAdd 2 4; EvStep 0] ++ first_half 1 ++ [EvStep 2] ++ second_half 1.
Example C101_reached : exists s, eruns s101 (est_new a101) = Some s /\ rising 0 s101 /\ only_reader 1 s101 /\ nonnegative s101 /\ (forall t, es_pc s t = Idle) /\
  In (Returned 1 [(60, Some ((0 + 1) / (2 - 0)))]) (es_log s).
Proof.
  eexists. split; [go; reflexivity|]. split; [cbn; lra|]. split; [intros t now K; cbn in K; intuition congruence|].
  split; [intros t v K; cbn in K; intuition; try congruence; match goal with H : EvAdd _ _ = _ |- _ => injection H as <- <-; lra end|].
  cbn. split; [intros [|[|[|t]]]; reflexivity|]. left. reflexivity.
Qed.
(** And one in which calls do not overlap. *)
Example C101_apart : exists s, let evs := [EvAdd 0 1; EvStep 0] ++ first_half 1 ++ second_half 1 ++ [EvAdd 2 4; EvStep 2] in
  eruns evs (est_new a101) = Some s /\ apart evs (est_new a101) /\ (forall t, es_pc s t = Idle) /\ (forall t, ~ In (Raised t) (es_log s)) /\
  counted 0 (es_log s) = 1 /\ ew_uncounted (es_acc s) = 4.
Proof.
  eexists. cbv zeta. split; [go; reflexivity|]. split; [go; intuition; match goal with |- _ = Idle => repeat match goal with t : nat |- _ => destruct t as [|t]; try reflexivity end end|].
  cbn. split; [intros [|[|[|t]]]; reflexivity|]. split; [intros t K; intuition discriminate|]. lra.
Qed.
