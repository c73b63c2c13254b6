(** C105: a RateAccumulator used by several threads (sinks.py 66-129). *)
From Coq Require Import Lqa.
From Verif Require Import model.PyBase model.Bisect model.Quantile model.Sinks model.RateThreads spec.QuantileSpec spec.SinkSpec spec.RateThreadSpec proof.SinkProofs proof.RateThreadProofs.
Open Scope nat_scope.

(** The accumulator holds the most recent of the times appended, each of which a call of add was
    given. *)
Theorem C105_sample rnd size created evs s : truns rnd evs (tst_new size created) = Some s ->
  ra_times (ts_acc s) = most_recent size (ts_appended s) /\ (forall v, In v (ts_appended s) -> exists t, In (EvAdd t v) evs).
Proof.
  intros H. pose proof (TI_reach _ _ _ _ _ H) as T. split; [rewrite (ti_times _ _ _ _ T); apply ret_full|].
  intros v Hv. pose proof (from_adds rnd evs _ s H [] (fun _ K => K) (fun t w K => K) v Hv) as K. cbn [app] in K. unfold added in K. apply in_flat_map in K as (e & E1 & E2).
  destruct e as [t w| | |]; cbn in E2; try contradiction. destruct E2 as [<-|[]]. eauto.
Qed.
(** If one thread adds, as in asynchronous mode, nothing is lost: whenever it is in no call, the
    accumulator holds the most recent of all its values and their exact number. *)
Theorem C105_kept rnd size created evs s w : truns rnd evs (tst_new size created) = Some s -> one_adder w evs -> ts_pc s w = TIdle ->
  ts_appended s = added evs /\ ra_times (ts_acc s) = most_recent size (added evs) /\ ra_total (ts_acc s) = length (added evs).
Proof.
  intros H O I. pose proof (WI_reach _ _ _ _ _ _ O H) as [T W _ _]. rewrite I in W. destruct W as (W1 & W2). rewrite W2. repeat split; auto. rewrite (ti_times _ _ _ _ T). apply ret_full.
Qed.
(** A rate whose window starts, all through the call, between two of the times retained counts
    the times at or after the start exactly, as of some moment of the call. *)
Theorem C105_window rnd size created evs s m0 m1 st en r : truns rnd evs (tst_new size created) = Some s -> qasc (ts_appended s) ->
  In (RateOf m0 m1 st en r) (ts_log s) -> (created < st)%Q -> ~ (en == st)%Q ->
  (forall m, m0 <= m <= m1 -> exists x y, In x (retained size (ts_appended s) m) /\ (x < st)%Q /\ In y (retained size (ts_appended s) m) /\ (st <= y)%Q) ->
  m0 <= m1 <= length (ts_appended s) /\
  exists m, m0 <= m <= m1 /\ r = Ok (inject_Z (Z.of_nat (since_start st (ts_appended s) m)) / (en - st))%Q.
Proof.
  intros H A L C NE HW. pose proof (TI_reach _ _ _ _ _ H) as T. destruct (ti_log _ _ _ _ T _ L) as (B & S). split; [exact B|].
  assert (EC : Qle_bool st created = false) by (destruct (Qle_bool st created) eqn:E; auto; apply Qle_bool_iff in E; lra).
  destruct S as [(m & Bm & Z & _)|[(C' & _)|(_ & m & m' & B1 & B2 & N & S)]]; [|congruence|].
  - destruct (HW m Bm) as (x & _ & X & _). rewrite Z in X. destruct X.
  - destruct (HW m) as (x & y & X & Xl & Y & Yl); [lia|]. destruct (window size (ts_appended s) m m' st x y A) as (W1 & W2 & k & K1 & K2); auto; try lia.
    destruct S as [(S & _)|[(S & _)|(_ & _ & S)]]; try contradiction. exists k. split; [lia|]. rewrite S, K2. unfold per, qdiv.
    destruct (Qeq_bool (en - st) 0) eqn:E; [|reflexivity]. apply Qeq_bool_iff in E. exfalso. apply NE. lra.
Qed.
(** If no time is appended during the call, it returns what it would without threads (C40). *)
Theorem C105_quiet rnd size created evs s m st en r now : truns rnd evs (tst_new size created) = Some s ->
  In (RateOf m m st en r) (ts_log s) -> (created < st)%Q -> ~ (st == 0)%Q -> ~ (en == 0)%Q ->
  r = ra_get_rate (fold_left ra_add (firstn m (ts_appended s)) (ra_new size created)) (Some st) (Some en) now.
Proof.
  intros H L C N1 N2. pose proof (TI_reach _ _ _ _ _ H) as T. destruct (ti_log _ _ _ _ T _ L) as (B & S).
  assert (EC : Qle_bool st created = false) by (destruct (Qle_bool st created) eqn:E; auto; apply Qle_bool_iff in E; lra).
  assert (E0 : forall x y, ~ (x == 0)%Q -> or_default (Some x) y = x) by (intros x y Hx; unfold or_default; destruct (Qeq_bool x 0) eqn:E; auto; apply Qeq_bool_iff in E; contradiction).
  destruct (ra_adds (firstn m (ts_appended s)) size created) as (RT & _ & RC & _). fold (retained size (ts_appended s) m) in RT. unfold ra_get_rate. rewrite RT, RC.
  destruct S as [(k & Bk & Z & ->)|[(C' & _)|(_ & k & k' & B1 & B2 & N & S)]]; [|congruence|].
  - replace k with m in Z by lia. rewrite Z. reflexivity.
  - replace k with m in * by lia. replace k' with m in * by lia. rewrite !E0 by assumption. rewrite EC. destruct (retained size (ts_appended s) m) as [|f rest] eqn:ER; [contradiction|]. cbv zeta.
    destruct S as [(S & m2 & m3 & m4 & B3 & B4 & ->)|[(S & SL & m2 & B3 & ->)|(S1 & S2 & ->)]].
    + replace m2 with m by lia. replace m3 with m by lia. replace m4 with m by lia. rewrite ER, S, Nat.eqb_refl. unfold per. cbn [hd].
      assert (EL : last (f :: rest) 0%Q = last (f :: rest) f) by (clear; revert f; induction rest as [|x l IH]; intros f; [reflexivity|]; cbn [last] in *; destruct l; auto; rewrite IH; clear; revert x; induction l; intros; cbn in *; auto; destruct l; auto).
      rewrite EL. reflexivity.
    + replace m2 with m by lia. rewrite ER, S, Nat.sub_0_r. apply Nat.eqb_neq in SL. rewrite SL. reflexivity.
    + apply Nat.eqb_neq in S1, S2. rewrite S1, S2. reflexivity.
Qed.
(** A rate since the creation, if one thread adds, counts the times added so far, as of some
    moment of the call (the call of add that is under way may count or not). *)
Theorem C105_total rnd size created evs s w m0 m1 st en r : truns rnd evs (tst_new size created) = Some s -> one_adder w evs ->
  In (RateOf m0 m1 st en r) (ts_log s) -> (st <= created)%Q -> ~ (en == st)%Q -> retained size (ts_appended s) m0 <> [] ->
  exists c, m0 <= c <= S m1 /\ r = Ok (inject_Z (Z.of_nat c) / (en - st))%Q.
Proof.
  intros H O L C NE N. pose proof (WI_reach _ _ _ _ _ _ O H) as W. apply Qle_bool_iff in C. destruct (wi_log _ _ _ _ _ _ W _ L C) as [Z|(c & B & ->)]; [contradiction|].
  exists c. split; [exact B|]. unfold per, qdiv. destruct (Qeq_bool (en - st) 0) eqn:E; [|reflexivity]. apply Qeq_bool_iff in E. exfalso. apply NE. lra.
Qed.
(** Normalised times are those retained when the call returns, less the first of the times
    retained at some moment of the call; RuntimeError is raised only if a time was appended during
    the call. *)
Theorem C105_norm rnd size created evs s m0 m1 r : truns rnd evs (tst_new size created) = Some s -> In (NormOf m0 m1 r) (ts_log s) ->
  m0 <= m1 <= length (ts_appended s) /\
  match r with
  | Some out => (retained size (ts_appended s) m1 = [] /\ out = []) \/
      exists m f rest, m0 <= m <= m1 /\ retained size (ts_appended s) m = f :: rest /\ out = map (fun x => rnd (x - f)%Q) (retained size (ts_appended s) m1)
  | None => m0 < m1
  end.
Proof.
  intros H L. pose proof (TI_reach _ _ _ _ _ H) as T. destruct (ti_log _ _ _ _ T _ L) as (B & S). split; [exact B|].
  destruct S as [(Z & ->)|[(m & Bm & N & ->)|(-> & K)]]; [left; auto| |exact K]. right. destruct (retained size (ts_appended s) m) as [|f rest] eqn:ER; [contradiction|]. exists m, f, rest. auto.
Qed.
(** Nothing blocks: a thread that is in a call can go on, and with a sample size the call ends
    after at most that many and 6 of its own steps. *)
Theorem C105_ends rnd q created pre s evs s' t : truns rnd pre (tst_new (Some q) created) = Some s -> truns rnd evs s = Some s' -> begins_none t evs ->
  steps_of t evs <= q + 6 /\ (ts_pc s' t <> TIdle -> exists s'', tstep rnd (EvStep t) s' = Some s'').
Proof.
  intros H0 H B. pose proof (rank_run rnd q created t evs s s' (TI_reach _ _ _ _ _ H0) H B) as K. split; [|apply can_go].
  assert (rank q (ts_pc s t) <= q + 6) by (destruct (ts_pc s t); cbn [rank]; lia). lia.
Qed.

(** A thread takes [k] steps. *)
Definition go (t k : nat) : list tev := repeat (EvStep t) k.
(** A thread adds a time, without interruption. *)
Definition whole_add (t : nat) (v : Q) : list tev := EvAdd t v :: go t 3.
Definition no_round : Q -> Q := fun x => Qred x.
Ltac asc := cbn; repeat split; try (intros y Hy; repeat (destruct Hy as [<-|Hy]; [lra|]); destruct Hy).

(** If times are appended during the call, a rate can be negative, although all times retained
    when it was asked for are in the window, times are in order and one thread adds them; *)
Theorem C105_negative_refuted : exists evs s m1 r,
  truns no_round evs (tst_new (Some 2) 1%Q) = Some s /\ one_adder 1 evs /\ qasc (ts_appended s) /\ retained (Some 2) (ts_appended s) 2 = [5; 6]%Q /\
  ts_log s = [RateOf 2 m1 4%Q 10%Q (Ok r)] /\ (r == -2)%Q.
Proof.
  exists (whole_add 1 5%Q ++ whole_add 1 6%Q ++ [EvRate 0 4%Q 10%Q] ++ go 0 3 ++ whole_add 1 11%Q ++ whole_add 1 12%Q ++ go 0 1). do 3 eexists. split; [vm_compute; reflexivity|].
  split; [intros t v H; cbn in H; repeat (destruct H as [H|H]; [try discriminate; injection H as <- _; reflexivity|]); destruct H|]. split; [asc|]. repeat split.
Qed.
(** and ZeroDivisionError can be raised. *)
Theorem C105_raises_refuted : exists evs s m1,
  truns no_round evs (tst_new (Some 2) 1%Q) = Some s /\ one_adder 1 evs /\ qasc (ts_appended s) /\ retained (Some 2) (ts_appended s) 2 = [5; 6]%Q /\
  ts_log s = [RateOf 2 m1 4%Q 10%Q ZeroDivisionError].
Proof.
  exists (whole_add 1 5%Q ++ whole_add 1 6%Q ++ [EvRate 0 4%Q 10%Q] ++ go 0 3 ++ whole_add 1 10%Q ++ whole_add 1 12%Q ++ go 0 1). do 2 eexists. split; [vm_compute; reflexivity|].
  split; [intros t v H; cbn in H; repeat (destruct H as [H|H]; [try discriminate; injection H as <- _; reflexivity|]); destruct H|]. split; [asc|]. repeat split.
Qed.
(** Times before the window are counted, if they are appended at the wrong moment: here no time
    is ever in the window. *)
Theorem C105_early_refuted : exists evs s m1 r,
  truns no_round evs (tst_new None 1%Q) = Some s /\ one_adder 1 evs /\ ts_appended s = [5; 6]%Q /\ ts_log s = [RateOf 1 m1 100%Q 200%Q (Ok r)] /\ (r == 1 # 100)%Q.
Proof.
  exists (whole_add 1 5%Q ++ [EvRate 0 100%Q 200%Q] ++ go 0 2 ++ whole_add 1 6%Q ++ go 0 1). do 3 eexists. split; [vm_compute; reflexivity|].
  split; [intros t v H; cbn in H; repeat (destruct H as [H|H]; [try discriminate; injection H as <- _; reflexivity|]); destruct H|]. repeat split.
Qed.
(** If two threads add, times need not be appended in the order of the calls; then even a rate
    asked for when no other thread is in a call can be negative. *)
Theorem C105_order_refuted : exists evs s r,
  truns no_round evs (tst_new None 1%Q) = Some s /\ added evs = [5; 6]%Q /\ ts_appended s = [6; 5]%Q /\ ts_log s = [RateOf 2 2 (11 # 2)%Q 10%Q (Ok r)] /\ (r == -2)%Q.
Proof.
  exists ([EvAdd 1 5%Q; EvAdd 2 6%Q] ++ go 2 3 ++ go 1 3 ++ [EvRate 0 (11 # 2)%Q 10%Q] ++ go 0 6). do 2 eexists. split; [vm_compute; reflexivity|]. repeat split.
Qed.
(** get_norm_times raises RuntimeError if a time is appended while it goes through the sample; *)
Theorem C105_norm_raises_refuted : exists evs s,
  truns no_round evs (tst_new (Some 128) 1%Q) = Some s /\ one_adder 1 evs /\ ts_log s = [NormOf 1 2 None].
Proof.
  exists (whole_add 1 5%Q ++ [EvNorm 0] ++ go 0 3 ++ whole_add 1 6%Q ++ go 0 1). eexists. split; [vm_compute; reflexivity|].
  split; [intros t v H; cbn in H; repeat (destruct H as [H|H]; [try discriminate; injection H as <- _; reflexivity|]); destruct H|]. reflexivity.
Qed.
(** and its result need not begin with 0. *)
Theorem C105_norm_first_refuted : exists evs s,
  truns no_round evs (tst_new (Some 2) 1%Q) = Some s /\ one_adder 1 evs /\ ts_log s = [NormOf 2 3 (Some [1; 2]%Q)].
Proof.
  exists (whole_add 1 5%Q ++ whole_add 1 6%Q ++ [EvNorm 0] ++ go 0 2 ++ whole_add 1 7%Q ++ go 0 4). eexists. split; [vm_compute; reflexivity|].
  split; [intros t v H; cbn in H; repeat (destruct H as [H|H]; [try discriminate; injection H as <- _; reflexivity|]); destruct H|]. reflexivity.
Qed.

(** A rate read while another thread adds: two of the times are at or after the start when it is
    called, three when it returns; and three are counted. *)
Example C105_shared : let evs := whole_add 1 3%Q ++ whole_add 1 5%Q ++ whole_add 1 6%Q ++ [EvRate 0 4%Q 10%Q] ++ go 0 2 ++ whole_add 1 7%Q ++ go 0 1 ++
    [EvRate 0 1%Q 9%Q] ++ go 0 2 ++ [EvRate 0 4%Q 10%Q] ++ go 0 3 ++ [EvNorm 0] ++ go 0 8 in
  exists s r r' r'', truns no_round evs (tst_new (Some 8) 1%Q) = Some s /\ one_adder 1 evs /\ ts_pc s 1 = TIdle /\ qasc (ts_appended s) /\
    ts_log s = [NormOf 4 4 (Some [0; 2; 3; 4]%Q); RateOf 4 4 4%Q 10%Q (Ok r''); RateOf 4 4 1%Q 9%Q (Ok r'); RateOf 3 4 4%Q 10%Q (Ok r)] /\ (r == 1 # 2)%Q /\ (r' == 1 # 2)%Q /\ (r'' == 1 # 2)%Q /\
    retained (Some 8) (ts_appended s) 3 <> [] /\
    forall m, 3 <= m <= 4 -> exists x y, In x (retained (Some 8) (ts_appended s) m) /\ (x < 4)%Q /\ In y (retained (Some 8) (ts_appended s) m) /\ (4 <= y)%Q.
Proof.
  do 4 eexists. split; [vm_compute; reflexivity|].
  split; [intros t v H; cbn in H; repeat (destruct H as [H|H]; [try discriminate; injection H as <- _; reflexivity|]); destruct H|]. split; [reflexivity|]. split; [asc|].
  split; [reflexivity|]. split; [reflexivity|]. split; [reflexivity|]. split; [reflexivity|]. split; [discriminate|].
  intros m Hm. exists 3%Q, 5%Q. assert (E : m = 3 \/ m = 4) by lia. destruct E as [-> | ->]; repeat split; try lra; cbn; auto.
Qed.

Print Assumptions C105_sample.
Print Assumptions C105_kept.
Print Assumptions C105_window.
Print Assumptions C105_quiet.
Print Assumptions C105_total.
Print Assumptions C105_norm.
Print Assumptions C105_ends.
Print Assumptions C105_negative_refuted.
Print Assumptions C105_raises_refuted.
Print Assumptions C105_early_refuted.
Print Assumptions C105_order_refuted.
Print Assumptions C105_norm_raises_refuted.
Print Assumptions C105_norm_first_refuted.
