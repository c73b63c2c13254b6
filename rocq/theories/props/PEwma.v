(** Properties of the EWMA accumulator: C37, C38.  Over the reals. *)
From Coq Require Import Lra.
From Verif Require Import model.PyBase model.Ewma spec.EwmaSpec proof.EwmaProofs.
Open Scope R_scope.

(** C37.  The history of the accumulator splits into measuring intervals (and
    values not yet measured) such that every period's rate is the moving average
    of the interval rates. *)
Theorem C37_moving_average : forall periods interval start s0 ops,
  (forall p, In p periods -> 0 < p) -> ew_new periods interval start = Some s0 -> advancing start ops ->
  exists s segs pending, ew_run s0 ops = Some s /\
    concat (map fst segs) ++ pending = added_values ops /\
    start + total (map snd segs) = ew_last s /\ (forall g, In g segs -> 0 < snd g) /\
    (has_read ops = true -> segs <> []) /\
    (forall a g b, segs = a ++ g :: b -> snd g < interval -> forall h, In h (a ++ b) -> interval <= snd h) /\
    forall p, In p periods -> In (p, moving_average p segs) (ew_rates s).
Proof.
  intros periods interval start s0 ops Hp Hn Ha. destruct (ew_run_ok periods interval start s0 Hp Hn ops Ha) as (s & segs & pending & E & (I1 & I2 & I3 & I4 & I5 & I6 & I7 & I8 & I9) & _ & _ & IR).
  exists s, segs, pending. split; [exact E|]. split; [exact I3|]. split; [exact I5|]. split; [exact I6|]. split; [exact I9|]. split; [exact IR|]. intros p Hin. destruct (period_map_all [] periods p Hin) as [[]|Hm].
  rewrite <- I2 in Hm. apply in_map_iff in Hm. destruct Hm as ([p' r] & Ep & Hm). cbn [fst] in Ep. subst p'. rewrite <- (I7 p r Hm). auto.
Qed.
Print Assumptions C37_moving_average.
(** Each rate lies between the smallest and the largest interval rate. *)
Theorem C37_rates_between : forall periods interval start s0 ops,
  (forall p, In p periods -> 0 < p) -> ew_new periods interval start = Some s0 -> advancing start ops -> has_read ops = true ->
  exists s segs pending, ew_run s0 ops = Some s /\
    concat (map fst segs) ++ pending = added_values ops /\ segs <> [] /\ (forall g, In g segs -> 0 < snd g) /\
    forall p, In p periods -> exists r g h, In (p, Some r) (ew_rates s) /\ In g segs /\ In h segs /\ seg_rate g <= r <= seg_rate h /\
      (forall k, In k segs -> seg_rate g <= seg_rate k <= seg_rate h).
Proof.
  intros periods interval start s0 ops Hp Hn Ha Hr.
  destruct (C37_moving_average periods interval start s0 ops Hp Hn Ha) as (s & segs & pending & E & H1 & H2 & H3 & H4 & _ & H5).
  specialize (H4 Hr). exists s, segs, pending. split; auto. split; auto. split; auto. split; auto. intros p Hin.
  destruct (ma_some p segs H4) as (r & Er). specialize (H5 p Hin). rewrite Er in H5.
  assert (Hmin : exists g, In g segs /\ forall k, In k segs -> seg_rate g <= seg_rate k).
  { clear - H4. induction segs as [|a l IH]; [congruence|]. destruct l as [|b l].
    - exists a. split; [left; auto|]. intros k [<-|[]]. lra.
    - destruct IH as (g & Hg & Hk); [discriminate|]. destruct (Rle_dec (seg_rate a) (seg_rate g)) as [L|L].
      + exists a. split; [left; auto|]. intros k [<-|Hk']; [lra|]. specialize (Hk k Hk'). lra.
      + exists g. split; [right; auto|]. intros k [<-|Hk']; [lra | apply Hk; auto]. }
  assert (Hmax : exists h, In h segs /\ forall k, In k segs -> seg_rate k <= seg_rate h).
  { clear - H4. induction segs as [|a l IH]; [congruence|]. destruct l as [|b l].
    - exists a. split; [left; auto|]. intros k [<-|[]]. lra.
    - destruct IH as (g & Hg & Hk); [discriminate|]. destruct (Rle_dec (seg_rate g) (seg_rate a)) as [L|L].
      + exists a. split; [left; auto|]. intros k [<-|Hk']; [lra|]. specialize (Hk k Hk'). lra.
      + exists g. split; [right; auto|]. intros k [<-|Hk']; [lra | apply Hk; auto]. }
  destruct Hmin as (g & Hg & Gm), Hmax as (h & Hh & Hm). exists r, g, h. split; auto. split; auto. split; auto.
  split; [apply (ma_bounds p segs r); auto|]. intros k Hk. split; auto.
Qed.
Print Assumptions C37_rates_between.
(** A steady stream reads as exactly its rate, in every period. *)
Theorem C37_steady_stream : forall c periods interval start s0 ops,
  (forall p, In p periods -> 0 < p) -> ew_new periods interval start = Some s0 -> advancing start ops -> has_read ops = true ->
  steady c start 0 ops ->
  exists s, ew_run s0 ops = Some s /\ forall p r, In (p, r) (ew_rates s) -> r = Some c.
Proof.
  intros c periods interval start s0 ops Hp Hn Ha Hrd Hs.
  destruct (ew_run_ok periods interval start s0 Hp Hn ops Ha) as (s & segs & pending & E & (I1 & I2 & I3 & I4 & I5 & I6 & I7 & I8 & I9) & _).
  assert (Hs0 : exists s', ew_run s0 ops = Some s' /\ forall p r, In (p, r) (ew_rates s') -> r = None \/ r = Some c).
  { unfold ew_new in Hn. destruct (Rlt_dec 0 interval); [|discriminate]. inversion Hn; subst.
    apply (steady_run c ops _ start 0); auto; cbn [ew_rates ew_last ew_uncounted]; try lra.
    intros p r0 Hin. apply period_map_fst in Hin. destruct Hin as [Hin ->]. split; auto. }
  destruct Hs0 as (s' & E' & H'). replace s' with s in H' by congruence. exists s. split; auto. intros p r Hin.
  destruct (H' p r Hin) as [->| ->]; auto. exfalso. pose proof (I7 p None Hin) as Hma. destruct (ma_some p segs (I9 Hrd)) as (x & Ex). congruence.
Qed.
Print Assumptions C37_steady_stream.
(** A read at least one interval after the last update measures everything added. *)
Theorem C37_due_read_measures : forall t1 t2 s s', ew_interval s <= t1 - ew_last s -> ew_read t1 t2 s = Some s' ->
  ew_uncounted s' = 0 /\ ew_last s' = t2.
Proof.
  intros t1 t2 s s' Hd H. unfold ew_read, ew_update in H. destruct (Rle_dec (ew_interval s) (t1 - ew_last s)); [|contradiction].
  destruct (ew_steps _ _ _); [|discriminate]. inversion H; subst. auto.
Qed.
Print Assumptions C37_due_read_measures.
Definition ex_ops : list eop := [EAdd 4; ERead 2 2; EAdd 2; ERead 3 3; EAdd 10; ERead 8 8].
Example C37_ex : advancing 0 ex_ops /\ has_read ex_ops = true /\ (exists s0, ew_new [60; 300] 5 0 = Some s0) /\ steady 2 0 0 ex_ops.
Proof.
  split; [simpl; lra|]. split; [reflexivity|]. split; [|simpl; lra]. unfold ew_new. destruct (Rlt_dec 0 5); [eauto | lra].
Qed.

(** C38.  The full statement, every read succeeds, is false: *)
Theorem C38_reads_succeed_refuted : exists periods interval start s0,
  (forall p, In p periods -> 0 < p) /\ ew_new periods interval start = Some s0 /\ ew_read start start s0 = None.
Proof.
  exists [60], 5, 100. unfold ew_new. destruct (Rlt_dec 0 5); [|lra]. eexists. split; [intros p [<-|[]]; lra|]. split; [reflexivity|].
  unfold ew_read, ew_update. cbn [ew_interval ew_last ew_force ew_rates ew_uncounted]. destruct (Rle_dec 5 (100 - 100)); [lra|].
  replace (100 - 100) with 0 by ring. rewrite ew_steps_fail; [auto|]. simpl. discriminate.
Qed.
Print Assumptions C38_reads_succeed_refuted.
(** What holds: reads succeed when the clock has advanced since the previous
    reading. *)
Theorem C38_reads_succeed_partial : forall periods interval start s0 ops,
  (forall p, In p periods -> 0 < p) -> ew_new periods interval start = Some s0 -> advancing start ops ->
  exists s, ew_run s0 ops = Some s.
Proof.
  intros periods interval start s0 ops Hp Hn Ha. destruct (ew_run_ok periods interval start s0 Hp Hn ops Ha) as (s & _ & _ & E & _). eauto.
Qed.
Print Assumptions C38_reads_succeed_partial.
(** The constructor rejects exactly the non-positive intervals. *)
Theorem C38_constructor : forall periods interval start, ew_new periods interval start = None <-> interval <= 0.
Proof. intros periods interval start. unfold ew_new. destruct (Rlt_dec 0 interval); split; intros; try discriminate; auto; lra. Qed.
Print Assumptions C38_constructor.
Example C38_ex : advancing 0 ex_ops /\ (exists s0, ew_new [60; 300] 5 0 = Some s0).
Proof. split; apply C37_ex. Qed.
