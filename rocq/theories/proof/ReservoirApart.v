(** Proofs about a shared reservoir whose calls do not overlap. *)
From Coq Require Import Lia Permutation Sorted.
From Verif Require Import model.PyBase model.ReservoirThreads spec.ReservoirThreadSpec proof.ReservoirTrace proof.ReservoirThreadProofs.
Open Scope nat_scope.

Lemma insert_sorted x l : StronglySorted Z.le (map fst l) -> StronglySorted Z.le (map fst (insert_item x l)).
Proof.
  induction l as [|y l IH]; intros H; cbn; [repeat constructor|]. cbn in H. inversion H as [|? ? H1 H2]; subst.
  destruct (Z.leb_spec (fst x) (fst y)); cbn.
  - constructor; [exact H|]. constructor; [lia|]. eapply Forall_impl; [|exact H2]. cbn. intros; lia.
  - constructor; [auto|]. apply Forall_forall. intros z K. rewrite Forall_forall in H2.
    assert (K' : In z (map fst (x :: l))) by (eapply Permutation_in; [apply Permutation_map, insert_perm|exact K]).
    destruct K' as [<- |K']; [lia|auto].
Qed.
Lemma sort_sorted l : StronglySorted Z.le (map fst (sort_items l)).
Proof. induction l as [|x l IH]; cbn; [constructor|]. apply insert_sorted, IH. Qed.

Definition kept (a : acc) (st : list Z) : Prop :=
  ac_data a < length (ac_arrays a) /\ Permutation (map fst (array_of (ac_arrays a) (ac_data a))) st.
Definition in_order (a : acc) : Prop := StronglySorted Z.le (map fst (array_of (ac_arrays a) (ac_data a))).
Definition measured (a : acc) (st : list Z) : Prop := ac_count a = length st /\ least st (ac_min a) /\ greatest st (ac_max a).
Definition clean (a : acc) (st : list Z) : Prop := kept a st /\ measured a st /\ (ac_sorted a = true -> in_order a).
Definition during (a : acc) (started st : list Z) (v : Z) : Prop := started = st ++ [v] /\ kept a started /\ ac_sorted a = false.
Definition phase (a : acc) (started : list Z) (p : pc) : Prop :=
  match p with
  | Idle => clean a started
  | AddTest i v | AddGet i v => exists st, started = st ++ [v] /\ clean a st
  | AddAppend i v d => exists st, started = st ++ [v] /\ clean a st /\ d = ac_data a
  | AddFlag i v => exists st, started = st ++ [v] /\ kept a started /\ measured a st
  | AddCount i v => exists st, during a started st v /\ measured a st
  | AddStore i v c => exists st, during a started st v /\ measured a st /\ c = length st
  | AddMin i v => exists st, during a started st v /\ ac_count a = length started /\ least st (ac_min a) /\ greatest st (ac_max a)
  | AddMinSet i v => exists st, during a started st v /\ ac_count a = length started /\ least started (Some v) /\ greatest st (ac_max a)
  | AddMax i v => exists st, during a started st v /\ ac_count a = length started /\ least started (ac_min a) /\ greatest st (ac_max a)
  | AddMaxSet i v => exists st, during a started st v /\ ac_count a = length started /\ least started (ac_min a) /\ greatest started (Some v)
  | AddRand _ _ | AddItem _ _ _ | AddPut _ _ _ _ => False
  | QFlag q | QSort q => proper q /\ clean a started
  | QSet q l => proper q /\ clean a started /\ Permutation (map fst l) started /\ StronglySorted Z.le (map fst l)
  | QMark q | QData q => proper q /\ clean a started /\ in_order a
  | QLen q d => proper q /\ clean a started /\ in_order a /\ d = ac_data a
  | QLow q d n => proper q /\ clean a started /\ in_order a /\ d = ac_data a /\ n = length started
  | QHigh q d n x => proper q /\ clean a started /\ in_order a /\ d = ac_data a /\ n = length started /\ kth_in_order started (idx_floor q n) x
  end.
Definition told (started : list Z) (log : list obs) : Prop :=
  (forall i, ~ In (AddRaised i) log) /\
  forall t m q x y, In (Got t m q x y) log -> proper q /\ m <= length started /\
    kth_in_order (firstn m started) (idx_floor q m) x /\ kth_in_order (firstn m started) (idx_ceil q m) y.
Definition AI (cap : option nat) (s : rst) : Prop :=
  within cap (length (rs_started s)) ->
  (exists t, (forall t', t' <> t -> rs_pc s t' = Idle) /\ phase (rs_acc s) (rs_started s) (rs_pc s t)) /\ told (rs_started s) (rs_log s).

Lemma told_add st v log : told st log -> told (st ++ [v]) log.
Proof.
  intros (A & B). split; [exact A|]. intros t m q x y K. destruct (B _ _ _ _ _ K) as (L0 & L & Q). rewrite app_length, firstn_app.
  replace (m - length st) with 0 by lia. rewrite app_nil_r. cbn. split; [exact L0|]. split; [lia|exact Q].
Qed.
Lemma least_below st v o : least st o -> (if match o with None => true | Some x => (v <? x)%Z end then least (st ++ [v]) (Some v) else least (st ++ [v]) o).
Proof.
  destruct o as [x|]; cbn.
  - intros (A & B). destruct (Z.ltb_spec v x); cbn; (split; [apply in_or_app; cbn; auto|]); intros y K; apply in_app_or in K as [K|[<- |[]]]; try apply B in K; lia.
  - intros ->. cbn. split; [auto|]. intros y [<- |[]]. lia.
Qed.
Lemma greatest_above st v o : greatest st o -> (if match o with None => true | Some x => (x <? v)%Z end then greatest (st ++ [v]) (Some v) else greatest (st ++ [v]) o).
Proof.
  destruct o as [x|]; cbn.
  - intros (A & B). destruct (Z.ltb_spec x v); cbn; (split; [apply in_or_app; cbn; auto|]); intros y K; apply in_app_or in K as [K|[<- |[]]]; try apply B in K; lia.
  - intros ->. cbn. split; [auto|]. intros y [<- |[]]. lia.
Qed.
Lemma told_log st log o : told st log -> (forall i, ~ In (AddRaised i) o) ->
  (forall t m q x y, In (Got t m q x y) o -> proper q /\ m = length st /\ kth_in_order st (idx_floor q m) x /\ kth_in_order st (idx_ceil q m) y) -> told st (o ++ log).
Proof.
  intros (A & B) N H. split; [intros i K; apply in_app_or in K as [K|K]; [eapply N, K|eapply A, K]|].
  intros t m q x y K. apply in_app_or in K as [K|K]; [|eapply B, K]. destruct (H _ _ _ _ _ K) as (Q0 & -> & Q). rewrite firstn_all. split; [exact Q0|]. split; [lia|exact Q].
Qed.
Lemma kept_length a st : kept a st -> length (array_of (ac_arrays a) (ac_data a)) = length st.
Proof. intros (_ & P). apply Permutation_length in P. rewrite map_length in P. exact P. Qed.
Lemma at_kth a st k x j : kept a st -> in_order a -> (0 <= k)%Z -> at_index (array_of (ac_arrays a) (ac_data a)) k = Some (x, j) -> kth_in_order st k x.
Proof.
  intros (_ & P) S K H. exists (map fst (array_of (ac_arrays a) (ac_data a))). split; [symmetry; exact P|]. split; [exact S|]. split; [exact K|].
  unfold at_index in H. destruct (Z.ltb_spec k 0); [lia|]. apply (map_nth_error fst) in H. exact H.
Qed.
(** One step of the thread that is in a call. *)
Lemma phase_step cap t st p a a' p' o : advance cap t (length st) p a = Some (a', p', o) -> within cap (length st) -> phase a st p ->
  phase a' st p' /\ (forall i, ~ In (AddRaised i) o) /\
  forall t' m q x y, In (Got t' m q x y) o -> proper q /\ m = length st /\ kth_in_order st (idx_floor q m) x /\ kth_in_order st (idx_ceil q m) y.
Proof.
  intros EA W HP. destruct a as [count mn mx arrays data sorted].
  assert (N0 : (forall i, ~ In (AddRaised i) []) /\ forall t' m q x y, In (Got t' m q x y) [] -> proper q /\ m = length st /\ kth_in_order st (idx_floor q m) x /\ kth_in_order st (idx_ceil q m) y)
    by (split; [intros i []|intros ? ? ? ? ? []]).
  assert (N1 : forall j, (forall i, ~ In (AddRaised i) [Added j]) /\ forall t' m q x y, In (Got t' m q x y) [Added j] -> proper q /\ m = length st /\ kth_in_order st (idx_floor q m) x /\ kth_in_order st (idx_ceil q m) y)
    by (intros j; split; [intros i [K|[]]; discriminate|intros ? ? ? ? ? [K|[]]; discriminate]).
  destruct p; cbn [advance] in EA; try discriminate; cbn [phase] in HP.
  - destruct HP as (st0 & -> & C). assert (EB : below cap count = true).
    { destruct C as (_ & (EC & _) & _). cbn in EC. subst count. destruct cap as [c|]; [|reflexivity]. cbn in *. rewrite app_length in W. cbn in W. apply Nat.ltb_lt. lia. }
    rewrite EB in EA. injection EA as <- <- <-. split; [|exact N0]. exists st0. auto.
  - destruct HP as (st0 & -> & C). injection EA as <- <- <-. split; [|exact N0]. exists st0. auto.
  - destruct HP as (st0 & -> & C & ->). cbn [ac_data] in EA. injection EA as <- <- <-. split; [|exact N0]. exists st0. destruct C as ((D & P) & M & _). cbn [ac_data ac_arrays] in *. split; [reflexivity|]. split; [|exact M].
    split; cbn [ac_data ac_arrays]; [rewrite set_nth_length; exact D|]. rewrite array_set, Nat.eqb_refl. destruct (Nat.ltb_spec data (length arrays)); [|lia]. cbn [andb].
    rewrite map_app. apply Permutation_app; [exact P|reflexivity].
  - destruct HP as (st0 & -> & K & M). injection EA as <- <- <-. split; [|exact N0]. exists st0. split; [|exact M]. split; [reflexivity|]. split; [exact K|reflexivity].
  - destruct HP as (st0 & D & M). injection EA as <- <- <-. split; [|exact N0]. exists st0. split; [exact D|]. split; [exact M|]. exact (proj1 M).
  - destruct HP as (st0 & (E & K & S) & (_ & M1 & M2) & ->). injection EA as <- <- <-. split; [|split; [intros ? [Q|[]]; discriminate|intros ? ? ? ? ? [Q|[]]; discriminate]].
    exists st0. split; [split; [exact E|]; split; [exact K|exact S]|]. cbn. split; [rewrite E, app_length; cbn; lia|auto].
  - destruct HP as (st0 & (E & K & S) & C & M1 & M2). injection EA as <- <- <-. cbn [ac_min ac_max ac_count] in *. split; [|exact N0].
    pose proof (least_below _ v _ M1) as M. rewrite <- E in M.
    destruct (match mn with None => true | Some x => (v <? x)%Z end); exists st0; (split; [split; [exact E|]; split; [exact K|exact S]|]); auto.
  - destruct HP as (st0 & (E & K & S) & C & M1 & M2). injection EA as <- <- <-. cbn [ac_min ac_max ac_count] in *. split; [|exact N0].
    exists st0; (split; [split; [exact E|]; split; [exact K|exact S]|]); auto.
  - destruct HP as (st0 & (E & K & S) & C & M1 & M2). cbn [ac_min ac_max ac_count] in *.
    pose proof (greatest_above _ v _ M2) as M. rewrite <- E in M.
    destruct (match mx with None => true | Some x => (x <? v)%Z end); injection EA as <- <- <-.
    + split; [|exact N0]. exists st0; (split; [split; [exact E|]; split; [exact K|exact S]|]); auto.
    + split; [|apply N1]. split; [exact K|]. split; [split; auto|]. cbn in S. cbn. congruence.
  - destruct HP as (st0 & (E & K & S) & C & M1 & M2). injection EA as <- <- <-. cbn [ac_min ac_max ac_count] in *. split; [|apply N1].
    split; [exact K|]. split; [split; auto|]. cbn in S. cbn. congruence.
  - contradiction.
  - contradiction.
  - destruct HP as (P & C). injection EA as <- <- <-. split; [|exact N0]. destruct sorted; [|split; assumption]. split; [exact P|]. split; [exact C|]. apply C. reflexivity.
  - destruct HP as (P & C). injection EA as <- <- <-. split; [|exact N0]. split; [exact P|]. split; [exact C|]. split; [|apply sort_sorted].
    destruct C as ((_ & C) & _). cbn in C. etransitivity; [apply Permutation_map, sort_perm|exact C].
  - destruct HP as (P & C & L1 & L2). injection EA as <- <- <-. split; [|exact N0].
    assert (A : array_of (arrays ++ [l]) (length arrays) = l) by (unfold array_of; rewrite app_nth2, Nat.sub_diag by lia; reflexivity).
    assert (O : in_order (mkAcc count mn mx (arrays ++ [l]) (length arrays) sorted)) by (unfold in_order; cbn [ac_arrays ac_data]; rewrite A; exact L2).
    split; [exact P|]. split; [|exact O]. destruct C as (_ & M & _). split; [|split; [exact M|intros _; exact O]].
    split; cbn [ac_arrays ac_data]; [rewrite app_length; cbn; lia|rewrite A; exact L1].
  - destruct HP as (P & (K & M & _) & O). injection EA as <- <- <-. split; [|exact N0]. split; [exact P|]. split; [|exact O]. split; [exact K|]. split; [exact M|intros _; exact O].
  - destruct HP as (P & C & O). injection EA as <- <- <-. split; [|exact N0]. cbn. auto.
  - destruct HP as (P & C & O & ->). injection EA as <- <- <-. split; [|exact N0]. split; [exact P|]. split; [exact C|]. split; [exact O|]. split; [reflexivity|]. apply (kept_length _ _ (proj1 C)).
  - destruct HP as (P & C & O & -> & ->). cbn [ac_data] in EA. destruct (at_index (array_of arrays data) (idx_floor q (length st))) as [[x j]|] eqn:EI.
    + assert (L : 1 <= length st).
      { rewrite <- (kept_length _ _ (proj1 C)). cbn [ac_arrays ac_data]. apply at_index_in in EI. destruct (array_of arrays data); [destruct EI|cbn; lia]. }
      destruct (idx_bounds q (length st) P L) as (B1 & B2 & B3). pose proof (at_kth _ st _ x j (proj1 C) O B1 EI) as K1.
      destruct (Z.eqb_spec (idx_floor q (length st)) (idx_ceil q (length st))) as [E|E]; injection EA as <- <- <-.
      * split; [exact C|]. split; [intros i [Q|[]]; discriminate|]. intros ? ? ? ? ? [Q|[]]. injection Q as <- <- <- <- <-. rewrite <- E. auto.
      * split; [|exact N0]. split; [exact P|]. split; [exact C|]. split; [exact O|]. auto.
    + injection EA as <- <- <-. split; [exact C|]. split; [intros i [Q|[]]; discriminate|intros ? ? ? ? ? [Q|[]]; discriminate].
  - destruct HP as (P & C & O & -> & -> & K0). cbn [ac_data] in EA. destruct (at_index (array_of arrays data) (idx_ceil q (length st))) as [[y j]|] eqn:EI; injection EA as <- <- <-.
    + assert (L : 1 <= length st).
      { rewrite <- (kept_length _ _ (proj1 C)). cbn [ac_arrays ac_data]. apply at_index_in in EI. destruct (array_of arrays data); [destruct EI|cbn; lia]. }
      destruct (idx_bounds q (length st) P L) as (B1 & B2 & B3). pose proof (at_kth _ st _ y j (proj1 C) O (Z.le_trans _ _ _ B1 B2) EI) as K1.
      split; [exact C|]. split; [intros i [Q|[]]; discriminate|]. intros ? ? ? ? ? [Q|[]]. injection Q as <- <- <- <- <-. auto.
    + split; [exact C|]. split; [intros i [Q|[]]; discriminate|intros ? ? ? ? ? [Q|[]]; discriminate].
Qed.
Lemma AI_step cap e s s' : rstep cap e s = Some s' -> match e with EvAdd _ _ | EvRead _ _ => forall t, rs_pc s t = Idle | _ => True end -> AI cap s -> AI cap s'.
Proof.
  intros H HI A W. destruct e as [t v|t q|t r|t]; cbn in H.
  - rewrite HI in H. injection H as <-. cbn [rs_started rs_acc rs_pc rs_log] in *. destruct A as ((t0 & _ & P) & T).
    { rewrite app_length in W. destruct cap; cbn in *; [lia|exact I]. }
    rewrite HI in P. split; [|apply told_add, T]. exists t. split; [intros t' N; rewrite upd_other by exact N; apply HI|]. rewrite upd_same. exists (rs_started s). auto.
  - rewrite HI in H. destruct (_ && _)%bool eqn:EQ; [|discriminate]. injection H as <-. apply andb_prop in EQ as (Q1 & Q2). apply Z.ltb_lt in Q1, Q2.
    destruct (A W) as ((t0 & _ & P) & T). rewrite HI in P. cbn [moved rs_started rs_acc rs_pc rs_log app]. split; [|exact T].
    exists t. split; [intros t' N; rewrite upd_other by exact N; apply HI|]. rewrite upd_same. split; [split; assumption|exact P].
  - exfalso. destruct (rs_pc s t) eqn:EP; try discriminate. assert (E : rs_started s' = rs_started s) by (destruct (r <=? _); [|discriminate]; destruct (below cap r); injection H as <-; reflexivity).
    rewrite E in W. destruct (A W) as ((t0 & O & P) & T). destruct (Nat.eq_dec t t0) as [-> |N]; [rewrite EP in P; exact P|]. rewrite (O t N) in EP. discriminate.
  - destruct (advance cap t (length (rs_started s)) (rs_pc s t) (rs_acc s)) as [[[a p] o]|] eqn:EA; [|discriminate]. injection H as <-.
    cbn [moved rs_started rs_acc rs_pc rs_log] in *. destruct (A W) as ((t0 & O & P) & T).
    destruct (Nat.eq_dec t t0) as [-> |N]; [|rewrite (O t N) in EA; destruct (rs_acc s); discriminate].
    destruct (phase_step _ _ _ _ _ _ _ _ EA W P) as (P' & N1 & N2). split; [|apply told_log; assumption].
    exists t0. split; [intros t' N; rewrite upd_other by exact N; apply O, N|]. rewrite upd_same. exact P'.
Qed.
Lemma AI_run cap evs : forall s s', rruns cap evs s = Some s' -> apart cap evs s -> AI cap s -> AI cap s'.
Proof.
  induction evs as [|e evs IH]; intros s s' H HA A; cbn in H; [injection H as <-; exact A|].
  cbn [apart] in HA. destruct HA as (H1 & H2). destruct (rstep cap e s) as [s1|] eqn:E; [|discriminate]. eapply IH; [exact H|exact H2|]. eapply AI_step; eauto.
Qed.
Lemma AI_new cap : AI cap rst_new.
Proof.
  intros _. split; [|split; [intros i []|intros ? ? ? ? ? []]]. exists 0. split; [reflexivity|]. split; [split; [cbn; lia|constructor]|].
  split; [repeat split|]. intros _. constructor.
Qed.

Lemma idx_beside q m : proper q -> beside q m (idx_floor q m) (idx_ceil q m).
Proof.
  destruct q as [num den]. intros (A & B). cbn [fst snd] in *. unfold beside, idx_floor, idx_ceil. cbn [fst snd]. set (x := (num * (Z.of_nat m - 1))%Z).
  pose proof (Z.div_mod x den ltac:(lia)). pose proof (Z.mod_pos_bound x den ltac:(lia)).
  pose proof (Z.div_mod (- x) den ltac:(lia)). pose proof (Z.mod_pos_bound (- x) den ltac:(lia)). nia.
Qed.
