(** Proofs about a shared reservoir: threads that only add, and a single reader. *)
From Coq Require Import Lia Permutation Sorted.
From Verif Require Import model.PyBase model.ReservoirThreads spec.ReservoirThreadSpec proof.ReservoirTrace.
Open Scope nat_scope.

Lemma put_some {A} (l : list A) : forall k x, k < length l -> exists l', put l k x = Some l' /\ length l' = length l.
Proof.
  induction l as [|y l IH]; intros [|k] x H; cbn in *; try lia; [eauto|].
  destruct (IH k x) as (l' & -> & E); [lia|]. exists (y :: l'). cbn. auto.
Qed.
Lemma put_length {A} (l : list A) : forall k x l', put l k x = Some l' -> length l' = length l.
Proof.
  induction l as [|y l IH]; intros [|k] x l' H; cbn in *; try discriminate; [injection H as <-; reflexivity|].
  destruct (put l k x) as [l''|] eqn:E; [|discriminate]. injection H as <-. cbn. f_equal. eapply IH; exact E.
Qed.

(** ** Threads that only add *)
Definition late_pc (p : pc) : Prop := match p with AddRand _ _ | AddItem _ _ _ | AddPut _ _ _ _ => True | _ => False end.
Definition add_pc (cap : option nat) (p : pc) : Prop :=
  match p with
  | QFlag _ | QSort _ | QSet _ _ | QMark _ | QData _ | QLen _ _ | QLow _ _ _ | QHigh _ _ _ _ => False
  | AddAppend _ _ d => d = 0
  | AddItem _ _ r => below cap r = true
  | AddPut _ _ r d => d = 0 /\ below cap r = true
  | _ => True
  end.
Definition roomy (cap : option nat) (l : list item) (st : list Z) : Prop := below cap (length l) = true \/ within cap (length st).
Record NR (cap : option nat) (s : rst) : Prop := mkNR {
  nr_array : exists l, ac_arrays (rs_acc s) = [l] /\
    (roomy cap l (rs_started s) -> (forall i, i < length (rs_started s) -> In i (map snd l) \/ exists t v, call_of (rs_pc s t) = Some (i, v) /\ pending (rs_pc s t) = true)
      /\ forall t, ~ late_pc (rs_pc s t));
  nr_data : ac_data (rs_acc s) = 0;
  nr_pcs : forall t, add_pc cap (rs_pc s t);
  nr_raised : forall i, ~ In (AddRaised i) (rs_log s) }.

Lemma below_le cap n m : n <= m -> below cap m = true -> below cap n = true.
Proof. destruct cap as [c|]; cbn; [|reflexivity]. intros H K. apply Nat.ltb_lt in K. apply Nat.ltb_lt. lia. Qed.
Lemma roomy_le cap l l' st st' : length l <= length l' -> length st <= length st' -> roomy cap l' st' -> roomy cap l st.
Proof.
  intros H1 H2 [K|K]; [left; eapply below_le; eauto|right]. destruct cap; cbn in *; lia.
Qed.
Lemma incl_length (a b : list nat) : NoDup a -> (forall i, In i a -> In i b) -> length a <= length b.
Proof. intros N H. apply NoDup_incl_length; assumption. Qed.
(** While there is room, a thread that tests finds it. *)
Lemma room_test cap s t i v l : TI s -> NR cap s -> ac_arrays (rs_acc s) = [l] -> rs_pc s t = AddTest i v -> roomy cap l (rs_started s) -> below cap (ac_count (rs_acc s)) = true.
Proof.
  intros HT HN EL EP HR. destruct (nr_array cap s HN) as (l0 & EL' & HB). assert (l0 = l) as -> by congruence. destruct (HB HR) as (HC & _).
  destruct (ti_count s HT) as (C & NC & HCs & EC).
  assert (HCl : forall j, In j C -> In j (map snd l)).
  { intros j K. destruct (HC j) as [Q|(t' & w & Q1 & Q2)]; [apply (ti_counted s HT); auto|exact Q|].
    exfalso. eapply (ti_uncounted s HT); [exact Q1| |apply HCs, K]. unfold uncounted. rewrite Q2. reflexivity. }
  destruct HR as [K|K].
  - eapply below_le; [|exact K]. rewrite <- EC. etransitivity; [apply (incl_length C (map snd l)); assumption|]. rewrite map_length. reflexivity.
  - destruct cap as [c|]; [|reflexivity]. cbn in *. apply Nat.ltb_lt. rewrite <- EC.
    assert (CO : call_of (rs_pc s t) = Some (i, v)) by (rewrite EP; reflexivity).
    assert (length (i :: C) <= length (seq 0 (length (rs_started s)))); [|rewrite seq_length in *; cbn in *; lia].
    apply incl_length.
    + constructor; [|exact NC]. intros Q. apply HCs in Q. eapply (ti_uncounted s HT); [exact CO| |exact Q]. rewrite EP. reflexivity.
    + intros j [<- |Q]; apply in_seq; split; try lia; cbn.
      * apply nth_error_Some. rewrite (ti_calls s HT _ _ _ CO). discriminate.
      * apply (ti_counted s HT), HCs, Q.
Qed.
(** A step that only moves a thread. *)
Lemma NR_move cap s a t p o l : NR cap s -> TI s -> ac_arrays (rs_acc s) = [l] -> ac_arrays a = [l] -> ac_data a = 0 ->
  add_pc cap p -> (roomy cap l (rs_started s) -> ~ late_pc p) ->
  (pending (rs_pc s t) = true -> roomy cap l (rs_started s) -> pending p = true /\ call_of p = call_of (rs_pc s t)) ->
  (forall i, ~ In (AddRaised i) o) -> NR cap (moved s a t p o).
Proof.
  intros HN HT E1 E2 E3 HP HL HPE HO. destruct HN as [(l0 & H1 & H2) H3 H4 H5]. assert (l0 = l) as -> by congruence.
  constructor; cbn [moved rs_acc rs_pc rs_started rs_log].
  - exists l. split; [exact E2|]. intros R. destruct (H2 R) as (A & B). split.
    + intros i K. destruct (A i K) as [Q|(t' & v & Q1 & Q2)]; [auto|]. right. destruct (Nat.eq_dec t' t) as [-> |N].
      * destruct (HPE Q2 R) as (P1 & P2). exists t, v. rewrite upd_same. split; congruence.
      * exists t', v. rewrite upd_other by exact N. auto.
    + intros t'. destruct (Nat.eq_dec t' t) as [-> |N]; [rewrite upd_same; auto|rewrite upd_other by exact N; apply B].
  - exact E3.
  - intros t'. destruct (Nat.eq_dec t' t) as [-> |N]; [rewrite upd_same; exact HP|rewrite upd_other by exact N; apply H4].
  - intros i K. apply in_app_or in K as [K|K]; [eapply HO, K|eapply H5, K].
Qed.
Ltac nrm HN HT EL EP := eapply NR_move; [exact HN|exact HT|exact EL| | | | | |]; rewrite ?EP; cbn [ac_arrays ac_data]; auto; cbn; auto; try (intuition discriminate).
Lemma NR_step cap e s s' : (forall t q, e <> EvRead t q) -> rstep cap e s = Some s' -> TI s -> NR cap s -> NR cap s'.
Proof.
  intros NE H HT HN. destruct e as [t v|t q|t r|t]; cbn in H; [| destruct (NE t q eq_refl) | |].
  - destruct (rs_pc s t) eqn:EP; try discriminate. injection H as <-. destruct HN as [(l & H1 & H2) H3 H4 H5].
    constructor; cbn [rs_acc rs_pc rs_started rs_log]; auto.
    + exists l. split; [exact H1|]. intros R. destruct H2 as (A & B); [eapply roomy_le; [| |exact R]; rewrite ?app_length; lia|]. split.
      * intros i K. rewrite app_length in K. cbn in K. destruct (Nat.eq_dec i (length (rs_started s))) as [-> |NI].
        -- right. exists t, v. rewrite upd_same. auto.
        -- destruct (A i) as [Q|(t' & w & Q1 & Q2)]; [lia|auto|]. right. exists t', w. rewrite upd_other by (intros ->; rewrite EP in Q2; discriminate). auto.
      * intros t'. destruct (Nat.eq_dec t' t) as [-> |N]; [rewrite upd_same; intros []|rewrite upd_other by exact N; apply B].
    + intros t'. destruct (Nat.eq_dec t' t) as [-> |N]; [rewrite upd_same; exact I|rewrite upd_other by exact N; apply H4].
  - destruct (rs_pc s t) eqn:EP; try discriminate. destruct (r <=? _); [|discriminate]. pose proof HN as [(l & H1 & H2) H3 H4 H5].
    assert (NR' : ~ roomy cap l (rs_started s)) by (intros R; apply (proj2 (H2 R) t); rewrite EP; exact I).
    destruct (below cap r) eqn:EB; injection H as <-; nrm HN HT H1 EP; tauto.
  - destruct (advance cap t (length (rs_started s)) (rs_pc s t) (rs_acc s)) as [[[a p] o]|] eqn:EA; [|discriminate]. injection H as <-.
    pose proof HN as [(l & H1 & H2) H3 H4 H5]. pose proof (H4 t) as HPC.
    pose proof (fun i v => room_test cap s t i v l HT HN H1) as RT.
    destruct (rs_acc s) as [count mn mx arrays data sorted] eqn:EAC. cbn [ac_arrays ac_data ac_count] in *. subst arrays data.
    assert (EL : ac_arrays (rs_acc s) = [l]) by (rewrite EAC; reflexivity).
    destruct (rs_pc s t) eqn:EP; cbn [advance] in EA; try discriminate; cbn in HPC; try contradiction.
    + injection EA as <- <- <-. destruct (below cap count) eqn:EB; nrm HN HT EL EP.
      intros R. specialize (RT _ _ eq_refl R). congruence.
    + injection EA as <- <- <-. nrm HN HT EL EP.
    + injection EA as <- <- <-. subst d. cbn [set_nth array_of nth]. constructor; cbn [moved rs_acc rs_pc rs_started rs_log ac_arrays ac_data app]; auto.
      * exists (l ++ [(v, i)]). split; [reflexivity|]. intros R. destruct H2 as (A & B); [eapply roomy_le; [| |exact R]; rewrite ?app_length; lia|]. split.
        -- intros j K. rewrite map_app. destruct (A j K) as [Q|(t' & w & Q1 & Q2)]; [left; apply in_or_app; auto|].
           destruct (Nat.eq_dec t' t) as [-> |N]; [rewrite EP in Q1; injection Q1 as -> ->; left; apply in_or_app; right; left; reflexivity|].
           right. exists t', w. rewrite upd_other by exact N. auto.
        -- intros t'. destruct (Nat.eq_dec t' t) as [-> |N]; [rewrite upd_same; intros []|rewrite upd_other by exact N; apply B].
      * intros t'. destruct (Nat.eq_dec t' t) as [-> |N]; [rewrite upd_same; exact I|rewrite upd_other by exact N; apply H4].
    + injection EA as <- <- <-. nrm HN HT EL EP.
    + injection EA as <- <- <-. nrm HN HT EL EP.
    + injection EA as <- <- <-. nrm HN HT EL EP.
    + injection EA as <- <- <-. destruct (match mn with None => true | Some x => _ end); nrm HN HT EL EP.
    + injection EA as <- <- <-. nrm HN HT EL EP.
    + destruct (match mx with None => true | Some x => _ end); injection EA as <- <- <-; nrm HN HT EL EP.
    + injection EA as <- <- <-. nrm HN HT EL EP.
    + injection EA as <- <- <-. assert (NR' : ~ roomy cap l (rs_started s)) by (intros R; apply (proj2 (H2 R) t); rewrite EP; exact I). nrm HN HT EL EP; tauto.
    + assert (NR' : ~ roomy cap l (rs_started s)) by (intros R; apply (proj2 (H2 R) t); rewrite EP; exact I).
      destruct HPC as (-> & HB). cbn [array_of nth] in EA.
      assert (LE : r < length l).
      { destruct (below cap (length l)) eqn:E; [destruct NR'; left; exact E|]. destruct cap as [c|]; [|discriminate]. cbn in E, HB. apply Nat.ltb_ge in E. apply Nat.ltb_lt in HB. lia. }
      destruct (put_some l r (v, i) LE) as (l' & EPUT & ELN). rewrite EPUT in EA. injection EA as <- <- <-. cbn [set_nth].
      constructor; cbn [moved rs_acc rs_pc rs_started rs_log ac_arrays ac_data app]; auto.
      * exists l'. split; [reflexivity|]. intros R. destruct NR'. eapply roomy_le; [| |exact R]; lia.
      * intros t'. destruct (Nat.eq_dec t' t) as [-> |N]; [rewrite upd_same; exact I|rewrite upd_other by exact N; apply H4].
Qed.
Lemma NR_run cap evs : forall s s', no_reader evs -> rruns cap evs s = Some s' -> TI s -> NR cap s -> NR cap s'.
Proof.
  induction evs as [|e evs IH]; intros s s' NE H HT HN; cbn in H; [injection H as <-; exact HN|].
  destruct (rstep cap e s) as [s1|] eqn:E; [|discriminate]. eapply IH; [|exact H|eapply TI_step; eauto|].
  - intros t q K. apply (NE t q). right. exact K.
  - eapply NR_step; [|exact E|exact HT|exact HN]. intros t q ->. apply (NE t q). left. reflexivity.
Qed.
Lemma NR_new cap : NR cap rst_new.
Proof.
  constructor; cbn; auto. exists []. split; [reflexivity|]. intros _. split; [intros i K; lia|intros t []].
Qed.
Lemma nth_seq_map {A} (d : A) : forall l, map (fun i => nth i l d) (seq 0 (length l)) = l.
Proof.
  induction l as [|x l IH]; [reflexivity|]. cbn [length seq map nth]. f_equal. rewrite <- seq_shift, map_map. exact IH.
Qed.
(** All items kept: the values are those of the calls. *)
Lemma traced_all st l : traced st l -> (forall i, i < length st -> In i (map snd l)) -> Permutation (map fst l) st.
Proof.
  intros (N & B) H.
  assert (P : Permutation (map snd l) (seq 0 (length st))).
  { apply NoDup_Permutation; [exact N|apply seq_NoDup|]. intros i. rewrite in_seq. split; [|intros K; apply H; lia].
    intros K. apply in_map_iff in K as ([v j] & E & K). cbn in E. subst j. apply B in K. split; [lia|]. cbn. apply nth_error_Some. congruence. }
  rewrite <- (nth_seq_map 0%Z st) at 1.
  assert (E : map fst l = map (fun i => nth i st 0%Z) (map snd l)).
  { rewrite map_map. apply map_ext_in. intros [v i] K. cbn. apply B in K. symmetry. apply nth_error_nth. exact K. }
  rewrite E. apply Permutation_map, P.
Qed.

(** ** One reader *)
Definition reads (p : pc) : bool :=
  match p with QFlag _ | QSort _ | QSet _ _ | QMark _ | QData _ | QLen _ _ | QLow _ _ _ | QHigh _ _ _ _ => true | _ => false end.
Definition proper (q : Z * Z) : Prop := (0 < fst q < snd q)%Z.
Definition read_ok (a : acc) (p : pc) : Prop :=
  let l := array_of (ac_arrays a) (ac_data a) in
  match p with
  | QFlag q | QSort q | QMark q | QData q => proper q
  | QSet q l' => proper q /\ l' <> []
  | QLen q d => proper q /\ d = ac_data a
  | QLow q d n | QHigh q d n _ => proper q /\ d = ac_data a /\ 1 <= n <= length l
  | _ => True
  end.
Record OR (t : nat) (s : rst) : Prop := mkOR {
  or_others : forall t', t' <> t -> reads (rs_pc s t') = false;
  or_data : array_of (ac_arrays (rs_acc s)) (ac_data (rs_acc s)) <> [];
  or_pc : read_ok (rs_acc s) (rs_pc s t) }.

Lemma idx_bounds q n : proper q -> 1 <= n -> (0 <= idx_floor q n /\ idx_floor q n <= idx_ceil q n /\ idx_ceil q n <= Z.of_nat n - 1)%Z.
Proof.
  intros (A & B) H. unfold idx_floor, idx_ceil. set (m := (Z.of_nat n - 1)%Z). assert (0 <= m)%Z by lia. set (a := (fst q * m)%Z). assert (0 <= a <= snd q * m)%Z by nia.
  assert (C : (a / snd q <= - (- a / snd q))%Z).
  { pose proof (Z.div_mod a (snd q) ltac:(lia)). pose proof (Z.mod_pos_bound a (snd q) ltac:(lia)).
    pose proof (Z.div_mod (- a) (snd q) ltac:(lia)). pose proof (Z.mod_pos_bound (- a) (snd q) ltac:(lia)). nia. }
  repeat split; [apply Z.div_pos; lia|exact C|].
  pose proof (Z.div_mod (- a) (snd q) ltac:(lia)). pose proof (Z.mod_pos_bound (- a) (snd q) ltac:(lia)). nia.
Qed.
Lemma at_index_some {A} (l : list A) k : (0 <= k < Z.of_nat (length l))%Z -> exists x, at_index l k = Some x /\ nth_error l (Z.to_nat k) = Some x.
Proof.
  intros H. unfold at_index. destruct (Z.ltb_spec k 0); [lia|]. destruct (nth_error l (Z.to_nat k)) as [x|] eqn:E; [eauto|].
  apply nth_error_None in E. lia.
Qed.
Lemma set_nth_length {A} (l : list A) : forall k x, length (set_nth l k x) = length l.
Proof. induction l as [|y l IH]; intros [|k] x; cbn; auto. Qed.
Lemma array_set arrays : forall d l d', array_of (set_nth arrays d l) d' = if (Nat.eqb d' d && (d <? length arrays))%bool then l else array_of arrays d'.
Proof.
  unfold array_of. induction arrays as [|y arrays IH]; intros d l d'; cbn [set_nth].
  - rewrite Bool.andb_false_r. destruct d; reflexivity.
  - destruct d as [|d], d' as [|d']; cbn [nth]; try reflexivity. rewrite IH. reflexivity.
Qed.
Lemma array_grows arrays d l d' : length (array_of arrays d) <= length l -> length (array_of arrays d') <= length (array_of (set_nth arrays d l) d').
Proof.
  intros H. rewrite array_set. destruct (Nat.eqb_spec d' d) as [-> |N]; cbn [andb]; [|lia]. destruct (d <? length arrays); lia.
Qed.
Lemma nonempty_le {A} (l l' : list A) : l <> [] -> length l <= length l' -> l' <> [].
Proof. intros H K ->. destruct l; [contradiction|cbn in K; lia]. Qed.
Lemma read_ok_grows a a' p : ac_data a' = ac_data a -> length (array_of (ac_arrays a) (ac_data a)) <= length (array_of (ac_arrays a') (ac_data a)) -> read_ok a p -> read_ok a' p.
Proof. intros E L. unfold read_ok. rewrite E. destruct p; auto; intuition lia. Qed.
(** A step of another thread or an add of [t]. *)
Lemma OR_move t s a t' p o : OR t s -> ac_data a = ac_data (rs_acc s) ->
  length (array_of (ac_arrays (rs_acc s)) (ac_data (rs_acc s))) <= length (array_of (ac_arrays a) (ac_data (rs_acc s))) ->
  (t' <> t -> reads p = false) -> (t' = t -> read_ok (rs_acc s) p) -> OR t (moved s a t' p o).
Proof.
  intros [H1 H2 H3] ED EL HR HO. constructor; cbn [moved rs_acc rs_pc].
  - intros t1 N. destruct (Nat.eq_dec t1 t') as [-> |N']; [rewrite upd_same; auto|rewrite upd_other by exact N'; auto].
  - rewrite ED. eapply nonempty_le; eauto.
  - destruct (Nat.eq_dec t t') as [<- |N']; [rewrite upd_same|rewrite upd_other by exact N']; eapply read_ok_grows; eauto.
Qed.
Lemma sort_nonempty l : l <> [] -> sort_items l <> [].
Proof. intros H E. apply H. apply Permutation_nil. rewrite <- E. apply sort_perm. Qed.
Lemma OR_step cap t e s s' : (forall t' q, e = EvRead t' q -> t' = t) -> rstep cap e s = Some s' -> OR t s ->
  OR t s' /\ exists o, rs_log s' = o ++ rs_log s /\ forall t', ~ In (QRaised t') o.
Proof.
  intros NE H HO. destruct e as [t' v|t' q|t' r|t']; cbn in H.
  - destruct (rs_pc s t') eqn:EP; try discriminate. injection H as <-. split; [|exists []; auto].
    apply (OR_move t s (rs_acc s) t' (AddTest (length (rs_started s)) v) []) in HO; auto; [|intros _; exact I]. destruct HO as [A B C]. constructor; assumption.
  - destruct (rs_pc s t') eqn:EP; try discriminate. destruct (_ && _)%bool eqn:EQ; [|discriminate]. injection H as <-.
    apply andb_prop in EQ as (Q1 & Q2). apply Z.ltb_lt in Q1, Q2. split; [|exists []; auto].
    apply OR_move; auto; [intros N; destruct N; eapply NE; reflexivity|]. intros _. cbn. split; assumption.
  - destruct (rs_pc s t') eqn:EP; try discriminate. destruct (r <=? _); [|discriminate]. destruct (below cap r); injection H as <-.
    + split; [|exists []; auto]. apply OR_move; auto. intros _; exact I.
    + split; [|exists [Added i]; split; [reflexivity|intros ? [K|[]]; discriminate]]. apply OR_move; auto. intros _; exact I.
  - destruct (advance cap t' (length (rs_started s)) (rs_pc s t') (rs_acc s)) as [[[a p] o]|] eqn:EA; [|discriminate]. injection H as <-.
    cut (OR t (moved s a t' p o) /\ forall t', ~ In (QRaised t') o); [intros (A & B); split; [exact A|exists o; auto]|].
    assert (RD : t' = t \/ reads (rs_pc s t') = false) by (destruct (Nat.eq_dec t' t); [auto|right; apply (or_others t s HO); assumption]).
    pose proof HO as [H1 H2 H3]. destruct (rs_acc s) as [count mn mx arrays data sorted] eqn:EAC. cbn [ac_arrays ac_data] in *.
    destruct (rs_pc s t') eqn:EP; cbn [advance] in EA; try discriminate; cbn [reads] in RD; try (destruct RD as [-> |RD]; [|discriminate]; rewrite EP in H3; cbn in H3).
    + injection EA as <- <- <-. split; [|intros ? []]. apply OR_move; rewrite ?EAC; auto; destruct (below cap count); auto; intros; exact I.
    + injection EA as <- <- <-. split; [|intros ? []]. apply OR_move; rewrite ?EAC; auto; intros; exact I.
    + injection EA as <- <- <-. split; [|intros ? []]. apply OR_move; rewrite ?EAC; auto; [|intros; exact I]. cbn [ac_arrays ac_data]. apply array_grows. rewrite app_length. lia.
    + injection EA as <- <- <-. split; [|intros ? []]. apply OR_move; rewrite ?EAC; auto; intros; exact I.
    + injection EA as <- <- <-. split; [|intros ? []]. apply OR_move; rewrite ?EAC; auto; intros; exact I.
    + injection EA as <- <- <-. split; [|intros ? [K|[]]; discriminate]. apply OR_move; rewrite ?EAC; auto; intros; exact I.
    + injection EA as <- <- <-. split; [|intros ? []]. apply OR_move; rewrite ?EAC; auto; destruct (match mn with None => true | Some x => _ end); auto; intros; exact I.
    + injection EA as <- <- <-. split; [|intros ? []]. apply OR_move; rewrite ?EAC; auto; intros; exact I.
    + destruct (match mx with None => true | Some x => _ end); injection EA as <- <- <-; (split; [|cbn; intuition discriminate]); apply OR_move; rewrite ?EAC; auto; intros; exact I.
    + injection EA as <- <- <-. split; [|intros ? [K|[]]; discriminate]. apply OR_move; rewrite ?EAC; auto; intros; exact I.
    + injection EA as <- <- <-. split; [|intros ? []]. apply OR_move; rewrite ?EAC; auto; intros; exact I.
    + destruct (put (array_of arrays d) r (v, i)) as [l|] eqn:EPUT; injection EA as <- <- <-.
      * split; [|intros ? []]. apply OR_move; rewrite ?EAC; auto; [|intros; exact I]. cbn [ac_arrays ac_data]. apply array_grows. apply put_length in EPUT. lia.
      * split; [|intros ? [K|[]]; discriminate]. apply OR_move; rewrite ?EAC; auto; intros; exact I.
    + injection EA as <- <- <-. split; [|intros ? []]. apply OR_move; rewrite ?EAC; auto; [intros N; destruct N; reflexivity|]. intros _. destruct sorted; exact H3.
    + injection EA as <- <- <-. split; [|intros ? []]. apply OR_move; rewrite ?EAC; auto; [intros N; destruct N; reflexivity|]. intros _. cbn. split; [exact H3|apply sort_nonempty, H2].
    + injection EA as <- <- <-. split; [|intros ? []]. destruct H3 as (H3 & NL). constructor; cbn [moved rs_acc rs_pc ac_arrays ac_data].
      * intros t1 N. rewrite upd_other by exact N. auto.
      * unfold array_of. rewrite app_nth2, Nat.sub_diag by lia. exact NL.
      * rewrite upd_same. exact H3.
    + injection EA as <- <- <-. split; [|intros ? []]. apply OR_move; rewrite ?EAC; auto; try (intros N; destruct N; reflexivity); intros _; cbn; auto.
    + injection EA as <- <- <-. split; [|intros ? []]. apply OR_move; rewrite ?EAC; auto; try (intros N; destruct N; reflexivity); intros _; cbn; auto.
    + injection EA as <- <- <-. split; [|intros ? []]. apply OR_move; rewrite ?EAC; auto; [intros N; destruct N; reflexivity|]. intros _. cbn. destruct H3 as (A & B). repeat split; auto; try apply A.
      destruct (array_of arrays data); [contradiction|cbn; lia].
    + destruct H3 as (A & -> & B). destruct (idx_bounds q n A ltac:(lia)) as (B1 & B2 & B3).
      destruct (at_index_some (array_of arrays data) (idx_floor q n)) as ([x j] & E & _); [clear - B B1 B2 B3; unfold array_of; lia|]. rewrite E in EA.
      destruct (idx_floor q n =? idx_ceil q n)%Z; injection EA as <- <- <-.
      * split; [|intros ? [K|[]]; discriminate]. apply OR_move; rewrite ?EAC; auto; intros; exact I.
      * split; [|intros ? []]. apply OR_move; rewrite ?EAC; auto; try (intros N; destruct N; reflexivity); intros _; cbn; auto.
    + destruct H3 as (A & -> & B). destruct (idx_bounds q n A ltac:(lia)) as (B1 & B2 & B3).
      destruct (at_index_some (array_of arrays data) (idx_ceil q n)) as ([x j] & E & _); [clear - B B1 B2 B3; unfold array_of; lia|]. rewrite E in EA. injection EA as <- <- <-.
      split; [|intros ? [K|[]]; discriminate]. apply OR_move; rewrite ?EAC; auto; intros; exact I.
Qed.
Lemma OR_run cap t evs : forall s s', only_reader t evs -> rruns cap evs s = Some s' -> OR t s ->
  exists o, rs_log s' = o ++ rs_log s /\ forall t', ~ In (QRaised t') o.
Proof.
  induction evs as [|e evs IH]; intros s s' NE H HO; cbn in H; [injection H as <-; exists []; auto|].
  destruct (rstep cap e s) as [s1|] eqn:E; [|discriminate].
  destruct (OR_step cap t e s s1) as (O1 & o1 & E1 & N1); [|exact E|exact HO|]; [intros t' q ->; eapply NE; left; reflexivity|].
  destruct (IH s1 s') as (o2 & E2 & N2); [|exact H|exact O1|]; [intros t' q K; eapply NE; right; exact K|].
  exists (o2 ++ o1). split; [rewrite E2, E1, app_assoc; reflexivity|]. intros t' K. apply in_app_or in K as [K|K]; [eapply N2, K|eapply N1, K].
Qed.
(** Threads that never begin to read are not reading. *)
Lemma others_idle cap t evs : forall s s', only_reader t evs -> rruns cap evs s = Some s' ->
  (forall t', t' <> t -> reads (rs_pc s t') = false) -> forall t', t' <> t -> reads (rs_pc s' t') = false.
Proof.
  induction evs as [|e evs IH]; intros s s' NE H HO; cbn in H; [injection H as <-; exact HO|].
  destruct (rstep cap e s) as [s1|] eqn:E; [|discriminate]. eapply IH; [|exact H|]; [intros t' q K; eapply NE; right; exact K|].
  intros t1 N1. specialize (HO t1 N1). destruct e as [t' v|t' q|t' r|t']; cbn in E.
  - destruct (rs_pc s t'); try discriminate. injection E as <-. cbn. destruct (Nat.eq_dec t1 t') as [-> |N']; [rewrite upd_same; reflexivity|rewrite upd_other by exact N'; exact HO].
  - assert (t' = t) as -> by (eapply NE; left; reflexivity). destruct (rs_pc s t); try discriminate. destruct (_ && _)%bool; [|discriminate]. injection E as <-. cbn. rewrite upd_other by exact N1. exact HO.
  - destruct (rs_pc s t'); try discriminate. destruct (r <=? _); [|discriminate]. destruct (below cap r); injection E as <-; cbn;
    (destruct (Nat.eq_dec t1 t') as [-> |N']; [rewrite upd_same; reflexivity|rewrite upd_other by exact N'; exact HO]).
  - destruct (advance cap t' (length (rs_started s)) (rs_pc s t') (rs_acc s)) as [[[a p] o]|] eqn:EA; [|discriminate]. injection E as <-. cbn.
    destruct (Nat.eq_dec t1 t') as [-> |N']; [rewrite upd_same|rewrite upd_other by exact N'; exact HO].
    destruct (rs_acc s) as [count mn mx arrays data sorted]. destruct (rs_pc s t'); cbn in EA, HO; try discriminate;
    repeat match type of EA with context [match put ?l ?k ?x with _ => _ end] => destruct (put l k x)
      | context [if below ?c ?n then _ else _] => destruct (below c n)
      | context [match mn with _ => _ end] => destruct mn as [z|]
      | context [match mx with _ => _ end] => destruct mx as [z|]
      | context [(?x <? ?y)%Z] => destruct (x <? y)%Z end; injection EA as <- <- <-; reflexivity.
Qed.
