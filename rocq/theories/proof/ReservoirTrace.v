(** Where the items of a shared reservoir come from: invariant for PReservoirThreads.v. *)
From Coq Require Import Lia Permutation.
From Verif Require Import model.PyBase model.ReservoirThreads spec.ReservoirThreadSpec.
Open Scope nat_scope.

Lemma upd_same f t p : upd_pc f t p t = p.
Proof. unfold upd_pc. rewrite Nat.eqb_refl. reflexivity. Qed.
Lemma upd_other f t p t' : t' <> t -> upd_pc f t p t' = f t'.
Proof. intros N. unfold upd_pc. destruct (Nat.eqb_spec t' t); [contradiction|reflexivity]. Qed.

(** The call a thread is in; the item it has still to put into an array; whether it has still
    to store the count. *)
Definition call_of (p : pc) : option (nat * Z) :=
  match p with
  | AddTest i v | AddGet i v | AddAppend i v _ | AddFlag i v | AddCount i v | AddStore i v _ | AddMin i v | AddMinSet i v
  | AddMax i v | AddMaxSet i v | AddRand i v | AddItem i v _ | AddPut i v _ _ => Some (i, v)
  | _ => None
  end.
Definition pending (p : pc) : bool :=
  match p with AddTest _ _ | AddGet _ _ | AddAppend _ _ _ | AddRand _ _ | AddItem _ _ _ | AddPut _ _ _ _ => true | _ => false end.
Definition uncounted (p : pc) : bool :=
  pending p || match p with AddFlag _ _ | AddCount _ _ | AddStore _ _ _ => true | _ => false end.
(** A list that is or may become an array. *)
Definition lists (arrays : list (list item)) (pcs : nat -> pc) (l : list item) : Prop :=
  In l arrays \/ exists t q, pcs t = QSet q l.
Definition counts (log : list obs) (c : nat) : Prop :=
  exists calls, NoDup calls /\ (forall i, In i calls -> In (Counted i) log) /\ length calls = c.

Record TI (s : rst) : Prop := mkTI {
  ti_lists : forall l, lists (ac_arrays (rs_acc s)) (rs_pc s) l -> traced (rs_started s) l;
  ti_calls : forall t i v, call_of (rs_pc s t) = Some (i, v) -> nth_error (rs_started s) i = Some v;
  ti_pending : forall t i v l, call_of (rs_pc s t) = Some (i, v) -> pending (rs_pc s t) = true -> lists (ac_arrays (rs_acc s)) (rs_pc s) l -> ~ In i (map snd l);
  ti_unique : forall t t' i v v', call_of (rs_pc s t) = Some (i, v) -> call_of (rs_pc s t') = Some (i, v') -> t = t';
  ti_counted : forall i, In (Counted i) (rs_log s) -> i < length (rs_started s);
  ti_uncounted : forall t i v, call_of (rs_pc s t) = Some (i, v) -> uncounted (rs_pc s t) = true -> ~ In (Counted i) (rs_log s);
  ti_count : counts (rs_log s) (ac_count (rs_acc s));
  ti_store : forall t i v c, rs_pc s t = AddStore i v c -> counts (rs_log s) c;
  ti_high : forall t q d n x, rs_pc s t = QHigh q d n x -> In x (rs_started s);
  ti_got : forall t m q x y, In (Got t m q x y) (rs_log s) -> In x (rs_started s) /\ In y (rs_started s) }.

Lemma counts_log log log' c : (forall i, In (Counted i) log -> In (Counted i) log') -> counts log c -> counts log' c.
Proof. intros H (C & A & B & D). exists C. auto. Qed.
Lemma traced_nil st : traced st [].
Proof. split; [constructor|intros v i []]. Qed.
Lemma traced_started st v l : traced st l -> traced (st ++ [v]) l.
Proof.
  intros (A & B). split; [exact A|]. intros x i K. specialize (B x i K). rewrite nth_error_app1; [exact B|]. apply nth_error_Some. congruence.
Qed.
Lemma insert_perm x l : Permutation (insert_item x l) (x :: l).
Proof.
  induction l as [|y l IH]; cbn; [reflexivity|]. destruct (fst x <=? fst y)%Z; [reflexivity|].
  rewrite IH. apply perm_swap.
Qed.
Lemma sort_perm l : Permutation (sort_items l) l.
Proof. induction l as [|x l IH]; cbn; [reflexivity|]. rewrite insert_perm. apply perm_skip, IH. Qed.
Lemma traced_perm st l l' : Permutation l l' -> traced st l -> traced st l'.
Proof.
  intros P (A & B). split; [eapply Permutation_NoDup; [apply Permutation_map; exact P|exact A]|].
  intros v i K. apply B. eapply Permutation_in; [symmetry; exact P|exact K].
Qed.
Lemma array_in arrays d : array_of arrays d = [] \/ In (array_of arrays d) arrays.
Proof. unfold array_of. destruct (nth_in_or_default d arrays []) as [H|H]; auto. Qed.
Lemma set_nth_in {A} (l : list A) : forall k x y, In y (set_nth l k x) -> y = x \/ In y l.
Proof.
  induction l as [|z l IH]; intros [|k] x y H; cbn in H; auto.
  - destruct H as [-> |H]; [auto|right; right; exact H].
  - destruct H as [-> |H]; [right; left; reflexivity|]. destruct (IH _ _ _ H); [auto|right; right; assumption].
Qed.
Lemma put_in {A} (l : list A) : forall k x l', put l k x = Some l' -> forall y, In y l' -> y = x \/ In y l.
Proof.
  induction l as [|z l IH]; intros [|k] x l' H y K; cbn in H; try discriminate.
  - injection H as <-. destruct K as [-> |K]; [auto|right; right; exact K].
  - destruct (put l k x) as [l''|] eqn:E; [|discriminate]. injection H as <-. destruct K as [-> |K]; [right; left; reflexivity|].
    destruct (IH _ _ _ E _ K); [auto|right; right; assumption].
Qed.
Lemma put_nodup (l : list item) : forall k v i l', put l k (v, i) = Some l' -> NoDup (map snd l) -> ~ In i (map snd l) -> NoDup (map snd l').
Proof.
  induction l as [|z l IH]; intros [|k] v i l' H N K; cbn in H; try discriminate.
  - injection H as <-. cbn in *. inversion N; subst. constructor; [intros Q; apply K; right; exact Q|assumption].
  - destruct (put l k (v, i)) as [l''|] eqn:E; [|discriminate]. injection H as <-. cbn in *. inversion N as [|? ? N1 N2]; subst.
    constructor; [|eapply IH; eauto].
    intros Q. apply in_map_iff in Q as (w & Q1 & Q2). destruct (put_in _ _ _ _ E _ Q2) as [-> |Q3]; [apply K; left; symmetry; exact Q1|].
    apply N1. apply in_map_iff. eauto.
Qed.
Lemma at_index_in {A} (l : list A) k x : at_index l k = Some x -> In x l.
Proof. unfold at_index. destruct (k <? 0)%Z; [destruct (_ <? 0)%Z; [discriminate|]|]; apply nth_error_In. Qed.

(** A step that only moves a thread. *)
Lemma TI_move s a t p o : TI s -> ac_arrays a = ac_arrays (rs_acc s) -> ac_count a = ac_count (rs_acc s) ->
  (call_of p = None \/ call_of p = call_of (rs_pc s t)) -> (pending p = true -> pending (rs_pc s t) = true) -> (uncounted p = true -> uncounted (rs_pc s t) = true) ->
  (forall q l, p <> QSet q l) -> (forall i v c, p = AddStore i v c -> c = ac_count (rs_acc s)) ->
  (forall q d n x, p = QHigh q d n x -> In x (rs_started s)) -> (forall i, ~ In (Counted i) o) ->
  (forall t' m q x y, In (Got t' m q x y) o -> In x (rs_started s) /\ In y (rs_started s)) -> TI (moved s a t p o).
Proof.
  intros HI EA EC HC HP HU NS HST HH NO HG. destruct HI as [H1 H2 H3 H4 H5 H6 H7 H8 H9 H10].
  assert (CO : forall t' i v, call_of (upd_pc (rs_pc s) t p t') = Some (i, v) -> call_of (rs_pc s t') = Some (i, v)).
  { intros t' i v K. destruct (Nat.eq_dec t' t) as [-> |N]; [rewrite upd_same in K; destruct HC as [E|E]; congruence|]. rewrite upd_other in K by exact N. exact K. }
  assert (LI : forall l, lists (ac_arrays a) (upd_pc (rs_pc s) t p) l -> lists (ac_arrays (rs_acc s)) (rs_pc s) l).
  { intros l [K|(t' & q & K)]; [left; congruence|]. right. exists t', q. destruct (Nat.eq_dec t' t) as [-> |N]; [rewrite upd_same in K; destruct (NS _ _ K)|]. rewrite upd_other in K by exact N. exact K. }
  assert (LO : forall i, In (Counted i) (o ++ rs_log s) -> In (Counted i) (rs_log s)).
  { intros i K. apply in_app_or in K as [K|K]; [destruct (NO _ K)|exact K]. }
  assert (LO' : forall i, In (Counted i) (rs_log s) -> In (Counted i) (o ++ rs_log s)) by (intros; apply in_or_app; auto).
  constructor; cbn [moved rs_acc rs_pc rs_started rs_log].
  - intros l K. apply H1, LI, K.
  - intros t' i v K. eapply H2, CO, K.
  - intros t' i v l K1 K2 K3. eapply H3; [apply CO; exact K1| |apply LI; exact K3].
    destruct (Nat.eq_dec t' t) as [-> |N]; [rewrite upd_same in K2; auto|]. rewrite upd_other in K2 by exact N. exact K2.
  - intros t1 t2 i v v' K1 K2. eapply H4; apply CO; eassumption.
  - intros i K. apply H5, LO, K.
  - intros t' i v K1 K2 K3. eapply H6; [apply CO; exact K1| |apply LO; exact K3].
    destruct (Nat.eq_dec t' t) as [-> |N]; [rewrite upd_same in K2; auto|]. rewrite upd_other in K2 by exact N. exact K2.
  - rewrite EC. eapply counts_log; eauto.
  - intros t' i v c K. destruct (Nat.eq_dec t' t) as [-> |N].
    + rewrite upd_same in K. rewrite (HST _ _ _ K). eapply counts_log; eauto.
    + rewrite upd_other in K by exact N. eapply counts_log; [exact LO'|]. eapply H8; exact K.
  - intros t' q d n x K. destruct (Nat.eq_dec t' t) as [-> |N]; [rewrite upd_same in K; eapply HH; exact K|]. rewrite upd_other in K by exact N. eapply H9; exact K.
  - intros t' m q x y K. apply in_app_or in K as [K|K]; [eapply HG; exact K|eapply H10; exact K].
Qed.
(** A step that changes an array: thread [t] puts its item there. *)
Lemma TI_array s t i v d l' p count mn mx arrays data sorted :
  TI s -> rs_acc s = mkAcc count mn mx arrays data sorted -> call_of (rs_pc s t) = Some (i, v) -> pending (rs_pc s t) = true ->
  traced (rs_started s) l' -> (forall x, In x l' -> x = (v, i) \/ In x (array_of arrays d)) -> p = AddFlag i v ->
  TI (moved s (mkAcc count mn mx (set_nth arrays d l') data sorted) t p []).
Proof.
  intros HI EA EC EP HT HL ->. destruct HI as [H1 H2 H3 H4 H5 H6 H7 H8 H9 H10]. rewrite EA in *. cbn [ac_arrays ac_count] in *.
  assert (CO : forall t' j w, call_of (upd_pc (rs_pc s) t (AddFlag i v) t') = Some (j, w) -> call_of (rs_pc s t') = Some (j, w)).
  { intros t' j w K. destruct (Nat.eq_dec t' t) as [-> |N]; [rewrite upd_same in K; cbn in K; congruence|]. rewrite upd_other in K by exact N. exact K. }
  assert (LI : forall l, lists (set_nth arrays d l') (upd_pc (rs_pc s) t (AddFlag i v)) l -> l = l' \/ lists arrays (rs_pc s) l).
  { intros l [K|(t' & q & K)]; [apply set_nth_in in K as [K|K]; [auto|right; left; exact K]|]. right. right. exists t', q.
    destruct (Nat.eq_dec t' t) as [-> |N]; [rewrite upd_same in K; discriminate|]. rewrite upd_other in K by exact N. exact K. }
  constructor; cbn [moved rs_acc rs_pc rs_started rs_log app ac_arrays ac_count].
  - intros l K. destruct (LI l K) as [-> |K']; [exact HT|apply H1, K'].
  - intros t' j w K. eapply H2, CO, K.
  - intros t' j w l K1 K2 K3. destruct (Nat.eq_dec t' t) as [-> |N]; [rewrite upd_same in K2; discriminate|]. rewrite upd_other in K1, K2 by exact N.
    destruct (LI l K3) as [-> |K']; [|eapply H3; eauto]. intros Q. apply in_map_iff in Q as ([x j'] & Q1 & Q2). cbn in Q1. subst j'.
    destruct (HL _ Q2) as [Q|Q]; [injection Q as -> ->; apply N; eapply H4; eauto|].
    destruct (array_in arrays d) as [E|E]; [rewrite E in Q; destruct Q|]. eapply (H3 t' j w); [exact K1|exact K2|left; exact E|]. apply in_map_iff. exists (x, j). auto.
  - intros t1 t2 j w w' K1 K2. eapply H4; apply CO; eassumption.
  - exact H5.
  - intros t' j w K1 K2. destruct (Nat.eq_dec t' t) as [-> |N].
    + rewrite upd_same in K1. injection K1 as <- <-. eapply H6; [exact EC|]. unfold uncounted. rewrite EP. reflexivity.
    + rewrite upd_other in K1, K2 by exact N. eapply H6; eauto.
  - exact H7.
  - intros t' j w c K. destruct (Nat.eq_dec t' t) as [-> |N]; [rewrite upd_same in K; discriminate|]. rewrite upd_other in K by exact N. eapply H8; exact K.
  - intros t' q d' n x K. destruct (Nat.eq_dec t' t) as [-> |N]; [rewrite upd_same in K; discriminate|]. rewrite upd_other in K by exact N. eapply H9; exact K.
  - exact H10.
Qed.
Lemma traced_in st l x : traced st l -> In x l -> In (fst x) st.
Proof. intros (_ & B) K. destruct x as [v i]. apply B in K. eapply nth_error_In; exact K. Qed.

Lemma TI_step cap e s s' : rstep cap e s = Some s' -> TI s -> TI s'.
Proof.
  intros H HI. destruct e as [t v|t q|t r|t]; cbn in H.
  - destruct (rs_pc s t) eqn:EP; try discriminate. injection H as <-. destruct HI as [H1 H2 H3 H4 H5 H6 H7 H8 H9 H10].
    assert (LT : forall t' i w, call_of (rs_pc s t') = Some (i, w) -> i < length (rs_started s)) by (intros t' i w K; apply nth_error_Some; erewrite H2 by exact K; discriminate).
    assert (LI : forall l, lists (ac_arrays (rs_acc s)) (upd_pc (rs_pc s) t (AddTest (length (rs_started s)) v)) l -> lists (ac_arrays (rs_acc s)) (rs_pc s) l).
    { intros l [K|(t' & q & K)]; [left; exact K|]. right. exists t', q. destruct (Nat.eq_dec t' t) as [-> |N]; [rewrite upd_same in K; discriminate|]. rewrite upd_other in K by exact N. exact K. }
    constructor; cbn [rs_acc rs_pc rs_started rs_log].
    + intros l K. apply traced_started, H1, LI, K.
    + intros t' i w K. destruct (Nat.eq_dec t' t) as [-> |N].
      * rewrite upd_same in K. injection K as <- <-. rewrite nth_error_app2, Nat.sub_diag by lia. reflexivity.
      * rewrite upd_other in K by exact N. rewrite nth_error_app1 by (eapply LT; exact K). eapply H2; exact K.
    + intros t' i w l K1 K2 K3. apply LI in K3. destruct (Nat.eq_dec t' t) as [-> |N].
      * rewrite upd_same in K1. injection K1 as <- <-. intros Q. apply in_map_iff in Q as ([x j] & Q1 & Q2). cbn in Q1. subst j.
        apply (H1 l K3) in Q2. assert (length (rs_started s) < length (rs_started s)); [|lia]. apply nth_error_Some. congruence.
      * rewrite upd_other in K1, K2 by exact N. eapply H3; eauto.
    + intros t1 t2 i w w' K1 K2. destruct (Nat.eq_dec t1 t) as [-> |N1], (Nat.eq_dec t2 t) as [-> |N2].
      * reflexivity.
      * rewrite upd_same in K1. rewrite upd_other in K2 by exact N2. injection K1 as <- <-. apply LT in K2. lia.
      * rewrite upd_same in K2. rewrite upd_other in K1 by exact N1. injection K2 as <- <-. apply LT in K1. lia.
      * rewrite upd_other in K1, K2 by assumption. eapply H4; eauto.
    + intros i K. rewrite app_length. apply H5 in K. cbn. lia.
    + intros t' i w K1 K2 K3. destruct (Nat.eq_dec t' t) as [-> |N].
      * rewrite upd_same in K1. injection K1 as <- <-. apply H5 in K3. lia.
      * rewrite upd_other in K1, K2 by exact N. eapply H6; eauto.
    + exact H7.
    + intros t' i w c K. destruct (Nat.eq_dec t' t) as [-> |N]; [rewrite upd_same in K; discriminate|]. rewrite upd_other in K by exact N. eapply H8; exact K.
    + intros t' q d n x K. apply in_or_app. left. destruct (Nat.eq_dec t' t) as [-> |N]; [rewrite upd_same in K; discriminate|]. rewrite upd_other in K by exact N. eapply H9; exact K.
    + intros t' m q x y K. apply H10 in K as (K1 & K2). split; apply in_or_app; left; assumption.
  - destruct (rs_pc s t) eqn:EP; try discriminate. destruct (_ && _)%bool; [|discriminate]. injection H as <-.
    apply TI_move; auto; cbn; try discriminate; try (intros ? ? ? ? ? []); try (intros ? []).
  - destruct (rs_pc s t) eqn:EP; try discriminate. destruct (r <=? _); [|discriminate]. destruct (below cap r); injection H as <-.
    + apply TI_move; auto; rewrite ?EP; cbn; auto; try discriminate; try (intros ? ? ? ? ? []).
    + apply TI_move; auto; rewrite ?EP; cbn; auto; try discriminate; intuition; discriminate.
  - destruct (advance cap t (length (rs_started s)) (rs_pc s t) (rs_acc s)) as [[[a p] o]|] eqn:EA; [|discriminate]. injection H as <-.
    destruct (rs_acc s) as [count mn mx arrays data sorted] eqn:EAC.
    assert (LA : forall d, traced (rs_started s) (array_of arrays d)).
    { intros d. destruct (array_in arrays d) as [E|E]; [rewrite E; apply traced_nil|]. apply (ti_lists s HI). left. rewrite EAC. exact E. }
    destruct (rs_pc s t) eqn:EP; cbn [advance] in EA; try discriminate.
    + injection EA as <- <- <-. apply TI_move; auto; rewrite ?EP, ?EAC; auto; try destruct (below cap count); cbn; auto; try discriminate; try (intros ? ? ? ? ? []).
    + injection EA as <- <- <-. apply TI_move; auto; rewrite ?EP, ?EAC; cbn; auto; try discriminate; try (intros ? ? ? ? ? []).
    + injection EA as <- <- <-. eapply TI_array; eauto; rewrite ?EP; try reflexivity.
      * pose proof (ti_calls s HI t i v) as Q1. rewrite EP in Q1. specialize (Q1 eq_refl). destruct (LA d) as (A & B). split.
        -- rewrite map_app. cbn. apply NoDup_Add with (a := i) (l := map snd (array_of arrays d)); [|split; [exact A|]].
           ++ rewrite <- (app_nil_r (map snd (array_of arrays d))) at 1. apply Add_app.
           ++ destruct (array_in arrays d) as [E|E]; [rewrite E; intros []|]. apply (ti_pending s HI t i v); rewrite ?EP; try reflexivity. left. rewrite EAC. exact E.
        -- intros x j K. apply in_app_or in K as [K|[K|[]]]; [apply B, K|]. injection K as <- <-. exact Q1.
      * intros x K. apply in_app_or in K as [K|[K|[]]]; auto.
    + injection EA as <- <- <-. apply TI_move; auto; rewrite ?EP, ?EAC; cbn; auto; try discriminate; try (intros ? ? ? ? ? []).
    + injection EA as <- <- <-. apply TI_move; auto; rewrite ?EP, ?EAC; cbn; auto; try discriminate; try (intros ? ? ? ? ? []). intros ? ? ? K. injection K as _ _ <-. reflexivity.
    + injection EA as <- <- <-. destruct HI as [H1 H2 H3 H4 H5 H6 H7 H8 H9 H10]. rewrite EAC in *. cbn [ac_arrays ac_count] in *.
      assert (CT : call_of (rs_pc s t) = Some (i, v)) by (rewrite EP; reflexivity).
      assert (CO : forall t' j w, call_of (upd_pc (rs_pc s) t (AddMin i v) t') = Some (j, w) -> call_of (rs_pc s t') = Some (j, w)).
      { intros t' j w K. destruct (Nat.eq_dec t' t) as [-> |N]; [rewrite upd_same in K; cbn in K; congruence|]. rewrite upd_other in K by exact N. exact K. }
      assert (LI : forall l, lists arrays (upd_pc (rs_pc s) t (AddMin i v)) l -> lists arrays (rs_pc s) l).
      { intros l [K|(t' & q & K)]; [left; exact K|]. right. exists t', q. destruct (Nat.eq_dec t' t) as [-> |N]; [rewrite upd_same in K; discriminate|]. rewrite upd_other in K by exact N. exact K. }
      constructor; cbn [moved rs_acc rs_pc rs_started rs_log app ac_arrays ac_count].
      * intros l K. apply H1, LI, K.
      * intros t' j w K. eapply H2, CO, K.
      * intros t' j w l K1 K2 K3. destruct (Nat.eq_dec t' t) as [-> |N]; [rewrite upd_same in K2; discriminate|]. rewrite upd_other in K1, K2 by exact N. eapply H3; eauto.
      * intros t1 t2 j w w' K1 K2. eapply H4; apply CO; eassumption.
      * intros j [K|K]; [|apply H5, K]. injection K as <-. apply nth_error_Some. erewrite H2 by exact CT. discriminate.
      * intros t' j w K1 K2. destruct (Nat.eq_dec t' t) as [-> |N]; [rewrite upd_same in K2; discriminate|]. rewrite upd_other in K1, K2 by exact N.
        intros [K|K]; [|eapply H6; eauto]. injection K as <-. apply N. eapply H4; eauto.
      * destruct (H8 _ _ _ _ EP) as (C & A & B & D). exists (i :: C). split; [constructor; [|exact A]|].
        -- intros K. apply B in K. eapply H6; [exact CT| |exact K]. rewrite EP. reflexivity.
        -- split; [intros j [<- |K]; [left; reflexivity|right; apply B, K]|]. cbn. lia.
      * intros t' j w c' K. destruct (Nat.eq_dec t' t) as [-> |N]; [rewrite upd_same in K; discriminate|]. rewrite upd_other in K by exact N.
        eapply counts_log; [|eapply H8; exact K]. intros; right; assumption.
      * intros t' q d' n x K. destruct (Nat.eq_dec t' t) as [-> |N]; [rewrite upd_same in K; discriminate|]. rewrite upd_other in K by exact N. eapply H9; exact K.
      * intros t' m q x y [K|K]; [discriminate|]. eapply H10; exact K.
    + injection EA as <- <- <-. apply TI_move; auto; rewrite ?EP, ?EAC; auto; try destruct (match mn with None => true | Some x => _ end); cbn; auto; try discriminate; try (intros ? ? ? ? ? []).
    + injection EA as <- <- <-. apply TI_move; auto; rewrite ?EP, ?EAC; cbn; auto; try discriminate; try (intros ? ? ? ? ? []).
    + destruct (match mx with None => true | Some x => _ end); injection EA as <- <- <-;
      (apply TI_move; auto; rewrite ?EP, ?EAC; cbn; auto; try discriminate; intuition; discriminate).
    + injection EA as <- <- <-. apply TI_move; auto; rewrite ?EP, ?EAC; cbn; auto; try discriminate; intuition; discriminate.
    + injection EA as <- <- <-. apply TI_move; auto; rewrite ?EP, ?EAC; cbn; auto; try discriminate; try (intros ? ? ? ? ? []).
    + destruct (put (array_of arrays d) r (v, i)) as [l|] eqn:EPUT; injection EA as <- <- <-.
      * eapply TI_array; eauto; rewrite ?EP; try reflexivity; [|eapply put_in; exact EPUT].
        pose proof (ti_calls s HI t i v) as Q1. rewrite EP in Q1. specialize (Q1 eq_refl). destruct (LA d) as (A & B). split.
        -- eapply put_nodup; [exact EPUT|exact A|]. destruct (array_in arrays d) as [E|E]; [rewrite E; intros []|]. apply (ti_pending s HI t i v); rewrite ?EP; try reflexivity. left. rewrite EAC. exact E.
        -- intros x j K. destruct (put_in _ _ _ _ EPUT _ K) as [Q|Q]; [injection Q as -> ->; exact Q1|apply B, Q].
      * apply TI_move; auto; rewrite ?EP, ?EAC; cbn; auto; try discriminate; intuition; discriminate.
    + injection EA as <- <- <-. apply TI_move; auto; rewrite ?EP, ?EAC; auto; destruct sorted; cbn; auto; try discriminate; try (intros ? ? ? ? ? []).
    + (* QSort *) injection EA as <- <- <-. destruct HI as [H1 H2 H3 H4 H5 H6 H7 H8 H9 H10]. rewrite EAC in *. cbn [ac_arrays ac_count] in *.
      assert (CO : forall t' j w, call_of (upd_pc (rs_pc s) t (QSet q (sort_items (array_of arrays data))) t') = Some (j, w) -> t' <> t /\ call_of (rs_pc s t') = Some (j, w)).
      { intros t' j w K. destruct (Nat.eq_dec t' t) as [-> |N]; [rewrite upd_same in K; discriminate|]. rewrite upd_other in K by exact N. auto. }
      assert (LI : forall l, lists arrays (upd_pc (rs_pc s) t (QSet q (sort_items (array_of arrays data)))) l -> l = sort_items (array_of arrays data) \/ lists arrays (rs_pc s) l).
      { intros l [K|(t' & q' & K)]; [right; left; exact K|]. destruct (Nat.eq_dec t' t) as [-> |N]; [rewrite upd_same in K; left; congruence|]. rewrite upd_other in K by exact N. right. right. eauto. }
      constructor; cbn [moved rs_acc rs_pc rs_started rs_log app ac_arrays ac_count]; auto.
      * intros l K. destruct (LI l K) as [-> |K']; [|apply H1, K']. eapply traced_perm; [symmetry; apply sort_perm|apply LA].
      * intros t' j w K. eapply H2, CO, K.
      * intros t' j w l K1 K2 K3. destruct (CO _ _ _ K1) as (N & K1'). rewrite upd_other in K2 by exact N. destruct (LI l K3) as [-> |K']; [|eapply H3; eauto].
        intros Q. assert (Q' : In j (map snd (array_of arrays data))) by (eapply Permutation_in; [apply Permutation_map, sort_perm|exact Q]).
        destruct (array_in arrays data) as [E|E]; [rewrite E in Q'; destruct Q'|]. eapply (H3 t' j w); [exact K1'|exact K2|left; exact E|exact Q'].
      * intros t1 t2 j w w' K1 K2. eapply H4; apply CO; eassumption.
      * intros t' j w K1 K2. destruct (CO _ _ _ K1) as (N & K1'). rewrite upd_other in K2 by exact N. eapply H6; eauto.
      * intros t' j w c' K. destruct (Nat.eq_dec t' t) as [-> |N]; [rewrite upd_same in K; discriminate|]. rewrite upd_other in K by exact N. eapply H8; exact K.
      * intros t' q' d' n x K. destruct (Nat.eq_dec t' t) as [-> |N]; [rewrite upd_same in K; discriminate|]. rewrite upd_other in K by exact N. eapply H9; exact K.
    + (* QSet *) injection EA as <- <- <-. destruct HI as [H1 H2 H3 H4 H5 H6 H7 H8 H9 H10]. rewrite EAC in *. cbn [ac_arrays ac_count] in *.
      assert (CO : forall t' j w, call_of (upd_pc (rs_pc s) t (QMark q) t') = Some (j, w) -> t' <> t /\ call_of (rs_pc s t') = Some (j, w)).
      { intros t' j w K. destruct (Nat.eq_dec t' t) as [-> |N]; [rewrite upd_same in K; discriminate|]. rewrite upd_other in K by exact N. auto. }
      assert (LI : forall x, lists (arrays ++ [l]) (upd_pc (rs_pc s) t (QMark q)) x -> lists arrays (rs_pc s) x).
      { intros x [K|(t' & q' & K)]; [apply in_app_or in K as [K|[<- |[]]]; [left; exact K|right; eauto]|]. destruct (Nat.eq_dec t' t) as [-> |N]; [rewrite upd_same in K; discriminate|]. rewrite upd_other in K by exact N. right. eauto. }
      constructor; cbn [moved rs_acc rs_pc rs_started rs_log app ac_arrays ac_count]; auto.
      * intros t' j w K. eapply H2, CO, K.
      * intros t' j w x K1 K2 K3. destruct (CO _ _ _ K1) as (N & K1'). rewrite upd_other in K2 by exact N. eapply H3; eauto.
      * intros t1 t2 j w w' K1 K2. eapply H4; apply CO; eassumption.
      * intros t' j w K1 K2. destruct (CO _ _ _ K1) as (N & K1'). rewrite upd_other in K2 by exact N. eapply H6; eauto.
      * intros t' j w c' K. destruct (Nat.eq_dec t' t) as [-> |N]; [rewrite upd_same in K; discriminate|]. rewrite upd_other in K by exact N. eapply H8; exact K.
      * intros t' q' d' n x K. destruct (Nat.eq_dec t' t) as [-> |N]; [rewrite upd_same in K; discriminate|]. rewrite upd_other in K by exact N. eapply H9; exact K.
    + injection EA as <- <- <-. apply TI_move; auto; rewrite ?EP, ?EAC; cbn; auto; try discriminate; try (intros ? ? ? ? ? []).
    + injection EA as <- <- <-. apply TI_move; auto; rewrite ?EP, ?EAC; cbn; auto; try discriminate; try (intros ? ? ? ? ? []).
    + injection EA as <- <- <-. apply TI_move; auto; rewrite ?EP, ?EAC; cbn; auto; try discriminate; try (intros ? ? ? ? ? []).
    + destruct (at_index (array_of arrays d) (idx_floor q n)) as [[x j]|] eqn:EI.
      * apply at_index_in in EI. apply (traced_in _ _ _ (LA d)) in EI. cbn in EI.
        destruct (idx_floor q n =? idx_ceil q n)%Z; injection EA as <- <- <-.
        -- apply TI_move; auto; rewrite ?EP, ?EAC; cbn; auto; try discriminate; [intuition; discriminate|]. intros ? ? ? ? ? [K|[]]. injection K as _ _ _ <- <-. auto.
        -- apply TI_move; auto; rewrite ?EP, ?EAC; cbn; auto; try discriminate; try (intros ? ? ? ? ? []). intros ? ? ? ? K. injection K as _ _ _ <-. exact EI.
      * injection EA as <- <- <-. apply TI_move; auto; rewrite ?EP, ?EAC; cbn; auto; try discriminate; intuition; discriminate.
    + destruct (at_index (array_of arrays d) (idx_ceil q n)) as [[x j]|] eqn:EI; injection EA as <- <- <-.
      * apply at_index_in in EI. apply (traced_in _ _ _ (LA d)) in EI. cbn in EI. pose proof (ti_high s HI _ _ _ _ _ EP) as EL.
        apply TI_move; auto; rewrite ?EP, ?EAC; cbn; auto; try discriminate; [intuition; discriminate|]. intros ? ? ? ? ? [K|[]]. injection K as _ _ _ <- <-. auto.
      * apply TI_move; auto; rewrite ?EP, ?EAC; cbn; auto; try discriminate; intuition; discriminate.
Qed.
Lemma TI_run cap evs : forall s s', rruns cap evs s = Some s' -> TI s -> TI s'.
Proof.
  induction evs as [|e evs IH]; intros s s' H HI; cbn in H; [injection H as <-; exact HI|].
  destruct (rstep cap e s) as [s1|] eqn:E; [|discriminate]. eapply IH; [exact H|]. eapply TI_step; eauto.
Qed.
Lemma TI_new : TI rst_new.
Proof.
  constructor; cbn; try discriminate; try contradiction; try (intros; contradiction).
  - intros l [[<- |[]]|(t & q & K)]; [apply traced_nil|discriminate].
  - exists []. split; [constructor|]. split; [intros i []|reflexivity].
Qed.

(** The bounds are values of calls. *)
Definition MI (s : rst) : Prop :=
  (forall x, ac_min (rs_acc s) = Some x -> In x (rs_started s)) /\ forall x, ac_max (rs_acc s) = Some x -> In x (rs_started s).
Lemma MI_step cap e s s' : rstep cap e s = Some s' -> TI s -> MI s -> MI s'.
Proof.
  intros H HT (A & B). destruct e as [t v|t q|t r|t]; cbn in H.
  - destruct (rs_pc s t); try discriminate. injection H as <-. split; intros x K; apply in_or_app; left; [apply A|apply B]; exact K.
  - destruct (rs_pc s t); try discriminate. destruct (_ && _)%bool; [|discriminate]. injection H as <-. split; assumption.
  - destruct (rs_pc s t); try discriminate. destruct (r <=? _); [|discriminate]. destruct (below cap r); injection H as <-; split; assumption.
  - destruct (advance cap t (length (rs_started s)) (rs_pc s t) (rs_acc s)) as [[[a p] o]|] eqn:EA; [|discriminate]. injection H as <-.
    assert (C : forall i v, call_of (rs_pc s t) = Some (i, v) -> In v (rs_started s)) by (intros i v K; eapply nth_error_In, (ti_calls s HT t i v K)).
    unfold MI in *. cbn [moved rs_acc rs_started]. destruct (rs_acc s) as [count mn mx arrays data sorted]. cbn [ac_min ac_max] in *.
    destruct (rs_pc s t) eqn:EP; cbn [advance] in EA; try discriminate;
    repeat match type of EA with context [match put ?l ?k ?x with _ => _ end] => destruct (put l k x)
      | context [match at_index ?l ?k with _ => _ end] => destruct (at_index l k) as [[? ?]|]
      | context [if (?x =? ?y)%Z then _ else _] => destruct (x =? y)%Z end;
    try (destruct (match mx with None => true | Some x => _ end)); injection EA as <- <- <-; cbn [ac_min ac_max]; split; auto;
    intros x K; injection K as <-; eapply C; reflexivity.
Qed.
Lemma MI_run cap evs : forall s s', rruns cap evs s = Some s' -> TI s -> MI s -> MI s'.
Proof.
  induction evs as [|e evs IH]; intros s s' H HT HI; cbn in H; [injection H as <-; exact HI|].
  destruct (rstep cap e s) as [s1|] eqn:E; [|discriminate]. eapply IH; [exact H| |]; [eapply TI_step|eapply MI_step]; eauto.
Qed.

(** The steps a thread has before it at most. *)
Definition rank (p : pc) : nat :=
  match p with
  | Idle => 0
  | AddMaxSet _ _ => 1 | AddMax _ _ => 2 | AddMinSet _ _ => 3 | AddMin _ _ => 4 | AddStore _ _ _ => 5 | AddCount _ _ => 6 | AddFlag _ _ => 7
  | AddAppend _ _ _ | AddPut _ _ _ _ => 8 | AddGet _ _ | AddItem _ _ _ => 9 | AddRand _ _ => 10 | AddTest _ _ => 11
  | QHigh _ _ _ _ => 1 | QLow _ _ _ => 2 | QLen _ _ => 3 | QData _ => 4 | QMark _ => 5 | QSet _ _ => 6 | QSort _ => 7 | QFlag _ => 8
  end.
Lemma rank_step cap t m p a a' p' o : advance cap t m p a = Some (a', p', o) -> S (rank p') <= rank p.
Proof.
  intros EA. destruct a as [count mn mx arrays data sorted]. destruct p; cbn [advance] in EA; try discriminate;
  repeat match type of EA with context [match put ?l ?k ?x with _ => _ end] => destruct (put l k x)
    | context [match at_index ?l ?k with _ => _ end] => destruct (at_index l k) as [[? ?]|]
    | context [if below ?c ?n then _ else _] => destruct (below c n)
    | context [if sorted then _ else _] => destruct sorted
    | context [if (?x =? ?y)%Z then _ else _] => destruct (x =? y)%Z end;
  try (destruct (match mx with None => true | Some x => _ end)); try (destruct (match mn with None => true | Some x => _ end)); injection EA as <- <- <-; cbn; lia.
Qed.
Lemma rank_run cap t evs : forall s s', rruns cap evs s = Some s' -> begins_none t evs -> steps_of t evs + rank (rs_pc s' t) <= rank (rs_pc s t).
Proof.
  induction evs as [|e evs IH]; intros s s' H HB; cbn in H; [injection H as <-; reflexivity|].
  destruct (rstep cap e s) as [s1|] eqn:E; [|discriminate].
  assert (HB' : begins_none t evs) by (intros v q; destruct (HB v q) as (A & B); split; intros K; [apply A|apply B]; right; exact K).
  specialize (IH s1 s' H HB'). destruct e as [t1 v|t1 q|t1 r|t1]; cbn in E; cbn [steps_of].
  - assert (N : t <> t1) by (intros <-; destruct (HB v (0%Z, 0%Z)) as (A & _); apply A; left; reflexivity).
    destruct (rs_pc s t1); try discriminate. injection E as <-. cbn in IH. rewrite upd_other in IH by exact N. exact IH.
  - assert (N : t <> t1) by (intros <-; destruct (HB 0%Z q) as (_ & A); apply A; left; reflexivity).
    destruct (rs_pc s t1); try discriminate. destruct (_ && _)%bool; [|discriminate]. injection E as <-. cbn in IH. rewrite upd_other in IH by exact N. exact IH.
  - destruct (rs_pc s t1) eqn:EP; try discriminate. destruct (r <=? _); [|discriminate].
    destruct (Nat.eqb_spec t1 t) as [-> |N]; [rewrite EP|]; destruct (below cap r); injection E as <-; cbn in IH; rewrite ?upd_same in IH; rewrite ?upd_other in IH by congruence; cbn in *; lia.
  - destruct (advance cap t1 (length (rs_started s)) (rs_pc s t1) (rs_acc s)) as [[[a p] o]|] eqn:EA; [|discriminate]. injection E as <-.
    apply rank_step in EA. cbn in IH. destruct (Nat.eqb_spec t1 t) as [-> |N]; [rewrite upd_same in IH|rewrite upd_other in IH by congruence]; lia.
Qed.
Lemma rank_bound p : rank p <= 11.
Proof. destruct p; cbn; lia. Qed.
Lemma can_go cap s t : rs_pc s t <> Idle -> exists e s', (e = EvStep t \/ e = EvRand t 0) /\ rstep cap e s = Some s'.
Proof.
  intros N. destruct (rs_acc s) as [count mn mx arrays data sorted] eqn:EA. destruct (rs_pc s t) eqn:EP; try (destruct N; reflexivity).
  all: match type of EP with
    | _ = AddRand _ _ => exists (EvRand t 0); cbn; rewrite EP; destruct (below cap 0); eauto
    | _ => exists (EvStep t); cbn; rewrite EP, EA; cbn [advance] end.
  all: repeat match goal with |- context [match put ?l ?k ?x with _ => _ end] => destruct (put l k x)
    | |- context [match at_index ?l ?k with _ => _ end] => destruct (at_index l k) as [[? ?]|]
    | |- context [if (?x =? ?y)%Z then _ else _] => destruct (x =? y)%Z end.
  all: try (destruct (match mx with None => true | Some x => _ end)); eauto.
Qed.
