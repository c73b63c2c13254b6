From Verif Require Import model.PyBase model.Core model.WrapAll spec.WrapAllSpec proof.CoreLib.
From Coq Require Import Permutation.

(** *** Names *)
Lemma insert_perm n l : Permutation (insert n l) (n :: l).
Proof.
  induction l as [|x l IH]; cbn; [reflexivity|]. destruct (String.compare n x); try reflexivity.
  rewrite IH. apply perm_swap.
Qed.
Lemma sort_perm l : Permutation (fold_right insert [] l) l.
Proof. induction l as [|x l IH]; cbn; [reflexivity|]. rewrite insert_perm, IH. reflexivity. Qed.
Lemma dir_nodup h i : NoDup (dir h i).
Proof. unfold dir. eapply Permutation_NoDup; [symmetry; apply sort_perm|]. apply NoDup_nodup. Qed.
Lemma dir_in h i m : In m (dir h i) <-> exists c a, In c (mro h i) /\ In (m, a) (own h c).
Proof.
  unfold dir. assert (G : forall l, In m (fold_right insert [] l) <-> In m l).
  { intro l. split; apply Permutation_in; [|symmetry]; apply sort_perm. }
  rewrite G, nodup_In, in_flat_map. split.
  - intros (c & H1 & H2). apply in_map_iff in H2 as ([m' a] & E & H2). cbn in E. subst. eauto.
  - intros (c & a & H1 & H2). exists c. split; [exact H1|]. apply in_map_iff. exists (m, a). auto.
Qed.

(** *** Peeling the wrappers off *)
Fixpoint strip (f : fn) : fn := match f with Wrapped _ _ g => strip g | _ => f end.
Definition peel_attr (a : attr) : attr := match a with AFun f => AFun (strip f) | _ => a end.
Definition peel_ns (l : list (string * attr)) := map (fun p => (fst p, peel_attr (snd p))) l.
Definition peel_obj (o : obj) : obj := mkObj (peel_ns (ob_attrs o)) (ob_mro o) (ob_fixed o).
Definition peel (h : heap) : heap := map peel_obj h.

Lemma own_peel h i : own (peel h) i = peel_ns (own h i).
Proof. unfold own, peel. rewrite nth_error_map. destruct (nth_error h i); reflexivity. Qed.
Lemma mro_peel h i : mro (peel h) i = mro h i.
Proof. unfold mro, peel. rewrite nth_error_map. destruct (nth_error h i); reflexivity. Qed.
Lemma assoc_peel n l : assoc n (peel_ns l) = option_map peel_attr (assoc n l).
Proof. induction l as [|[m a] l IH]; cbn; [reflexivity|]. destruct (String.eqb n m); auto. Qed.
Lemma find_peel h i n : find (peel h) i n = option_map peel_attr (find h i n).
Proof.
  unfold find. rewrite mro_peel. induction (mro h i) as [|c cs IH]; cbn; [reflexivity|].
  rewrite own_peel, assoc_peel. destruct (assoc n (own h c)); auto.
Qed.
Lemma dir_peel h i : dir (peel h) i = dir h i.
Proof.
  unfold dir. rewrite mro_peel. f_equal. f_equal. induction (mro h i) as [|c cs IH]; cbn; [reflexivity|].
  rewrite IH, own_peel. f_equal. unfold peel_ns. rewrite map_map. reflexivity.
Qed.
Lemma length_peel h : length (peel h) = length h.
Proof. apply map_length. Qed.

Lemma assoc_in n l a : assoc n l = Some a -> In (n, a) l.
Proof.
  induction l as [|[m b] l IH]; cbn; [discriminate|]. destruct (String.eqb_spec n m); [|auto].
  intros [= <-]. subst. auto.
Qed.
Lemma find_own h i n a : assoc n (own h i) = Some a -> find h i n = Some a.
Proof.
  intro H. unfold find, mro, own in *. destruct (nth_error h i) eqn:E; [|discriminate].
  cbn. unfold own. rewrite E, H. reflexivity.
Qed.
Lemma own_dir h i n a : assoc n (own h i) = Some a -> In n (dir h i).
Proof.
  intro H. apply dir_in. exists i, a. split; [|apply assoc_in, H].
  unfold mro. destruct (nth_error h i); cbn; auto.
Qed.

Lemma assoc_put n m a l : assoc m (put n a l) = if String.eqb m n then Some a else assoc m l.
Proof.
  induction l as [|[k b] l IH]; cbn; [reflexivity|].
  destruct (String.eqb_spec n k); cbn.
  - subst k. destruct (String.eqb_spec m n); reflexivity.
  - rewrite IH. destruct (String.eqb_spec m k); [|reflexivity]. subst m.
    destruct (String.eqb_spec k n); [congruence|reflexivity].
Qed.
Lemma peel_put n a b l : assoc n l = Some b -> peel_attr a = peel_attr b -> peel_ns (put n a l) = peel_ns l.
Proof.
  induction l as [|[k x] l IH]; cbn; [discriminate|]. destruct (String.eqb n k); cbn.
  - intros [= <-] H. rewrite H. reflexivity.
  - intros H1 H2. f_equal. auto.
Qed.
Lemma nth_list_set {A} (l : list A) i j x :
  nth_error (list_set l i x) j = if (j =? i) && (i <? length l) then Some x else nth_error l j.
Proof.
  revert i j. induction l as [|y l IH]; intros i j; [destruct i, j; cbn; try reflexivity; destruct (j =? i); reflexivity|].
  destruct i as [|i], j as [|j]; cbn; try reflexivity. apply IH.
Qed.
Lemma map_list_set {A B} (f : A -> B) l i x y : nth_error l i = Some y -> f x = f y -> map f (list_set l i x) = map f l.
Proof.
  revert i. induction l as [|z l IH]; intros [|i]; cbn; try discriminate.
  - intros [= ->] ->. reflexivity.
  - intros H1 H2. f_equal. apply IH; assumption.
Qed.

Lemma fixed_peel h i : fixed (peel h) i = fixed h i.
Proof. unfold fixed, peel. rewrite nth_error_map. destruct (nth_error h i); reflexivity. Qed.

Lemma setattr_own h i n g h' f :
  assoc n (own h i) = Some (AFun f) -> setattr h i n g = Some h' -> strip g = strip f ->
  peel h' = peel h /\ fixed h i = false /\
  forall j m, wrappers h' j m = if (j =? i) && String.eqb m n then layers g else wrappers h j m.
Proof.
  unfold setattr, own, wrappers, fixed. intros Ha Hs Hg. destruct (nth_error h i) as [o|] eqn:E; [|discriminate].
  destruct (ob_fixed o) eqn:Ef; [discriminate|]. injection Hs as <-. split; [|split; [reflexivity|]].
  - unfold peel. apply map_list_set with (y := o); [exact E|]. unfold peel_obj. cbn [ob_attrs ob_mro ob_fixed].
    rewrite (peel_put n (AFun g) (AFun f) _ Ha); [rewrite Ef; reflexivity|]. cbn. rewrite Hg. reflexivity.
  - intros j m. unfold own. rewrite nth_list_set.
    assert (Hi : (i <? length h) = true) by (apply Nat.ltb_lt, nth_error_Some; congruence). rewrite Hi, andb_true_r.
    destruct (Nat.eqb_spec j i); [|reflexivity]. subst. cbn. rewrite assoc_put.
    destruct (String.eqb_spec m n); [reflexivity|]. rewrite E. reflexivity.
Qed.
Lemma setattr_ok h i n g : fixed h i = false -> exists h', setattr h i n g = Some h'.
Proof. unfold fixed, setattr. destruct (nth_error h i) as [o|]; [|discriminate]. intros ->. eauto. Qed.

Lemma zero_peel h : (forall i, NoDup (map fst (own h i))) -> (forall i n, wrappers h i n = 0) -> peel h = h.
Proof.
  intros HN HW. unfold peel. rewrite <- (map_id h) at 2. apply map_ext_in.
  intros o Ho. apply In_nth_error in Ho as [i Hi]. unfold peel_obj. destruct o as [l r f]. cbn. f_equal.
  assert (Hl : forall m a, In (m, a) l -> peel_attr a = a).
  { intros m a Hin. specialize (HW i m). unfold wrappers, own in HW. rewrite Hi in HW. cbn in HW.
    specialize (HN i). unfold own in HN. rewrite Hi in HN. cbn in HN.
    assert (E : assoc m l = Some a).
    { clear -Hin HN. induction l as [|[k b] l IH]; [contradiction|]. cbn in HN. inversion HN as [|? ? N1 N2]; subst. cbn.
      destruct Hin as [[= -> ->]|Hin]; [rewrite String.eqb_refl; reflexivity|].
      destruct (String.eqb_spec m k); [|auto]. subst. exfalso. apply N1.
      apply in_map_iff. exists (k, a). auto. }
    rewrite E in HW. destruct a as [| |g| | |]; try reflexivity. destruct g; try reflexivity. discriminate HW. }
  unfold peel_ns. rewrite <- (map_id l) at 2. apply map_ext_in. intros [m a] Hin. cbn. rewrite (Hl m a Hin). reflexivity.
Qed.
Lemma simple_zero c h i n : simple c h -> wrappers h i n = 0.
Proof.
  intro H. unfold wrappers. destruct (assoc n (own h i)) as [a|] eqn:E; [|reflexivity]. destruct a as [| |f| | |]; try reflexivity.
  apply find_own in E. apply H in E as [E _]. destruct f; try reflexivity. contradiction.
Qed.
Lemma strip_wrapper f : layers f = 0 \/ wrapper_of (strip f) f.
Proof.
  induction f as [| |x y f IH]; [left; reflexivity|left; reflexivity|]. right. cbn. destruct IH as [E|W].
  - destruct f; try discriminate E; apply wrapper_one.
  - apply wrapper_more, W.
Qed.

(** *** The invariant *)
Section S.
Variables (c : wconf) (h0 : heap).
Hypothesis Hpeel : peel h0 = h0.
Hypothesis Hsimple : simple c h0.

Definition J (h : heap) : Prop :=
  peel h = h0 /\ forall i n, 0 < wrappers h i n -> wc_skip c n = false /\ fixed h i = false.

Lemma J_find h i n a : J h -> find h i n = Some a -> find h0 i n = Some (peel_attr a).
Proof. intros [HJ _] H. rewrite <- HJ, find_peel, H. reflexivity. Qed.
Lemma J_own h i n a : J h -> find h i n = Some a -> assoc n (own h0 i) = Some (peel_attr a) ->
  assoc n (own h i) = Some a.
Proof.
  intros [HJ _] H1 H2. rewrite <- HJ, own_peel, assoc_peel in H2.
  destruct (assoc n (own h i)) as [b|] eqn:E; [|discriminate]. apply find_own in E. congruence.
Qed.
Lemma J_dir h i : J h -> dir h i = dir h0 i.
Proof. intros [HJ _]. rewrite <- HJ, dir_peel. reflexivity. Qed.

Lemma J_fun h i n f : J h -> wc_skip c n = false -> getattr h i n = Some (VFun f) -> assoc n (own h i) = Some (AFun f).
Proof.
  intros HJ Hs. unfold getattr. destruct (find h i n) as [a|] eqn:E; [|discriminate].
  pose proof (J_find _ _ _ _ HJ E) as E0. apply Hsimple in E0 as E1. destruct E1 as [E1 E2]. specialize (E2 Hs).
  destruct a; cbn in *; try discriminate; try contradiction.
  intros [= <-]. eapply J_own; eauto.
Qed.
Lemma J_wrapped h i n x y f : J h -> getattr h i n = Some (VFun (Wrapped x y f)) ->
  wc_skip c n = false /\ assoc n (own h i) = Some (AFun (Wrapped x y f)) /\ fixed h i = false.
Proof.
  intros HJ H. assert (Hs : wc_skip c n = false).
  { unfold getattr in H. destruct (find h i n) as [a|] eqn:E; [|discriminate].
    pose proof (J_find _ _ _ _ HJ E) as E0. apply Hsimple in E0 as [E1 _].
    destruct a; cbn in *; try discriminate.
    - injection H as ->. unfold find in E. induction (mro h i) as [|b bs IH]; cbn in E; [discriminate|].
      destruct (assoc n (own h b)) eqn:Eb; [|auto]. injection E as ->.
      destruct HJ as [_ HJ]. apply (HJ b n). unfold wrappers. rewrite Eb. cbn. lia.
    - injection H as ->. contradiction. }
  split; [exact Hs|]. pose proof (J_fun _ _ _ _ HJ Hs H) as Ho. split; [exact Ho|].
  destruct HJ as [_ HJ]. apply (HJ i n). unfold wrappers. rewrite Ho. cbn. lia.
Qed.
Lemma J_type h i n j : J h -> (getattr h i n = Some (VType j) <-> find h0 i n = Some (AType j)).
Proof.
  intros [HJ _]. rewrite <- HJ, find_peel. unfold getattr. destruct (find h i n) as [a|]; cbn; [|split; discriminate].
  destruct a; cbn; split; congruence.
Qed.

Lemma J_set h i n f g h' : J h -> assoc n (own h i) = Some (AFun f) -> strip g = strip f -> wc_skip c n = false ->
  setattr h i n g = Some h' ->
  J h' /\ forall j m, wrappers h' j m = if (j =? i) && String.eqb m n then layers g else wrappers h j m.
Proof.
  intros HJ Ho Hg Hs Hset. destruct (setattr_own _ _ _ _ _ _ Ho Hset Hg) as (H1 & H2 & H3).
  split; [|exact H3]. destruct HJ as [HJ1 HJ2]. split; [congruence|]. intros k m. rewrite H3.
  assert (Hf : forall k, fixed h' k = fixed h k) by (intro k'; rewrite <- fixed_peel, H1, fixed_peel; reflexivity).
  rewrite Hf. destruct (Nat.eqb_spec k i), (String.eqb_spec m n); cbn; subst; auto.
Qed.

(** *** wrap_all *)
Definition b2n (b : bool) : nat := if b then 1 else 0.
Definition new (a b : list nat) (j : nat) : nat := b2n (seen j b && negb (seen j a)).
Definition mem (m : string) (ns : list string) : bool := existsb (String.eqb m) ns.
Lemma mem_in m ns : mem m ns = true <-> In m ns.
Proof.
  unfold mem. rewrite existsb_exists. split; [intros (x & H & E); apply String.eqb_eq in E; congruence|].
  intro H. exists m. split; [exact H|apply String.eqb_refl].
Qed.
Lemma seen_in j l : seen j l = true <-> In j l.
Proof.
  unfold seen. rewrite existsb_exists. split; [intros (x & H & E); apply Nat.eqb_eq in E; congruence|].
  intro H. exists j. split; [exact H|apply Nat.eqb_refl].
Qed.
Definition kids (i j : nat) : Prop := exists n, find h0 i n = Some (AType j).
Definition closed (P : nat -> Prop) : Prop := forall i j, P i -> kids i j -> P j.

Definition Wpost (i : nat) (ns : list string) (st st' : wstate) : Prop :=
  J (ws_heap st') /\ incl (ws_seen st) (ws_seen st') /\
  (forall j m, wrappers (ws_heap st') j m <=
     wrappers (ws_heap st) j m + b2n ((j =? i) && mem m ns) + new (ws_seen st) (ws_seen st') j) /\
  (forall j m, wrappers (ws_heap st) j m <= wrappers (ws_heap st') j m) /\
  (forall P : nat -> Prop, (forall j, In j (ws_seen st) -> P j) -> (forall j, kids i j -> P j) -> closed P ->
     forall j, In j (ws_seen st') -> P j).

Lemma new_refl a j : new a a j = 0.
Proof. unfold new. destruct (seen j a); reflexivity. Qed.
Lemma seen_false j l : seen j l = false <-> ~ In j l.
Proof. rewrite <- seen_in. destruct (seen j l); split; congruence. Qed.
Lemma new_trans a b d j : incl a b -> incl b d -> new a b j + new b d j = new a d j.
Proof.
  intros H1 H2. unfold new. destruct (seen j a) eqn:Ea.
  - apply seen_in in Ea as Ia. apply H1 in Ia as Ib. apply H2 in Ib as Id.
    apply seen_in in Ib, Id. rewrite Ib, Id. reflexivity.
  - destruct (seen j b) eqn:Eb; [|destruct (seen j d); reflexivity].
    apply seen_in in Eb as Ib. apply H2 in Ib as Id. apply seen_in in Id. rewrite Id. reflexivity.
Qed.
Lemma Wpost_refl i st ns : J (ws_heap st) -> Wpost i ns st st.
Proof. intro HJ. split; [exact HJ|]. split; [apply incl_refl|]. split; [intros; lia|]. split; [reflexivity|auto]. Qed.
Lemma Wpost_cons i n ns st st1 st2 : ~ In n ns -> Wpost i [n] st st1 -> Wpost i ns st1 st2 -> Wpost i (n :: ns) st st2.
Proof.
  intros Hn (A1 & A2 & A3 & A4 & A5) (B1 & B2 & B3 & B4 & B5).
  split; [exact B1|]. split; [eapply incl_tran; eauto|]. split; [|split].
  - intros j m. specialize (A3 j m). specialize (B3 j m). rewrite <- (new_trans _ _ _ j A2 B2).
    assert (b2n ((j =? i) && mem m [n]) + b2n ((j =? i) && mem m ns) <= b2n ((j =? i) && mem m (n :: ns))); [|lia].
    unfold mem. cbn. destruct (j =? i); cbn; [|lia]. rewrite orb_false_r. destruct (String.eqb_spec m n); cbn; [|lia].
    subst. change (existsb (String.eqb n) ns) with (mem n ns). destruct (mem n ns) eqn:E; cbn; [|lia].
    apply mem_in in E. contradiction.
  - intros j m. etransitivity; [apply A4|apply B4].
  - intros P H1 H2 H3. apply B5; [apply A5| |]; assumption.
Qed.

Lemma wrap_one_post label i n f st : J (ws_heap st) -> wc_skip c n = false ->
  getattr (ws_heap st) i n = Some (VFun f) -> Wpost i [n] st (wrap_one c label i n f st).
Proof.
  intros HJ Hs Hg. pose proof (J_fun _ _ _ _ HJ Hs Hg) as Ho. unfold wrap_one.
  destruct (wrap_fn _ _ f) as [g|] eqn:Ew; [|apply (Wpost_refl i st [n] HJ)].
  assert (strip g = strip f /\ layers g = S (layers f)) as [G1 G2].
  { unfold wrap_fn in Ew. destruct f as [id ok| |]; [destruct ok|..]; try discriminate; injection Ew as <-; auto. }
  destruct (setattr (ws_heap st) i n g) as [h'|] eqn:Es; [|apply (Wpost_refl i st [n] HJ)].
  destruct (J_set _ _ _ _ _ _ HJ Ho G1 Hs Es) as [HJ' Hl].
  assert (Hw : wrappers (ws_heap st) i n = layers f) by (unfold wrappers; rewrite Ho; reflexivity).
  split; [exact HJ'|]. split; [apply incl_refl|]. cbn. split; [|split; [|auto]].
  - intros j m. rewrite Hl. unfold mem. cbn. rewrite orb_false_r.
    destruct (Nat.eqb_spec j i), (String.eqb_spec m n); cbn; subst; lia.
  - intros j m. rewrite Hl. destruct (Nat.eqb_spec j i), (String.eqb_spec m n); cbn; subst; lia.
Qed.

Lemma wrap_sub_post d : forall label i st, J (ws_heap st) -> Wpost i (dir h0 i) st (wrap_sub c d label i st).
Proof.
  induction d as [|d IH]; intros label i st HJ; cbn [wrap_sub]; rewrite (J_dir _ i HJ);
    pose proof (dir_nodup h0 i) as ND; revert st HJ; induction (dir h0 i) as [|n ns IHn]; intros st HJ;
    try (apply Wpost_refl, HJ); cbn [fold_left]; inversion ND as [|? ? Hn ND']; subst.
  - match goal with |- Wpost _ _ _ (fold_left _ _ ?s) => assert (H1 : Wpost i [n] st s) end.
    { destruct (ws_raised st); [apply Wpost_refl, HJ|]. destruct (wc_skip c n) eqn:Es; [apply Wpost_refl, HJ|].
      destruct (getattr _ i n) as [[| |f|j]|] eqn:Eg; try apply (Wpost_refl _ _ _ HJ).
      apply wrap_one_post; assumption. }
    eapply Wpost_cons; [exact Hn|exact H1|]. apply IHn; [exact ND'|]. apply H1.
  - match goal with |- Wpost _ _ _ (fold_left _ _ ?s) => assert (H1 : Wpost i [n] st s) end.
    { destruct (ws_raised st) eqn:Er; [apply Wpost_refl, HJ|]. destruct (wc_skip c n) eqn:Es; [apply Wpost_refl, HJ|].
      destruct (getattr _ i n) as [[| |f|j]|] eqn:Eg; try apply (Wpost_refl _ _ _ HJ).
      - apply wrap_one_post; assumption.
      - destruct (seen j (ws_seen st)) eqn:Ej; [apply (Wpost_refl _ _ _ HJ)|].
        set (st1 := mkWS _ _ _ _). destruct (IH (label +s "." +s n) j st1 HJ) as (A1 & A2 & A3 & A4 & A5).
        assert (I1 : incl (ws_seen st) (ws_seen st1)) by (intros x Hx; right; exact Hx).
        split; [exact A1|]. split; [eapply incl_tran; eauto|]. split; [|split].
        + intros k m. specialize (A3 k m). rewrite <- (new_trans _ _ _ k I1 A2). change (ws_heap st1) with (ws_heap st) in A3.
          assert (b2n ((k =? j) && mem m (dir h0 j)) <= new (ws_seen st) (ws_seen st1) k); [|lia].
          unfold new. cbn. destruct (Nat.eqb_spec k j); [|cbn; lia]. subst. rewrite Ej. cbn. destruct (mem m (dir h0 j)); cbn; lia.
        + exact A4.
        + apply J_type in Eg; [|exact HJ]. intros P H1 H2 H3.
          assert (Pj : P j) by (apply H2; exists n; exact Eg). apply A5; [|intros k Hk; eapply H3; eauto|exact H3].
          intros k [<-|Hk]; auto. }
    eapply Wpost_cons; [exact Hn|exact H1|]. apply IHn; [exact ND'|]. apply H1.
Qed.

(** What does get wrapped *)
Definition good (j : nat) (m : string) : Prop :=
  wc_skip c m = false /\ fixed h0 j = false /\ exists id, assoc m (own h0 j) = Some (AFun (Plain id true)).
Definition wstep (d : nat) (label : string) (i : nat) (st : wstate) (n : string) : wstate :=
  if ws_raised st then st
  else if wc_skip c n then st
  else match getattr (ws_heap st) i n with
       | Some (VFun f) => wrap_one c label i n f st
       | Some (VType j) =>
         match d with
         | O => st
         | S d' =>
           if seen j (ws_seen st) then st
           else wrap_sub c d' (label +s "." +s n) j (mkWS (ws_heap st) (j :: ws_seen st) (ws_ret st) (ws_raised st))
         end
       | _ => st
       end.
Lemma wrap_sub_eq d label i st : wrap_sub c d label i st = fold_left (wstep d label i) (dir (ws_heap st) i) st.
Proof. destruct d; reflexivity. Qed.
Lemma wstep_post d label i st n : J (ws_heap st) -> Wpost i [n] st (wstep d label i st n).
Proof.
  intro HJ. unfold wstep. destruct (ws_raised st) eqn:Er; [apply Wpost_refl, HJ|]. destruct (wc_skip c n) eqn:Es; [apply Wpost_refl, HJ|].
  destruct (getattr _ i n) as [[| |f|j]|] eqn:Eg; try apply (Wpost_refl _ _ _ HJ); [apply wrap_one_post; assumption|].
  destruct d as [|d]; [apply (Wpost_refl _ _ _ HJ)|]. destruct (seen j (ws_seen st)) eqn:Ej; [apply (Wpost_refl _ _ _ HJ)|].
  set (st1 := mkWS _ _ _ _). destruct (wrap_sub_post d (label +s "." +s n) j st1 HJ) as (A1 & A2 & A3 & A4 & A5).
  assert (I1 : incl (ws_seen st) (ws_seen st1)) by (intros x Hx; right; exact Hx).
  split; [exact A1|]. split; [eapply incl_tran; eauto|]. split; [|split].
  - intros k m. specialize (A3 k m). rewrite <- (new_trans _ _ _ k I1 A2). change (ws_heap st1) with (ws_heap st) in A3.
    assert (b2n ((k =? j) && mem m (dir h0 j)) <= new (ws_seen st) (ws_seen st1) k); [|lia].
    unfold new. cbn. destruct (Nat.eqb_spec k j); [|cbn; lia]. subst. rewrite Ej. cbn. destruct (mem m (dir h0 j)); cbn; lia.
  - exact A4.
  - apply J_type in Eg; [|exact HJ]. intros P H1 H2 H3.
    assert (Pj : P j) by (apply H2; exists n; exact Eg). apply A5; [|intros k Hk; eapply H3; eauto|exact H3].
    intros k [<-|Hk]; auto.
Qed.
Lemma raised_stays ns : forall d label i st, ws_raised st = true -> fold_left (wstep d label i) ns st = st.
Proof. induction ns as [|n ns IH]; intros d label i st H; [reflexivity|]. cbn. unfold wstep at 2. rewrite H. apply IH, H. Qed.

Definition Low (i : nat) (ns : list string) (st st' : wstate) : Prop :=
  ws_raised st' = false ->
  (forall m, In m ns -> good i m -> 1 <= wrappers (ws_heap st') i m) /\
  (forall j m, In j (ws_seen st') -> In j (ws_seen st) \/ (good j m -> 1 <= wrappers (ws_heap st') j m)).
Lemma low_cons i n ns st st1 st2 : (ws_raised st1 = true -> st2 = st1) -> Wpost i ns st1 st2 ->
  Low i [n] st st1 -> Low i ns st1 st2 -> Low i (n :: ns) st st2.
Proof.
  intros Hr (_ & B2 & _ & B4 & _) HA HB Hf. assert (Hf1 : ws_raised st1 = false).
  { destruct (ws_raised st1) eqn:E; [|reflexivity]. rewrite (Hr eq_refl) in Hf. congruence. }
  destruct (HA Hf1) as [A1 A2]. destruct (HB Hf) as [B1' B2']. split.
  - intros m [<-|Hm] Hg; [|auto]. etransitivity; [apply A1; [left; reflexivity|exact Hg]|apply B4].
  - intros j m Hj. destruct (B2' j m Hj) as [Hj1|]; [|auto]. destruct (A2 j m Hj1) as [|H]; [auto|]. right. intro Hg.
    etransitivity; [apply H, Hg|apply B4].
Qed.
Lemma fold_post d label i ns : NoDup ns -> forall st, J (ws_heap st) -> Wpost i ns st (fold_left (wstep d label i) ns st).
Proof.
  induction ns as [|n ns IH]; intros ND st HJ; [apply Wpost_refl, HJ|]. inversion ND; subst. cbn.
  pose proof (wstep_post d label i st n HJ) as H0. eapply Wpost_cons; [assumption|exact H0|]. apply IH; [assumption|apply H0].
Qed.
Lemma good_get h j m : J h -> good j m -> exists f, getattr h j m = Some (VFun f) /\ wrappers h j m = layers f /\
  assoc m (own h j) = Some (AFun f) /\ (forall x y, wrap_fn x y f = Some (Wrapped x y f)) /\ fixed h j = false.
Proof.
  intros [HJ _] (G1 & G2 & id & G3). rewrite <- HJ in G2, G3. rewrite fixed_peel in G2. rewrite own_peel, assoc_peel in G3.
  destruct (assoc m (own h j)) as [a|] eqn:E; [|discriminate]. destruct a; try discriminate. cbn in G3. injection G3 as G3.
  exists f. unfold getattr. rewrite (find_own _ _ _ _ E). unfold wrappers. rewrite E. repeat split; auto.
  intros x y. destruct f as [id' ok| |]; cbn in *; try reflexivity. injection G3 as -> ->. reflexivity.
Qed.
Lemma wrap_sub_low d : forall label i st, J (ws_heap st) -> Low i (dir h0 i) st (wrap_sub c d label i st).
Proof.
  induction d as [d IH] using lt_wf_ind. intros label i st HJ. rewrite wrap_sub_eq, (J_dir _ i HJ).
  pose proof (dir_nodup h0 i) as ND. revert st HJ. induction (dir h0 i) as [|n ns IHn]; intros st HJ; [intros _; cbn; split; [intros ? []|auto]|].
  inversion ND; subst. pose proof (wstep_post d label i st n HJ) as H0. cbn [fold_left].
  eapply low_cons; [apply raised_stays|apply fold_post; [assumption|apply H0]| |apply IHn; [assumption|apply H0]].
  clear IHn. unfold wstep in *. intro Hf.
  destruct (ws_raised st) eqn:Er; [congruence|]. destruct (wc_skip c n) eqn:Es.
  { split; [|auto]. intros m [<-|[]] (G & _). congruence. }
  destruct (getattr _ i n) as [[| |f|j]|] eqn:Eg;
    try (split; [|solve [auto]]; intros m [<-|[]] G; destruct (good_get _ _ _ HJ G) as (f' & G1 & _); congruence).
  - split.
    + intros m [<-|[]] G. destruct (good_get _ _ _ HJ G) as (f' & G1 & G2 & G3 & G4 & G5).
      assert (f' = f) by congruence. subst f'.
      unfold wrap_one. rewrite G4. destruct (setattr_ok (ws_heap st) i n (Wrapped (label +s "." +s n) (wc_level c n) f) G5) as [h' E].
      rewrite E. cbn. destruct (J_set _ _ _ f (Wrapped (label +s "." +s n) (wc_level c n) f) _ HJ G3 eq_refl Es E) as [_ Hl]. rewrite Hl, Nat.eqb_refl, String.eqb_refl. cbn. lia.
    + intros j m. unfold wrap_one. destruct (match wrap_fn _ _ _ with Some _ => _ | None => _ end); cbn; auto.
  - split.
    { intros m [<-|[]] G. destruct (good_get _ _ _ HJ G) as (f' & G1 & _). congruence. }
    destruct d as [|d]; [auto|]. destruct (seen j (ws_seen st)) eqn:Ej; [auto|].
    set (st1 := mkWS _ _ _ _) in *. assert (HJ1 : J (ws_heap st1)) by exact HJ.
    destruct (IH d (Nat.lt_succ_diag_r d) (label +s "." +s n) j st1 HJ1 Hf) as [L1 L2].
    intros k m Hk. destruct (L2 k m Hk) as [[<-|Hk']|Hk']; [|left; exact Hk'|right; exact Hk'].
    right. intro G. apply L1; [|exact G]. destruct G as (_ & _ & id & G). eapply own_dir, G.
Qed.
Lemma wrap_sub_kids d label i st j n : J (ws_heap st) -> ws_raised (wrap_sub c (S d) label i st) = false ->
  wc_skip c n = false -> find h0 i n = Some (AType j) -> In j (ws_seen (wrap_sub c (S d) label i st)).
Proof.
  intros HJ Hf Hs Hn. rewrite wrap_sub_eq in *. rewrite (J_dir _ i HJ) in *.
  assert (Hin : In n (dir h0 i)).
  { apply dir_in. unfold find in Hn. clear -Hn. induction (mro h0 i) as [|b bs IHb]; cbn in Hn; [discriminate|].
    destruct (assoc n (own h0 b)) eqn:E; [exists b; eexists; split; [left; reflexivity|eapply assoc_in; eauto]|].
    destruct (IHb Hn) as (b' & a & H1 & H2). exists b', a. split; [right; exact H1|exact H2]. }
  pose proof (dir_nodup h0 i) as ND. revert st HJ Hf. induction (dir h0 i) as [|m ns IH]; [contradiction|]. intros st HJ Hf.
  inversion ND; subst. cbn [fold_left] in *. pose proof (wstep_post (S d) label i st m HJ) as H0.
  destruct Hin as [->|Hin]; [|apply IH; [exact Hin|assumption|apply H0|exact Hf]].
  destruct (fold_post (S d) label i ns ltac:(assumption) (wstep (S d) label i st n)) as (_ & Hi & _); [apply H0|]. apply Hi. clear Hi IH.
  assert (Hr : ws_raised st = false).
  { destruct (ws_raised st) eqn:E; [|reflexivity]. exfalso. assert (W : wstep (S d) label i st n = st) by (unfold wstep; rewrite E; reflexivity).
    rewrite W, raised_stays in Hf by exact E. congruence. }
  unfold wstep. rewrite Hr, Hs. apply (J_type _ _ _ _ HJ) in Hn. rewrite Hn. destruct (seen j (ws_seen st)) eqn:Ej; [apply seen_in, Ej|].
  set (st1 := mkWS _ _ _ _). destruct (wrap_sub_post d (label +s "." +s n) j st1 HJ) as (_ & A2 & _). apply A2. left. reflexivity.
Qed.

(** *** unwrap_all *)
Variable Hrange : forall i n j, find h0 i n = Some (AType j) -> j < length h0.
Definition todo (vis : list nat) : nat := length (filter (fun j => negb (seen j vis)) (seq 0 (length h0))).
Lemma seen_cons x j vis : seen x (j :: vis) = (x =? j) || seen x vis.
Proof. reflexivity. Qed.
Lemma todo_cons j vis : j < length h0 -> seen j vis = false -> todo (j :: vis) < todo vis.
Proof.
  intros Hj Hs. unfold todo. assert (In j (seq 0 (length h0))) as Hin by (apply in_seq; lia).
  assert (M : forall l, length (filter (fun k => negb (seen k (j :: vis))) l) <= length (filter (fun k => negb (seen k vis)) l)).
  { clear. induction l as [|x l IH]; [reflexivity|]. cbn [filter]. rewrite seen_cons.
    destruct (seen x vis), (x =? j); cbn [orb negb length]; lia. }
  induction (seq 0 (length h0)) as [|x l IH]; [contradiction|]. cbn [filter]. rewrite seen_cons.
  destruct Hin as [->|Hin].
  - rewrite Hs, Nat.eqb_refl. cbn [orb negb length]. specialize (M l). lia.
  - specialize (IH Hin). destruct (seen x vis), (x =? j); cbn [orb negb length]; lia.
Qed.

Definition Upost (i : nat) (ns : list string) (st st' : heap * list nat * bool) : Prop :=
  let '(h, vis, _) := st in let '(h', vis', raised) := st' in
  J h' /\ raised = false /\ incl vis vis' /\
  (forall j m, wrappers h' j m <= wrappers h j m - (b2n ((j =? i) && mem m ns) + new vis vis' j)) /\
  (forall n j, In n ns -> find h0 i n = Some (AType j) -> In j vis') /\
  (forall j, In j vis' -> In j vis \/ (forall k, kids j k -> In k vis')).

Lemma todo_mono a b : incl a b -> todo b <= todo a.
Proof.
  intro H. unfold todo. induction (seq 0 (length h0)) as [|x l IH]; cbn [filter]; [lia|].
  destruct (seen x a) eqn:Ea.
  - apply seen_in in Ea. apply H in Ea. apply seen_in in Ea. rewrite Ea. cbn. exact IH.
  - destruct (seen x b); cbn; lia.
Qed.

Lemma Upost_refl i h vis : J h -> Upost i [] (h, vis, false) (h, vis, false).
Proof.
  intro HJ. split; [exact HJ|]. split; [reflexivity|]. split; [apply incl_refl|]. split; [|split; [intros ? ? []|auto]].
  intros j m. rewrite new_refl. destruct (j =? i); cbn; lia.
Qed.
Lemma Upost_cons i n ns st st1 st2 : ~ In n ns -> Upost i [n] st st1 -> Upost i ns st1 st2 -> Upost i (n :: ns) st st2.
Proof.
  destruct st as [[h vis] r], st1 as [[h1 vis1] r1], st2 as [[h2 vis2] r2].
  intros Hn (A1 & A2 & A3 & A4 & A5 & A6) (B1 & B2 & B3 & B4 & B5 & B6).
  split; [exact B1|]. split; [exact B2|]. split; [eapply incl_tran; eauto|]. split; [|split].
  - intros j m. specialize (A4 j m). specialize (B4 j m). rewrite <- (new_trans _ _ _ j A3 B3).
    assert (b2n ((j =? i) && mem m (n :: ns)) <= b2n ((j =? i) && mem m [n]) + b2n ((j =? i) && mem m ns)); [|lia].
    unfold mem. cbn. destruct (j =? i); cbn; [|lia]. rewrite orb_false_r. destruct (String.eqb m n), (existsb (String.eqb m) ns); cbn; lia.
  - intros m j [<-|Hm] Hf; [|eapply B5; eauto]. apply B3. eapply A5; eauto. left. reflexivity.
  - intros j Hj. destruct (B6 j Hj) as [Hj1|]; [|auto]. destruct (A6 j Hj1) as [|Hk]; [auto|]. right. intros k Hk'. apply B3. auto.
Qed.

Lemma unwrap_sub_post fuel : forall i h vis, J h -> todo vis < fuel ->
  Upost i (dir h0 i) (h, vis, false) (unwrap_sub fuel i (h, vis, false)).
Proof.
  induction fuel as [|fuel IH]; intros i h vis HJ Hf; [lia|]. cbn [unwrap_sub fst]. rewrite (J_dir _ i HJ).
  pose proof (dir_nodup h0 i) as ND. revert h vis HJ Hf. induction (dir h0 i) as [|n ns IHn]; intros h vis HJ Hf;
    [apply Upost_refl, HJ|]. cbn [fold_left]. inversion ND as [|? ? Hn ND']; subst.
  match goal with |- Upost _ _ ?s0 (fold_left _ _ ?s) => assert (H1 : Upost i [n] s0 s) end.
  { assert (Hskip : getattr h i n <> None -> (forall f, getattr h i n = Some (VFun f) -> layers f = 0) ->
        (forall j, getattr h i n = Some (VType j) -> In j vis) -> Upost i [n] (h, vis, false) (h, vis, false)).
    { intros _ E1 E2. split; [exact HJ|]. split; [reflexivity|]. split; [apply incl_refl|]. split; [|split; [|auto]].
      - intros j m. rewrite new_refl. destruct (Nat.eqb_spec j i); cbn; [|lia]. subst. rewrite orb_false_r.
        destruct (String.eqb_spec m n); cbn; [|lia]. subst. destruct (wrappers h i n) eqn:Ew; [lia|]. exfalso.
        unfold wrappers in Ew. destruct (assoc n (own h i)) as [a|] eqn:Ea; [|discriminate]. destruct a; try discriminate.
        specialize (E1 f). unfold getattr in E1. rewrite (find_own _ _ _ _ Ea) in E1. specialize (E1 eq_refl). congruence.
      - intros m j [<-|[]] Hm. apply E2. apply J_type; assumption. }
    destruct (getattr h i n) as [[| |f|j]|] eqn:Eg.
    - apply Hskip; congruence.
    - apply Hskip; congruence.
    - unfold unwrap. rewrite Eg. destruct f as [id ok|b f|x y f].
      + apply Hskip; [congruence| |congruence]. intros ? [= <-]. reflexivity.
      + apply Hskip; [congruence| |congruence]. intros ? [= <-]. reflexivity.
      + destruct (J_wrapped _ _ _ _ _ _ HJ Eg) as (Hs & Ho & Hx). destruct (setattr_ok h i n f Hx) as [h' Hset]. rewrite Hset.
        destruct (J_set h i n (Wrapped x y f) f h' HJ Ho eq_refl Hs Hset) as [HJ' Hl].
        assert (Hw : wrappers h i n = S (layers f)) by (unfold wrappers; rewrite Ho; reflexivity).
        split; [exact HJ'|]. split; [reflexivity|]. split; [apply incl_refl|]. split; [|split; [|auto]].
        * intros j m. rewrite Hl, new_refl. unfold mem. cbn. rewrite orb_false_r.
          destruct (Nat.eqb_spec j i), (String.eqb_spec m n); cbn; subst; lia.
        * intros m j [<-|[]] Hm. apply (J_type h i n j HJ) in Hm. congruence.
    - destruct (seen j vis) eqn:Ej.
      + apply Hskip; [congruence|congruence|]. intros k [= <-]. apply seen_in, Ej.
      + apply (J_type _ _ _ _ HJ) in Eg as Ef. pose proof (Hrange _ _ _ Ef) as Hr.
        pose proof (todo_cons j vis Hr Ej) as Ht.
        specialize (IH j h (j :: vis) HJ ltac:(lia)). destruct (unwrap_sub fuel j (h, j :: vis, false)) as [[h' vis'] r].
        destruct IH as (A1 & A2 & A3 & A4 & A5 & A6).
        assert (I1 : incl vis (j :: vis)) by (intros x Hx; right; exact Hx).
        assert (Hnot : wrappers h i n = 0).
        { unfold wrappers. destruct (assoc n (own h i)) as [a|] eqn:Ea; [|reflexivity]. destruct a; try reflexivity.
          unfold getattr in Eg. rewrite (find_own _ _ _ _ Ea) in Eg. discriminate. }
        split; [exact A1|]. split; [exact A2|]. split; [eapply incl_tran; eauto|]. split; [|split].
        * intros k m. specialize (A4 k m). rewrite <- (new_trans _ _ _ k I1 A3).
          assert (Hk : k = j -> wrappers h k m = 0 \/ mem m (dir h0 j) = true).
          { intros ->. destruct (mem m (dir h0 j)) eqn:Em; [auto|]. left. unfold wrappers.
            destruct (assoc m (own h j)) as [a|] eqn:Ea; [|reflexivity]. apply own_dir in Ea. rewrite (J_dir _ j HJ) in Ea.
            apply mem_in in Ea. congruence. }
          assert (Hn1 : new vis (j :: vis) k = b2n (k =? j)).
          { unfold new. cbn. destruct (Nat.eqb_spec k j); [subst; rewrite Ej; reflexivity|].
            cbn. fold (seen k vis). destruct (seen k vis); reflexivity. }
          rewrite Hn1. assert (Hkin : (k =? i) && mem m [n] = true -> wrappers h k m = 0).
          { unfold mem. cbn. rewrite orb_false_r. intro E. apply andb_prop in E as [E1 E2].
            apply Nat.eqb_eq in E1. apply String.eqb_eq in E2. subst. exact Hnot. }
          destruct ((k =? i) && mem m [n]); cbn in *.
          -- rewrite (Hkin eq_refl) in *. lia.
          -- destruct (Nat.eqb_spec k j); cbn in *; [|lia]. destruct (Hk e) as [E|E]; rewrite E in *; cbn in *; lia.
        * intros m k [<-|[]] Hm. rewrite Ef in Hm. injection Hm as <-. apply A3. left. reflexivity.
        * intros k Hk. destruct (A6 k Hk) as [[<-|]|]; auto. right. intros k' [m Hm]. eapply A5; [|exact Hm].
          apply dir_in. unfold find in Hm. clear -Hm. induction (mro h0 j) as [|b bs IHb]; cbn in Hm; [discriminate|].
          destruct (assoc m (own h0 b)) eqn:E; [exists b; eexists; split; [left; reflexivity|eapply assoc_in; eauto]|].
          destruct (IHb Hm) as (b' & a & H1 & H2). exists b', a. split; [right; exact H1|exact H2].
    - split; [exact HJ|]. split; [reflexivity|]. split; [apply incl_refl|]. split; [|split; [|auto]].
      + intros j m. rewrite new_refl. destruct (Nat.eqb_spec j i); cbn; [|lia]. subst. rewrite orb_false_r.
        destruct (String.eqb_spec m n); cbn; [|lia]. subst. unfold wrappers.
        destruct (assoc n (own h i)) as [a|] eqn:Ea; [|lia]. unfold getattr in Eg. rewrite (find_own _ _ _ _ Ea) in Eg.
        destruct a; discriminate.
      + intros m j [<-|[]] Hm. apply (J_type h i n j HJ) in Hm. congruence. }
  match goal with |- Upost _ _ _ (fold_left _ _ ?s) => destruct s as [[h1 vis1] r1] end.
  pose proof H1 as (A1 & A2 & A3 & _). rewrite A2 in H1 |- *.
  eapply Upost_cons; [exact Hn|exact H1|].
  apply IHn; [exact ND'|exact A1|]. pose proof (todo_mono _ _ A3). lia.
Qed.

Lemma todo_nil : todo [] = length h0.
Proof. unfold todo. rewrite <- (seq_length (length h0) 0) at 2. f_equal. induction (seq 0 (length h0)); cbn; [reflexivity|]. f_equal. assumption. Qed.

Lemma no_wrappers h : J h -> (forall i, NoDup (map fst (own h0 i))) -> (forall i n, wrappers h i n = 0) -> h = h0.
Proof.
  intros [HJ _] HN HW. rewrite <- HJ. symmetry. apply zero_peel; [|exact HW]. intro i. specialize (HN i).
  rewrite <- HJ, own_peel in HN. unfold peel_ns in HN. rewrite map_map in HN. exact HN.
Qed.

Theorem undo label d t : (forall i, NoDup (map fst (own h0 i))) ->
  (forall i n, wrappers h0 i n = 0) ->
  unwrap_all t (ws_heap (wrap_all c d label t h0)) = (h0, false).
Proof.
  intros HN HW. assert (HJ : J h0) by (split; [exact Hpeel|]; intros i n; rewrite HW; lia).
  unfold wrap_all. pose proof (wrap_sub_post d label t (mkWS h0 [] [] false) HJ) as (A1 & A2 & A3 & A4 & A5).
  set (st := wrap_sub _ _ _ _ _) in *. unfold unwrap_all. set (h := ws_heap st) in *.
  assert (HL : length h = length h0) by (rewrite <- (length_peel h); destruct A1 as [E _]; rewrite E; reflexivity).
  pose proof (unwrap_sub_post (S (S (length h))) t h [] A1 ltac:(rewrite todo_nil; lia)) as B.
  destruct (unwrap_sub (S (S (length h))) t (h, [], false)) as [[h' vis'] r]. destruct B as (B1 & B2 & B3 & B4 & B5 & B6).
  subst r. f_equal. apply no_wrappers; [exact B1|exact HN|]. intros i n. specialize (A3 i n). specialize (B4 i n). cbn in A3.
  rewrite HW in A3. assert (Hin : forall j, In j (ws_seen st) -> In j vis').
  { apply A5; [intros j []| |].
    - intros j [m Hm]. eapply B5; [|exact Hm]. clear -Hm. apply dir_in. unfold find in Hm. induction (mro h0 t) as [|b bs IHb]; cbn in Hm; [discriminate|].
      destruct (assoc m (own h0 b)) eqn:E; [exists b; eexists; split; [left; reflexivity|eapply assoc_in; eauto]|].
      destruct (IHb Hm) as (b' & a & H1 & H2). exists b', a. split; [right; exact H1|exact H2].
    - intros j k Hj Hk. destruct (B6 j Hj) as [[]|H]; auto. }
  fold h in A3. assert (new [] (ws_seen st) i <= new [] vis' i); [|lia].
  unfold new. cbn. destruct (seen i (ws_seen st)) eqn:E; [|cbn; lia]. apply seen_in, Hin, seen_in in E. rewrite E. cbn. lia.
Qed.
End S.

Lemma J_start c h : well_formed h -> simple c h -> peel h = h /\ J c h h.
Proof.
  intros [HN _] HS. assert (HP : peel h = h) by (apply zero_peel; [exact HN|]; intros; eapply simple_zero, HS).
  split; [exact HP|]. split; [exact HP|]. intros i n. rewrite (simple_zero _ _ _ _ HS). lia.
Qed.
Lemma wrap_all_undo c d label t h : well_formed h -> simple c h ->
  unwrap_all t (ws_heap (wrap_all c d label t h)) = (h, false).
Proof.
  intros HW HS. destruct (J_start c h HW HS) as [HP HJ]. destruct HW as [HN HR].
  apply undo; auto. intros. eapply simple_zero, HS.
Qed.
Lemma wrap_all_J c d label t h : well_formed h -> simple c h -> J c h (ws_heap (wrap_all c d label t h)).
Proof.
  intros HW HS. destruct (J_start c h HW HS) as [HP HJ]. apply (wrap_sub_post c h HP HS d label t (mkWS h [] [] false) HJ).
Qed.
Lemma wrap_all_attr c d label t h i n : well_formed h -> simple c h ->
  let h' := ws_heap (wrap_all c d label t h) in
  assoc n (own h' i) = assoc n (own h i) \/
  (wc_skip c n = false /\ exists f f', assoc n (own h i) = Some (AFun f) /\ assoc n (own h' i) = Some (AFun f') /\ wrapper_of f f').
Proof.
  intros HW HS h'. destruct (wrap_all_J c d label t h HW HS) as [J1 J2]. fold h' in J1, J2.
  assert (E : assoc n (own h i) = option_map peel_attr (assoc n (own h' i))) by (rewrite <- J1, own_peel, assoc_peel; reflexivity).
  specialize (J2 i n). unfold wrappers in J2. destruct (assoc n (own h' i)) as [a|]; [|left; rewrite E; reflexivity].
  destruct a as [| |f| | |]; try (left; rewrite E; reflexivity). cbn in E.
  destruct (strip_wrapper f) as [Hz|Hw]; [left; rewrite E; destruct f; [reflexivity|reflexivity|discriminate Hz]|].
  right. split; [apply J2; inversion Hw; cbn; lia|]. exists (strip f), f. auto.
Qed.
Lemma wrap_all_low c d label t h i n id : well_formed h -> simple c h -> ws_raised (wrap_all c d label t h) = false ->
  i = t \/ (0 < d /\ exists m, wc_skip c m = false /\ find h t m = Some (AType i)) ->
  wc_skip c n = false -> fixed h i = false -> assoc n (own h i) = Some (AFun (Plain id true)) ->
  exists f', assoc n (own (ws_heap (wrap_all c d label t h)) i) = Some (AFun f') /\ wrapper_of (Plain id true) f'.
Proof.
  intros HW HS Hr Hi Hs Hx Ha. destruct (J_start c h HW HS) as [HP HJ].
  assert (H1 : 1 <= wrappers (ws_heap (wrap_all c d label t h)) i n).
  { assert (HG : good c h i n) by (split; [exact Hs|]; split; [exact Hx|]; exists id; exact Ha).
    destruct (wrap_sub_low c h HP HS d label t (mkWS h [] [] false) HJ Hr) as [L1 L2].
    destruct Hi as [->|(Hd & m & Hm & Hk)]; [apply L1; [eapply own_dir, Ha|exact HG]|].
    destruct d as [|d]; [lia|].
    pose proof (wrap_sub_kids c h HP HS d label t (mkWS h [] [] false) i m HJ Hr Hm Hk) as Hin.
    destruct (L2 i n Hin) as [[]|H]. apply H, HG. }
  destruct (wrap_all_attr c d label t h i n HW HS) as [E|(_ & f & f' & E1 & E2 & E3)].
  - unfold wrappers in H1. rewrite E, Ha in H1. cbn in H1. lia.
  - rewrite Ha in E1. injection E1 as <-. exists f'. auto.
Qed.
