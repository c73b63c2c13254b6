(** Insertion ordered dicts with a decidable key equality. *)
From Verif Require Import model.PyBase model.Sinks.
Open Scope nat_scope.

Section DictLemmas.
  Context {K V : Type} (eqb : K -> K -> bool).
  Hypothesis eqb_refl : forall a, eqb a a = true.
  Hypothesis eqb_sym : forall a b, eqb a b = eqb b a.
  Hypothesis eqb_trans : forall a b c, eqb a b = true -> eqb b c = true -> eqb a c = true.

  Lemma eqb_swap a b k : eqb a b = true -> eqb k a = eqb k b.
  Proof.
    intros H. destruct (eqb k a) eqn:E.
    - symmetry. eapply eqb_trans; eauto.
    - destruct (eqb k b) eqn:E2; auto. rewrite (eqb_trans k b a E2) in E; [discriminate | rewrite eqb_sym; auto].
  Qed.
  Lemma dget_set k k' (v : V) d : dget eqb k (dset eqb k' v d) = if eqb k k' then Some v else dget eqb k d.
  Proof.
    induction d as [|[a b] d IH]; simpl; [destruct (eqb k k'); auto|].
    destruct (eqb k' a) eqn:E; simpl.
    - rewrite <- (eqb_swap k' a k E). destruct (eqb k k'); auto.
    - rewrite IH. destruct (eqb k a) eqn:E2; auto. destruct (eqb k k') eqn:E3; auto.
      rewrite (eqb_trans k' k a) in E; [discriminate | rewrite eqb_sym; auto | auto].
  Qed.
  Lemma dget_ext k k' (d : list (K * V)) : eqb k k' = true -> dget eqb k d = dget eqb k' d.
  Proof.
    intros H. induction d as [|[a b] d IH]; auto. simpl. rewrite (eqb_sym k a), (eqb_sym k' a), (eqb_swap k k' a H), IH. auto.
  Qed.
  Lemma dget_in k v (d : list (K * V)) : dget eqb k d = Some v -> exists k', In (k', v) d /\ eqb k k' = true.
  Proof.
    induction d as [|[a b] d IH]; [discriminate|]. simpl. destruct (eqb k a) eqn:E.
    - intros H. inversion H; subst. exists a. auto.
    - intros H. destruct (IH H) as (k' & H1 & H2). exists k'. auto.
  Qed.
  Fixpoint ndk (d : list (K * V)) : Prop :=
    match d with [] => True | (k, _) :: d' => (forall k' v', In (k', v') d' -> eqb k k' = false) /\ ndk d' end.
  Lemma in_dset k v a b (d : list (K * V)) : In (a, b) (dset eqb k v d) -> (b = v /\ eqb k a = true) \/ In (a, b) d.
  Proof.
    induction d as [|[x y] d IH]; simpl.
    - intros [H|[]]. inversion H; subst. auto.
    - destruct (eqb k x) eqn:E; simpl; intros [H|H].
      + inversion H; subst. left. auto.
      + auto.
      + auto.
      + destruct (IH H); auto.
  Qed.
  Lemma ndk_set k v (d : list (K * V)) : ndk d -> ndk (dset eqb k v d).
  Proof.
    induction d as [|[a b] d IH]; intros H; simpl; [split; [intros ? ? []|exact I]|].
    destruct H as [H1 H2]. destruct (eqb k a) eqn:E; simpl; [auto|]. split; auto.
    intros k' v' Hin. destruct (in_dset _ _ _ _ _ Hin) as [[-> H]|H].
    - destruct (eqb a k') eqn:E2; auto. rewrite (eqb_trans k k' a) in E; [discriminate | auto | rewrite eqb_sym; auto].
    - eapply H1; eauto.
  Qed.
  Lemma dget_of_in k v (d : list (K * V)) : ndk d -> In (k, v) d -> dget eqb k d = Some v.
  Proof.
    induction d as [|[a b] d IH]; intros H Hin; [destruct Hin|]. destruct H as [H1 H2]. simpl. destruct Hin as [Hin|Hin].
    - inversion Hin; subst. rewrite eqb_refl. auto.
    - rewrite eqb_sym, (H1 k v Hin). auto.
  Qed.
  Lemma dget_upd k k' dflt f (d : list (K * V)) : dget eqb k (dupd eqb k' dflt f d) =
    if eqb k k' then Some (f (match dget eqb k d with Some v => v | None => dflt end)) else dget eqb k d.
  Proof. unfold dupd. rewrite dget_set. destruct (eqb k k') eqn:E; auto. rewrite (dget_ext k k' d E). auto. Qed.

  (** Sums over the values. *)
  Lemma sum_set (g : V -> nat) k v (d : list (K * V)) :
    list_sum (map (fun p => g (snd p)) (dset eqb k v d)) + (match dget eqb k d with Some x => g x | None => 0 end) =
    list_sum (map (fun p => g (snd p)) d) + g v.
  Proof.
    induction d as [|[a b] d IH]; simpl; [lia|]. destruct (eqb k a) eqn:E; simpl; [lia|]. lia.
  Qed.
End DictLemmas.
Arguments ndk {K V} eqb d.

Lemma string_eqb_trans a b c : String.eqb a b = true -> String.eqb b c = true -> String.eqb a c = true.
Proof. rewrite !String.eqb_eq. congruence. Qed.
Lemma logger_eqb_refl a : logger_eqb a a = true. Proof. apply Nat.eqb_refl. Qed.
Lemma logger_eqb_sym a b : logger_eqb a b = logger_eqb b a. Proof. apply Nat.eqb_sym. Qed.
Lemma logger_eqb_trans a b c : logger_eqb a b = true -> logger_eqb b c = true -> logger_eqb a c = true.
Proof. unfold logger_eqb. rewrite !Nat.eqb_eq. congruence. Qed.

(** A dict built by assigning the items of a list, keyed by strings. *)
Section Build.
  Context {P V : Type} (key : P -> string) (val : P -> V).
  Definition build (l : list P) (d : list (string * V)) : list (string * V) :=
    fold_left (fun d p => dset String.eqb (key p) (val p) d) l d.
  Lemma build_miss l : forall d k, (forall p, In p l -> key p <> k) -> dget String.eqb k (build l d) = dget String.eqb k d.
  Proof.
    induction l as [|p l IH]; intros d k H; auto. cbn [build fold_left]. fold (build l (dset String.eqb (key p) (val p) d)). rewrite IH by (intros; apply H; right; auto).
    rewrite (dget_set String.eqb String.eqb_sym string_eqb_trans). destruct (String.eqb_spec k (key p)) as [->|]; auto.
    exfalso. apply (H p); [left|]; auto.
  Qed.
  Lemma build_hit l : forall d k p, In p l -> key p = k -> (forall p', In p' l -> key p' = k -> val p' = val p) -> dget String.eqb k (build l d) = Some (val p).
  Proof.
    induction l as [|p0 l IH]; intros d k p Hin Hk Hu; [destruct Hin|]. cbn [build fold_left]. fold (build l (dset String.eqb (key p0) (val p0) d)).
    destruct (in_dec string_dec k (map key l)) as [Hl|Hl].
    - apply in_map_iff in Hl. destruct Hl as (p1 & K1 & H1). rewrite (IH _ k p1 H1 K1).
      + f_equal. apply Hu; [right|]; auto.
      + intros p' Hp' K'. rewrite (Hu p' (or_intror Hp') K'). symmetry. apply Hu; [right|]; auto.
    - rewrite build_miss by (intros p' Hp' K'; apply Hl; apply in_map_iff; eauto).
      rewrite (dget_set String.eqb String.eqb_sym string_eqb_trans). destruct Hin as [->|Hin]; [|exfalso; apply Hl; apply in_map_iff; eauto].
      rewrite Hk, String.eqb_refl. auto.
  Qed.
End Build.
