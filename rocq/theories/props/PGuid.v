(** Guids: C59. *)
From Verif Require Import model.PyBase model.Json model.Guid spec.GuidSpec.
Open Scope N_scope.

Lemma digit_value_hex d : d < 16 -> digit_value (hexdigit d) = d.
Proof. intros H. unfold digit_value, hexdigit. destruct (N.ltb_spec d 10); destruct (N.leb_spec (if d <? 10 then 48 + d else 87 + d) 57); destruct (d <? 10) eqn:E; try (apply N.ltb_lt in E); try (apply N.ltb_ge in E); try lia;
  match goal with |- context [?a <=? ?b] => destruct (N.leb_spec a b); lia end. Qed.
Lemma hex_value_snoc t c : hex_value (t ++ [c]) = 16 * hex_value t + digit_value c.
Proof. unfold hex_value. rewrite fold_left_app. reflexivity. Qed.
Lemma hex_digits_value f n : n < 2 ^ N.of_nat f -> (0 < f)%nat -> hex_value (hex_digits f n) = n.
Proof.
  revert n. induction f as [|f IH]; intros n H F; [lia|]. cbn [hex_digits]. destruct (N.ltb_spec n 16) as [L|L].
  - unfold hex_value. cbn [fold_left]. rewrite digit_value_hex by auto. lia.
  - rewrite hex_value_snoc. assert (M : n mod 16 < 16) by (apply N.mod_lt; discriminate). rewrite digit_value_hex by exact M.
    assert (E : n = 16 * (n / 16) + n mod 16) by (apply N.div_mod; discriminate). rewrite Nat2N.inj_succ, N.pow_succ_r' in H.
    rewrite IH; [symmetry; exact E| |].
    + generalize dependent (n mod 16). generalize dependent (n / 16). intros; lia.
    + destruct f; [exfalso; cbn in H; lia|lia].
Qed.
Lemma hex_value_hex n : hex_value (hex n) = n.
Proof.
  unfold hex. apply hex_digits_value; [|lia]. rewrite Nat2N.inj_succ, N2Nat.id. destruct (N.eq_0_gt_0_cases n) as [->|P]; [reflexivity|]. apply N.log2_spec. exact P.
Qed.
Lemma hexdigit_char d : d < 16 -> hex_char (hexdigit d).
Proof. unfold hexdigit, hex_char. intros H. destruct (N.ltb_spec d 10); lia. Qed.
Lemma hex_digits_chars f n : Forall hex_char (hex_digits f n).
Proof.
  revert n. induction f as [|f IH]; intros n; cbn [hex_digits]; [constructor|]. destruct (N.ltb_spec n 16); [constructor; [apply hexdigit_char; auto|constructor]|].
  apply Forall_app. split; [apply IH|]. constructor; [|constructor]. apply hexdigit_char, N.mod_lt. discriminate.
Qed.
Lemma digit_value_bound c : hex_char c -> digit_value c < 16.
Proof. unfold hex_char, digit_value. destruct (N.leb_spec c 57); lia. Qed.
Lemma digit_value_mono a b : hex_char a -> hex_char b -> (a < b <-> digit_value a < digit_value b).
Proof. unfold hex_char, digit_value. destruct (N.leb_spec a 57), (N.leb_spec b 57); lia. Qed.
Definition pow16 (n : nat) : N := 16 ^ N.of_nat n.
Lemma pow16_S n : pow16 (S n) = 16 * pow16 n. Proof. unfold pow16. rewrite Nat2N.inj_succ, N.pow_succ_r'. reflexivity. Qed.
Lemma pow16_pos n : 0 < pow16 n. Proof. unfold pow16. apply N.neq_0_lt_0, N.pow_nonzero. discriminate. Qed.
Lemma fold_value n t : fold_left (fun n c => 16 * n + digit_value c) t n = n * pow16 (length t) + hex_value t.
Proof.
  unfold hex_value. revert n. induction t as [|c t IH]; intros n; cbn [fold_left length]; [unfold pow16; cbn; lia|].
  rewrite IH, (IH (16 * 0 + digit_value c)), pow16_S. lia.
Qed.
Lemma hex_value_cons c t : hex_value (c :: t) = digit_value c * pow16 (length t) + hex_value t.
Proof. unfold hex_value at 1. cbn [fold_left]. rewrite fold_value. f_equal. Qed.
Lemma hex_value_bound t : Forall hex_char t -> hex_value t < pow16 (length t).
Proof.
  induction 1 as [|c t H F IH]; [unfold pow16; cbn; lia|]. rewrite hex_value_cons. cbn [length]. rewrite pow16_S. pose proof (digit_value_bound c H). nia.
Qed.
Lemma lex_value a b : Forall hex_char a -> Forall hex_char b -> length a = length b -> (text_lt a b <-> hex_value a < hex_value b).
Proof.
  intros A. revert b. induction A as [|x a Hx A IH]; intros b B L; destruct b as [|y b]; try discriminate; cbn [text_lt]; [unfold hex_value; cbn; lia|].
  inversion B as [|? ? Hy B']; subst. injection L as L. rewrite !hex_value_cons, L. rewrite IH by auto. rewrite (digit_value_mono x y) by auto.
  pose proof (hex_value_bound a A) as Ba. pose proof (hex_value_bound b B') as Bb. rewrite L in Ba.
  assert (Inj : x = y <-> digit_value x = digit_value y).
  { split; [intros ->; reflexivity|]. clear -Hx Hy. unfold hex_char, digit_value in *. destruct (N.leb_spec x 57), (N.leb_spec y 57); lia. }
  rewrite Inj. generalize dependent (pow16 (length b)). generalize dependent (hex_value a). generalize dependent (hex_value b). generalize (digit_value x) (digit_value y). clear. intros dx dy hb p Hb ha Ha.
  split; [intros [H|[-> H]]; nia|]. intros H. destruct (N.lt_trichotomy dx dy) as [T|[T|T]]; [left; exact T|right; split; [exact T|subst; lia]|]. nia.
Qed.
Lemma hex_length_digits k : forall f n, 16 ^ N.of_nat k <= n -> n < 16 ^ N.of_nat (S k) -> (k < f)%nat -> length (hex_digits f n) = S k.
Proof.
  induction k as [|k IH]; intros f n L U F; (destruct f as [|f]; [lia|]); cbn [hex_digits].
  - destruct (N.ltb_spec n 16) as [X|X]; [reflexivity|]. exfalso. change (16 ^ N.of_nat 1) with 16 in U. lia.
  - rewrite Nat2N.inj_succ, N.pow_succ_r' in L. pose proof (N.pow_nonzero 16 (N.of_nat k)). destruct (N.ltb_spec n 16) as [X|X]; [lia|]. rewrite app_length. cbn [length].
    rewrite (IH f (n / 16)); [lia| | |lia].
    + apply N.div_le_lower_bound; [lia|]. exact L.
    + apply N.div_lt_upper_bound; [lia|]. rewrite <- N.pow_succ_r', <- Nat2N.inj_succ. exact U.
Qed.
Lemma hex_length k n : 16 ^ N.of_nat k <= n -> n < 16 ^ N.of_nat (S k) -> length (hex n) = S k.
Proof.
  intros L U. apply hex_length_digits; auto. assert (P : 0 < n) by (pose proof (N.pow_nonzero 16 (N.of_nat k)); lia).
  assert (X : 4 * N.of_nat k <= N.log2 n). { apply N.log2_le_pow2; auto. change 4 with (N.log2 16). replace (2 ^ (N.log2 16 * N.of_nat k)) with (16 ^ N.of_nat k); [exact L|]. rewrite N.pow_mul_r. reflexivity. }
  lia.
Qed.
Lemma run_same pid start calls : Forall (fun c => fst (fst c) = pid) calls -> guid_run (mkGuids pid start) calls = map (fun c => hex (start + snd c)) calls.
Proof.
  induction 1 as [|[[p s] i] calls H F IH]; [reflexivity|]. cbn [fst snd] in H. subst p. cbn [guid_run map snd]. unfold int2hexguid_seq. cbn [g_pid]. rewrite N.eqb_refl. cbn [negb g_start]. rewrite IH. reflexivity.
Qed.

(** Within a process, guids are hexadecimal texts from which start plus id can be read. *)
Theorem C59_guid_value : forall pid start calls i c t, Forall (fun c => fst (fst c) = pid) calls ->
  nth_error calls i = Some c -> nth_error (guid_run (mkGuids pid start) calls) i = Some t ->
  hex_value t = start + snd c /\ Forall hex_char t.
Proof.
  intros pid start calls i c t F C T. rewrite run_same in T by auto. rewrite (map_nth_error _ _ _ C) in T. injection T as <-. split; [apply hex_value_hex|apply hex_digits_chars].
Qed.
(** Hence different ids give different guids, in any order of calls, *)
Theorem C59_unique : forall pid start calls i j ci cj ti tj, Forall (fun c => fst (fst c) = pid) calls ->
  nth_error calls i = Some ci -> nth_error calls j = Some cj ->
  nth_error (guid_run (mkGuids pid start) calls) i = Some ti -> nth_error (guid_run (mkGuids pid start) calls) j = Some tj ->
  snd ci <> snd cj -> ti <> tj.
Proof.
  intros pid start calls i j ci cj ti tj F Ci Cj Ti Tj N X. subst tj. destruct (C59_guid_value _ _ _ _ _ _ F Ci Ti) as (A & _). destruct (C59_guid_value _ _ _ _ _ _ F Cj Tj) as (B & _). lia.
Qed.
(** and guids of the same length sort, as strings, like the ids. *)
Theorem C59_sortable : forall pid start calls i j ci cj ti tj, Forall (fun c => fst (fst c) = pid) calls ->
  nth_error calls i = Some ci -> nth_error calls j = Some cj ->
  nth_error (guid_run (mkGuids pid start) calls) i = Some ti -> nth_error (guid_run (mkGuids pid start) calls) j = Some tj ->
  length ti = length tj -> (text_lt ti tj <-> snd ci < snd cj).
Proof.
  intros pid start calls i j ci cj ti tj F Ci Cj Ti Tj L. destruct (C59_guid_value _ _ _ _ _ _ F Ci Ti) as (A & Ha). destruct (C59_guid_value _ _ _ _ _ _ F Cj Tj) as (B & Hb).
  rewrite lex_value by auto. lia.
Qed.
(** All guids have 24 digits when the seed has 24 digits and no overflow occurs. *)
Theorem C59_length : forall pid start calls i c t, Forall (fun c => fst (fst c) = pid) calls ->
  nth_error calls i = Some c -> nth_error (guid_run (mkGuids pid start) calls) i = Some t ->
  16 ^ 23 <= start -> start + snd c < 16 ^ 24 -> length t = 24%nat.
Proof.
  intros pid start calls i c t F C T L U. rewrite run_same in T by auto. rewrite (map_nth_error _ _ _ C) in T. injection T as <-. apply (hex_length 23); [|exact U]. change (N.of_nat 23) with 23. lia.
Qed.
(** After a fork the child reseeds at its first call: its guids and the parent's are
    disjoint if the two seeds are further apart than any id. *)
Theorem C59_fork : forall parent child start seed calls ccalls bound,
  parent <> child -> Forall (fun c => fst (fst c) = parent) calls -> Forall (fun c => fst (fst c) = child) ccalls ->
  (forall c, In c calls -> snd c < bound) -> (forall c, In c ccalls -> snd c < bound) ->
  match ccalls with c :: _ => snd (fst c) = seed | [] => True end ->
  start + bound <= seed \/ seed + bound <= start ->
  forall t, In t (guid_run (mkGuids parent start) calls) -> ~ In t (guid_run (mkGuids parent start) ccalls).
Proof.
  intros parent child start seed calls ccalls bound N F G B C S D t H H'. rewrite run_same in H by auto. apply in_map_iff in H as (c & <- & Hc). specialize (B c Hc).
  destruct ccalls as [|[[p s] i] cc]; [destruct H'|]. cbn [fst snd] in S. subst s. inversion G as [|? ? P G']; subst. cbn [fst] in *.
  assert (X : exists c', In c' ((p, seed, i) :: cc) /\ hex (start + snd c) = hex (seed + snd c')).
  { cbn [guid_run] in H'. unfold int2hexguid_seq in H'. cbn [g_pid] in H'. destruct (N.eqb_spec p parent); [exfalso; apply N; symmetry; assumption|]. cbn [negb g_start reseed] in H'.
    destruct H' as [H'|H']; [exists (p, seed, i); split; [left; reflexivity|symmetry; exact H']|]. unfold reseed in H'. rewrite run_same in H' by exact G'. apply in_map_iff in H' as (c' & E & Hc'). exists c'. split; [right; exact Hc'|symmetry; exact E]. }
  destruct X as (c' & Hc' & E). specialize (C c' Hc'). apply (f_equal hex_value) in E. rewrite !hex_value_hex in E. lia.
Qed.
(** Across a change of length the string order is wrong (the docstring promises the
    sort order of the ids). *)
Theorem C59_sortable_refuted : exists pid start calls ti tj, guid_run (mkGuids pid start) calls = [ti; tj] /\
  map snd calls = [0; 1] /\ start < 16 ^ 24 /\ ~ text_lt ti tj.
Proof.
  exists 1, 15, [(1, 0, 0); (1, 0, 1)]. do 2 eexists. split; [vm_compute; reflexivity|]. split; [reflexivity|]. split; [reflexivity|]. cbn. lia.
Qed.
Example C59_ex : guid_run (mkGuids 7 (16 ^ 23)) [(7, 0, 10); (7, 0, 27); (8, 255, 1)] =
  [[49; 48; 48; 48; 48; 48; 48; 48; 48; 48; 48; 48; 48; 48; 48; 48; 48; 48; 48; 48; 48; 48; 48; 97];
   [49; 48; 48; 48; 48; 48; 48; 48; 48; 48; 48; 48; 48; 48; 48; 48; 48; 48; 48; 48; 48; 48; 49; 98]; [49; 48; 48]].
Proof. vm_compute. reflexivity. Qed.
Print Assumptions C59_guid_value.
Print Assumptions C59_unique.
Print Assumptions C59_sortable.
Print Assumptions C59_length.
Print Assumptions C59_fork.
Print Assumptions C59_sortable_refuted.
