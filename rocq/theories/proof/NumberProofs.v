(** Numbers in log lines. *)
From Coq Require Import QArith Qabs.
From Verif Require Import model.PyBase model.Json model.Format model.Timestamps model.Pipeline model.Fields
  spec.FormatSpec spec.TemplateSpec spec.NumberSpec proof.TemplateProofs proof.TimestampProofs.
Open Scope N_scope.

Lemma num_app a b : num (a ++ b) = num a * 10 ^ N.of_nat (length b) + num b.
Proof.
  induction b as [|c b IH] using rev_ind; [rewrite app_nil_r; cbn; lia|].
  rewrite app_assoc, !num_snoc, IH, app_length. cbn [length]. replace (N.of_nat (length b + 1)) with (N.succ (N.of_nat (length b))) by lia.
  rewrite N.pow_succ_r'. lia.
Qed.
Lemma num_dec w : forall n, n < 10 ^ N.of_nat w -> num (dec w n) = n.
Proof.
  induction w as [|w IH]; intros n H; [cbn in *; lia|]. cbn [dec]. rewrite num_snoc.
  replace (N.of_nat (S w)) with (N.succ (N.of_nat w)) in H by lia. rewrite N.pow_succ_r' in H.
  rewrite IH by (apply N.div_lt_upper_bound; lia). pose proof (N.div_mod' n 10). pose proof (N.mod_lt n 10 ltac:(discriminate)).
  generalize dependent (n mod 10). generalize dependent (n / 10). intros; lia.
Qed.
Lemma Npow_pos n : Z.of_N (10 ^ N.of_nat (S n)) = Z.pos (10 ^ Pos.of_nat (S n)).
Proof.
  rewrite N2Z.inj_pow. cbn [Z.of_N]. rewrite nat_N_Z, Pos2Z.inj_pow. f_equal. lia.
Qed.
Lemma fixed_reads n p q : exists x, reads (fixed (S n) p q) x /\
  x = ((if (p <? 0)%Z then Z.opp else fun z => z) (Z.of_N (round_half_even (Z.abs_N p * 10 ^ N.of_nat (S n)) (N.pos q))) # 10 ^ Pos.of_nat (S n))%Q.
Proof.
  unfold fixed. set (m := round_half_even _ _). set (T := 10 ^ N.of_nat (S n)).
  assert (HT : T <> 0) by (apply N.pow_nonzero; discriminate).
  assert (HR : reads_unsigned (str_of_N (m / T) ++ 46 :: dec (S n) (m mod T)) (Z.of_N m # 10 ^ Pos.of_nat (S n))).
  { destruct (str_of_N_numeral (m / T)) as (E1 & E2 & E3).
    assert (X : num (str_of_N (m / T) ++ dec (S n) (m mod T)) = m).
    { rewrite num_app, dec_length, E1, num_dec by (apply N.mod_lt, HT). fold T. rewrite N.mul_comm. symmetry. apply N.div_mod, HT. }
    rewrite <- X at 3. rewrite <- (dec_length (S n) (m mod T)) at 3. apply rd_frac.
    - destruct E3 as [->|(c & r & -> & _)]; discriminate.
    - intros E. apply (f_equal (@length N)) in E. rewrite dec_length in E. discriminate.
    - exact E2.
    - apply dec_digits. }
  destruct (p <? 0)%Z.
  - eexists. split; [apply rd_minus, HR|]. reflexivity.
  - eexists. split; [apply rd_plus, HR|]. reflexivity.
Qed.
Lemma fixed_near n p q : near (fixed (S n) p q) (p # q) (Pos.of_nat (S n)).
Proof.
  destruct (fixed_reads n p q) as (x & HR & ->). eexists. split; [exact HR|].
  set (T := (10 ^ Pos.of_nat (S n))%positive).
  pose proof (rhe_near (Z.abs_N p * 10 ^ N.of_nat (S n)) (N.pos q) ltac:(lia)) as (H1 & H2 & _). cbv zeta in *.
  set (m := round_half_even _ _) in *. clearbody m.
  assert (E : Z.of_N (10 ^ N.of_nat (S n)) = Z.pos T) by apply Npow_pos. set (P := 10 ^ N.of_nat (S n)) in *. clearbody P.
  assert (A : (2 * Z.abs (Z.of_N m * Z.pos q - Z.abs p * Z.pos T) <= Z.pos q)%Z) by nia.
  unfold Qabs, Qle, Qminus, Qplus, Qopp. cbn [Qnum Qden].
  destruct (Z.ltb_spec p 0); nia.
Qed.

(** ** Significant digits *)
Lemma num_lt t : Forall digit t -> num t < 10 ^ N.of_nat (length t).
Proof.
  induction t as [|c t IH] using rev_ind; intros H; [cbn; lia|]. apply Forall_app in H as [H1 H2]. specialize (IH H1). inversion H2 as [|? ? H3 _]; subst.
  rewrite num_snoc, app_length. cbn [length]. replace (N.of_nat (length t + 1)) with (N.succ (N.of_nat (length t))) by lia. rewrite N.pow_succ_r'. unfold digit in H3. lia.
Qed.
Lemma num_ge c t : digit c -> c <> 48 -> 10 ^ N.of_nat (length t) <= num (c :: t).
Proof. intros D H. cbn [num]. unfold digit in D. nia. Qed.
Lemma str_length n k : 10 ^ N.of_nat k <= n -> n < 10 ^ N.of_nat (S k) -> length (str_of_N n) = S k.
Proof.
  intros H1 H2. destruct (str_of_N_numeral n) as (E1 & E2 & E3). set (t := str_of_N n) in *. clearbody t.
  pose proof (num_lt t E2) as H3. rewrite E1 in H3.
  assert (L1 : (k < length t)%nat).
  { assert (X : 10 ^ N.of_nat k < 10 ^ N.of_nat (length t)) by lia. apply N.pow_lt_mono_r_iff in X; lia. }
  destruct E3 as [->|(c & r & -> & Hc)]; [cbn in *; lia|].
  inversion E2 as [|? ? Hd _]; subst. pose proof (num_ge c r Hd Hc) as H4. cbn [length] in *.
  assert (X : 10 ^ N.of_nat (length r) < 10 ^ N.of_nat (S k)) by lia. apply N.pow_lt_mono_r_iff in X; lia.
Qed.
Lemma drop_zeros_eq c t : drop_zeros (c :: t) = if c =? 48 then drop_zeros t else if c =? 46 then t else c :: t.
Proof. destruct c as [|p]; [reflexivity|]. do 6 (destruct p as [p|p|]; try reflexivity). Qed.
Lemma drop_reads i f : i <> [] -> Forall digit i -> Forall digit f ->
  exists x, reads_unsigned (rev (drop_zeros (rev (i ++ 46 :: f)))) x /\ (x * (Z.of_N (10 ^ N.of_nat (length f)) # 1) == Z.of_N (num (i ++ f)) # 1)%Q.
Proof.
  intros Hi Di. induction f as [|c f IH] using rev_ind; intros Df.
  - rewrite rev_app_distr. cbn [rev app]. rewrite drop_zeros_eq. cbn. rewrite rev_involutive, app_nil_r. eexists. split; [apply rd_int; auto|].
    unfold Qeq. cbn. lia.
  - apply Forall_app in Df as [Df Dc]. inversion Dc as [|? ? Hc _]; subst. specialize (IH Df) as (x & H1 & H2).
    rewrite app_comm_cons, app_assoc, rev_app_distr. cbn [rev app]. rewrite drop_zeros_eq.
    destruct (N.eqb_spec c 48) as [->|Hn].
    + exists x. split; [exact H1|]. rewrite app_length, app_assoc, num_snoc. cbn [length].
      replace (N.of_nat (length f + 1)) with (N.succ (N.of_nat (length f))) by lia. rewrite N.pow_succ_r'.
      unfold Qeq in *. cbn [Qnum Qden Qmult] in *. destruct x as [a b]. cbn [Qnum Qden] in *. nia.
    + destruct (N.eqb_spec c 46) as [->|_]; [unfold digit in Hc; lia|].
      cbn [rev]. rewrite rev_involutive, <- app_assoc. cbn [app].
      eexists. split; [apply rd_frac; auto; [destruct f; discriminate|apply Forall_app; auto]|].
      rewrite app_length. cbn [length]. replace (length f + 1)%nat with (S (length f)) by lia. rewrite Npow_pos.
      unfold Qeq. cbn [Qnum Qden Qmult]. lia.
Qed.
Lemma general14_near p q k : (1 <= k <= 13)%nat -> (10 ^ Z.of_nat (k - 1) * Z.pos q <= p)%Z -> (p < 10 ^ Z.of_nat k * Z.pos q)%Z ->
  exists t x, general14 p q = Some t /\ reads t x /\
  (x == Z.of_N (round_half_even (Z.to_N p * 10 ^ N.of_nat (14 - k)) (N.pos q)) # 10 ^ Pos.of_nat (14 - k))%Q /\
  (Qabs (x - (p # q)) <= 1 # (2 * 10 ^ Pos.of_nat (14 - k)))%Q.
Proof.
  intros Hk H1 H2. unfold general14.
  assert (Hq : (1 * Z.pos q <= p)%Z) by (assert (1 <= 10 ^ Z.of_nat (k - 1))%Z by (apply (Z.pow_le_mono_r 10 0); lia); nia).
  assert (Hb : (p + Z.pos q <= 10 ^ 14 * Z.pos q)%Z).
  { assert (X : (10 * 10 ^ Z.of_nat k <= 10 ^ 14)%Z) by (replace (10 * 10 ^ Z.of_nat k)%Z with (10 ^ (Z.of_nat k + 1))%Z by (rewrite Z.pow_add_r by lia; lia); apply Z.pow_le_mono_r; lia). nia. }
  destruct (Z.eqb_spec p 0) as [?|_]; [lia|]. destruct (Z.leb_spec (Z.pos q) p); [|lia]. destruct (Z.leb_spec (p + Z.pos q) (10 ^ 14 * Z.pos q)); [|lia]. cbn [andb].
  assert (L : length (str_of_N (Z.to_N (p / Z.pos q))) = k).
  { destruct k as [|k]; [lia|]. replace (S k - 1)%nat with k in * by lia. apply str_length.
    - assert (10 ^ Z.of_nat k <= p / Z.pos q)%Z by (apply Z.div_le_lower_bound; lia).
      apply N2Z.inj_le. rewrite N2Z.inj_pow, nat_N_Z, Z2N.id by (apply Z.div_pos; lia). lia.
    - assert (p / Z.pos q < 10 ^ Z.of_nat (S k))%Z by (apply Z.div_lt_upper_bound; lia).
      apply N2Z.inj_lt. rewrite N2Z.inj_pow, nat_N_Z, Z2N.id by (apply Z.div_pos; lia). lia. }
  rewrite L. clear L. destruct (14 - k)%nat as [|n] eqn:En; [lia|].
  unfold fixed. destruct (Z.ltb_spec p 0); [lia|]. cbn [app].
  pose proof (rhe_near (Z.abs_N p * 10 ^ N.of_nat (S n)) (N.pos q) ltac:(lia)) as (A1 & A2 & _). cbv zeta in *.
  set (m := round_half_even _ _) in *. set (T := 10 ^ N.of_nat (S n)) in *.
  assert (HT : T <> 0) by (apply N.pow_nonzero; discriminate).
  destruct (str_of_N_numeral (m / T)) as (E1 & E2 & E3).
  destruct (drop_reads (str_of_N (m / T)) (dec (S n) (m mod T))) as (x & R & V); auto.
  { destruct E3 as [->|(c & r & -> & _)]; discriminate. } { apply dec_digits. }
  assert (X : num (str_of_N (m / T) ++ dec (S n) (m mod T)) = m).
  { rewrite num_app, dec_length, E1, num_dec by (apply N.mod_lt, HT). fold T. rewrite N.mul_comm. symmetry. apply N.div_mod, HT. }
  rewrite X, dec_length in V. fold T in V. eexists. exists x. split; [reflexivity|]. split; [apply rd_plus, R|].
  replace (Z.to_N p) with (Z.abs_N p) by lia. fold T. fold m.
  assert (E : Z.of_N T = Z.pos (10 ^ Pos.of_nat (S n))) by apply Npow_pos. clearbody T. clear R X E1 E2 E3. clearbody m.
  set (U := (10 ^ Pos.of_nat (S n))%positive) in *. clearbody U.
  assert (A : (2 * Z.abs (Z.of_N m * Z.pos q - p * Z.pos U) <= Z.pos q)%Z) by nia.
  rewrite E in V.
  assert (W : (x == Z.of_N m # U)%Q). { unfold Qeq in *. destruct x as [a b]. cbn [Qnum Qden Qmult] in *. nia. }
  split; [exact W|]. rewrite W. unfold Qabs, Qle, Qminus, Qplus, Qopp. cbn [Qnum Qden]. nia.
Qed.

Lemma near_eq t v w n : (v == w)%Q -> near t v n -> near t w n.
Proof. intros E (x & R & H). exists x. split; [exact R|]. rewrite <- E. exact H. Qed.
Lemma int_reads z : reads ((if (z <? 0)%Z then [45] else []) ++ str_of_N (Z.abs_N z)) (z # 1).
Proof.
  destruct (str_of_N_numeral (Z.abs_N z)) as (E1 & E2 & E3).
  assert (R : reads_unsigned (str_of_N (Z.abs_N z)) (Z.of_N (Z.abs_N z) # 1)).
  { rewrite <- E1 at 2. apply rd_int; [destruct E3 as [->|(c & r & -> & _)]; discriminate|exact E2]. }
  destruct (Z.ltb_spec z 0).
  - replace (z # 1)%Q with (- (Z.of_N (Z.abs_N z) # 1))%Q by (unfold Qopp; cbn [Qnum Qden]; f_equal; lia). apply rd_minus, R.
  - replace z with (Z.of_N (Z.abs_N z)) at 2 by lia. apply rd_plus, R.
Qed.
