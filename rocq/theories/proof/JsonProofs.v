(** JSON quoting: C56. *)
From Verif Require Import model.PyBase model.Json spec.JsonSpec.
Open Scope N_scope.

Lemma unhex_hex d : d < 16 -> unhex (hexdigit d) = Some d.
Proof.
  intros H. unfold hexdigit. destruct (N.ltb_spec d 10).
  - unfold unhex. replace (48 <=? 48 + d) with true by (symmetry; apply N.leb_le; lia). replace (48 + d <=? 57) with true by (symmetry; apply N.leb_le; lia). cbn [andb]. f_equal. lia.
  - unfold unhex. replace (87 + d <=? 57) with false by (symmetry; apply N.leb_gt; lia). rewrite andb_false_r.
    replace (97 <=? 87 + d) with true by (symmetry; apply N.leb_le; lia). replace (87 + d <=? 102) with true by (symmetry; apply N.leb_le; lia). cbn [andb]. f_equal. lia.
Qed.
Lemma digits_sum n : n < 65536 -> n / 4096 mod 16 * 4096 + n / 256 mod 16 * 256 + n / 16 mod 16 * 16 + n mod 16 = n.
Proof.
  intros H.
  assert (E1 : n = 16 * (n / 16) + n mod 16) by (apply N.div_mod; lia).
  assert (E2 : n / 16 = 16 * (n / 256) + (n / 16) mod 16). { change 256 with (16 * 16). rewrite <- (N.div_div n 16 16) by lia. apply N.div_mod. lia. }
  assert (E3 : n / 256 = 16 * (n / 4096) + (n / 256) mod 16). { change 4096 with (256 * 16). rewrite <- (N.div_div n 256 16) by lia. apply N.div_mod. lia. }
  assert (E4 : n / 4096 < 16) by (apply N.div_lt_upper_bound; lia).
  rewrite (N.mod_small (n / 4096) 16) by lia. lia.
Qed.
Lemma hex4_u4 n : n < 65536 -> hex4 (hexdigit (n / 4096 mod 16)) (hexdigit (n / 256 mod 16)) (hexdigit (n / 16 mod 16)) (hexdigit (n mod 16)) = Some n.
Proof.
  intros H. unfold hex4. rewrite !unhex_hex by (apply N.mod_lt; lia). f_equal. apply digits_sum. auto.
Qed.
Lemma hexdigit_printable d : d < 16 -> 32 <= hexdigit d <= 126.
Proof. intros. unfold hexdigit. destruct (N.ltb_spec d 10); lia. Qed.
Lemma quote_char_printable c x : In x (quote_char c) -> 32 <= x <= 126.
Proof.
  assert (U : forall n y, In y (u4 n) -> 32 <= y <= 126).
  { intros n y. unfold u4. cbn [In]. intros H. repeat destruct H as [<-|H]; try lia; try contradiction; apply hexdigit_printable; apply N.mod_lt; lia. }
  unfold quote_char. destruct (c =? 92); [cbn; lia|]. destruct (c =? 34); [cbn; lia|]. destruct (c =? 10); [cbn; lia|]. destruct (c =? 13); [cbn; lia|].
  destruct (c =? 9); [cbn; lia|]. destruct (c =? 12); [cbn; lia|]. destruct (c =? 8); [cbn; lia|].
  destruct ((32 <=? c) && (c <=? 126)) eqn:E.
  - apply andb_true_iff in E. destruct E as [E1 E2]. apply N.leb_le in E1. apply N.leb_le in E2. cbn. lia.
  - destruct (c <? 65536); [apply U|]. intros H. apply in_app_or in H. destruct H; eapply U; eauto.
Qed.

(** Reading back one plain character, one escape, one \u escape. *)
Lemma jscan_plain f c s : 32 <= c -> c <> 34 -> c <> 92 -> jscan (S f) (c :: s) = match jscan f s with Some (t, r) => Some (c :: t, r) | None => None end.
Proof.
  intros H1 H2 H3. cbn [jscan]. destruct (N.eqb_spec c 34); [contradiction|]. destruct (N.eqb_spec c 92); [contradiction|]. destruct (N.ltb_spec c 32); [lia|]. reflexivity.
Qed.
Lemma jscan_escape f e x s : e <> 117 -> unescape e = Some x -> jscan (S f) (92 :: e :: s) = match jscan f s with Some (t, r) => Some (x :: t, r) | None => None end.
Proof. intros H1 H2. cbn [jscan]. change (92 =? 34) with false. change (92 =? 92) with true. cbn match. destruct (N.eqb_spec e 117); [contradiction|]. rewrite H2. reflexivity. Qed.
Definition starts_low (s : text) : Prop :=
  exists n r, n < 65536 /\ s = u4 n ++ r /\ is_low n = true.
Lemma jscan_u4 f n s : n < 65536 ->
  (is_high n = true -> (forall r, s <> 92 :: 117 :: r) \/ exists m r', m < 65536 /\ is_low m = false /\ s = u4 m ++ r') ->
  jscan (S f) (u4 n ++ s) = match jscan f s with Some (t, r) => Some (n :: t, r) | None => None end.
Proof.
  intros Hn Hh. unfold u4. cbn [app jscan]. change (92 =? 34) with false. change (92 =? 92) with true. change (117 =? 117) with true. cbn match. rewrite hex4_u4 by auto.
  fold (is_high n). destruct (is_high n) eqn:E; [|reflexivity]. specialize (Hh eq_refl).
  destruct s as [|b1 [|u1 s4]]; auto. destruct ((b1 =? 92) && (u1 =? 117)) eqn:E2; auto.
  apply andb_true_iff in E2. destruct E2 as [Eb Eu]. apply N.eqb_eq in Eb. apply N.eqb_eq in Eu. subst b1 u1. destruct Hh as [Hh|(m & r' & Hm & Hlow & Es)]; [exfalso; eapply Hh; reflexivity|].
  unfold u4 in Es. cbn [app] in Es. injection Es as Es. subst s4. rewrite hex4_u4 by auto. fold (is_low m). rewrite Hlow. reflexivity.
Qed.
Lemma jscan_pair f v s : v < 1048576 ->
  jscan (S f) (u4 (55296 + v / 1024 mod 1024) ++ u4 (56320 + v mod 1024) ++ s) =
  match jscan f s with Some (t, r) => Some (65536 + v :: t, r) | None => None end.
Proof.
  intros Hv. assert (Ha : v / 1024 < 1024) by (apply N.div_lt_upper_bound; lia). rewrite (N.mod_small (v / 1024)) by auto.
  assert (Hb : v mod 1024 < 1024) by (apply N.mod_lt; lia). assert (Ev : v = 1024 * (v / 1024) + v mod 1024) by (apply N.div_mod; lia).
  set (a := v / 1024) in *. set (b := v mod 1024) in *. clearbody a b.
  unfold u4. cbn [app jscan]. change (92 =? 34) with false. change (92 =? 92) with true. change (117 =? 117) with true. cbn [andb]. cbn match.
  rewrite (hex4_u4 (55296 + a)) by lia. rewrite (hex4_u4 (56320 + b)) by lia.
  replace (55296 <=? 55296 + a) with true by (symmetry; apply N.leb_le; lia). replace (55296 + a <=? 56319) with true by (symmetry; apply N.leb_le; lia).
  replace (56320 <=? 56320 + b) with true by (symmetry; apply N.leb_le; lia). replace (56320 + b <=? 57343) with true by (symmetry; apply N.leb_le; lia). cbn [andb]. cbn match.
  destruct (jscan f s) as [[t r]|]; auto. f_equal. f_equal. f_equal. lia.
Qed.
Lemma jscan_quote t : forall f (rest : text), (length (flat_map quote_char t ++ (34 :: rest)%N) <= f)%nat -> (forall c, In c t -> code_point c) -> no_pair t = true ->
  jscan f (flat_map quote_char t ++ 34 :: rest) = Some (t, rest).
Proof.
  induction t as [|c t IH]; intros f rest Hf Hc Hp; cbn [flat_map app] in *.
  - destruct f as [|f]; [cbn in Hf; lia|]. reflexivity.
  - rewrite <- app_assoc in *. set (s := flat_map quote_char t ++ 34 :: rest) in *.
    assert (Hne : (1 <= length (quote_char c))%nat).
    { unfold quote_char. repeat match goal with |- context [if ?b then _ else _] => destruct b end; cbn; lia. }
    destruct f as [|f]; [rewrite app_length in Hf; lia|].
    cbn [no_pair] in Hp. apply andb_true_iff in Hp. destruct Hp as [Hp1 Hp2].
    assert (IHs : jscan f s = Some (t, rest)).
    { apply IH; auto; [rewrite app_length in Hf; fold s; lia | intros; apply Hc; cbn; auto]. }
    assert (Hcp : code_point c) by (apply Hc; cbn; auto). unfold code_point in Hcp.
    unfold quote_char.
    destruct (N.eqb_spec c 92); [subst; cbn [app]; rewrite (jscan_escape f 92 92) by (try reflexivity; discriminate); rewrite IHs; auto|].
    destruct (N.eqb_spec c 34); [subst; cbn [app]; rewrite (jscan_escape f 34 34) by (try reflexivity; discriminate); rewrite IHs; auto|].
    destruct (N.eqb_spec c 10); [subst; cbn [app]; rewrite (jscan_escape f 110 10) by (try reflexivity; discriminate); rewrite IHs; auto|].
    destruct (N.eqb_spec c 13); [subst; cbn [app]; rewrite (jscan_escape f 114 13) by (try reflexivity; discriminate); rewrite IHs; auto|].
    destruct (N.eqb_spec c 9); [subst; cbn [app]; rewrite (jscan_escape f 116 9) by (try reflexivity; discriminate); rewrite IHs; auto|].
    destruct (N.eqb_spec c 12); [subst; cbn [app]; rewrite (jscan_escape f 102 12) by (try reflexivity; discriminate); rewrite IHs; auto|].
    destruct (N.eqb_spec c 8); [subst; cbn [app]; rewrite (jscan_escape f 98 8) by (try reflexivity; discriminate); rewrite IHs; auto|].
    destruct ((32 <=? c) && (c <=? 126)) eqn:Ep.
    { apply andb_true_iff in Ep. destruct Ep as [E1 _]. apply N.leb_le in E1. cbn [app]. rewrite jscan_plain by auto. rewrite IHs. auto. }
    destruct (N.ltb_spec c 65536).
    + rewrite jscan_u4; [rewrite IHs; auto | auto |]. intros Hh. destruct t as [|d t']; [left; intros r Er; discriminate|].
      rewrite Hh in Hp1. cbn [andb] in Hp1. apply negb_true_iff in Hp1.
      subst s. cbn [flat_map]. rewrite <- app_assoc. set (q := flat_map quote_char t' ++ 34 :: rest).
      assert (Hcd : code_point d) by (apply Hc; cbn; auto). unfold code_point in Hcd.
      unfold quote_char.
      destruct (N.eqb_spec d 92); [left; intros r Er; discriminate|]. destruct (d =? 34); [left; intros r Er; discriminate|]. destruct (d =? 10); [left; intros r Er; discriminate|]. destruct (d =? 13); [left; intros r Er; discriminate|]. destruct (d =? 9); [left; intros r Er; discriminate|].
      destruct (d =? 12); [left; intros r Er; discriminate|]. destruct (d =? 8); [left; intros r Er; discriminate|]. destruct ((32 <=? d) && (d <=? 126)) eqn:Ed.
      { left. cbn [app]. intros r Er. injection Er as Er _. congruence. }
      destruct (N.ltb_spec d 65536).
      * right. exists d, q. auto.
      * right. rewrite <- app_assoc.
        exists (55296 + (d - 65536) / 1024 mod 1024), (u4 (56320 + (d - 65536) mod 1024) ++ q).
        assert (Hm : (d - 65536) / 1024 mod 1024 < 1024) by (apply N.mod_lt; lia). split; [lia|]. split; [|reflexivity].
        unfold is_low. apply andb_false_iff. left. apply N.leb_gt. lia.
    + rewrite <- app_assoc. rewrite jscan_pair by lia. rewrite IHs. f_equal. f_equal. f_equal. lia.
Qed.
Lemma json_read_quote t rest : (forall c, In c t -> code_point c) -> no_pair t = true -> json_read (json_quote t ++ rest) = Some (t, rest).
Proof.
  intros Hc Hp. unfold json_read, json_quote. cbn [app]. change (34 =? 34) with true. cbn match. rewrite <- app_assoc. cbn [app]. apply jscan_quote; auto.
Qed.
