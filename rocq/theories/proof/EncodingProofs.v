(** Proofs for C81. *)
From Verif Require Import model.PyBase model.Emitters model.Encoding spec.EmitterSpec spec.EncodingSpec.
From Coq Require Import ZifyClasses Zify ZifyN.
Open Scope N_scope.
Ltac Zify.zify_post_hook ::= Z.to_euclidean_division_equations.

Lemma decode_char c rest : c < 1114112 -> surrogate c = false ->
  decode_utf8 (utf8_char c ++ rest) = match decode_utf8 rest with Some t => Some (c :: t) | None => None end.
Proof.
  intros Hc Hs. unfold surrogate in Hs. unfold utf8_char.
  destruct (N.ltb_spec c 128) as [L1|L1]; [cbn [app decode_utf8]; destruct (N.ltb_spec c 128); [reflexivity|lia]|].
  destruct (N.ltb_spec c 2048) as [L2|L2].
  { cbn [app decode_utf8]. replace (192 + c / 64 <? 128) with false by (symmetry; apply N.ltb_ge; lia).
    replace ((194 <=? 192 + c / 64) && (192 + c / 64 <=? 223)) with true by (symmetry; apply andb_true_iff; split; apply N.leb_le; lia).
    replace (cont (128 + c mod 64)) with true by (symmetry; unfold cont; apply andb_true_iff; split; [apply N.leb_le|apply N.ltb_lt]; lia).
    replace ((192 + c / 64 - 192) * 64 + (128 + c mod 64 - 128)) with c by lia. reflexivity. }
  destruct (N.ltb_spec c 65536) as [L3|L3].
  { cbn [app decode_utf8]. replace (224 + c / 4096 <? 128) with false by (symmetry; apply N.ltb_ge; lia).
    replace ((194 <=? 224 + c / 4096) && (224 + c / 4096 <=? 223)) with false by (symmetry; apply andb_false_iff; right; apply N.leb_gt; lia).
    replace ((224 <=? 224 + c / 4096) && (224 + c / 4096 <=? 239)) with true by (symmetry; apply andb_true_iff; split; apply N.leb_le; lia).
    replace (cont (128 + c / 64 mod 64)) with true by (symmetry; unfold cont; apply andb_true_iff; split; [apply N.leb_le|apply N.ltb_lt]; lia).
    replace (cont (128 + c mod 64)) with true by (symmetry; unfold cont; apply andb_true_iff; split; [apply N.leb_le|apply N.ltb_lt]; lia).
    replace ((224 + c / 4096 =? 224) && (128 + c / 64 mod 64 <? 160)) with false.
    2:{ symmetry. apply andb_false_iff. destruct (N.eqb_spec (224 + c / 4096) 224) as [E|E]; [right|left; reflexivity]. apply N.ltb_ge. lia. }
    replace ((224 + c / 4096 =? 237) && (160 <=? 128 + c / 64 mod 64)) with false.
    2:{ symmetry. apply andb_false_iff. destruct (N.eqb_spec (224 + c / 4096) 237) as [E|E]; [right|left; reflexivity]. apply N.leb_gt.
        apply andb_false_iff in Hs as [Hs|Hs]; apply N.leb_gt in Hs; lia. }
    cbn [negb andb]. replace ((224 + c / 4096 - 224) * 4096 + (128 + c / 64 mod 64 - 128) * 64 + (128 + c mod 64 - 128)) with c by lia. reflexivity. }
  cbn [app decode_utf8]. replace (240 + c / 262144 <? 128) with false by (symmetry; apply N.ltb_ge; lia).
  replace ((194 <=? 240 + c / 262144) && (240 + c / 262144 <=? 223)) with false by (symmetry; apply andb_false_iff; right; apply N.leb_gt; lia).
  replace ((224 <=? 240 + c / 262144) && (240 + c / 262144 <=? 239)) with false by (symmetry; apply andb_false_iff; right; apply N.leb_gt; lia).
  replace ((240 <=? 240 + c / 262144) && (240 + c / 262144 <=? 244)) with true by (symmetry; apply andb_true_iff; split; apply N.leb_le; lia).
  replace (cont (128 + c / 4096 mod 64)) with true by (symmetry; unfold cont; apply andb_true_iff; split; [apply N.leb_le|apply N.ltb_lt]; lia).
  replace (cont (128 + c / 64 mod 64)) with true by (symmetry; unfold cont; apply andb_true_iff; split; [apply N.leb_le|apply N.ltb_lt]; lia).
  replace (cont (128 + c mod 64)) with true by (symmetry; unfold cont; apply andb_true_iff; split; [apply N.leb_le|apply N.ltb_lt]; lia).
  replace ((240 + c / 262144 =? 240) && (128 + c / 4096 mod 64 <? 144)) with false.
  2:{ symmetry. apply andb_false_iff. destruct (N.eqb_spec (240 + c / 262144) 240) as [E|E]; [right|left; reflexivity]. apply N.ltb_ge. lia. }
  replace ((240 + c / 262144 =? 244) && (144 <=? 128 + c / 4096 mod 64)) with false.
  2:{ symmetry. apply andb_false_iff. destruct (N.eqb_spec (240 + c / 262144) 244) as [E|E]; [right|left; reflexivity]. apply N.leb_gt. lia. }
  cbn [negb andb]. replace ((240 + c / 262144 - 240) * 262144 + (128 + c / 4096 mod 64 - 128) * 4096 + (128 + c / 64 mod 64 - 128) * 64 + (128 + c mod 64 - 128)) with c by lia. reflexivity.
Qed.

(** Escapes are printable ASCII. *)
Lemma hexdigit_ascii d : d < 16 -> 48 <= hexdigit d < 128.
Proof. intros H. unfold hexdigit. destruct (N.ltb_spec d 10); lia. Qed.
Lemma hexdigits_ascii n : forall c, Forall (fun x => 48 <= x < 128) (hexdigits n c).
Proof. induction n as [|n IH]; intros c; [constructor|]. cbn [hexdigits]. apply Forall_app. split; [apply IH|]. constructor; [apply hexdigit_ascii; lia|constructor]. Qed.
Lemma escape_ascii c : Forall (fun x => 48 <= x < 128) (escape c).
Proof. unfold escape. destruct (c <? 256); [|destruct (c <? 65536)]; (constructor; [lia|]); (constructor; [lia|]); apply hexdigits_ascii. Qed.
Lemma ascii_encodes k x : x < 128 -> encodes k x = true.
Proof. intros H. destruct k; cbn [encodes]; unfold surrogate; try (apply N.ltb_lt; lia); replace (55296 <=? x) with false by (symmetry; apply N.leb_gt; lia); reflexivity. Qed.
Lemma code_ascii8 k x : k <> Utf16 -> x < 128 -> code k x = [x].
Proof. intros Hk H. destruct k; try reflexivity; [|congruence]. cbn. unfold utf8_char. destruct (N.ltb_spec x 128); [reflexivity|lia]. Qed.
Lemma flat_ascii k t : k <> Utf16 -> Forall (fun x => x < 128) t -> flat_map (code k) t = t.
Proof. intros Hk. induction 1 as [|x t Hx Ht IH]; [reflexivity|]. cbn [flat_map]. rewrite code_ascii8, IH by assumption. reflexivity. Qed.
Lemma escape_lt c : Forall (fun x => x < 128) (escape c).
Proof. eapply Forall_impl; [|apply escape_ascii]. cbn. lia. Qed.

Lemma encode_chars_total k h t : h <> Strict -> exists b, encode_chars k h t = Some b.
Proof.
  intros Hh. induction t as [|c t [b IH]]; [eexists; reflexivity|]. cbn [encode_chars]. rewrite IH. unfold encode_char.
  destruct (encodes k c); [eauto|]. destruct h; cbn [handle]; eauto. congruence.
Qed.
Lemma encode_chars_app k h a b : encode_chars k h (a ++ b) =
  match encode_chars k h a, encode_chars k h b with Some x, Some y => Some (x ++ y) | _, _ => None end.
Proof.
  induction a as [|c a IH]; cbn [encode_chars app]; [destruct (encode_chars k h b); reflexivity|]. rewrite IH.
  destruct (encode_char k h c), (encode_chars k h a), (encode_chars k h b); try reflexivity. rewrite app_assoc. reflexivity.
Qed.
Lemma decode_ascii t rest : Forall (fun x => x < 128) t -> decode_utf8 (t ++ rest) = match decode_utf8 rest with Some r => Some (t ++ r) | None => None end.
Proof.
  induction 1 as [|x t Hx Ht IH]; [cbn; destruct (decode_utf8 rest); reflexivity|]. cbn [app decode_utf8]. destruct (N.ltb_spec x 128); [|lia]. rewrite IH.
  destruct (decode_utf8 rest); reflexivity.
Qed.
Lemma shown_app a b : shown (a ++ b) = shown a ++ shown b. Proof. apply flat_map_app. Qed.
Lemma utf8_decodes t : is_text t -> forall b rest, encode_chars Utf8 Backslash t = Some b ->
  decode_utf8 (b ++ rest) = match decode_utf8 rest with Some r => Some (shown t ++ r) | None => None end.
Proof.
  induction 1 as [|c t Hc Ht IH]; intros b rest E.
  - injection E as <-. cbn. destruct (decode_utf8 rest); reflexivity.
  - cbn [encode_chars] in E. destruct (encode_chars Utf8 Backslash t) as [b2|] eqn:E2; [|destruct (encode_char Utf8 Backslash c); discriminate].
    unfold encode_char in E. cbn [encodes handle code] in E. destruct (surrogate c) eqn:S; cbn [negb] in E; injection E as <-; rewrite <- app_assoc.
    + change (flat_map utf8_char (escape c)) with (flat_map (code Utf8) (escape c)). rewrite (flat_ascii Utf8) by (discriminate || apply escape_lt).
      rewrite decode_ascii by apply escape_lt. rewrite (IH _ _ eq_refl). cbn [shown flat_map]. rewrite S. destruct (decode_utf8 rest); [rewrite <- app_assoc|]; reflexivity.
    + rewrite decode_char by assumption. rewrite (IH _ _ eq_refl). cbn [shown flat_map]. rewrite S. destruct (decode_utf8 rest); reflexivity.
Qed.
Lemma surrogate_false c : c < 55296 \/ 57343 < c -> surrogate c = false.
Proof. intros H. unfold surrogate. destruct (N.leb_spec 55296 c), (N.leb_spec c 57343); try reflexivity. lia. Qed.
Lemma shown_id t : no_surrogates t -> shown t = t.
Proof. induction 1 as [|c t Hc Ht IH]; [reflexivity|]. cbn [shown flat_map]. rewrite surrogate_false by exact Hc. cbn. f_equal. exact IH. Qed.
Lemma strict_chars k t : encode_chars k Strict t <> None <-> Forall (fun c => encodes k c = true) t.
Proof.
  induction t as [|c t IH]; [cbn; split; [constructor|discriminate]|]. cbn [encode_chars]. unfold encode_char. destruct (encodes k c) eqn:E; cbn [handle].
  - destruct (encode_chars k Strict t) eqn:E2; split; try congruence.
    + intros _. constructor; [exact E|]. apply IH. discriminate.
    + intros F. apply Forall_cons_iff in F as [_ F]. apply IH in F. congruence.
  - split; [congruence|]. intros F. apply Forall_cons_iff in F as [F _]. congruence.
Qed.
Lemma shown_newline t : ~ In 10 t -> ~ In 10 (shown t).
Proof.
  intros H X. apply in_flat_map in X as (c & Hc & X). destruct (surrogate c).
  - pose proof (escape_ascii c) as F. rewrite Forall_forall in F. specialize (F _ X). lia.
  - destruct X as [X|[]]. rewrite X in Hc. contradiction.
Qed.
Lemma split_line t : ~ In 10 t -> forall cur rest, split_lines cur (t ++ 10 :: rest) = (cur ++ t) :: split_lines [] rest.
Proof.
  induction t as [|c t IH]; intros H cur rest; cbn [app split_lines]; [rewrite app_nil_r; reflexivity|].
  destruct (N.eqb_spec c 10) as [->|Hn]; [destruct H; left; reflexivity|]. rewrite IH by (intros X; apply H; right; exact X). rewrite <- app_assoc. reflexivity.
Qed.
Lemma split_all es : Forall (fun e => ~ In 10 e) es -> split_lines [] (flat_map (fun e => e ++ [10]) es) = es.
Proof.
  induction 1 as [|e es He Hes IH]; [reflexivity|]. cbn [flat_map]. rewrite <- app_assoc. cbn [app]. rewrite split_line by assumption. cbn. f_equal. exact IH.
Qed.
Lemma file_decodes n es : Forall is_text es ->
  decode_utf8 (lines (file_emitter n [10] (encode Utf8 Backslash)) es) = Some (flat_map (fun e => shown e ++ [10]) es).
Proof.
  unfold lines. induction 1 as [|e es He Hes IH]; [reflexivity|]. cbn [map concat flat_map]. unfold line at 1. cbn [em_encode em_sep file_emitter].
  destruct (encode_chars_total Utf8 Backslash e ltac:(discriminate)) as [b Eb].
  assert (Ee : encode Utf8 Backslash e = Some b) by (unfold encode; rewrite Eb; reflexivity). rewrite Ee. rewrite <- !app_assoc, (utf8_decodes _ He _ _ Eb). rewrite decode_ascii by (constructor; [lia|constructor]). rewrite IH. rewrite <- ?app_assoc. reflexivity.
Qed.

(** ** Undoing escapes *)
Lemma unhex_digit d : d < 16 -> unhex (hexdigit d) = Some d.
Proof.
  intros H. unfold unhex, hexdigit. destruct (N.ltb_spec d 10) as [L|L].
  - replace ((48 <=? 48 + d) && (48 + d <=? 57)) with true by (symmetry; apply andb_true_iff; split; apply N.leb_le; lia). f_equal. lia.
  - replace ((48 <=? 87 + d) && (87 + d <=? 57)) with false by (symmetry; apply andb_false_iff; right; apply N.leb_gt; lia).
    replace ((97 <=? 87 + d) && (87 + d <=? 102)) with true by (symmetry; apply andb_true_iff; split; apply N.leb_le; lia). f_equal. lia.
Qed.
Lemma hex_value_app a : forall acc b, hex_value acc (a ++ b) = match hex_value acc a with Some v => hex_value v b | None => None end.
Proof. induction a as [|d a IH]; intros acc b; cbn [app hex_value]; [reflexivity|]. destruct (unhex d); [apply IH|reflexivity]. Qed.
Lemma hex_value_digits n : forall acc c, c < 16 ^ N.of_nat n -> hex_value acc (hexdigits n c) = Some (acc * 16 ^ N.of_nat n + c).
Proof.
  induction n as [|n IH]; intros acc c H.
  - cbn in *. f_equal. lia.
  - rewrite Nat2N.inj_succ, N.pow_succ_r' in *. set (P := 16 ^ N.of_nat n) in *. cbn [hexdigits]. rewrite hex_value_app, IH by (fold P; clearbody P; lia). fold P. clearbody P.
    cbn [hex_value]. rewrite unhex_digit by lia. f_equal. lia.
Qed.
Lemma unescape_escape c r : c < 1114112 -> unescape (escape c ++ r) = and_then (Some c) (unescape r).
Proof.
  intros H. unfold escape. destruct (N.ltb_spec c 256) as [L|L]; [|destruct (N.ltb_spec c 65536) as [L'|L']].
  - pose proof (hex_value_digits 2 0 c ltac:(exact L)) as V. rewrite N.mul_0_l, N.add_0_l in V. rewrite <- V.
    generalize (hexdigits_ascii 2 c). remember (hexdigits 2 c) as l eqn:El. destruct l as [|a [|b [|? ?]]]; try (apply (f_equal (@length N)) in El; cbn [hexdigits] in El; rewrite ?app_length in El; cbn in El; discriminate). intros _. reflexivity.
  - pose proof (hex_value_digits 4 0 c ltac:(exact L')) as V. rewrite N.mul_0_l, N.add_0_l in V. rewrite <- V.
    remember (hexdigits 4 c) as l eqn:El. apply (f_equal (@length N)) in El; cbn [hexdigits] in El; rewrite ?app_length in El; cbn in El.
    destruct l as [|a [|b [|d [|e [|? ?]]]]]; try discriminate. reflexivity.
  - assert (L8 : c < 16 ^ N.of_nat 8) by (change (16 ^ N.of_nat 8) with 4294967296; lia).
    pose proof (hex_value_digits 8 0 c L8) as V. rewrite N.mul_0_l, N.add_0_l in V. rewrite <- V.
    remember (hexdigits 8 c) as l eqn:El. apply (f_equal (@length N)) in El; cbn [hexdigits] in El; rewrite ?app_length in El; cbn in El.
    destruct l as [|a [|b [|d [|e [|a1 [|b1 [|d1 [|e1 [|? ?]]]]]]]]]; try discriminate. reflexivity.
Qed.
(** What the text decodes to: every code point either as it is or escaped. *)
Definition seen (k : codec) (t : text) : text := flat_map (fun c => if encodes k c then [c] else escape c) t.
Lemma unescape_seen k t : is_text t -> ~ In 92 t -> unescape (seen k t) = Some t.
Proof.
  induction 1 as [|c t Hc Ht IH]; intros Hn; [reflexivity|]. cbn [seen flat_map]. fold (seen k t).
  destruct (encodes k c).
  - cbn [app unescape]. destruct (N.eqb_spec c 92) as [->|_]; [destruct Hn; left; reflexivity|]. rewrite IH by (intros X; apply Hn; right; exact X). reflexivity.
  - rewrite unescape_escape by exact Hc. rewrite IH by (intros X; apply Hn; right; exact X). reflexivity.
Qed.
Lemma seen_shown t : seen Utf8 t = shown t.
Proof. unfold seen, shown. induction t as [|c t IH]; [reflexivity|]. cbn [flat_map]. rewrite IH. cbn [encodes]. destruct (surrogate c); reflexivity. Qed.
Lemma small_seen k t b : k = Ascii \/ k = Latin1 -> encode_chars k Backslash t = Some b -> b = seen k t /\ decode k b = Some b.
Proof.
  intros Hk. assert (Hk' : k <> Utf16) by (destruct Hk; subst; discriminate). revert b. induction t as [|c t IH]; intros b E.
  - injection E as <-. split; [reflexivity|]. destruct Hk; subst; reflexivity.
  - cbn [encode_chars] in E. destruct (encode_chars k Backslash t) as [b2|] eqn:E2; [|destruct (encode_char k Backslash c); discriminate].
    destruct (IH b2 eq_refl) as [-> D2]. unfold encode_char in E. cbn [handle] in E.
    assert (X : b = (if encodes k c then [c] else escape c) ++ seen k t).
    { destruct (encodes k c); injection E as <-; [destruct Hk; subst; reflexivity|]. rewrite flat_ascii by (assumption || apply escape_lt). reflexivity. }
    split; [exact X|]. subst b.
    assert (F : Forall (fun x => x < match k with Ascii => 128 | _ => 256 end) (if encodes k c then [c] else escape c)).
    { destruct (encodes k c) eqn:EC.
      - constructor; [|constructor]. destruct Hk; subst; cbn in EC; apply N.ltb_lt; exact EC.
      - eapply Forall_impl; [|apply (escape_lt c)]. intros x Hx. cbn in Hx. destruct k; lia. }
    destruct Hk; subst k; cbn [decode] in *; unfold decode_ascii7, decode_latin1 in *; rewrite forallb_app;
      (destruct (forallb _ (seen _ t)); [|discriminate]); rewrite andb_true_r;
      (replace (forallb _ _) with true; [reflexivity|symmetry; apply forallb_forall; intros x Hx; apply N.ltb_lt; rewrite Forall_forall in F; apply F; exact Hx]).
Qed.

(** ** utf-16 *)
Lemma decode_unit_char c rest : c < 1114112 -> surrogate c = false ->
  decode_units (utf16_char c ++ rest) = match decode_units rest with Some t => Some (c :: t) | None => None end.
Proof.
  intros Hc Hs. unfold surrogate in Hs. unfold utf16_char, unit16. destruct (N.ltb_spec c 65536) as [L|L].
  - cbn [app decode_units]. replace (c mod 256 + 256 * (c / 256)) with c by lia.
    replace ((55296 <=? c) && (c <=? 56319)) with false. 2:{ symmetry. apply andb_false_iff. apply andb_false_iff in Hs as [Hs|Hs]; apply N.leb_gt in Hs; [left|right]; apply N.leb_gt; lia. }
    replace ((56320 <=? c) && (c <=? 57343)) with false. 2:{ symmetry. apply andb_false_iff. apply andb_false_iff in Hs as [Hs|Hs]; apply N.leb_gt in Hs; [left|right]; apply N.leb_gt; lia. }
    reflexivity.
  - set (x := c - 65536). assert (Hx : c = 65536 + x /\ x < 1048576) by (subst x; lia). clearbody x. destruct Hx as [-> Hx].
    set (u := 55296 + x / 1024). set (v := 56320 + x mod 1024). assert (Hu : 55296 <= u <= 56319) by (subst u; lia). assert (Hv : 56320 <= v <= 57343) by (subst v; lia).
    cbn [app decode_units]. replace (u mod 256 + 256 * (u / 256)) with u by (clearbody u; lia). replace (v mod 256 + 256 * (v / 256)) with v by (clearbody v; lia).
    replace ((55296 <=? u) && (u <=? 56319)) with true by (symmetry; apply andb_true_iff; split; apply N.leb_le; lia).
    replace ((56320 <=? v) && (v <=? 57343)) with true by (symmetry; apply andb_true_iff; split; apply N.leb_le; lia).
    replace (65536 + (u - 55296) * 1024 + (v - 56320)) with (65536 + x) by (subst u v; lia). reflexivity.
Qed.
Lemma decode_unit_chars t rest : Forall (fun c => c < 1114112 /\ surrogate c = false) t ->
  decode_units (flat_map utf16_char t ++ rest) = match decode_units rest with Some r => Some (t ++ r) | None => None end.
Proof.
  induction 1 as [|c t [Hc Hs] Ht IH]; [cbn; destruct (decode_units rest); reflexivity|]. cbn [flat_map]. rewrite <- app_assoc, decode_unit_char, IH by assumption.
  destruct (decode_units rest); reflexivity.
Qed.
Lemma utf16_decodes t : is_text t -> forall b rest, encode_chars Utf16 Backslash t = Some b ->
  decode_units (b ++ rest) = match decode_units rest with Some r => Some (shown t ++ r) | None => None end.
Proof.
  induction 1 as [|c t Hc Ht IH]; intros b rest E.
  - injection E as <-. cbn. destruct (decode_units rest); reflexivity.
  - cbn [encode_chars] in E. destruct (encode_chars Utf16 Backslash t) as [b2|] eqn:E2; [|destruct (encode_char Utf16 Backslash c); discriminate].
    unfold encode_char in E. cbn [encodes handle code] in E. destruct (surrogate c) eqn:S; cbn [negb] in E; injection E as <-; rewrite <- app_assoc.
    + rewrite decode_unit_chars.
      2:{ eapply Forall_impl; [|apply (escape_lt c)]. intros x Hx. cbn in Hx. split; [lia|]. apply surrogate_false. lia. }
      rewrite (IH _ _ eq_refl). cbn [shown flat_map]. rewrite S. destruct (decode_units rest); [rewrite <- app_assoc|]; reflexivity.
    + rewrite decode_unit_char by assumption. rewrite (IH _ _ eq_refl). cbn [shown flat_map]. rewrite S. destruct (decode_units rest); reflexivity.
Qed.
