(** C81: text written through an emitter can be read back. *)
From Verif Require Import model.PyBase model.Emitters model.Pipeline model.Encoding spec.EmitterSpec spec.EncodingSpec proof.EncodingProofs props.PEmit.
Open Scope N_scope.

(** C81: with any error handler other than strict, encoding never fails, whatever the
    text; with strict it fails exactly on a code point the codec does not have. *)
Theorem C81_encoding_total :
  forall k h t, (h <> Strict -> encode k h t <> None) /\
  (encode k Strict t <> None <-> Forall (fun c => encodes k c = true) t).
Proof.
  intros k h t. split.
  - intros Hh. unfold encode. destruct (encode_chars_total k h t Hh) as [b ->]. discriminate.
  - rewrite <- strict_chars. unfold encode. destruct (encode_chars k Strict t); split; congruence.
Qed.
Print Assumptions C81_encoding_total.

(** C81: with the default settings the bytes of any text are well-formed UTF-8 and read
    back as the same text, except that lone surrogates appear as \udXXX. *)
Theorem C81_utf8_reads_back :
  forall t, is_text t -> exists b, encode Utf8 Backslash t = Some b /\ decode_utf8 b = Some (shown t) /\
  (no_surrogates t -> decode_utf8 b = Some t).
Proof.
  intros t Ht. unfold encode. destruct (encode_chars_total Utf8 Backslash t ltac:(discriminate)) as [b Eb]. rewrite Eb. exists b. split; [reflexivity|].
  pose proof (utf8_decodes t Ht b [] Eb) as D. rewrite app_nil_r in D. cbn [decode_utf8] in D. rewrite app_nil_r in D. split; [exact D|].
  intros Hn. rewrite D, shown_id by exact Hn. reflexivity.
Qed.
Print Assumptions C81_utf8_reads_back.

(** C81: nothing is lost by escaping: with the default handler and any of the codecs, a
    text without backslashes can be recovered in full, by decoding the bytes and undoing
    the escapes. *)
Theorem C81_escapes_recoverable :
  forall k t, is_text t -> ~ In 92 t ->
  exists b d, encode k Backslash t = Some b /\ decode k b = Some d /\ unescape d = Some t.
Proof.
  intros k t Ht Hn. destruct (encode_chars_total k Backslash t ltac:(discriminate)) as [b Eb].
  exists (match k with Utf16 => 255 :: 254 :: b | _ => b end), (seen k t).
  split; [unfold encode; rewrite Eb; reflexivity|]. split; [|apply unescape_seen; assumption].
  destruct k.
  - pose proof (utf8_decodes t Ht b [] Eb) as D. rewrite app_nil_r in D. cbn [decode_utf8] in D. rewrite app_nil_r, <- seen_shown in D. exact D.
  - destruct (small_seen Ascii t b (or_introl eq_refl) Eb) as [<- D]. exact D.
  - destruct (small_seen Latin1 t b (or_intror eq_refl) Eb) as [<- D]. exact D.
  - pose proof (utf16_decodes t Ht b [] Eb) as D. rewrite app_nil_r in D. cbn [decode_units] in D. rewrite app_nil_r, <- seen_shown in D. exact D.
Qed.
Print Assumptions C81_escapes_recoverable.
Example C81_escapes_nonvacuous :
  is_text [65; 233; 9731; 119070; 55357] /\ ~ In 92 [65; 233; 9731; 119070; 55357] /\
  encode Latin1 Backslash [65; 233; 9731; 119070] = Some [65; 233; 92; 117; 50; 54; 48; 51; 92; 85; 48; 48; 48; 49; 100; 49; 49; 101] /\
  unescape [65; 233; 92; 117; 50; 54; 48; 51; 92; 85; 48; 48; 48; 49; 100; 49; 49; 101] = Some [65; 233; 9731; 119070] /\
  encode Utf16 Backslash [119070; 55357] = Some [255; 254; 52; 216; 30; 221; 92; 0; 117; 0; 100; 0; 56; 0; 51; 0; 100; 0].
Proof. split; [repeat constructor|]. split; [cbn; intuition discriminate|]. vm_compute. repeat split; reflexivity. Qed.

(** C81: a log file written with the default settings is well-formed UTF-8, and if no
    entry contains a newline its lines are exactly the entries, in order. *)
Theorem C81_file_reads_back :
  forall cap n es, file_name n -> Forall is_text es ->
  exists t, decode_utf8 (file_after cap n [10] (encode Utf8 Backslash) es) = Some t /\
  t = flat_map (fun e => shown e ++ [10]) es /\
  (Forall (fun e => ~ In 10 e) es -> split_lines [] t = map shown es) /\
  (Forall (fun e => ~ In 10 e) es -> Forall no_surrogates es -> split_lines [] t = es).
Proof.
  intros cap n es Hn Hes.
  assert (HF : file_after cap n [10] (encode Utf8 Backslash) es = lines (file_emitter n [10] (encode Utf8 Backslash)) es).
  { assert (HE : encodable (file_emitter n [10] (encode Utf8 Backslash)) es) by (intros e _; apply C81_encoding_total; discriminate).
    pose proof (C51_no_incident_partial cap n [10] (encode Utf8 Backslash) es Hn HE) as H. unfold file_after.
    destruct (fs_run cap (file_emitter n [10] (encode Utf8 Backslash)) (map FEmit es) fs_new) as [[w em] rs]. exact H. }
  rewrite HF, file_decodes by exact Hes. eexists. split; [reflexivity|]. split; [reflexivity|].
  assert (HS : Forall (fun e => ~ In 10 e) es -> split_lines [] (flat_map (fun e => shown e ++ [10]) es) = map shown es).
  { intros H. rewrite <- (split_all (map shown es)).
    - f_equal. clear. induction es as [|e es IH]; [reflexivity|]. cbn [flat_map map]. rewrite IH. reflexivity.
    - apply Forall_map. eapply Forall_impl; [|exact H]. intros e He. apply shown_newline. exact He. }
  split; [exact HS|]. intros H H'. rewrite (HS H). clear - H'. induction H' as [|e es He Hes IH]; [reflexivity|]. cbn [map]. rewrite shown_id, IH by exact He. reflexivity.
Qed.
Print Assumptions C81_file_reads_back.

(** An e acute, a snowman, a musical clef, a lone surrogate. *)
Example C81_nonvacuous :
  is_text [233; 9731; 119070; 55357] /\
  encode Utf8 Backslash [233; 9731; 119070; 55357] = Some [195; 169; 226; 152; 131; 240; 157; 132; 158; 92; 117; 100; 56; 51; 100] /\
  decode_utf8 [195; 169; 226; 152; 131; 240; 157; 132; 158; 92; 117; 100; 56; 51; 100] = Some [233; 9731; 119070; 92; 117; 100; 56; 51; 100] /\
  file_name "app.log" /\
  file_after 4 "app.log" [10] (encode Utf8 Backslash) [[65]; [233]] = [65; 10; 195; 169; 10] /\
  encode Ascii Backslash [65; 233; 9731; 119070] = Some [65; 92; 120; 101; 57; 92; 117; 50; 54; 48; 51; 92; 85; 48; 48; 48; 49; 100; 49; 49; 101] /\
  encode Ascii Replace [65; 233] = Some [65; 63] /\ encode Latin1 Ignore [233; 9731] = Some [233] /\ encode Ascii Strict [233] = None.
Proof.
  split; [repeat constructor|]. split; [vm_compute; reflexivity|]. split; [vm_compute; reflexivity|]. split; [unfold file_name; cbn; intuition discriminate|]. vm_compute. repeat split; reflexivity.
Qed.

(** C81: reading back is not unambiguous for lone surrogates: the escape looks like text
    that contained the escape in the first place. *)
Theorem C81_ambiguous_refuted :
  exists t1 t2, is_text t1 /\ is_text t2 /\ t1 <> t2 /\ encode Utf8 Backslash t1 = encode Utf8 Backslash t2.
Proof.
  exists [55357], [92; 117; 100; 56; 51; 100]. split; [repeat constructor|]. split; [repeat constructor|]. split; [discriminate|]. vm_compute. reflexivity.
Qed.
Print Assumptions C81_ambiguous_refuted.

(** C81: an emitter with encoding='utf-16' does not produce a file that reads back: every
    entry and every separator has a byte order mark of its own, and all but the first
    appear in the text. *)
Theorem C81_utf16_refuted :
  exists sep es t, encode Utf16 Backslash [10] = Some sep /\ Forall (fun e => ~ In 10 e) es /\ Forall no_surrogates es /\
  decode_utf16 (file_after 64 "app.log" sep (encode Utf16 Backslash) es) = Some t /\
  split_lines [] t <> es /\ In 65279 t /\ ~ In 65279 (concat es).
Proof.
  exists [255; 254; 10; 0], [[65]; [66]], [65; 65279; 10; 65279; 66; 65279; 10].
  split; [vm_compute; reflexivity|]. split; [repeat constructor; cbn; intuition discriminate|]. split; [unfold no_surrogates; repeat (apply Forall_cons || apply Forall_nil); lia|]. split; [vm_compute; reflexivity|].
  split; [vm_compute; discriminate|]. cbn. intuition discriminate.
Qed.
Print Assumptions C81_utf16_refuted.

(** C81: unknown settings are rejected when the emitter is made: with reraise the check
    raises exactly when the codec or the handler does not exist. *)
Theorem C81_settings_checked :
  forall enc_ok handler_ok raises,
  (exists r, check_encoding_settings enc_ok handler_ok raises true = Returned r) <-> enc_ok = true /\ handler_ok = true.
Proof.
  intros [] [] []; cbn; split; intros H; try (destruct H; discriminate); try (destruct H as [? H]; discriminate H); try (split; reflexivity); eexists; reflexivity.
Qed.
Print Assumptions C81_settings_checked.
(** Without reraise the result is meant to say whether the settings are usable, but it is
    None, false, for every usable handler that does not raise, such as the default. *)
Theorem C81_check_result_refuted :
  check_encoding_settings true true false false = Returned None /\ check_encoding_settings true true true false = Returned (Some true).
Proof. split; reflexivity. Qed.
Print Assumptions C81_check_result_refuted.
