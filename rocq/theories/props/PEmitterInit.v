(** Creating emitters: C100. *)
From Coq Require Import Ascii.
From Verif Require Import model.PyBase model.Emitters model.EmitterInit.
Open Scope nat_scope.
Open Scope string_scope.

(** The object a given argument stands for. *)
Definition stands_for (stdout stderr : sysstream) (s : stream_arg) (o : pystream) : Prop :=
  s = Stream o \/
  exists sys, (s = Name "stdout" /\ sys = stdout \/ s = Name "stderr" /\ sys = stderr) /\
    match ss_buffer sys with Some b => o = b | None => o = ss_self sys end.
(** It can be written to as far as its type and attribute [write] tell, and its attribute
    [mode], if it has one, does not say text mode. *)
Definition looks_writable (o : pystream) : Prop := ps_io o = true \/ ps_write o = true.
Definition looks_binary (o : pystream) : Prop :=
  match ps_mode o with None => True | Some m => m = "" \/ exists a b, m = a +s String "b" b end.
(** The separator as bytes. *)
Definition sep_bytes (cd : codecs) (linesep : text) (enc : string) (s : sep_arg) (b : bytes) : Prop :=
  match s with
  | SepDefault => cd_encode cd enc "strict" linesep = Some b
  | SepText t => cd_encode cd enc "strict" t = Some b
  | SepBytes b' => b' = b
  end.
(** The encoding: the argument if given, otherwise that of the stream object given, if any. *)
Definition used_encoding (s : stream_arg) (encoding : option string) (enc : string) : Prop :=
  encoding = Some enc \/
  encoding = None /\ (exists o, s = Stream o /\ ps_encoding o = Some enc /\ enc <> "") \/
  encoding = None /\ enc = "UTF-8" /\ forall o e, s = Stream o -> ps_encoding o = Some e -> e = "".

Lemma has_b_iff m : has_b m = true <-> exists a b, m = a +s String "b" b.
Proof.
  induction m as [|c m IH]; cbn.
  - split; [discriminate|]. intros ([|c a] & b & H); discriminate.
  - destruct (Ascii.eqb_spec c "b"%char) as [-> |N]; cbn.
    + split; [|reflexivity]. intros _. exists "", m. reflexivity.
    + rewrite IH. split.
      * intros (a & b & ->). exists (String c a), b. reflexivity.
      * intros ([|c' a] & b & H); cbn in H; injection H as H1 H2; [congruence|]. exists a, b. exact H2.
Qed.
Lemma used_unique s e a b : used_encoding s e a -> used_encoding s e b -> a = b.
Proof.
  intros [H|[(H1 & o & H2 & H3 & H4)|(H1 & H2 & H3)]] [K|[(K1 & o' & K2 & K3 & K4)|(K1 & K2 & K3)]]; try congruence.
  - destruct (H4 (K3 o a H2 H3)).
  - destruct (K4 (H3 o' b K2 K3)).
Qed.
Lemma used_is s e : used_encoding s e (match e with Some x => x | None => own_encoding s end).
Proof.
  unfold used_encoding, own_encoding. destruct e as [x|]; [left; reflexivity|]. right. destruct s as [n|o].
  - right. split; [reflexivity|]. split; [reflexivity|]. discriminate.
  - destruct (ps_encoding o) as [x|] eqn:E.
    + destruct (String.eqb_spec x "") as [-> |N].
      * right. split; [reflexivity|]. split; [reflexivity|]. intros o' e [= <-]. congruence.
      * left. split; [reflexivity|]. eauto.
    + right. split; [reflexivity|]. split; [reflexivity|]. intros o' e [= <-]. congruence.
Qed.

Lemma stands_is out err s o : stands_for out err s o <->
  match s with Name n => if n =? "stdout" then Stream (get_sys_stream out) else if n =? "stderr" then Stream (get_sys_stream err) else s | Stream _ => s end = Stream o.
Proof.
  unfold stands_for, get_sys_stream. destruct s as [n|o'].
  - destruct (String.eqb_spec n "stdout") as [-> |N1]; [|destruct (String.eqb_spec n "stderr") as [-> |N2]].
    + split; [intros [H|(sys & [[H ->]|[H ->]] & K)]; try discriminate; destruct (ss_buffer out); congruence|].
      intros [= <-]. right. exists out. split; [auto|]. destruct (ss_buffer out); reflexivity.
    + split; [intros [H|(sys & [[H ->]|[H ->]] & K)]; try discriminate; destruct (ss_buffer err); congruence|].
      intros [= <-]. right. exists err. split; [auto|]. destruct (ss_buffer err); reflexivity.
    + split; [|congruence]. intros [H|(sys & [[H _]|[H _]] & _)]; congruence.
  - split; [intros [H|(sys & [[H _]|[H _]] & _)]; congruence|]. auto.
Qed.
Lemma binary_is o : looks_binary o <-> match ps_mode o with Some m => negb (m =? "") && negb (has_b m) | None => false end = false.
Proof.
  unfold looks_binary. destruct (ps_mode o) as [m|]; [|tauto]. destruct (String.eqb_spec m "") as [-> |N]; cbn [negb andb]; [tauto|].
  rewrite <- has_b_iff. destruct (has_b m); cbn [negb]; intuition congruence.
Qed.

(** C100.  When a StreamEmitter is created, and what it is then: it writes to the object
    meant, in the encoding meant. *)
Theorem C100_created : forall cd out err linesep s encoding errors sep reopen em,
  stream_init cd out err linesep s encoding errors sep reopen = Created em <->
  exists enc o b, used_encoding s encoding enc /\ cd_known cd enc = true /\ cd_handler cd errors = true /\
    stands_for out err s o /\ looks_writable o /\ looks_binary o /\ sep_bytes cd linesep enc sep b /\
    em = mkEm (Some (ps_handle o)) (ps_name o) b reopen (cd_encode cd enc errors).
Proof.
  intros cd out err linesep s encoding errors sep reopen em. unfold stream_init.
  pose proof (used_is s encoding) as HU. set (enc := match encoding with Some x => x | None => own_encoding s end) in *.
  pose proof (stands_is out err s) as SF.
  split.
  - intros H. destruct (cd_known cd enc) eqn:E1; [|discriminate]. destruct (cd_handler cd errors) eqn:E2; [|discriminate]. cbn [negb] in H.
    match type of H with match ?x with _ => _ end = _ => destruct x as [n|o] eqn:E3; [discriminate|] end.
    assert (S : stands_for out err s o) by (apply SF; reflexivity).
    destruct (ps_io o || ps_write o) eqn:E4; [|rewrite <- negb_orb, E4 in H; discriminate]. rewrite <- negb_orb, E4 in H. cbn [negb] in H.
    match type of H with (if ?x then _ else _) = _ => destruct x eqn:E5; [discriminate|] end.
    match type of H with match ?x with _ => _ end = _ => destruct x as [b|] eqn:E6; [|discriminate] end. injection H as <-.
    exists enc, o, b. split; [exact HU|]. split; [exact E1|]. split; [reflexivity|]. split; [exact S|].
    split; [apply orb_true_iff, E4|]. split.
    + apply binary_is, E5.
    + split; [|reflexivity]. destruct sep; cbn; [exact E6|exact E6|congruence].
  - intros (enc' & o & b & U & E1 & E2 & S & W & B & P & ->). assert (enc' = enc) by (eapply used_unique; eauto). subst enc'. rewrite E1, E2. cbn [negb].
    apply SF in S. rewrite S. assert (W' : ps_io o || ps_write o = true) by (apply orb_true_iff, W). rewrite <- negb_orb, W'. cbn [negb].
    apply binary_is in B. rewrite B. destruct sep; cbn in P; rewrite ?P; reflexivity.
Qed.
Print Assumptions C100_created.

(** C100.  Which exception is raised when it is not created. *)
Theorem C100_raised : forall cd out err linesep s encoding errors sep reopen enc, used_encoding s encoding enc ->
  match stream_init cd out err linesep s encoding errors sep reopen with
  | Created _ => True
  | BadEncoding => cd_known cd enc = false
  | BadHandler => cd_known cd enc = true /\ cd_handler cd errors = false
  | NotAStream => cd_known cd enc = true /\ cd_handler cd errors = true /\ forall o, stands_for out err s o -> ~ looks_writable o
  | TextMode => cd_known cd enc = true /\ cd_handler cd errors = true /\ exists o, stands_for out err s o /\ looks_writable o /\ ~ looks_binary o
  | BadSep => cd_known cd enc = true /\ cd_handler cd errors = true /\ (exists o, stands_for out err s o /\ looks_writable o /\ looks_binary o) /\
      forall b, ~ sep_bytes cd linesep enc sep b
  end.
Proof.
  intros cd out err linesep s encoding errors sep reopen enc0 HU0. unfold stream_init.
  rewrite (used_unique _ _ _ _ HU0 (used_is s encoding)). clear HU0 enc0.
  set (enc := match encoding with Some x => x | None => own_encoding s end).
  destruct (cd_known cd enc) eqn:E1; cbn [negb]; [|reflexivity]. destruct (cd_handler cd errors) eqn:E2; cbn [negb]; [|auto].
  pose proof (stands_is out err s) as SF.
  match goal with |- match (match ?x with _ => _ end) with _ => _ end => destruct x as [n|o] eqn:E3 end.
  - split; [reflexivity|]. split; [reflexivity|]. intros o H. apply SF in H. congruence.
  - assert (S : stands_for out err s o) by (apply SF; reflexivity). rewrite <- negb_orb. destruct (ps_io o || ps_write o) eqn:E4; cbn [negb].
    + assert (W : looks_writable o) by (apply orb_true_iff, E4).
      match goal with |- match (if ?x then _ else _) with _ => _ end => destruct x eqn:E5 end.
      * split; [reflexivity|]. split; [reflexivity|]. exists o. split; [exact S|]. split; [exact W|]. intros B. apply binary_is in B. congruence.
      * assert (B : looks_binary o) by (apply binary_is, E5).
        match goal with |- match (match ?x with _ => _ end) with _ => _ end => destruct x eqn:E6; [exact I|] end.
        split; [reflexivity|]. split; [reflexivity|]. split; [eauto|]. intros b P. destruct sep; cbn in P; congruence.
    + split; [reflexivity|]. split; [reflexivity|]. intros o' H. apply SF in H. injection H as <-. intros W. apply orb_true_iff in W. congruence.
Qed.
Print Assumptions C100_raised.

(** C100.  Entries are written: a created emitter whose stream takes bytes writes every entry
    it can encode, followed by the separator, and nothing else. *)
Theorem C100_written : forall cd out err linesep s encoding errors sep reopen em enc o sb takes w es bs,
  stream_init cd out err linesep s encoding errors sep reopen = Created em ->
  used_encoding s encoding enc -> stands_for out err s o -> sep_bytes cd linesep enc sep sb ->
  takes (ps_handle o) = true -> Forall2 (fun e b => cd_encode cd enc errors e = Some b) es bs ->
  let '(w', _, raised) := emit_all (stream_io takes) em es w in
  Forall (fun r => r = None) raised /\ snd w' = snd w /\
  (forall h', h' <> ps_handle o -> fst w' h' = fst w h') /\
  fst w' (ps_handle o) = (fst w (ps_handle o) ++ concat (map (fun b => b ++ sb) bs))%list.
Proof.
  intros cd out err linesep s encoding errors sep reopen em enc o sb takes w es bs HC HU HS HP ET HF.
  apply C100_created in HC as (enc' & o' & sb' & HU' & _ & _ & HS' & _ & _ & HP' & ->).
  rewrite (used_unique _ _ _ _ HU' HU) in *. apply stands_is in HS. apply stands_is in HS'. rewrite HS in HS'. injection HS' as <-.
  assert (sb' = sb) by (destruct sep; cbn in HP, HP'; congruence). subst sb'. clear HU HU' HP HP' HS.
  revert w. induction HF as [|e b es bs HE HF IH]; intros w; cbn [emit_all].
  - cbn. rewrite app_nil_r. auto.
  - set (em := mkEm _ _ _ _ _) in *.
    set (w1 := (fun h' => if (h' =? ps_handle o)%nat then (fst w h' ++ b ++ sb)%list else fst w h', snd w)).
    assert (EE : emit_entry (stream_io takes) em e w = (w1, em, None)).
    { unfold emit_entry, em. cbn [em_encode]. rewrite HE. unfold write_and_flush, stream_write, flush. cbn. rewrite ET. reflexivity. }
    rewrite EE. specialize (IH w1).
    destruct (emit_all (stream_io takes) em es w1) as [[w2 em2] rs]. destruct IH as (A & B & C & D). split; [constructor; auto|]. split; [exact B|].
    split.
    + intros h' N. rewrite (C h' N). cbn. destruct (Nat.eqb_spec h' (ps_handle o)); [contradiction|reflexivity].
    + rewrite D. cbn. rewrite Nat.eqb_refl. rewrite <- !app_assoc. reflexivity.
Qed.
Print Assumptions C100_written.

(** C100.  But an emitter can be created on a stream that does not take bytes, and then it
    loses every entry without an exception: whatever is emitted, the streams stay as they
    are. *)
Theorem C100_lost_silently : forall em takes h w es,
  em_stream em = Some h -> takes h = false -> (forall e, em_encode em e <> None) ->
  let '(w', _, raised) := emit_all (stream_io takes) em es w in
  Forall (fun r => r = None) raised /\ fst w' = fst w.
Proof.
  intros em takes h w es EH ET HE. revert w. induction es as [|e es IH]; intros w; cbn [emit_all]; [auto|].
  assert (EE : emit_entry (stream_io takes) em e w = ((fst w, S (snd w)), em, None)).
  { unfold emit_entry. destruct (em_encode em e) as [b|] eqn:E; [|destruct (HE e E)].
    unfold write_and_flush, stream_write. rewrite EH. cbn. rewrite ET. reflexivity. }
  rewrite EE. specialize (IH (fst w, S (snd w))).
  destruct (emit_all (stream_io takes) em es (fst w, S (snd w))) as [[w2 em2] rs]. destruct IH as (A & B). split; [constructor; auto|exact B].
Qed.
Print Assumptions C100_lost_silently.

(** Examples: codecs that know two encodings, a BytesIO, a StringIO, the console. *)
Definition cd100 : codecs :=
  mkCd (fun e => (e =? "UTF-8") || (e =? "utf-8") || (e =? "latin-1")) (fun h => (h =? "strict") || (h =? "backslashreplace"))
       (fun e _ t => Some (if e =? "latin-1" then t else flat_map (fun c => if (c <? 128)%N then [c] else [195%N; (c - 64)%N]) t)).
Definition console : sysstream :=
  mkSys (mkPs 1 false true (Some "w") (Some "latin-1") (Some "<stdout>")) (Some (mkPs 2 true true (Some "wb") None (Some "<stdout>"))).
Definition bytes_io : pystream := mkPs 3 true true None None None.
(** [io.StringIO()]: a callable write, no [mode], [encoding] None. *)
Definition string_io : pystream := mkPs 4 false true None None None.
Definition init100 (s : stream_arg) := stream_init cd100 console console [10%N] s None "backslashreplace" SepDefault true.

(** The docstring of StreamEmitter names StringIO: it is accepted, and every entry is lost. *)
Theorem C100_text_stream_refuted : exists o em, init100 (Stream o) = Created em /\
  forall takes w es, takes (ps_handle o) = false ->
  let '(w', _, raised) := emit_all (stream_io takes) em es w in Forall (fun r => r = None) raised /\ fst w' = fst w.
Proof.
  exists string_io. eexists. split; [reflexivity|]. intros takes w es HT.
  apply (C100_lost_silently _ takes (ps_handle string_io)); [reflexivity|exact HT|]. intros e. cbn. discriminate.
Qed.
Print Assumptions C100_text_stream_refuted.
(** On a console that expects latin-1 the shortcut "stdout" writes UTF-8. *)
Theorem C100_console_encoding_refuted : exists out em, ps_encoding (ss_self out) = Some "latin-1" /\
  stream_init cd100 out out [10%N] (Name "stdout") None "backslashreplace" SepDefault true = Created em /\
  em_encode em [233%N] = Some [195%N; 169%N] /\ cd_encode cd100 "latin-1" "strict" [233%N] = Some [233%N].
Proof. exists console. eexists. repeat split; reflexivity. Qed.
Print Assumptions C100_console_encoding_refuted.
(** Creating a FileEmitter with overwrite=True can raise and still have emptied the file. *)
Theorem C100_failed_overwrite_refuted : exists content encoding,
  content <> [] /\
  file_init cd100 console console [10%N] 5 "/log" (Some content) (Some encoding) "backslashreplace" SepDefault true true = (Some [], BadEncoding).
Proof. exists [104%N; 105%N], "utf-9". split; [discriminate|reflexivity]. Qed.
Print Assumptions C100_failed_overwrite_refuted.

(** C100.  What a FileEmitter finds in its file: all that was there, unless overwrite is asked for. *)
Theorem C100_file : forall cd out err linesep h path content encoding errors sep reopen overwrite content' em,
  file_init cd out err linesep h path content encoding errors sep reopen overwrite = (content', Created em) ->
  em_stream em = Some h /\ em_name em = Some path /\ em_reopen em = reopen /\
  sep_bytes cd linesep (match encoding with Some e => e | None => "utf-8" end) sep (em_sep em) /\
  em_encode em = cd_encode cd (match encoding with Some e => e | None => "utf-8" end) errors /\
  content' = Some (if overwrite then [] else match content with Some c => c | None => [] end).
Proof.
  intros cd out err linesep h path content encoding errors sep reopen overwrite content' em H. unfold file_init in H. injection H as <- H.
  apply C100_created in H as (enc & o & b & U & _ & _ & S & _ & _ & P & ->).
  destruct S as [S|(sys & [[S _]|[S _]] & _)]; try discriminate. injection S as <-.
  destruct U as [U|[(U & _)|(U & _)]]; try discriminate. injection U as <-. cbn. auto 10.
Qed.
Print Assumptions C100_file.
(** C100.  With usable settings a FileEmitter is always created. *)
Theorem C100_file_created : forall cd out err linesep h path content encoding errors sep reopen overwrite,
  let enc := match encoding with Some e => e | None => "utf-8" end in
  cd_known cd enc = true -> cd_handler cd errors = true -> (exists b, sep_bytes cd linesep enc sep b) ->
  exists em, snd (file_init cd out err linesep h path content encoding errors sep reopen overwrite) = Created em.
Proof.
  intros cd out err linesep h path content encoding errors sep reopen overwrite enc H1 H2 (b & H3). eexists. cbn [file_init snd]. apply C100_created.
  exists enc, (mkPs h true true (Some (if overwrite then "wb" else "ab")) None (Some path)), b.
  split; [left; reflexivity|]. split; [exact H1|]. split; [exact H2|]. split; [left; reflexivity|]. split; [left; reflexivity|].
  split; [right; destruct overwrite; [exists "w", ""|exists "a", ""]; reflexivity|]. split; [exact H3|reflexivity].
Qed.
Print Assumptions C100_file_created.

Example C100_reached :
  (exists em, init100 (Stream bytes_io) = Created em /\
    let '(w, _, _) := emit_all (stream_io (fun _ => true)) em [[104%N; 105%N]; [233%N]] (fun _ => [], 0) in
    fst w 3 = [104%N; 105%N; 10%N; 195%N; 169%N; 10%N]) /\
  init100 (Name "stdin") = NotAStream /\ init100 (Stream (ss_self console)) = TextMode /\
  (exists em, init100 (Name "stderr") = Created em /\ em_stream em = Some 2).
Proof. split; [eexists; split; reflexivity|]. split; [reflexivity|]. split; [reflexivity|]. eexists. split; reflexivity. Qed.
