(** Properties of templates, formatters and messages: C55-C58, C67. *)
From Verif Require Import model.PyBase model.Json model.Format spec.JsonSpec spec.FormatSpec proof.DictLemmas proof.JsonProofs proof.TemplateProofs proof.FormatProofs.
Open Scope N_scope.

Section P.
(** Every theorem holds for every type of values and events, every way Python may
    format values and every data map. *)
Context {V E : Type} (vnone : V) (fmt_named : ftoken -> V -> option text) (fmt_nested : ftoken -> list V -> option text)
        (data_of : E -> list (text * V)).
Notation render := (render vnone fmt_named fmt_nested data_of).
Notation shows := (shows vnone fmt_named fmt_nested data_of).
Notation formatted := (formatted vnone fmt_named fmt_nested data_of).
Notation reads := (reads vnone fmt_named fmt_nested data_of).
Notation FM := (list (text * sfield V E)).

(** C58: what a template consists of is what the grammar says: the constructor accepts
    exactly the templates of the grammar and finds their pieces; the pieces are
    determined by the text. *)
Theorem C58_grammar : forall s ps,
  template_of s ps <-> exists is, tokenize s = Some is /\ flat is = ps.
Proof. intros s ps. split; [apply tokenize_complete|]. intros (is & T & <-). apply tokenize_sound, T. Qed.
Theorem C58_unambiguous : forall s ps ps', template_of s ps -> template_of s ps' -> ps = ps'.
Proof. exact template_of_fun. Qed.

(** C55: whatever getters, values and the quoter do, formatting yields one piece per
    item of the template (its characters grouped in any way), put together in order:
    the literal, the rendered field, or its default text. *)
Theorem C55_format_total : forall (fm : FM) q d template is cs,
  make_formatter fm q d template = Some cs -> template_of template (flat is) ->
  (forall k, d k <> CKeyError) ->
  forall ev args kw, exists segs,
    render fm ev args kw cs = Some (concat segs) /\ Forall2 (shows fm q d ev args kw) is segs.
Proof. intros fm q d template is cs H T D ev args kw. eapply render_template; eauto. Qed.
(** The text shown for an item is determined by that item alone. *)
Theorem C55_isolated : forall (fm : FM) q d ev args kw i t1 t2,
  shows fm q d ev args kw i t1 -> shows fm q d ev args kw i t2 -> t1 = t2.
Proof. apply shows_functional. Qed.
(** The default text of a field is the field as written. *)
Theorem C55_default_text : forall k, default_defaulter k = CRet (as_written k).
Proof. intros k. unfold default_defaulter. rewrite token_written. reflexivity. Qed.
(** With the default quoter and default text, only a malformed template fails, and it
    does so when the formatter is made. *)
Theorem C55_only_malformed_fails : forall (fm : FM) template,
  (malformed template -> make_formatter fm (default_quoter fm) default_defaulter template = None) /\
  (~ malformed template -> exists cs, make_formatter fm (default_quoter fm) default_defaulter template = Some cs /\
     forall ev args kw, render fm ev args kw cs <> None).
Proof.
  intros fm template. rewrite malformed_iff. unfold make_formatter. split; intros H; [rewrite H; reflexivity|]. destruct (tokenize template) as [is|]; [|exfalso; apply H; reflexivity].
  destruct (compile_default fm (default_quoter fm) is) as (cs & C).
  { intros k. destruct (default_quoter_ok fm k) as [->| ->]; discriminate. }
  exists cs. split; [exact C|]. intros ev args kw. destruct (render_shows vnone fmt_named fmt_nested data_of fm _ _ is cs ev args kw C ltac:(discriminate)) as (segs & F & R). rewrite R. discriminate.
Qed.

(** C57: a line whose fields are all quoted is read back, by someone who knows the
    template only, into exactly the texts of the fields. *)
Theorem C57_read_back : forall (fm : FM) template is cs ev args kw,
  make_formatter fm (default_quoter fm) default_defaulter template = Some cs -> template_of template (flat is) ->
  (forall k, In k (fields is) -> is_quoted fm k) ->
  (forall k t, In k (fields is) -> formatted fm ev args kw k t -> text_ok t) ->
  exists line vs, render fm ev args kw cs = Some line /\ read_line is line = Some vs /\ Forall2 (reads fm ev args kw) (fields is) vs.
Proof.
  intros fm template is cs ev args kw H T Q X. destruct (C55_format_total fm _ _ template is cs H T ltac:(discriminate) ev args kw) as (segs & R & F).
  destruct (read_back vnone fmt_named fmt_nested data_of fm ev args kw is segs) as (vs & L & B); auto.
  - intros k Hk. unfold default_quoter. destruct (dget text_eqb (tk_fname k) fm) as [f|] eqn:D; [rewrite (Q k Hk f D)|]; reflexivity.
  - exists (concat segs), vs. auto.
Qed.
(** and it is one line if the template is. *)
Theorem C57_one_line : forall (fm : FM) template is cs ev args kw line,
  make_formatter fm (default_quoter fm) default_defaulter template = Some cs -> template_of template (flat is) ->
  (forall k, In k (fields is) -> is_quoted fm k) ->
  (forall k t, In k (fields is) -> formatted fm ev args kw k t -> text_ok t) ->
  is_line template -> render fm ev args kw cs = Some line -> is_line line.
Proof.
  intros fm template is0 cs ev args kw line H T0 Q X L R. destruct (tokenize_complete _ _ T0) as (is & T & Ef).
  assert (FF : fields is0 = fields is) by (rewrite !fields_flat, Ef; reflexivity). rewrite FF in Q, X. rewrite <- Ef in T0. clear FF Ef is0.
  destruct (C55_format_total fm _ _ template is cs H T0 ltac:(discriminate) ev args kw) as (segs & R' & F).
  rewrite R in R'. injection R' as ->. set (ok := fun c : N => c <> 10 /\ c <> 13). assert (I : Forall (item_ok ok) is).
  { eapply tokenize_chars; [|exact T|apply Forall_forall; exact L]. unfold digit, ok. intros; lia. }
  pose proof (proj1 (Forall_forall _ _) I) as I'. intros c Hc. assert (G : Forall ok (concat segs)); [|exact (proj1 (Forall_forall _ _) G c Hc)].
  eapply (line_shows vnone fmt_named fmt_nested data_of fm ev args kw is segs ok); auto.
  - unfold ok. intros; lia.
  - intros k Hk. unfold default_quoter. destruct (dget text_eqb (tk_fname k) fm) as [f|] eqn:D; [rewrite (Q k Hk f D)|]; reflexivity.
  - intros t Ht. apply (I' _ Ht).
  - intros k Hk. apply token_str_chars; try (unfold ok, LB, RB; lia). apply (I' _ Hk).
Qed.

(** C58: a template written as [ss] renders as the author means it; [shows] says where
    each value comes from (positional arguments, keyword arguments, data map, getter,
    None). *)
Theorem C58_template : forall (fm : FM) q ss ev args kw,
  Forall good_seg ss -> (forall k, q k <> CRaise) ->
  exists is cs segs, meaning 0 ss is /\ make_formatter fm q default_defaulter (write ss) = Some cs /\
    render fm ev args kw cs = Some (concat segs) /\
    Forall2 (shows fm q default_defaulter ev args kw) is segs.
Proof.
  intros fm q ss ev args kw P Q. destruct (meaning_exists ss 0) as (is & Me). destruct (format_write vnone fmt_named fmt_nested data_of fm q ss is ev args kw P Me Q) as (cs & M & R).
  exists is, cs. eexists. split; [exact Me|]. split; [exact M|]. split; [exact R|]. apply shows_map. intros k _. eexists. reflexivity.
Qed.
End P.
(** Which fields are quoted: by the field's declaration, otherwise unless the format
    spec ends in a numeric presentation type. *)
Theorem C58_field_quoting : forall V E name fspec quote (g : E -> gres V),
  fd_quote (make_field name fspec quote g) = true <->
  quote = Some true \/ (quote = None /\ ~ exists p c, fspec = p ++ [c] /\ In c (lit "bcdoxXneEfFgG%")).
Proof.
  intros V E name fspec quote g. cbn [make_field fd_quote]. unfold field_quote. destruct quote as [[|]|].
  - split; auto.
  - split; [discriminate|]. intros [X|[X _]]; discriminate.
  - assert (R : forall c, numeric_char c = true <-> In c (lit "bcdoxXneEfFgG%")).
    { intros c. unfold numeric_char. rewrite existsb_exists. split; [intros (x & Hx & Ex); apply N.eqb_eq in Ex; subst; exact Hx|intros H; exists c; split; [exact H|apply N.eqb_refl]]. }
    destruct fspec as [|c p _] using rev_ind.
    + cbn [rev]. split; [|reflexivity]. intros _. right. split; [reflexivity|]. intros (p & c & X & _). destruct p; discriminate.
    + rewrite rev_app_distr. cbn [rev app]. split.
      * intros X. apply negb_true_iff in X. right. split; [reflexivity|]. intros (p' & c' & X' & I). apply app_inj_tail in X' as [_ <-]. apply R in I. congruence.
      * intros [X|[_ X]]; [discriminate|]. apply negb_true_iff, not_true_is_false. intros I. apply X. exists p, c. split; [reflexivity|apply R; exact I].
Qed.
(** A given extra field replaces the known field of its name; of several, the last. *)
Lemma text_eqb_spec a b : text_eqb a b = true <-> a = b.
Proof. revert b. induction a as [|x a IH]; intros [|y b]; cbn; try (split; congruence). rewrite andb_true_iff, N.eqb_eq, IH. split; [intros [-> ->]; reflexivity|intros [= -> ->]; auto]. Qed.
Lemma text_dget_set {X} k k' (v : X) d : dget text_eqb k (dset text_eqb k' v d) = if text_eqb k k' then Some v else dget text_eqb k d.
Proof.
  apply dget_set; intros.
  - apply eq_true_iff_eq. rewrite !text_eqb_spec. split; auto.
  - rewrite text_eqb_spec in *. congruence.
Qed.
Lemma dupdate_other {V E} (fs : list (sfield V E)) name d : (forall g, In g fs -> fd_name g <> name) ->
  dget text_eqb name (dupdate text_eqb d (map (fun f => (fd_name f, f)) fs)) = dget text_eqb name d.
Proof.
  revert d. induction fs as [|f fs IH]; intros d H; [reflexivity|]. unfold dupdate. cbn [map fold_left fst snd]. fold (dupdate text_eqb (dset text_eqb (fd_name f) f d) (map (fun f => (fd_name f, f)) fs)).
  rewrite IH by (intros; apply H; right; auto). rewrite text_dget_set. destruct (text_eqb name (fd_name f)) eqn:X; [|reflexivity]. apply text_eqb_spec in X. exfalso. apply (H f (or_introl eq_refl)). auto.
Qed.
Theorem C58_extra_fields_win : forall V E (known before after : list (sfield V E)) f,
  (forall g, In g after -> fd_name g <> fd_name f) ->
  dget text_eqb (fd_name f) (field_map known (before ++ f :: after)) = Some f.
Proof.
  intros V E known before after f H. unfold field_map. rewrite map_app. cbn [map].
  assert (A : forall (d a b : list (text * sfield V E)), dupdate text_eqb d (a ++ b) = dupdate text_eqb (dupdate text_eqb d a) b) by (intros; unfold dupdate; apply fold_left_app).
  rewrite A. match goal with |- context [dupdate text_eqb ?d ((?k, ?v) :: ?l)] => change (dupdate text_eqb d ((k, v) :: l)) with (dupdate text_eqb (dset text_eqb k v d) l) end.
  rewrite dupdate_other by exact H. rewrite text_dget_set, (proj2 (text_eqb_spec _ _) eq_refl). reflexivity.
Qed.
Theorem C58_other_fields_stay : forall V E (known extra : list (sfield V E)) name,
  (forall g, In g extra -> fd_name g <> name) ->
  dget text_eqb name (field_map known extra) = dget text_eqb name (field_map known []).
Proof. intros V E known extra name H. unfold field_map. rewrite dupdate_other by exact H. reflexivity. Qed.

(** The value source of one field, spelled out with the default quoter. *)
Section Order.
Context {V E : Type} (vnone : V) (fmt_named : ftoken -> V -> option text) (fmt_nested : ftoken -> list V -> option text)
        (data_of : E -> list (text * V)) (extra : list (sfield V E)) (getter : string -> E -> gres V).
Let fm := field_map (builtin_fields getter) extra.
Definition line_of (name : text) (ev : E) (kw : list (text * V)) : option text :=
  match make_formatter fm (default_quoter fm) default_defaulter (write [TName name None []]) with
  | Some cs => render vnone fmt_named fmt_nested data_of fm ev [] kw cs
  | None => None
  end.
Definition quote_for (name t : text) : text :=
  match dget text_eqb name fm with Some f => if fd_quote f then json_quote t else t | None => json_quote t end.
Definition spec_for (name : text) : ftoken :=
  mkTok name (match dget text_eqb name fm with Some f => fd_fspec f | None => [] end) None.

Lemma plain_positional name : plain_name name -> is_positional (mkTok name [] None) = false /\ base_name name = name.
Proof.
  intros (_ & P & c & Hc & Nd). assert (B : base_name name = name).
  { clear Hc. induction name as [|x n IH]; [reflexivity|]. cbn [base_name]. assert (Px : plain_char x) by (apply P; left; reflexivity).
    destruct (N.eqb_spec x 46) as [->|]; [exfalso; apply Px; cbn; tauto|]. destruct (N.eqb_spec x 91) as [->|]; [exfalso; apply Px; cbn; tauto|]. cbn [orb]. f_equal. apply IH. intros; apply P; right; auto. }
  split; [|exact B]. unfold is_positional. cbn [tk_fname]. rewrite B. apply not_true_is_false. intros F. rewrite forallb_forall in F. specialize (F c Hc). apply andb_true_iff in F as [F1 F2]. apply N.leb_le in F1, F2. apply Nd. split; auto.
Qed.
Lemma line_of_seg name ev kw : plain_name name -> line_of name ev kw = Some (seg_text vnone fmt_named fmt_nested data_of fm (default_quoter fm) default_defaulter ev [] kw (mkTok name [] None)).
Proof.
  intros P. destruct (format_write vnone fmt_named fmt_nested data_of fm (default_quoter fm) [TName name None []] [Fld (mkTok name [] None)] ev [] kw) as (cs & M & R).
  - constructor; [|constructor]. split; [apply plain_good; exact P|]. split; [discriminate|split; intros []].
  - repeat constructor.
  - intros k. destruct (default_quoter_ok fm k) as [->| ->]; discriminate.
  - unfold line_of. rewrite M, R. cbn [map concat show_item]. rewrite app_nil_r. reflexivity.
Qed.
Lemma line_of_value name ev kw v t : plain_name name -> resolve vnone data_of fm kw ev name = Some v -> fmt_named (spec_for name) v = Some t ->
  line_of name ev kw = Some (quote_for name t).
Proof.
  intros P R F. rewrite line_of_seg by auto. f_equal. destruct (plain_positional name P) as (I & B). unfold seg_text, said, default_defaulter, raw_segment. rewrite ?token_written, I. cbn [tk_fname]. rewrite B, R.
  assert (X : eff fm (mkTok name [] None) = spec_for name) by (unfold eff, spec_for; cbn [tk_fspec tk_fname tk_conv]; destruct (dget text_eqb name fm); reflexivity).
  rewrite X, F. unfold default_quoter, quote_for. cbn [tk_fname]. destruct (dget text_eqb name fm) as [f|]; [destruct (fd_quote f)|]; reflexivity.
Qed.
Lemma line_of_fails name ev kw : plain_name name ->
  (resolve vnone data_of fm kw ev name = None \/ exists v, resolve vnone data_of fm kw ev name = Some v /\ fmt_named (spec_for name) v = None) ->
  line_of name ev kw = Some (as_written (mkTok name [] None)).
Proof.
  intros P R. rewrite line_of_seg by auto. f_equal. destruct (plain_positional name P) as (I & B). unfold seg_text, said, default_defaulter, raw_segment. rewrite ?token_written, I. cbn [tk_fname]. rewrite B.
  assert (X : eff fm (mkTok name [] None) = spec_for name) by (unfold eff, spec_for; cbn [tk_fspec tk_fname tk_conv]; destruct (dget text_eqb name fm); reflexivity).
  rewrite X. assert (Y : match resolve vnone data_of fm kw ev name with Some v => fmt_named (spec_for name) v | None => None end = None) by (destruct R as [-> | (v & -> & H)]; [reflexivity|exact H]).
  rewrite Y. destruct (default_quoter fm (mkTok name [] None)) as [[f|]| |]; reflexivity.
Qed.
Theorem C58_keywords_first : forall name ev kw v t, plain_name name ->
  dget text_eqb name kw = Some v -> fmt_named (spec_for name) v = Some t -> line_of name ev kw = Some (quote_for name t).
Proof. intros name ev kw v t P H F. eapply line_of_value; eauto. unfold resolve. rewrite H. reflexivity. Qed.
(** The data map wins over any built-in or extra field of the name, and whether the
    value is quoted is still up to that field. *)
Theorem C58_data_second : forall name ev kw v t, plain_name name -> dget text_eqb name kw = None ->
  dget text_eqb name (data_of ev) = Some v -> fmt_named (spec_for name) v = Some t -> line_of name ev kw = Some (quote_for name t).
Proof. intros name ev kw v t P H D F. eapply line_of_value; eauto. unfold resolve. rewrite H, D. reflexivity. Qed.
Theorem C58_getter_third : forall name ev kw f v t, plain_name name -> dget text_eqb name kw = None ->
  dget text_eqb name (data_of ev) = None -> dget text_eqb name fm = Some f -> fd_getter f ev = GVal v ->
  fmt_named (spec_for name) v = Some t -> line_of name ev kw = Some (quote_for name t).
Proof. intros name ev kw f v t P H D G W F. eapply line_of_value; eauto. unfold resolve. rewrite H, D, G, W. reflexivity. Qed.
(** An unknown name renders Python's None, quoted, or its default text if None cannot
    be formatted. *)
Theorem C58_unknown_is_none : forall name ev kw, plain_name name -> dget text_eqb name kw = None ->
  dget text_eqb name (data_of ev) = None -> dget text_eqb name fm = None ->
  line_of name ev kw = Some (match fmt_named (mkTok name [] None) vnone with Some t => json_quote t | None => as_written (mkTok name [] None) end).
Proof.
  intros name ev kw P H D G. assert (S : spec_for name = mkTok name [] None) by (unfold spec_for; rewrite G; reflexivity).
  assert (R : resolve vnone data_of fm kw ev name = Some vnone) by (unfold resolve; rewrite H, D, G; reflexivity).
  destruct (fmt_named (mkTok name [] None) vnone) as [t|] eqn:F.
  - rewrite (line_of_value name ev kw vnone t P R) by (rewrite S; exact F). unfold quote_for. rewrite G. reflexivity.
  - apply line_of_fails; auto. right. exists vnone. rewrite S. auto.
Qed.
(** A failing getter, or a value its format spec does not accept: the default text. *)
Theorem C58_failure_is_default : forall name ev kw f, plain_name name -> dget text_eqb name kw = None ->
  dget text_eqb name (data_of ev) = None -> dget text_eqb name fm = Some f ->
  (fd_getter f ev = GOther \/ exists v, fd_getter f ev = GVal v /\ fmt_named (spec_for name) v = None) ->
  line_of name ev kw = Some (LB :: name ++ [RB]).
Proof.
  intros name ev kw f P H D G W. rewrite (line_of_fails name ev kw P); [reflexivity|]. unfold resolve. rewrite H, D, G.
  destruct W as [-> | (v & -> & F)]; [left; reflexivity|right; eauto].
Qed.
End Order.
(** The field registry a formatter starts from: every built-in field of the table is
    found under its name, with the documented quoting. *)
Theorem C58_builtin_table : forall V E (getter : string -> E -> gres V) n sp q,
  In (n, sp, q) BUILTIN_FIELDS ->
  dget text_eqb (lit n) (field_map (builtin_fields getter) []) = Some (make_field (lit n) (lit sp) q (getter n)).
Proof.
  intros V E getter n sp q H. unfold BUILTIN_FIELDS in H. cbn [In] in H.
  repeat (destruct H as [H|H]; [injection H as <- <- <-; vm_compute; reflexivity|]). destruct H.
Qed.

(** The built-in fields that are not quoted. *)
Theorem C58_builtin_unquoted : forall V E (getter : string -> E -> gres V) n f,
  In f (builtin_fields getter) -> fd_name f = lit n -> (fd_quote f = false <-> In n UNQUOTED).
Proof.
  intros V E getter n f H En. unfold builtin_fields in H. apply in_map_iff in H as ([[m sp] q] & <- & I). cbn [make_field fd_name fd_quote] in *.
  assert (L : forall a b, lit a = lit b -> a = b).
  { induction a as [|x a IH]; intros [|y b]; cbn; try discriminate; auto. intros [= X Y]. f_equal; [|auto]. rewrite <- (Ascii.ascii_N_embedding x), <- (Ascii.ascii_N_embedding y), X. reflexivity. }
  apply L in En. subst m.
  assert (C : forallb (fun x => match x with (n, s, q) => Bool.eqb (negb (field_quote (lit s) q)) (existsb (String.eqb n) UNQUOTED) end) BUILTIN_FIELDS = true) by (vm_compute; reflexivity).
  rewrite forallb_forall in C. specialize (C _ I). apply eqb_prop in C. assert (X : existsb (String.eqb n) UNQUOTED = true <-> In n UNQUOTED).
  { rewrite existsb_exists. split; [intros (x & Hx & Ex); apply String.eqb_eq in Ex; subst; exact Hx|intros Hx; exists n; split; [exact Hx|apply String.eqb_refl]]. }
  rewrite <- X, <- C, negb_true_iff. reflexivity.
Qed.

(** C56 *)
Theorem C56_quote_round_trip : forall t, (forall c, In c t -> code_point c) -> no_pair t = true -> json_loads (json_quote t) = Some t.
Proof. intros t H1 H2. unfold json_loads. pose proof (json_read_quote t [] H1 H2) as X. rewrite app_nil_r in X. rewrite X. reflexivity. Qed.
(** within a longer text, the quoted part is recognised and nothing else is consumed *)
Theorem C56_quote_delimits : forall t rest, (forall c, In c t -> code_point c) -> no_pair t = true -> json_read (json_quote t ++ rest) = Some (t, rest).
Proof. exact json_read_quote. Qed.
Theorem C56_printable_ascii : forall t c, In c (json_quote t) -> 32 <= c <= 126.
Proof.
  intros t c H. unfold json_quote in H. cbn [app] in H. destruct H as [<-|H]; [lia|]. apply in_app_or in H as [H|[<-|[]]]; [|lia].
  apply in_flat_map in H as (x & _ & H). eapply quote_char_printable. exact H.
Qed.
Theorem C56_distinct : forall t u, text_ok t -> text_ok u -> json_quote t = json_quote u -> t = u.
Proof. intros t u [A B] [C D] H. pose proof (C56_quote_round_trip t A B) as X. rewrite H, (C56_quote_round_trip u C D) in X. congruence. Qed.
(** A high surrogate followed by a low one comes back as one character. *)
Theorem C56_surrogate_pair_refuted : exists t, (forall c, In c t -> code_point c) /\ json_loads (json_quote t) <> Some t.
Proof. exists [55357; 56832]. split; [intros c [<-|[<-|[]]]; reflexivity|vm_compute; discriminate]. Qed.
Example C56_ex : let t := lit "a\b" ++ [10; 34; 233; 128512; 55357] in
  (forall c, In c t -> code_point c) /\ no_pair t = true /\ json_loads (json_quote t) = Some t.
Proof. cbv zeta. split; [|split; vm_compute; reflexivity]. intros c H. apply (proj1 (Forall_forall code_point _)) with (2 := H). repeat constructor. Qed.

(** *** Concrete instances: values are texts, formatted with any spec as themselves,
    except that a numeric spec fails on them; the event is its data map. *)
Definition ex_named (k : ftoken) (v : text) : option text :=
  match rev (tk_fspec k) with c :: _ => if numeric_char c then None else Some v | [] => Some v end.
Definition ex_getter (n : string) (e : list (text * text)) : gres text :=
  if (n =? "status_str")%string then GVal (lit "success") else if (n =? "end_message")%string then GVal (lit "it's ""done""") else GOther.
Definition ex_fm := field_map (builtin_fields ex_getter) [].
Definition ex_format (template : string) (data : list (text * text)) : option text :=
  match make_formatter ex_fm (default_quoter ex_fm) default_defaulter (lit template) with
  | Some cs => render (lit "None") ex_named (fun _ _ => None) (fun e => e) ex_fm data [] [] cs
  | None => None
  end.
Example C55_ex : ex_format "{status_str} - {end_message} {duration_ms} {x} {0}.{{}}" [(lit "x", lit "y")] = Some (lit "success - ""it's \""done\"""" {duration_ms} ""y"" {0}.{}").
Proof. vm_compute. reflexivity. Qed.
Example C58_ex : ex_format "{status_str} {nope}" [(lit "status_str", lit "ok")] = Some (lit "ok ""None""").
Proof. vm_compute. reflexivity. Qed.
Example C57_ex : exists is cs, template_of (lit "x={x} {end_message};{y}") (flat is) /\
  make_formatter ex_fm (default_quoter ex_fm) default_defaulter (lit "x={x} {end_message};{y}") = Some cs /\
  (forall k, In k (fields is) -> is_quoted ex_fm k) /\
  exists line, render (lit "None") ex_named (fun _ _ => None) (fun e => e) ex_fm [(lit "x", [10; 34])] [] [] cs = Some line /\
  line = lit "x=""\n\"""" ""it's \""done\"""";""None""" /\
  read_line is line = Some [Some [10; 34]; Some (lit "it's ""done"""); Some (lit "None")].
Proof.
  do 2 eexists. split; [apply tokenize_sound; vm_compute; reflexivity|]. split; [reflexivity|]. split.
  - intros k H f D. vm_compute in H. decompose [or] H; try contradiction; subst k; cbn in D; try discriminate; injection D as <-; reflexivity.
  - eexists. split; [vm_compute; reflexivity|]. split; vm_compute; reflexivity.
Qed.
(** A defaulter that raises KeyError makes formatting raise. *)
Theorem C55_keyerror_defaulter_refuted : exists d template cs,
  make_formatter ex_fm (default_quoter ex_fm) d template = Some cs /\
  render (lit "None") ex_named (fun _ _ => None) (fun e => e) ex_fm [] [] [] cs = None.
Proof. exists (fun _ => CKeyError), (lit "{x}"). eexists. split; vm_compute; reflexivity. Qed.
(** Log injection: an unquoted built-in field shadowed by the data map can add a line
    (although the template is one line). *)
Theorem C57_unquoted_refuted : exists template data line,
  is_line (lit template) /\ ex_format template data = Some line /\ ~ is_line line.
Proof.
  exists "{status_str}"%string, [(lit "status_str", [120; 10; 121])], [120; 10; 121]. split; [|split; [vm_compute; reflexivity|]].
  - intros c H. vm_compute in H. decompose [or] H; subst; try contradiction; split; discriminate.
  - intros H. destruct (H 10); [cbn; auto|]. contradiction.
Qed.

(** *** C67: messages *)
Section C67.
Context {V E : Type} (vnone : V) (fmt_named : ftoken -> V -> option text) (fmt_nested : ftoken -> list V -> option text)
        (data_of : E -> list (text * V)) (fm : list (text * sfield V E)).
Notation message := (event_message vnone fmt_named fmt_nested data_of fm).
Notation shows := (shows vnone fmt_named fmt_nested data_of).
Lemma no_lb raw : ~ In LB raw -> existsb (N.eqb LB) raw = false.
Proof. intros H. apply not_true_is_false. intros X. apply existsb_exists in X as (c & Hc & Ec). apply N.eqb_eq in Ec. subst. contradiction. Qed.
Lemma has_lb raw : In LB raw -> existsb (N.eqb LB) raw = true.
Proof. intros H. apply existsb_exists. exists LB. split; [exact H|apply N.eqb_refl]. Qed.
(** Text without an opening brace is the message, whatever the arguments. *)
Theorem C67_verbatim : forall ev raw fargs, ~ In LB raw -> fst (message ev raw fargs []) = Some raw.
Proof. intros ev raw fargs H. unfold event_message. rewrite no_lb by auto. reflexivity. Qed.
(** Any other text is logged verbatim by doubling its braces. *)
Theorem C67_escaped : forall ev t fargs, In LB t -> fst (message ev (escape t) fargs []) = Some t.
Proof.
  intros ev t fargs H. unfold event_message. assert (I : In LB (escape t)).
  { induction t as [|c t IH]; [contradiction|]. cbn [escape]. destruct H as [->|H]; [cbn; left; reflexivity|]. destruct ((c =? LB) || (c =? RB)); cbn; auto. }
  rewrite has_lb by auto. cbn [negb]. destruct (format_write vnone fmt_named fmt_nested data_of fm no_quoter [TText t] [Lit t] ev fargs []) as (cs & M & R); [repeat constructor|repeat constructor|discriminate|].
  unfold write in M. cbn [map concat write_seg] in M. rewrite app_nil_r in M. rewrite M, R. cbn. rewrite app_nil_r. reflexivity.
Qed.
(** A template message is put together from its pieces, without quoting; positional
    fields take the call's positional arguments in order. *)
Theorem C67_template : forall ev ss fargs, Forall good_seg ss -> In LB (write ss) ->
  exists is segs, meaning 0 ss is /\ fst (message ev (write ss) fargs []) = Some (concat segs) /\
    Forall2 (shows fm no_quoter default_defaulter ev fargs []) is segs.
Proof.
  intros ev ss fargs P H. unfold event_message. rewrite has_lb by auto. cbn [negb].
  destruct (C58_template vnone fmt_named fmt_nested data_of fm no_quoter ss ev fargs [] P ltac:(discriminate)) as (is & cs & segs & Me & M & R & S). exists is, segs. rewrite M, R. auto.
Qed.
(** A non-empty message never changes again, whatever happens to the data. *)
Theorem C67_stable : forall ev raw fargs m cache, message ev raw fargs [] = (Some m, cache) -> m <> [] ->
  forall ev' raw' fargs', message ev' raw' fargs' cache = (Some m, cache).
Proof.
  intros ev raw fargs m cache H Hm ev' raw' fargs'. assert (cache = m) as ->.
  { unfold event_message in H. destruct (negb (existsb (N.eqb LB) raw)); [congruence|]. destruct (make_formatter _ _ _ _); [|discriminate]. destruct (render _ _ _ _ _ _ _ _ _); congruence. }
  destruct m; [contradiction|reflexivity].
Qed.
(** Exactly the malformed templates raise. *)
Theorem C67_raises_iff_malformed : forall ev raw fargs,
  fst (message ev raw fargs []) = None <-> In LB raw /\ malformed raw.
Proof.
  intros ev raw fargs. rewrite malformed_iff. unfold event_message. destruct (existsb (N.eqb LB) raw) eqn:X; cbn [negb].
  - assert (I : In LB raw) by (apply existsb_exists in X as (c & Hc & Ec); apply N.eqb_eq in Ec; subst; exact Hc).
    unfold make_formatter. destruct (tokenize raw) as [is|]; [|cbn; tauto]. destruct (compile_default fm no_quoter is ltac:(discriminate)) as (cs & C). rewrite C.
    destruct (render_shows vnone fmt_named fmt_nested data_of fm _ _ is cs ev fargs [] C ltac:(discriminate)) as (segs & F & R). rewrite R. cbn. split; [discriminate|]. intros [_ Y]. discriminate.
  - cbn. split; [discriminate|]. intros [I _]. rewrite has_lb in X by auto. discriminate.
Qed.
End C67.
(** Ordinary text with a stray brace makes reading the message raise. *)
Theorem C67_any_text_refuted : forall ev : list (text * text), fst (event_message (lit "None") ex_named (fun _ _ => None) (fun e => e) ex_fm ev (lit "{ oops") [] []) = None.
Proof. reflexivity. Qed.
(** Doubling braces is wrong for a text with closing braces only. *)
Theorem C67_escape_closing_refuted : exists t, fst (event_message (lit "None") ex_named (fun _ _ => None) (fun e => e) ex_fm [] (escape t) [] []) <> Some t.
Proof. exists (lit "a}b"). vm_compute. discriminate. Qed.
(** An empty message is computed again and may change. *)
Theorem C67_empty_message_refuted : exists raw cache ev', event_message (lit "None") ex_named (fun _ _ => None) (fun e => e) ex_fm [(lit "x", [])] raw [] [] = (Some [], cache) /\
  fst (event_message (lit "None") ex_named (fun _ _ => None) (fun e => e) ex_fm ev' raw [] cache) <> Some [].
Proof. exists (lit "{x}"), [], [(lit "x", lit "y")]. split; [vm_compute; reflexivity|vm_compute; discriminate]. Qed.
Example C67_ex : fst (event_message (lit "None") ex_named (fun _ _ => None) (fun e => e) ex_fm [(lit "x", lit "y")] (lit "{x}: {} {{}}") [lit "arg"] []) = Some (lit "y: arg {}").
Proof. vm_compute. reflexivity. Qed.

(** Positional arguments by number, a conversion, a nested spec, doubled braces. *)
Example C58_grammar_ex : template_of (lit "{}{x!r:>{w}} {{}.a[}]}")
  [Field (mkTok (lit "0") [] None); Field (mkTok (lit "x") (lit ">{w}") (Some 114)); Ch 32; Ch LB; Ch RB; Ch 46; Ch 97] -> False.
Proof. intros H. apply C58_grammar in H as (is & T & _). vm_compute in T. discriminate. Qed.
Example C58_grammar_ex2 : template_of (lit "{}{x!r:>{w}} {{}}{.a[}]}")
  [Field (mkTok (lit "0") [] None); Field (mkTok (lit "x") (lit ">{w}") (Some 114)); Ch 32; Ch LB; Ch RB; Field (mkTok (lit "1.a[}]") [] None)].
Proof. apply C58_grammar. eexists. split; vm_compute; reflexivity. Qed.
Example C67_ex2 : fst (event_message (lit "None") ex_named (fun _ _ => None) (fun e => e) ex_fm [] (lit "{} {!r} {0} {9}") [lit "a"; lit "b"] []) = Some (lit "a b a {9}").
Proof. vm_compute. reflexivity. Qed.

Print Assumptions C58_grammar.
Print Assumptions C58_unambiguous.
Print Assumptions C58_field_quoting.
Print Assumptions C58_extra_fields_win.
Print Assumptions C58_other_fields_stay.
Print Assumptions C58_builtin_unquoted.
Print Assumptions C55_default_text.
Print Assumptions C55_format_total.
Print Assumptions C55_isolated.
Print Assumptions C55_only_malformed_fails.
Print Assumptions C57_read_back.
Print Assumptions C57_one_line.
Print Assumptions C58_template.
Print Assumptions C58_keywords_first.
Print Assumptions C58_data_second.
Print Assumptions C58_getter_third.
Print Assumptions C58_unknown_is_none.
Print Assumptions C58_failure_is_default.
Print Assumptions C58_builtin_table.
Print Assumptions C56_quote_round_trip.
Print Assumptions C56_quote_delimits.
Print Assumptions C56_printable_ascii.
Print Assumptions C56_distinct.
Print Assumptions C56_surrogate_pair_refuted.
Print Assumptions C55_keyerror_defaulter_refuted.
Print Assumptions C57_unquoted_refuted.
Print Assumptions C67_verbatim.
Print Assumptions C67_escaped.
Print Assumptions C67_template.
Print Assumptions C67_stable.
Print Assumptions C67_raises_iff_malformed.
Print Assumptions C67_any_text_refuted.
Print Assumptions C67_escape_closing_refuted.
Print Assumptions C67_empty_message_refuted.
