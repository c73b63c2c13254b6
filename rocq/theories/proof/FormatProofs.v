(** Rendering: C55, C57, C58. *)
From Verif Require Import model.PyBase model.Json model.Format spec.JsonSpec spec.FormatSpec proof.JsonProofs proof.TemplateProofs.
Open Scope N_scope.

Lemma token_written k : token_str k = as_written k.
Proof. unfold token_str, as_written, write_seg, write_tail. destruct (tk_fspec k); reflexivity. Qed.
(** Putting the pieces together. *)
Definition show_item (f : ftoken -> text) (i : item) : text := match i with Lit t => t | Fld k => f k end.
Definition show_piece (f : ftoken -> text) (p : piece) : text := match p with Ch c => [c] | Field k => f k end.
Lemma assemble_flat f is : concat (map (show_item f) is) = concat (map (show_piece f) (flat is)).
Proof.
  induction is as [|i is IH]; [reflexivity|]. change (flat (i :: is)) with ((match i with Lit t => map Ch t | Fld k => [Field k] end) ++ flat is). rewrite map_app, concat_app, <- IH. cbn [map concat]. f_equal.
  destruct i as [t|k]; cbn [show_item]; [|cbn; rewrite app_nil_r; reflexivity]. induction t as [|c t IHt]; [reflexivity|]. cbn [map concat show_piece app]. f_equal. exact IHt.
Qed.
Lemma fields_flat is : fields is = flat_map (fun p => match p with Ch _ => [] | Field k => [k] end) (flat is).
Proof.
  induction is as [|i is IH]; [reflexivity|]. change (flat (i :: is)) with ((match i with Lit t => map Ch t | Fld k => [Field k] end) ++ flat is). rewrite flat_map_app, <- IH.
  destruct i as [t|k]; cbn [fields]; [|reflexivity]. induction t as [|c t IHt]; [reflexivity|exact IHt].
Qed.
Lemma in_fields k is : In k (fields is) <-> In (Fld k) is.
Proof. induction is as [|[t|x] is IH]; cbn; [tauto| |]; rewrite IH; intuition congruence. Qed.

Section P.
Context {V E : Type} (vnone : V) (fmt_named : ftoken -> V -> option text) (fmt_nested : ftoken -> list V -> option text)
        (data_of : E -> list (text * V)).
Notation FM := (list (text * sfield V E)).
Notation resolve' := (resolve vnone data_of).
Notation render' := (render vnone fmt_named fmt_nested data_of).
Notation value_of' := (value_of vnone data_of).
Notation formatted' := (formatted vnone fmt_named fmt_nested data_of).
Notation rendered' := (rendered vnone fmt_named fmt_nested data_of).
Notation shows' := (shows vnone fmt_named fmt_nested data_of).

Lemma value_resolve (fm : FM) kw ev name r : value_of' fm kw ev name r <-> resolve' fm kw ev name = r.
Proof.
  unfold resolve. split.
  - intros H. inversion H; subst; repeat match goal with X : _ = _ |- _ => rewrite X; clear X end; reflexivity.
  - destruct (dget text_eqb name kw) eqn:E1; [intros <-; eapply from_keyword; eauto|].
    destruct (dget text_eqb name (data_of ev)) eqn:E2; [intros <-; eapply from_data; eauto|].
    destruct (dget text_eqb name fm) eqn:E3; [|intros <-; eapply no_source; eauto].
    destruct (fd_getter s ev) eqn:E4; intros <-; [eapply from_getter|eapply getter_key_error|eapply getter_fails]; eauto.
Qed.
Definition eff (fm : FM) (k : ftoken) : ftoken :=
  match tk_fspec k with
  | [] => match dget text_eqb (tk_fname k) fm with
          | Some f => mkTok (tk_fname k) (fd_fspec f) (tk_conv k)
          | None => k
          end
  | _ => k
  end.
Lemma effective_eff (fm : FM) k k' : effective fm k k' <-> k' = eff fm k.
Proof.
  unfold eff. split.
  - intros H. inversion H as [N|f N F|N F]; subst; [destruct (tk_fspec k'); [contradiction|reflexivity]|rewrite N, F; reflexivity|rewrite N, F; reflexivity].
  - intros ->. destruct (tk_fspec k) eqn:E1; [|constructor; rewrite E1; discriminate]. destruct (dget text_eqb (tk_fname k) fm) eqn:E2; [eapply known_spec|eapply no_spec]; eauto.
Qed.
Lemma eff_name (fm : FM) k : tk_fname (eff fm k) = tk_fname k.
Proof. unfold eff. destruct (tk_fspec k); [destruct (dget _ _ fm)|]; reflexivity. Qed.
Definition raw_segment (fm : FM) ev args kw k : option text :=
  if is_positional k then fmt_pos fmt_named fmt_nested (eff fm k) args
  else match resolve' fm kw ev (base_name (tk_fname k)) with None => None | Some v => fmt_named (eff fm k) v end.
Lemma has_open t : existsb (N.eqb LB) t = true <-> In LB t.
Proof. rewrite existsb_exists. split; [intros (c & Hc & Ec); apply N.eqb_eq in Ec; subst; exact Hc|intros H; exists LB; split; [exact H|apply N.eqb_refl]]. Qed.
Lemma formatted_raw (fm : FM) ev args kw k t : formatted' fm ev args kw k t <-> raw_segment fm ev args kw k = Some t.
Proof.
  unfold raw_segment, fmt_pos. rewrite eff_name. split.
  - intros [b k' v B P Ef S A F|b k' B P Ef S F|b k' v B P Ef W F]; apply effective_eff in Ef; apply base_of_fun in B; subst.
    + apply positional_digits in P. rewrite P. destruct (existsb (N.eqb LB) (tk_fspec (eff fm k))) eqn:X; [apply has_open in X; contradiction|]. rewrite int_of_num, A. exact F.
    + apply positional_digits in P. rewrite P. apply has_open in S. rewrite S. exact F.
    + destruct (is_positional k) eqn:X; [apply positional_digits in X; contradiction|]. apply value_resolve in W. rewrite W. exact F.
  - destruct (is_positional k) eqn:P.
    + apply positional_digits in P. destruct (existsb (N.eqb LB) (tk_fspec (eff fm k))) eqn:X.
      * intros H. eapply by_position_nested; [apply base_name_of|exact P|apply effective_eff; reflexivity|apply has_open; exact X|exact H].
      * rewrite int_of_num. destruct (nth_error args _) as [v|] eqn:A; [|discriminate]. intros H. eapply by_position; [apply base_name_of|exact P|apply effective_eff; reflexivity| |exact A|exact H].
        intros I. apply has_open in I. congruence.
    + destruct (resolve' fm kw ev (base_name (tk_fname k))) as [v|] eqn:R; [|discriminate]. intros H. eapply by_name; [apply base_name_of| |apply effective_eff; reflexivity|apply value_resolve; exact R|exact H].
      intros I. apply positional_digits in I. congruence.
Qed.
(** What a compiled field is. *)
Definition centry (c : called (option (text -> option text))) : qentry :=
  match c with CRet (Some f) => QFun f | CRet None => QNone | _ => QMissing end.
Lemma segment_spec (fm : FM) (q : quoter_fn) ev args kw k k' :
  tk_fname k' = tk_fname k -> k' = eff fm k \/ centry (q k) = QMissing ->
  forall t, field_segment vnone fmt_named fmt_nested data_of fm ev args kw k' (centry (q k)) = Some t <-> rendered' fm q ev args kw k t.
Proof.
  intros N K t. assert (P : is_positional k' = is_positional k) by (unfold is_positional; rewrite N; reflexivity). unfold field_segment. rewrite P, N. destruct (q k) as [[f|]| |] eqn:Q; cbn [centry] in *.
  - destruct K as [->|K]; [|discriminate]. fold (raw_segment fm ev args kw k). split.
    + destruct (raw_segment fm ev args kw k) as [t0|] eqn:R; [|discriminate]. intros H. eapply quoted; [exact Q|apply formatted_raw; exact R|exact H].
    + intros [Q' _|f' t0 Q' F H]; [congruence|]. apply formatted_raw in F. rewrite F. congruence.
  - destruct K as [->|K]; [|discriminate]. fold (raw_segment fm ev args kw k). split.
    + destruct (raw_segment fm ev args kw k) as [t0|] eqn:R; [|discriminate]. intros [= ->]. apply unquoted; [exact Q|apply formatted_raw; exact R].
    + intros [Q' F|f' t0 Q' F H]; [|congruence]. apply formatted_raw in F. rewrite F. reflexivity.
  - split; [destruct (if is_positional k then _ else _); discriminate|]. intros [Q' F|f' t0 Q' F H]; congruence.
  - split; [destruct (if is_positional k then _ else _); discriminate|]. intros [Q' F|f' t0 Q' F H]; congruence.
Qed.
Lemma shows_compiled (fm : FM) q d i c ev args kw :
  compile_item fm q d i = Some c -> (forall k, d k <> CKeyError) ->
  exists t, (match c with
             | CLit t => Some t
             | CFld k dt qe => match field_segment vnone fmt_named fmt_nested data_of fm ev args kw k qe with Some t => Some t | None => dt end
             end) = Some t /\ shows' fm q d ev args kw i t.
Proof.
  intros H D. destruct i as [t|k]; cbn [compile_item] in H; [injection H as <-; exists t; split; [reflexivity|constructor]|].
  destruct (d k) as [dt| |] eqn:Dk; [|exfalso; eapply D; eauto|discriminate].
  assert (X : exists k', c = CFld k' (Some dt) (centry (q k)) /\ tk_fname k' = tk_fname k /\ (k' = eff fm k \/ centry (q k) = QMissing)).
  { destruct (q k) as [[f|]| |] eqn:Q; try discriminate; injection H as <-; eexists; (split; [reflexivity|]); cbn [centry]; (split; [|auto]); try reflexivity; apply (eff_name fm k). }
  destruct X as (k' & -> & N & K). pose proof (segment_spec fm q ev args kw k k' N K) as S.
  destruct (field_segment _ _ _ _ fm ev args kw k' (centry (q k))) as [t|] eqn:F.
  - exists t. split; [reflexivity|]. apply shows_field, S. reflexivity.
  - exists dt. split; [reflexivity|]. apply shows_default; [|exact Dk]. intros t' R. apply S in R. discriminate.
Qed.
Lemma render_shows (fm : FM) q d is cs ev args kw :
  compile fm q d is = Some cs -> (forall k, d k <> CKeyError) ->
  exists segs, Forall2 (shows' fm q d ev args kw) is segs /\ render' fm ev args kw cs = Some (concat segs).
Proof.
  revert cs. induction is as [|i is IH]; intros cs H D; cbn [compile] in H; [injection H as <-; exists []; split; constructor|].
  destruct (compile_item fm q d i) as [c|] eqn:C; [|discriminate]. destruct (compile fm q d is) as [cs'|] eqn:CS; [|discriminate]. injection H as <-.
  destruct (shows_compiled fm q d i c ev args kw C D) as (t & T & S). destruct (IH cs' eq_refl D) as (segs & F & R).
  exists (t :: segs). split; [constructor; assumption|]. cbn [render]. rewrite R, T. reflexivity.
Qed.
Lemma rendered_functional (fm : FM) q ev args kw k t1 t2 : rendered' fm q ev args kw k t1 -> rendered' fm q ev args kw k t2 -> t1 = t2.
Proof.
  intros [Q1 F1|f1 u1 Q1 F1 E1] [Q2 F2|f2 u2 Q2 F2 E2]; rewrite Q1 in Q2; try discriminate; apply formatted_raw in F1; apply formatted_raw in F2; congruence.
Qed.
Lemma shows_functional (fm : FM) q d ev args kw i t1 t2 : shows' fm q d ev args kw i t1 -> shows' fm q d ev args kw i t2 -> t1 = t2.
Proof.
  intros H1 H2. inversion H1; subst; inversion H2; subst; try congruence; try (exfalso; match goal with N : forall t', ~ _ |- _ => eapply N; eassumption end).
  eapply rendered_functional; eauto.
Qed.
Lemma compile_default (fm : FM) q is : (forall k, q k <> CRaise) -> exists cs, compile fm q default_defaulter is = Some cs.
Proof.
  intros Q. induction is as [|i is (cs & Ec)]; [eexists; reflexivity|]. cbn [compile]. rewrite Ec.
  destruct i as [t|k]; cbn [compile_item default_defaulter]; [eexists; reflexivity|]. destruct (q k) as [[f|]| |] eqn:X; try (eexists; reflexivity). exfalso; eapply Q; eauto.
Qed.
Lemma default_quoter_ok (fm : FM) k : default_quoter fm k = CRet None \/ default_quoter fm k = CRet (Some (fun t => Some (json_quote t))).
Proof. unfold default_quoter. destruct (dget _ _ fm) as [f|]; auto. destruct (fd_quote f); auto. Qed.

(** *** Reading back: C57 *)
Lemma strip_prefix_app p s : strip_prefix p (p ++ s) = Some s.
Proof. induction p as [|x p IH]; [destruct s; reflexivity|]. cbn [app strip_prefix]. rewrite N.eqb_refl. exact IH. Qed.
Lemma json_read_token k s : json_read (as_written k ++ s) = None.
Proof. reflexivity. Qed.
Notation reads := (reads vnone fmt_named fmt_nested data_of).
Lemma shows_quoted (fm : FM) ev args kw k t :
  default_quoter fm k = CRet (Some (fun t => Some (json_quote t))) -> shows' fm (default_quoter fm) default_defaulter ev args kw (Fld k) t ->
  (exists u, formatted' fm ev args kw k u /\ t = json_quote u) \/ ((forall u, ~ formatted' fm ev args kw k u) /\ t = as_written k).
Proof.
  intros Q H. inversion H as [|? ? R|? ? N D]; subst.
  - destruct R as [Q' F|f u Q' F X]; rewrite Q in Q'; [discriminate|]. injection Q' as <-. left. exists u. split; [exact F|congruence].
  - right. cbv [default_defaulter] in D. injection D as <-. split; [|apply token_written]. intros u F. eapply N. eapply quoted; [exact Q|exact F|reflexivity].
Qed.
Lemma read_back (fm : FM) ev args kw is segs :
  (forall k, In k (fields is) -> default_quoter fm k = CRet (Some (fun t => Some (json_quote t)))) ->
  (forall k t, In k (fields is) -> formatted' fm ev args kw k t -> text_ok t) ->
  Forall2 (shows' fm (default_quoter fm) default_defaulter ev args kw) is segs ->
  exists vs, read_line is (concat segs) = Some vs /\ Forall2 (reads fm ev args kw) (fields is) vs.
Proof.
  intros Q T H. induction H as [|i t is segs S H IH]; [exists []; split; [reflexivity|constructor]|].
  destruct i as [u|k]; cbn [fields concat read_line] in *.
  - inversion S; subst. rewrite strip_prefix_app. apply IH; auto.
  - destruct IH as (vs & R & F); [intros; apply Q; right; auto|intros; eapply T; eauto; right; auto|].
    destruct (shows_quoted fm ev args kw k t (Q k (or_introl eq_refl)) S) as [(u & Fu & ->)|(N & ->)].
    + destruct (T k u (or_introl eq_refl) Fu) as (T1 & T2). rewrite json_read_quote by auto. rewrite R. eexists; split; [reflexivity|]. constructor; auto.
    + rewrite json_read_token, strip_prefix_app, R. eexists; split; [reflexivity|]. constructor; auto.
Qed.
Lemma line_shows (fm : FM) ev args kw is segs (ok : N -> Prop) :
  (forall c, 32 <= c <= 126 -> ok c) ->
  (forall k, In k (fields is) -> default_quoter fm k = CRet (Some (fun t => Some (json_quote t)))) ->
  (forall k t, In k (fields is) -> formatted' fm ev args kw k t -> text_ok t) ->
  (forall t, In (Lit t) is -> Forall ok t) -> (forall k, In (Fld k) is -> Forall ok (token_str k)) ->
  Forall2 (shows' fm (default_quoter fm) default_defaulter ev args kw) is segs -> Forall ok (concat segs).
Proof.
  intros P Q T L K H. induction H as [|i t is segs S H IH]; [constructor|]. cbn [concat]. apply Forall_app. split.
  - destruct i as [u|k]; [inversion S; subst; apply L; left; reflexivity|]. cbn [fields] in *.
    destruct (shows_quoted fm ev args kw k t (Q k (or_introl eq_refl)) S) as [(u & Fu & ->)|(N & ->)]; [|rewrite <- token_written; apply K; left; reflexivity].
    apply Forall_forall. intros c Hc. apply P. unfold json_quote in Hc. cbn [app] in Hc. destruct Hc as [<-|Hc]; [lia|]. apply in_app_or in Hc as [Hc|[<-|[]]]; [|lia].
    apply in_flat_map in Hc as (x & Hx & Hc). eapply quote_char_printable. exact Hc.
  - apply IH; intros; [apply Q|eapply T|apply L|apply K]; eauto; destruct i; cbn [fields]; auto; right; auto.
Qed.

(** *** The text of a field as a function *)
Definition said (d : defaulter_fn) (k : ftoken) : text := match d k with CRet t => t | _ => [] end.
Definition seg_text (fm : FM) q (d : defaulter_fn) ev args kw k : text :=
  match q k with
  | CRet (Some f) => match raw_segment fm ev args kw k with Some t => match f t with Some t' => t' | None => said d k end | None => said d k end
  | CRet None => match raw_segment fm ev args kw k with Some t => t | None => said d k end
  | _ => said d k
  end.
Lemma shows_seg_text (fm : FM) q d ev args kw i : (forall k, i = Fld k -> exists t, d k = CRet t) -> shows' fm q d ev args kw i (show_item (seg_text fm q d ev args kw) i).
Proof.
  intros D. destruct i as [u|k]; cbn [show_item]; [constructor|]. destruct (D k eq_refl) as (dt & Dk). unfold seg_text, said. rewrite Dk. destruct (q k) as [[f|]| |] eqn:Q.
    - destruct (raw_segment fm ev args kw k) as [t0|] eqn:R.
      + destruct (f t0) as [t1|] eqn:Ft; [apply shows_field; eapply quoted; [exact Q|apply formatted_raw; exact R|exact Ft]|].
        apply shows_default; [|exact Dk]. intros t' [Q' F|f' t2 Q' F Y]; [congruence|]. apply formatted_raw in F. congruence.
      + apply shows_default; [|exact Dk]. intros t' [Q' F|f' t2 Q' F Y]; apply formatted_raw in F; congruence.
    - destruct (raw_segment fm ev args kw k) as [t0|] eqn:R; [apply shows_field, unquoted; [exact Q|apply formatted_raw; exact R]|].
      apply shows_default; [|exact Dk]. intros t' [Q' F|f' t2 Q' F Y]; apply formatted_raw in F; congruence.
    - apply shows_default; [|exact Dk]. intros t' [Q' F|f' t2 Q' F Y]; congruence.
    - apply shows_default; [|exact Dk]. intros t' [Q' F|f' t2 Q' F Y]; congruence.
Qed.
Lemma shows_map (fm : FM) q d ev args kw is : (forall k, In (Fld k) is -> exists t, d k = CRet t) ->
  Forall2 (shows' fm q d ev args kw) is (map (show_item (seg_text fm q d ev args kw)) is).
Proof. induction is as [|i is IH]; intros D; constructor; [apply shows_seg_text; intros k ->; apply D; left; reflexivity|apply IH; intros; apply D; right; auto]. Qed.
Lemma shows_all (fm : FM) q d ev args kw is segs : (forall k, In (Fld k) is -> exists t, d k = CRet t) ->
  Forall2 (shows' fm q d ev args kw) is segs -> segs = map (show_item (seg_text fm q d ev args kw)) is.
Proof.
  intros D H. induction H as [|i t is segs S H IH]; [reflexivity|]. cbn [map]. f_equal; [|apply IH; intros; apply D; right; auto].
  eapply shows_functional; [exact S|]. apply shows_seg_text. intros k ->. apply D. left. reflexivity.
Qed.
Lemma compile_defaults (fm : FM) q d is cs : compile fm q d is = Some cs -> (forall k, d k <> CKeyError) -> forall k, In (Fld k) is -> exists t, d k = CRet t.
Proof.
  revert cs. induction is as [|i is IH]; intros cs H D k I; [destruct I|]. cbn [compile] in H. destruct (compile_item fm q d i) as [c|] eqn:C; [|discriminate]. destruct (compile fm q d is) as [cs'|]; [|discriminate].
  destruct I as [->|I]; [|eauto]. cbn [compile_item] in C. destruct (d k) as [t| |] eqn:X; [eauto|exfalso; eapply D; eauto|discriminate].
Qed.
(** However the pieces of the template are grouped. *)
Lemma render_template (fm : FM) q d template is cs ev args kw :
  make_formatter fm q d template = Some cs -> template_of template (flat is) -> (forall k, d k <> CKeyError) ->
  exists segs, render' fm ev args kw cs = Some (concat segs) /\ Forall2 (shows' fm q d ev args kw) is segs.
Proof.
  intros M T D. apply tokenize_complete in T as (is' & T & Ef). unfold make_formatter in M. rewrite T in M. destruct (render_shows fm q d is' cs ev args kw M D) as (segs & F & R).
  assert (D' := compile_defaults _ _ _ _ _ M D). exists (map (show_item (seg_text fm q d ev args kw)) is). split.
  - rewrite R. f_equal. rewrite (shows_all _ _ _ _ _ _ _ _ D' F). rewrite !assemble_flat, Ef. reflexivity.
  - apply shows_map. intros k I. apply D'. apply in_fields. rewrite fields_flat, Ef, <- fields_flat. apply in_fields. exact I.
Qed.
Lemma format_write (fm : FM) q ss is ev args kw : Forall good_seg ss -> meaning 0 ss is -> (forall k, q k <> CRaise) ->
  exists cs, make_formatter fm q default_defaulter (write ss) = Some cs /\
             render' fm ev args kw cs = Some (concat (map (show_item (seg_text fm q default_defaulter ev args kw)) is)).
Proof.
  intros P Me Q. pose proof (template_write ss is P Me) as T. destruct (tokenize_complete _ _ T) as (is' & T' & Ef). destruct (compile_default fm q is' Q) as (cs & C). exists cs.
  assert (M : make_formatter fm q default_defaulter (write ss) = Some cs) by (unfold make_formatter; rewrite T'; exact C). split; [exact M|].
  destruct (render_template fm q default_defaulter (write ss) is cs ev args kw M T ltac:(discriminate)) as (segs & R & F). rewrite R. f_equal. f_equal. apply shows_all; [intros k _; eexists; reflexivity|exact F].
Qed.
End P.

(** *** Characters of a template's tokens *)
Section Chars.
Context (ok : N -> Prop).
Lemma infer_chars n s : (forall c, digit c -> ok c) -> Forall ok s -> Forall ok (infer_positional n s).
Proof.
  intros D. remember (length s) as m eqn:Em. assert (L : (length s <= m)%nat) by lia. clear Em. revert n s L.
  induction m as [|m IH]; intros n s L H; destruct s as [|c s]; cbn [length] in L; try lia; try constructor.
  destruct s as [|d s]; cbn [infer_positional]; [exact H|]. inversion H as [|? ? H1 H2]; subst. inversion H2 as [|? ? H3 H4]; subst. cbn [length] in L.
  destruct ((c =? LB) && (d =? LB)) eqn:E1; [apply andb_true_iff in E1 as [E1 E2]; apply N.eqb_eq in E1, E2; rewrite E1 in H1; repeat (constructor; auto); apply IH; auto; lia|].
  destruct ((c =? RB) && (d =? RB)) eqn:E3; [apply andb_true_iff in E3 as [E3 E4]; apply N.eqb_eq in E3, E4; rewrite E3 in H1; repeat (constructor; auto); apply IH; auto; lia|].
  destruct ((c =? LB) && anon_follow d) eqn:E5.
  - apply andb_true_iff in E5 as [E5 E6]. apply N.eqb_eq in E5. rewrite E5 in H1. constructor; auto. apply Forall_app. split; [apply Forall_forall; intros x Hx; apply D; eapply decimal_digits; exact Hx|].
    constructor; auto. apply IH; auto; lia.
  - constructor; auto. apply (IH n (d :: s)); auto. cbn [length]. lia.
Qed.
Lemma scan_name_chars b s n t r : scan_name b s = Some (n, t, r) -> Forall ok s -> Forall ok n /\ ok t /\ Forall ok r.
Proof.
  revert b n t r. induction s as [|c s IH]; intros b n t r H F; cbn [scan_name] in H; [discriminate|]. inversion F as [|? ? F1 F2]; subst.
  assert (M : forall b', match scan_name b' s with Some (n, t, q) => Some (c :: n, t, q) | None => None end = Some (n, t, r) -> Forall ok n /\ ok t /\ Forall ok r).
  { intros b' X. destruct (scan_name b' s) as [[[n' t'] r']|] eqn:Y; [|discriminate]. injection X as <- <- <-. destruct (IH _ _ _ _ Y F2) as (A & B & C). auto. }
  destruct b; [eapply M; exact H|]. destruct (c =? LB); [discriminate|]. destruct (c =? 91); [eapply M; exact H|].
  destruct ((c =? RB) || (c =? 58) || (c =? 33)); [injection H as <- <- <-; auto|eapply M; exact H].
Qed.
Lemma scan_spec_chars d s n r : scan_spec d s = Some (n, r) -> Forall ok s -> Forall ok n /\ Forall ok r.
Proof.
  revert d n r. induction s as [|c s IH]; intros d n r H F; cbn [scan_spec] in H; [discriminate|]. inversion F as [|? ? F1 F2]; subst.
  assert (M : forall b', match scan_spec b' s with Some (n, q) => Some (c :: n, q) | None => None end = Some (n, r) -> Forall ok n /\ Forall ok r).
  { intros b' X. destruct (scan_spec b' s) as [[n' r']|] eqn:Y; [|discriminate]. injection X as <- <-. destruct (IH _ _ _ Y F2) as (A & B). auto. }
  destruct (c =? LB); [eapply M; exact H|]. destruct (c =? RB); [|eapply M; exact H]. destruct d; [injection H as <- <-; auto|eapply M; exact H].
Qed.
Definition tok_ok (k : ftoken) : Prop := Forall ok (tk_fname k) /\ Forall ok (tk_fspec k) /\ match tk_conv k with Some c => ok c | None => True end.
Lemma parse_field_chars s k r : parse_field s = Some (k, r) -> Forall ok s -> tok_ok k /\ Forall ok r.
Proof.
  unfold parse_field. intros H F. destruct (scan_name false s) as [[[n t] q]|] eqn:Y; [|discriminate]. destruct (scan_name_chars _ _ _ _ _ Y F) as (A & B & C).
  destruct (t =? RB); [injection H as <- <-; repeat split; auto; constructor|]. destruct (t =? 58).
  - destruct (scan_spec 0 q) as [[sp q']|] eqn:Z; [|discriminate]. injection H as <- <-. destruct (scan_spec_chars _ _ _ _ Z C). repeat split; auto.
  - destruct q as [|cv [|c2 r2]]; try discriminate. inversion C as [|? ? C1 C2]; subst. inversion C2 as [|? ? C3 C4]; subst.
    destruct (c2 =? RB); [injection H as <- <-; repeat split; auto; constructor|]. destruct (c2 =? 58); [|discriminate].
    destruct (scan_spec 0 r2) as [[sp q']|] eqn:Z; [|discriminate]. injection H as <- <-. destruct (scan_spec_chars _ _ _ _ Z C4). repeat split; auto.
Qed.
Lemma scan_lit_chars s l a : scan_lit s = (l, a) -> Forall ok s -> Forall ok l /\ match a with AEscape r | AField r => Forall ok r | _ => True end.
Proof.
  revert l a. induction s as [|c s IH]; intros l a H F; cbn [scan_lit] in H; [injection H as <- <-; auto|]. inversion F as [|? ? F1 F2]; subst.
  destruct ((c =? LB) || (c =? RB)).
  - destruct s as [|d s]; [injection H as <- <-; auto|]. inversion F2 as [|? ? F3 F4]; subst. destruct (d =? c); [injection H as <- <-; auto|]. destruct (c =? RB); injection H as <- <-; auto.
  - destruct (scan_lit s) as [l' a'] eqn:Y. injection H as <- <-. destruct (IH _ _ eq_refl F2). auto.
Qed.
Definition piece_ok (p : text * option ftoken) : Prop := Forall ok (fst p) /\ match snd p with Some k => tok_ok k | None => True end.
Lemma fparse_chars fuel s ps : fparse fuel s = Some ps -> Forall ok s -> Forall piece_ok ps.
Proof.
  revert s ps. induction fuel as [|fuel IH]; intros s ps H F; [discriminate|]. destruct s as [|c s]; [injection H as <-; constructor|]. rewrite fparse_S in H by discriminate.
  destruct (scan_lit (c :: s)) as [l a] eqn:Y. destruct (scan_lit_chars _ _ _ Y F) as (A & B). destruct a as [|r|r|]; [injection H as <-; repeat constructor; auto| | |discriminate].
  - destruct (fparse fuel r) as [ps'|] eqn:Z; [|discriminate]. injection H as <-. constructor; [split; auto; exact I|eauto].
  - destruct (parse_field r) as [[k r']|] eqn:W; [|discriminate]. destruct (parse_field_chars _ _ _ W B). destruct (fparse fuel r') as [ps'|] eqn:Z; [|discriminate]. injection H as <-. constructor; [split; auto|eauto].
Qed.
Definition item_ok (i : item) : Prop := match i with Lit t => Forall ok t | Fld k => tok_ok k end.
Lemma items_of_chars ps is : items_of ps = Some is -> Forall piece_ok ps -> Forall item_ok is.
Proof.
  revert is. induction ps as [|[l k] ps IH]; intros is H F; cbn [items_of] in H; [injection H as <-; constructor|]. inversion F as [|? ? F1 F2]; subst. destruct F1 as (F1 & F3). cbn [fst snd] in *.
  destruct (items_of ps) as [rest|]; [|discriminate]. specialize (IH _ eq_refl F2). destruct k as [k|].
  - destruct (parse (tk_fspec k)); [|discriminate]. injection H as <-. destruct l; [constructor; auto|]. constructor; [exact F1|]. constructor; auto.
  - injection H as <-. destruct l; [auto|]. constructor; auto.
Qed.
Lemma tokenize_chars s is : (forall c, digit c -> ok c) -> tokenize s = Some is -> Forall ok s -> Forall item_ok is.
Proof.
  intros D H F. unfold tokenize in H. destruct (parse (infer_positional 0 s)) as [ps|] eqn:P; [|discriminate]. eapply items_of_chars; [exact H|]. eapply fparse_chars; [exact P|]. apply infer_chars; auto.
Qed.
Lemma token_str_chars k : ok LB -> ok RB -> ok 33 -> ok 58 -> tok_ok k -> Forall ok (token_str k).
Proof.
  intros H1 H2 H3 H4 (A & B & C). unfold token_str. constructor; auto. apply Forall_app; split; auto. apply Forall_app; split; [destruct (tk_conv k); repeat constructor; auto|].
  apply Forall_app; split; [destruct (tk_fspec k); [constructor|constructor; auto]|repeat constructor; auto].
Qed.
End Chars.
