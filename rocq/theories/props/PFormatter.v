(** C66: per-event templates. *)
From Verif Require Import model.PyBase model.Json model.Format model.Sensible model.Formatter spec.JsonSpec spec.FormatSpec spec.FormatterSpec proof.DictLemmas proof.JsonProofs proof.TemplateProofs proof.FormatProofs.
From Verif Require Import props.PFormat.

Section C66.
Context {V E : Type} (vnone : V) (fmt_named : ftoken -> V -> option text) (fmt_nested : ftoken -> list V -> option text)
        (data_of : E -> list (text * V)) (fm : list (text * sfield V E)).
Notation shows := (shows vnone fmt_named fmt_nested data_of).
Notation line := (formatter_on vnone fmt_named fmt_nested data_of fm).

Lemma template_for_event base kw kind t : template_for base kw kind t <-> t = event_template (Some base) (dget String.eqb kind kw).
Proof.
  split; [intros [t0 E0|E0|E0]; rewrite E0; reflexivity|]. intros ->. destruct (dget String.eqb kind kw) as [[t|]|] eqn:E0; [apply TfOwn|apply TfNone|apply TfBase]; exact E0.
Qed.
Lemma made q d base kw kinds f kind : make_formatters fm q d base kw kinds = Some f -> In kind kinds ->
  exists cs, make_formatter fm q d (event_template base (dget String.eqb kind kw)) = Some cs /\ dget String.eqb kind f = Some cs.
Proof.
  revert f. induction kinds as [|k kinds IH]; intros f H; [intros []|]. cbn [make_formatters] in H.
  destruct (make_formatter fm q d (event_template base (dget String.eqb k kw))) as [cs|] eqn:Ec; [|discriminate]. destruct (make_formatters fm q d base kw kinds) as [f'|]; [|discriminate]. injection H as <-.
  cbn [dget]. intros I0. destruct (String.eqb_spec kind k) as [->|N]; [exists cs; split; [exact Ec|reflexivity]|]. destruct I0 as [->|I0]; [congruence|]. exact (IH f' eq_refl I0).
Qed.
Lemma not_made q d base kw kinds : make_formatters fm q d base kw kinds = None <-> exists kind, In kind kinds /\ make_formatter fm q d (event_template base (dget String.eqb kind kw)) = None.
Proof.
  induction kinds as [|k kinds IH]; cbn [make_formatters]; [split; [discriminate|intros (? & [] & _)]|].
  destruct (make_formatter fm q d (event_template base (dget String.eqb k kw))) as [cs|] eqn:Ec.
  - destruct (make_formatters fm q d base kw kinds) as [f'|]; split; try discriminate.
    + intros (kind & [->|I0] & H); [congruence|]. assert (X : Some f' = None) by (apply IH; exists kind; split; assumption). discriminate.
    + intros _. destruct (proj1 IH eq_refl) as (kind & I0 & H). exists kind. split; [right; exact I0|exact H].
    + reflexivity.
  - split; [|reflexivity]. intros _. exists k. split; [left; reflexivity|exact Ec].
Qed.

(** An event is rendered with the template given for its kind, else with the base template
    (how the pieces of a template are shown is C55 and C58). *)
Theorem C66_own_or_base : forall q base kw f, sensible_formatter fm q default_defaulter (Some base) kw = Some f ->
  forall kind t is ev, In kind ["begin"; "warn"; "end"; "comment"]%string -> template_for base kw kind t -> template_of t (flat is) ->
  exists segs, line f kind ev = Some (concat segs) /\ Forall2 (shows fm q default_defaulter ev [] []) is segs.
Proof.
  intros q base kw f H kind t is ev Ik T G. apply template_for_event in T. subst t.
  assert (Ie : In kind EVENTS) by (unfold EVENTS; cbn in Ik |- *; tauto). destruct (made _ _ _ _ _ _ _ H Ie) as (cs & M & D).
  unfold formatter_on. replace (existsb (String.eqb kind) ["begin"; "warn"; "end"; "comment"]%string) with true.
  - rewrite D. exact (C55_format_total vnone fmt_named fmt_nested data_of fm _ _ _ _ _ M G ltac:(discriminate) ev [] []).
  - symmetry. apply existsb_exists. exists kind. split; [exact Ik|apply String.eqb_refl].
Qed.
(** So None and the empty text given for a kind mean the empty line. *)
Theorem C66_empty_line : forall q base kw f, sensible_formatter fm q default_defaulter (Some base) kw = Some f ->
  forall kind ev, In kind ["begin"; "warn"; "end"; "comment"]%string ->
  dget String.eqb kind kw = Some None \/ dget String.eqb kind kw = Some (Some []) -> line f kind ev = Some [].
Proof.
  intros q base kw f H kind ev Ik D. assert (T : template_for base kw kind []) by (destruct D as [D|D]; [apply TfNone|apply TfOwn]; exact D).
  destruct (C66_own_or_base q base kw f H kind [] [] ev Ik T) as (segs & L & F); [apply C58_grammar; exists []; split; reflexivity|]. inversion F. subst segs. exact L.
Qed.
(** The constructor raises exactly if the template of some kind is malformed (also that for
    exception events, which no method uses). *)
Theorem C66_construction : forall base kw,
  sensible_formatter fm (default_quoter fm) default_defaulter (Some base) kw = None <->
  exists kind t, event_kind kind /\ template_for base kw kind t /\ malformed t.
Proof.
  intros base kw. unfold sensible_formatter. rewrite not_made. split.
  - intros (kind & I0 & H). exists kind, (event_template (Some base) (dget String.eqb kind kw)). split; [exact I0|]. split; [apply template_for_event; reflexivity|].
    apply malformed_iff. destruct (tokenize (event_template (Some base) (dget String.eqb kind kw))) as [is|] eqn:Et; [|reflexivity]. exfalso.
    destruct (proj2 (C55_only_malformed_fails vnone fmt_named fmt_nested data_of fm (event_template (Some base) (dget String.eqb kind kw)))) as (cs & Ec & _); [rewrite malformed_iff; congruence|congruence].
  - intros (kind & t & I0 & T & M). exists kind. split; [exact I0|]. apply template_for_event in T. subst t. exact (proj1 (C55_only_malformed_fails vnone fmt_named fmt_nested data_of fm _) M).
Qed.
(** Without a base template, events that have no template of their own get the line None. *)
Theorem C66_missing_base_refuted : forall q kw f, sensible_formatter fm q default_defaulter None kw = Some f ->
  forall kind ev, In kind ["begin"; "warn"; "end"; "comment"]%string -> dget String.eqb kind kw = None -> line f kind ev = Some (lit "None").
Proof.
  intros q kw f H kind ev Ik D. assert (Ie : In kind EVENTS) by (unfold EVENTS; cbn in Ik |- *; tauto). destruct (made _ _ _ _ _ _ _ H Ie) as (cs & M & Df). rewrite D in M.
  unfold formatter_on. replace (existsb (String.eqb kind) ["begin"; "warn"; "end"; "comment"]%string) with true by (symmetry; apply existsb_exists; exists kind; split; [exact Ik|apply String.eqb_refl]). rewrite Df.
  unfold event_template, base_template, make_formatter in M. replace (tokenize (lit "None")) with (Some [Lit (lit "None")]) in M by (vm_compute; reflexivity). injection M as <-. reflexivity.
Qed.
End C66.
(** A formatter with a base template, one of its own for warnings and none for comments. *)
Example C66_run : let fm := ex_fm in
  option_map (fun f => map (fun kind => formatter_on (lit "None") ex_named (fun _ _ => None) (fun e => e) fm f kind [(lit "x", lit "1")]) ["begin"; "warn"; "end"; "comment"]%string)
    (sensible_formatter fm (default_quoter fm) default_defaulter (Some (lit "[{x}]")) [("warn", Some (lit "W {x}")); ("comment", None)]%string) =
  Some [Some (lit "[""1""]"); Some (lit "W ""1"""); Some (lit "[""1""]"); Some []].
Proof. vm_compute. reflexivity. Qed.
Print Assumptions C66_own_or_base.
Print Assumptions C66_empty_line.
Print Assumptions C66_construction.
Print Assumptions C66_missing_base_refuted.
