(** What templates mean and what a rendered field looks like: C55, C57, C58, C66, C67. *)
From Verif Require Import model.PyBase model.Json model.Format spec.JsonSpec.
From Verif Require Export spec.TemplateSpec.
Open Scope N_scope.

(** *** Rendering *)
Section S.
Context {V E : Type} (vnone : V) (fmt_named : ftoken -> V -> option text) (fmt_nested : ftoken -> list V -> option text)
        (data_of : E -> list (text * V)).
Notation get := (dget text_eqb).
(** Where the value of a named field comes from.  None: computing it failed. *)
Inductive value_of (fm : list (text * sfield V E)) (kw : list (text * V)) (ev : E) (name : text) : option V -> Prop :=
| from_keyword v : get name kw = Some v -> value_of fm kw ev name (Some v)
| from_data v : get name kw = None -> get name (data_of ev) = Some v -> value_of fm kw ev name (Some v)
| from_getter v f : get name kw = None -> get name (data_of ev) = None -> get name fm = Some f ->
    fd_getter f ev = GVal v -> value_of fm kw ev name (Some v)
| getter_key_error f : get name kw = None -> get name (data_of ev) = None -> get name fm = Some f ->
    fd_getter f ev = GKeyError -> value_of fm kw ev name (Some vnone)
| getter_fails f : get name kw = None -> get name (data_of ev) = None -> get name fm = Some f ->
    fd_getter f ev = GOther -> value_of fm kw ev name None
| no_source : get name kw = None -> get name (data_of ev) = None -> get name fm = None ->
    value_of fm kw ev name (Some vnone).
(** A field without format spec uses that of the known field of its name. *)
Inductive effective (fm : list (text * sfield V E)) (k : ftoken) : ftoken -> Prop :=
| own_spec : tk_fspec k <> [] -> effective fm k k
| known_spec f : tk_fspec k = [] -> get (tk_fname k) fm = Some f -> effective fm k (mkTok (tk_fname k) (fd_fspec f) (tk_conv k))
| no_spec : tk_fspec k = [] -> get (tk_fname k) fm = None -> effective fm k k.
(** The field's text before quoting.  Fields without a name, or with a number for a
    name, are positional: their value is the positional argument of that number; a spec
    that itself contains fields takes what it needs from all the arguments. *)
Inductive formatted (fm : list (text * sfield V E)) (ev : E) (args : list V) (kw : list (text * V)) (k : ftoken) (t : text) : Prop :=
| by_position b k' v : base_of (tk_fname k) b -> Forall digit b -> effective fm k k' -> ~ In LB (tk_fspec k') ->
    nth_error args (N.to_nat (num b)) = Some v -> fmt_named k' v = Some t -> formatted fm ev args kw k t
| by_position_nested b k' : base_of (tk_fname k) b -> Forall digit b -> effective fm k k' -> In LB (tk_fspec k') ->
    fmt_nested k' args = Some t -> formatted fm ev args kw k t
| by_name b k' v : base_of (tk_fname k) b -> ~ Forall digit b -> effective fm k k' -> value_of fm kw ev b (Some v) ->
    fmt_named k' v = Some t -> formatted fm ev args kw k t.
(** What appears for a field when nothing fails: the text, quoted as the quoter says. *)
Inductive rendered (fm : list (text * sfield V E)) (q : quoter_fn) (ev : E) (args : list V) (kw : list (text * V)) (k : ftoken) (t : text) : Prop :=
| unquoted : q k = CRet None -> formatted fm ev args kw k t -> rendered fm q ev args kw k t
| quoted f t0 : q k = CRet (Some f) -> formatted fm ev args kw k t0 -> f t0 = Some t -> rendered fm q ev args kw k t.
(** Each piece of the line: literal, rendered field, or the default text of a field
    for which anything failed. *)
Inductive shows (fm : list (text * sfield V E)) (q : quoter_fn) (d : defaulter_fn) (ev : E) (args : list V) (kw : list (text * V)) : item -> text -> Prop :=
| shows_literal t : shows fm q d ev args kw (Lit t) t
| shows_field k t : rendered fm q ev args kw k t -> shows fm q d ev args kw (Fld k) t
| shows_default k t : (forall t', ~ rendered fm q ev args kw k t') -> d k = CRet t -> shows fm q d ev args kw (Fld k) t.
(** What a reader should get for a field: its text, or nothing if formatting failed. *)
Definition reads (fm : list (text * sfield V E)) (ev : E) (args : list V) (kw : list (text * V)) (k : ftoken) (v : option text) : Prop :=
  match v with
  | Some t => formatted fm ev args kw k t
  | None => forall t, ~ formatted fm ev args kw k t
  end.
End S.
Fixpoint fields (is : list item) : list ftoken :=
  match is with [] => [] | Lit _ :: r => fields r | Fld k :: r => k :: fields r end.
(** Texts JSON can represent faithfully. *)
Definition text_ok (t : text) : Prop := (forall c, In c t -> code_point c) /\ no_pair t = true.
(** Not one of the known fields declared with [quote=False] (or numeric). *)
Definition is_quoted {V E} (fm : list (text * sfield V E)) (k : ftoken) : Prop :=
  forall f, dget text_eqb (tk_fname k) fm = Some f -> fd_quote f = true.

(** The built-in fields shown without quotes: identifiers and fixed vocabularies,
    numbers, timestamps, the data map, and layout. *)
Definition UNQUOTED : list string :=
  ["action_guid"; "status_str"; "status_char"; "warn_char"; "level_name"; "level_name_upper"; "level_char"; "func_name"; "exc_type";
   "logger_id"; "action_id"; "level_number"; "line_number"; "process_id"; "parent_depth";
   "duration_s"; "duration_ms"; "duration_us"; "duration_auto"; "begin_timestamp"; "end_timestamp"; "import_delta_s"; "import_delta_ms";
   "iso_begin"; "iso_end"; "iso_begin_notz"; "iso_end_notz"; "iso_begin_local"; "iso_end_local"; "iso_begin_local_notz";
   "iso_end_local_notz"; "iso_begin_local_noms"; "iso_end_local_noms"; "iso_begin_local_noms_notz"; "iso_end_local_noms_notz";
   "data_map"; "data_map_repr"; "parent_depth_indent"]%string.

(** *** Reading a line back *)
Fixpoint strip_prefix (p s : text) : option text :=
  match p, s with
  | [], _ => Some s
  | x :: p', y :: s' => if x =? y then strip_prefix p' s' else None
  | _, [] => None
  end.
(** The reader knows the template, not the values: literals and default texts are
    skipped, a quoted text is read as a JSON string. *)
Fixpoint read_line (is : list item) (s : text) : option (list (option text)) :=
  match is with
  | [] => match s with [] => Some [] | _ => None end
  | Lit t :: is' => match strip_prefix t s with Some r => read_line is' r | None => None end
  | Fld k :: is' =>
    match json_read s with
    | Some (t, r) => match read_line is' r with Some vs => Some (Some t :: vs) | None => None end
    | None =>
      match strip_prefix (as_written k) s with
      | Some r => match read_line is' r with Some vs => Some (None :: vs) | None => None end
      | None => None
      end
    end
  end.
(** No line breaks. *)
Definition is_line (t : text) : Prop := forall c, In c t -> c <> 10 /\ c <> 13.
