(** Model of /repo/lithoxyl/sensible.py 142-313 and 401-525 (fields and formatters)
    and of Event.message, /repo/lithoxyl/action.py 307-321. *)
From Verif Require Import model.PyBase model.Json.
From Verif Require Export model.Template.
From Coq Require Import Ascii.
Open Scope N_scope.

(** ASCII literal as a text *)
Fixpoint lit (s : string) : text :=
  match s with EmptyString => [] | String c s' => N_of_ascii c :: lit s' end.
(** [==] on texts. *)
Fixpoint text_eqb (a b : text) : bool :=
  match a, b with
  | [], [] => true
  | x :: a', y :: b' => (x =? y) && text_eqb a' b'
  | _, _ => false
  end.

(** SensibleField.__init__, 407-417: without [quote] a field is quoted unless the
    last character of its spec is one of the numeric type characters of boltons'
    _TYPE_MAP. *)
Definition numeric_char (c : N) : bool := existsb (N.eqb c) (lit "bcdoxXneEfFgG%").
(** SensibleField.__init__, sensible.py 413-417: numeric fields are not quoted unless asked for. *)
Definition field_quote (fspec : text) (quote : option bool) : bool :=
  match quote with
  | Some b => b
  | None => match rev fspec with c :: _ => negb (numeric_char c) | [] => true end
  end.

Section Fmt.
(** Field values, events; [None] as a value. *)
Context {V E : Type} (vnone : V).
(** What calling a getter does: a value, KeyError, or another exception. *)
Inductive gres := GVal (v : V) | GKeyError | GOther.
(** SensibleField, sensible.py 401-417. *)
Record sfield := mkField { fd_name : text; fd_fspec : text; fd_quote : bool; fd_getter : E -> gres }.
(** [_SF(fname, fspec, getter, quote=...)] *)
Definition make_field (name fspec : text) (quote : option bool) (g : E -> gres) : sfield :=
  mkField name fspec (field_quote fspec quote) g.
(** [t.fstr.format( **{name: value})]: Python's own formatting of a value through the
    attributes, conversion and spec of a field; None means that it raised.
    [fmt_nested] is [t.fstr.format( *args)] for a spec that contains fields. *)
Variable fmt_named : ftoken -> V -> option text.
Variable fmt_nested : ftoken -> list V -> option text.
(** [t.fstr.format( *args)], 291: the argument of the field's number, formatted;
    IndexError if there is none.  (Numbers too large for CPython fail as well.) *)
Definition fmt_pos (k : ftoken) (args : list V) : option text :=
  if existsb (N.eqb LB) (tk_fspec k) then fmt_nested k args
  else match nth_error args (N.to_nat (int_of (base_name (tk_fname k)))) with Some v => fmt_named k v | None => None end.
(** [event.action.data_map] *)
Variable data_of : E -> list (text * V).

(** [dict([(f.fname, f) ...])] over builtin fields updated with extra fields, 240-245 *)
Definition field_map (builtins extra : list sfield) : list (text * sfield) :=
  dupdate text_eqb (dupdate text_eqb [] (map (fun f => (fd_name f, f)) builtins)) (map (fun f => (fd_name f, f)) extra).

(** GetterDict.__getitem__: the keyword arguments, then __missing__ 153-161.
    None: an exception left it. *)
Definition resolve (fm : list (text * sfield)) (kw : list (text * V)) (ev : E) (name : text) : option V :=
  match dget text_eqb name kw with
  | Some v => Some v
  | None =>
    match dget text_eqb name (data_of ev) with
    | Some v => Some v
    | None =>
      match dget text_eqb name fm with
      | None => Some vnone
      | Some f => match fd_getter f ev with GVal v => Some v | GKeyError => Some vnone | GOther => None end
      end
    end
  end.

(** Entries of quoter_map and default_map for one token; missing if the constructor
    ran into a KeyError before setting them. *)
Inductive qentry := QMissing | QNone | QFun (f : text -> option text).
(** What calling a user's quoter or defaulter on a token does. *)
Inductive called (A : Type) := CRet (a : A) | CKeyError | CRaise.
Arguments CRet {A}. Arguments CKeyError {A}. Arguments CRaise {A}.
(** The formatter's quoter, sensible.py 227-234, 259. *)
Definition quoter_fn := ftoken -> called (option (text -> option text)).
(** The formatter's defaulter, sensible.py 235-238, 258. *)
Definition defaulter_fn := ftoken -> called text.
(** _default_defaulter, 302-303 *)
Definition default_defaulter : defaulter_fn := fun k => CRet (token_str k).
(** _default_quoter, 305-311 *)
Definition default_quoter (fm : list (text * sfield)) : quoter_fn := fun k =>
  match dget text_eqb (tk_fname k) fm with
  | Some f => if fd_quote f then CRet (Some (fun t => Some (json_quote t))) else CRet None
  | None => CRet (Some (fun t => Some (json_quote t)))
  end.
(** [quoter=False], 227-229 *)
Definition no_quoter : quoter_fn := fun _ => CRet None.

(** A token ready for rendering. *)
Inductive citem := CLit (t : text) | CFld (k : ftoken) (default : option text) (q : qentry).
(** Body of the constructor's loop, 251-264; None: another exception left the
    constructor. *)
Definition compile_item (fm : list (text * sfield)) (q : quoter_fn) (d : defaulter_fn) (i : item) : option citem :=
  match i with
  | Lit t => Some (CLit t)
  | Fld k =>
    match d k with
    | CRaise => None
    | CKeyError => Some (CFld k None QMissing)
    | CRet dt =>
      match q k with
      | CRaise => None
      | CKeyError => Some (CFld k (Some dt) QMissing)
      | CRet qf =>
        let k' := match tk_fspec k with
                  | [] => match dget text_eqb (tk_fname k) fm with
                          | Some f => mkTok (tk_fname k) (fd_fspec f) (tk_conv k)
                          | None => k
                          end
                  | _ => k
                  end in
        Some (CFld k' (Some dt) (match qf with Some f => QFun f | None => QNone end))
      end
    end
  end.
(** The loop over the tokens in __init__, sensible.py 251-265. *)
Fixpoint compile (fm : list (text * sfield)) (q : quoter_fn) (d : defaulter_fn) (is : list item) : option (list citem) :=
  match is with
  | [] => Some []
  | i :: is' =>
    match compile_item fm q d i with
    | None => None
    | Some c => match compile fm q d is' with None => None | Some cs => Some (c :: cs) end
    end
  end.
(** SensibleMessageFormatter.__init__, 221-265; None: it raised (malformed template,
    or a raising quoter or defaulter). *)
Definition make_formatter (fm : list (text * sfield)) (q : quoter_fn) (d : defaulter_fn) (template : text) : option (list citem) :=
  match tokenize template with None => None | Some is => compile fm q d is end.

(** The try block of format, 290-297: None if something in it raised. *)
Definition field_segment (fm : list (text * sfield)) (ev : E) (args : list V) (kw : list (text * V)) (k : ftoken) (q : qentry) : option text :=
  let seg := if is_positional k then fmt_pos k args
             else match resolve fm kw ev (base_name (tk_fname k)) with None => None | Some v => fmt_named k v end in
  match seg with
  | None => None
  | Some t => match q with QMissing => None | QNone => Some t | QFun f => f t end
  end.
(** format, 270-300; None: it raised (no default text: KeyError at 299). *)
Fixpoint render (fm : list (text * sfield)) (ev : E) (args : list V) (kw : list (text * V)) (cs : list citem) : option text :=
  match cs with
  | [] => Some []
  | c :: cs' =>
    let seg :=
      match c with
      | CLit t => Some t
      | CFld k d q => match field_segment fm ev args kw k q with Some t => Some t | None => d end
      end in
    match seg with
    | None => None
    | Some t => match render fm ev args kw cs' with None => None | Some r => Some (t ++ r) end
    end
  end.

(** Event.message, action.py 307-321, with the cached [_message] (empty: none yet):
    the result (None: an exception) and the new cache.  [raw] is a text: it passed
    through [to_unicode]. *)
Definition event_message (fm : list (text * sfield)) (ev : E) (raw : text) (fargs : list V) (cache : text) : option text * text :=
  match cache with
  | _ :: _ => (Some cache, cache)
  | [] =>
    if negb (existsb (N.eqb LB) raw) then (Some raw, raw)
    else
      match make_formatter fm no_quoter default_defaulter raw with
      | None => (None, [])
      | Some cs => match render fm ev fargs [] cs with None => (None, []) | Some t => (Some t, t) end
      end
  end.
End Fmt.
Arguments CRet {A}. Arguments CKeyError {A}. Arguments CRaise {A}.
Arguments gres : clear implicits. Arguments sfield : clear implicits.
Arguments GVal {V}. Arguments GKeyError {V}. Arguments GOther {V}.

(** The built-in fields, 431-525: name, format spec, explicit [quote]. *)
Definition BUILTIN_FIELDS : list (string * string * option bool) :=
  [("logger_name", "s", None); ("logger_id", "d", None); ("action_name", "s", None); ("action_id", "d", None);
   ("action_guid", "s", Some false); ("status_str", "s", Some false); ("status_char", "s", Some false); ("warn_char", "s", Some false);
   ("level_name", "s", Some false); ("level_name_upper", "s", Some false); ("level_char", "s", Some false); ("level_number", "d", None);
   ("data_map", "s", Some false); ("data_map_repr", "s", Some false); ("begin_message", "s", None); ("begin_message_raw", "s", None);
   ("end_message", "s", None); ("end_message_raw", "s", None); ("event_message", "s", None); ("event_message_raw", "s", None);
   ("begin_timestamp", ".14g", None); ("end_timestamp", ".14g", None); ("duration_s", ".3f", None); ("duration_ms", ".3f", None);
   ("duration_us", ".3f", None); ("duration_auto", ">9s", Some false); ("module_name", "s", None); ("module_path", "s", None);
   ("func_name", "s", Some false); ("line_number", "d", None); ("exc_type", "s", Some false); ("exc_message", "s", None);
   ("exc_tb_str", "s", None); ("exc_tb_list", "s", None); ("process_id", "d", None);
   ("parent_depth", "d", None); ("parent_depth_indent", "s", Some false);
   ("iso_begin", "s", Some false); ("iso_end", "s", Some false); ("iso_begin_notz", "s", Some false); ("iso_end_notz", "s", Some false);
   ("iso_begin_local", "s", Some false); ("iso_end_local", "s", Some false); ("iso_begin_local_notz", "s", Some false);
   ("iso_end_local_notz", "s", Some false); ("iso_begin_local_noms", "s", Some false); ("iso_end_local_noms", "s", Some false);
   ("iso_begin_local_noms_notz", "s", Some false); ("iso_end_local_noms_notz", "s", Some false);
   ("import_delta_s", "0.6f", None); ("import_delta_ms", "0.4f", None)]%string.
(** BUILTIN_FIELD_MAP with the given getters *)
Definition builtin_fields {V E} (getter : string -> E -> gres V) : list (sfield V E) :=
  map (fun x => match x with (n, s, q) => make_field (lit n) (lit s) q (getter n) end) BUILTIN_FIELDS.
