(** Template strings: [string.Formatter().parse] (CPython, Objects/stringlib/
    unicode_format.h MarkupIterator_next and parse_field) and
    [boltons.formatutils.tokenize_format_str], both external, used by
    /repo/lithoxyl/sensible.py 10-12 and 248.  Texts are lists of code points. *)
From Verif Require Import model.PyBase model.Json.
Open Scope N_scope.

(** The braces. *)
Definition LB : N := 123. Definition RB : N := 125.
(** A field of a template: name, format spec, conversion character. *)
Record ftoken := mkTok { tk_fname : text; tk_fspec : text; tk_conv : option N }.

(** [str(n)] for a number, by repeated division; the fuel bounds the digits. *)
Fixpoint decimal (fuel : nat) (n : N) : text :=
  match fuel with
  | O => []
  | S f => if n <? 10 then [48 + n] else decimal f (n / 10) ++ [48 + n mod 10]
  end.
(** [str(n)]. *)
Definition str_of_N (n : N) : text := decimal (S (N.to_nat (N.log2 n))) n.
(** boltons infer_positional_format_args: number the anonymous fields.  [n] is
    [max_anon]. *)
Definition anon_follow (c : N) : bool := (c =? 58) || (c =? 33) || (c =? 46) || (c =? 91) || (c =? RB).
(** boltons.formatutils.infer_positional_format_args (external). *)
Fixpoint infer_positional (n : N) (s : text) : text :=
  match s with
  | [] => []
  | c :: r =>
    match r with
    | d :: r' =>
      if (c =? LB) && (d =? LB) then LB :: LB :: infer_positional n r'
      else if (c =? RB) && (d =? RB) then RB :: RB :: infer_positional n r'
      else if (c =? LB) && anon_follow d then LB :: str_of_N n ++ d :: infer_positional (n + 1) r'
      else c :: infer_positional n r
    | [] => [c]
    end
  end.

(** parse_field: the field name up to a closing brace, a colon or an exclamation mark
    outside square brackets; None is ValueError. *)
Fixpoint scan_name (inbr : bool) (s : text) : option (text * N * text) :=
  match s with
  | [] => None
  | c :: r =>
    let more b := match scan_name b r with Some (n, t, q) => Some (c :: n, t, q) | None => None end in
    if inbr then more (negb (c =? 93))
    else if c =? LB then None
    else if c =? 91 then more true
    else if (c =? RB) || (c =? 58) || (c =? 33) then Some ([], c, r)
    else more false
  end.
(** parse_field: the format spec up to the matching closing brace *)
Fixpoint scan_spec (depth : nat) (s : text) : option (text * text) :=
  match s with
  | [] => None
  | c :: r =>
    let more d := match scan_spec d r with Some (n, q) => Some (c :: n, q) | None => None end in
    if c =? LB then more (S depth)
    else if c =? RB then match depth with O => Some ([], r) | S d => more d end
    else more depth
  end.
(** parse_field *)
Definition parse_field (s : text) : option (ftoken * text) :=
  match scan_name false s with
  | None => None
  | Some (name, c, r) =>
    if c =? RB then Some (mkTok name [] None, r)
    else if c =? 58 then match scan_spec 0 r with Some (sp, q) => Some (mkTok name sp None, q) | None => None end
    else
      match r with
      | cv :: c2 :: r2 =>
        if c2 =? RB then Some (mkTok name [] (Some cv), r2)
        else if c2 =? 58 then match scan_spec 0 r2 with Some (sp, q) => Some (mkTok name sp (Some cv), q) | None => None end
        else None
      | _ => None
      end
  end.
(** MarkupIterator_next, the literal: it ends at the end of the string, at a doubled
    brace (of which one belongs to the literal) or before a field. *)
Inductive after_lit := AEnd | AEscape (rest : text) | AField (rest : text) | AError.
(** The literal part of MarkupIterator_next (CPython). *)
Fixpoint scan_lit (s : text) : text * after_lit :=
  match s with
  | [] => ([], AEnd)
  | c :: r =>
    if (c =? LB) || (c =? RB) then
      match r with
      | [] => ([], AError)
      | d :: r' => if d =? c then ([c], AEscape r') else if c =? RB then ([], AError) else ([], AField r)
      end
    else let '(l, a) := scan_lit r in (c :: l, a)
  end.
(** [Formatter().parse]: literals, each followed by a field or not; None is
    ValueError.  The fuel only has to exceed the length. *)
Fixpoint fparse (fuel : nat) (s : text) : option (list (text * option ftoken)) :=
  match fuel with
  | O => None
  | S f =>
    match s with
    | [] => Some []
    | _ =>
      match scan_lit s with
      | (_, AError) => None
      | (l, AEnd) => Some [(l, None)]
      | (l, AEscape r) => match fparse f r with Some ps => Some ((l, None) :: ps) | None => None end
      | (l, AField r) =>
        match parse_field r with
        | None => None
        | Some (t, r') => match fparse f r' with Some ps => Some ((l, Some t) :: ps) | None => None end
        end
      end
    end
  end.
(** string.Formatter().parse (CPython). *)
Definition parse (s : text) : option (list (text * option ftoken)) := fparse (S (length s)) s.

(** Tokens of a template: string constants and fields. *)
Inductive item := Lit (t : text) | Fld (k : ftoken).
(** [tokenize_format_str]: empty literals are left out; a field whose spec does not
    parse raises ValueError (BaseFormatField.set_fspec). *)
Fixpoint items_of (ps : list (text * option ftoken)) : option (list item) :=
  match ps with
  | [] => Some []
  | (l, f) :: ps' =>
    match items_of ps' with
    | None => None
    | Some rest =>
      let lit r := match l with [] => r | _ => Lit l :: r end in
      match f with
      | None => Some (lit rest)
      | Some k => match parse (tk_fspec k) with None => None | Some _ => Some (lit (Fld k :: rest)) end
      end
    end
  end.
(** boltons.formatutils.tokenize_format_str (external). *)
Definition tokenize (s : text) : option (list item) :=
  match parse (infer_positional 0 s) with None => None | Some ps => items_of ps end.

(** BaseFormatField.set_fname: [base_name] is the name up to the first dot or
    bracket; a field is positional if it is empty or all digits (only ASCII digits
    here). *)
Fixpoint base_name (s : text) : text :=
  match s with
  | [] => []
  | c :: r => if (c =? 46) || (c =? 91) then [] else c :: base_name r
  end.
(** boltons.formatutils.BaseFormatField.is_positional (external). *)
Definition is_positional (k : ftoken) : bool := forallb (fun c => (48 <=? c) && (c <=? 57)) (base_name (tk_fname k)).
(** [int(text)] of ASCII digits, as str.format reads the number of a field *)
Definition int_of (t : text) : N := fold_left (fun a c => 10 * a + (c - 48)) t 0.
(** construct_format_field_str: [str(token)] *)
Definition token_str (k : ftoken) : text :=
  LB :: tk_fname k ++ (match tk_conv k with Some c => [33; c] | None => [] end) ++
  (match tk_fspec k with [] => [] | sp => 58 :: sp end) ++ [RB].
