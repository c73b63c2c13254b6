(** What a template is and what it means: the grammar of format strings, independent
    of the parser; used by C55, C58, C67. *)
From Verif Require Import model.PyBase model.Json model.Format.
Open Scope N_scope.

(** *** Numbers *)
Definition digit (c : N) : Prop := 48 <= c <= 57.
(** The number a digit string denotes, and the usual numeral of a number. *)
Fixpoint num (t : text) : N := match t with [] => 0 | c :: r => (c - 48) * 10 ^ N.of_nat (length r) + num r end.
Definition numeral (n : N) (t : text) : Prop :=
  num t = n /\ Forall digit t /\ (t = [48] \/ exists c r, t = c :: r /\ c <> 48).

(** *** The grammar *)
(** Field names: no braces, colons and exclamation marks outside square brackets,
    anything but a closing bracket inside. *)
Inductive name_ok : text -> Prop :=
| name_end : name_ok []
| name_char c n : ~ In c (lit "{}[:!") -> name_ok n -> name_ok (c :: n)
| name_index i n : ~ In 93 i -> name_ok n -> name_ok (91 :: i ++ 93 :: n).
(** Format specs: braces balanced. *)
Inductive balanced : text -> Prop :=
| bal_end : balanced []
| bal_char c t : c <> LB -> c <> RB -> balanced t -> balanced (c :: t)
| bal_nest a t : balanced a -> balanced t -> balanced (LB :: a ++ RB :: t).
Inductive conv_text : option N -> text -> Prop :=
| conv_none : conv_text None []
| conv_some c : conv_text (Some c) [33; c].
Inductive spec_text : text -> text -> Prop :=
| spec_none : spec_text [] []
| spec_some sp : balanced sp -> spec_text sp (58 :: sp).
(** A template is a sequence of characters, doubled braces and fields. *)
Inductive piece := Ch (c : N) | Field (k : ftoken).
Inductive markup : text -> list piece -> Prop :=
| mk_end : markup [] []
| mk_char c s ps : c <> LB -> c <> RB -> markup s ps -> markup (c :: s) (Ch c :: ps)
| mk_double c s ps : c = LB \/ c = RB -> markup s ps -> markup (c :: c :: s) (Ch c :: ps)
| mk_field name conv spec cv sp s ps : name_ok name -> conv_text conv cv -> spec_text spec sp -> markup s ps ->
    markup (LB :: name ++ cv ++ sp ++ RB :: s) (Field (mkTok name spec conv) :: ps).
(** Anonymous fields are numbered from [n] on; doubled braces do not start fields. *)
Inductive numbered : N -> text -> text -> Prop :=
| num_end n : numbered n [] []
| num_double n c s s' : c = LB \/ c = RB -> numbered n s s' -> numbered n (c :: c :: s) (c :: c :: s')
| num_anon n c s t s' : In c (lit ":!.[}") -> numeral n t -> numbered (n + 1) s s' -> numbered n (LB :: c :: s) (LB :: t ++ c :: s')
| num_char n c s s' :
    (c = LB -> forall d r, s = d :: r -> ~ In d (lit "{:!.[}")) -> (c = RB -> forall r, s <> RB :: r) ->
    numbered n s s' -> numbered n (c :: s) (c :: s').
(** The pieces a template consists of; the specs of its fields must be templates too. *)
Definition template_of (s : text) (ps : list piece) : Prop :=
  exists s', numbered 0 s s' /\ markup s' ps /\ forall k, In (Field k) ps -> exists qs, markup (tk_fspec k) qs.
Definition malformed (s : text) : Prop := forall ps, ~ template_of s ps.
(** How the parser reports the pieces: characters grouped. *)
Definition flat (is : list item) : list piece := flat_map (fun i => match i with Lit t => map Ch t | Fld k => [Field k] end) is.

(** *** Writing templates *)
(** A template as its author thinks of it: text to appear verbatim, a named field,
    the next positional field; fields with optional conversion and format spec. *)
Inductive tseg := TText (t : text) | TName (name : text) (conv : option N) (spec : text) | TNext (conv : option N) (spec : text).
(** Braces in verbatim text are doubled. *)
Fixpoint escape (t : text) : text :=
  match t with
  | [] => []
  | c :: r => if (c =? LB) || (c =? RB) then c :: c :: escape r else c :: escape r
  end.
Definition write_tail (conv : option N) (spec : text) : text :=
  (match conv with Some c => [33; c] | None => [] end) ++ (match spec with [] => [] | _ => 58 :: spec end) ++ [RB].
Definition write_seg (s : tseg) : text :=
  match s with
  | TText t => escape t
  | TName n cv sp => LB :: n ++ write_tail cv sp
  | TNext cv sp => LB :: write_tail cv sp
  end.
Definition write (ss : list tseg) : text := concat (map write_seg ss).
(** Names without braces that do not look anonymous, conversions and specs without
    braces. *)
Definition good_name (n : text) : Prop := name_ok n /\ ~ In LB n /\ exists c r, n = c :: r /\ ~ In c (lit ".[").
Definition good_tail (conv : option N) (spec : text) : Prop :=
  (forall c, conv = Some c -> c <> LB /\ c <> RB) /\ ~ In LB spec /\ ~ In RB spec.
Definition good_seg (s : tseg) : Prop :=
  match s with TText _ => True | TName n cv sp => good_name n /\ good_tail cv sp | TNext cv sp => good_tail cv sp end.
(** Names made of anything but braces, brackets, dots, colons and exclamation marks,
    and not a number. *)
Definition plain_char (c : N) : Prop := ~ In c (lit "{}[].:!").
Definition plain_name (n : text) : Prop := n <> [] /\ (forall c, In c n -> plain_char c) /\ exists c, In c n /\ ~ digit c.
(** A field as one writes it. *)
Definition as_written (k : ftoken) : text := write_seg (TName (tk_fname k) (tk_conv k) (tk_fspec k)).
(** The part of a field's name that selects the value: up to the first dot or opening
    bracket. *)
Definition base_of (name b : text) : Prop :=
  ~ In 46 b /\ ~ In 91 b /\ (name = b \/ exists c r, name = b ++ c :: r /\ In c (lit ".[")).
(** The fields meant, the positional ones numbered from [n] on. *)
Inductive meaning : N -> list tseg -> list item -> Prop :=
| mean_end n : meaning n [] []
| mean_text n t ss is : meaning n ss is -> meaning n (TText t :: ss) (Lit t :: is)
| mean_name n m cv sp ss is : meaning n ss is -> meaning n (TName m cv sp :: ss) (Fld (mkTok m sp cv) :: is)
| mean_next n t cv sp ss is : numeral n t -> meaning (n + 1) ss is -> meaning n (TNext cv sp :: ss) (Fld (mkTok t sp cv) :: is).
