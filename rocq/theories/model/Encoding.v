(** Model of the encodings behind emitters.py 62-68, 88-92 and 95 ([str.encode], CPython
    built-in) and of check_encoding_settings (utils.py 19-37).

    A text is a list of code points below 0x110000 (including lone surrogates, which a
    Python [str] may hold).  Modelled are the codecs utf-8, ascii, latin-1 and utf-16
    (native, little endian) and the error handlers strict, replace, ignore and
    backslashreplace. *)
From Verif Require Import model.PyBase model.Emitters.
Open Scope N_scope.

(** Codecs. *)
Inductive codec := Utf8 | Ascii | Latin1 | Utf16.
(** Error handlers. *)
Inductive handler := Strict | Replace | Ignore | Backslash.

(** 0xD800 .. 0xDFFF *)
Definition surrogate (c : N) : bool := (55296 <=? c) && (c <=? 57343).
(** The UTF-8 bytes of a code point that is not a surrogate. *)
Definition utf8_char (c : N) : bytes :=
  if c <? 128 then [c]
  else if c <? 2048 then [192 + c / 64; 128 + c mod 64]
  else if c <? 65536 then [224 + c / 4096; 128 + c / 64 mod 64; 128 + c mod 64]
  else [240 + c / 262144; 128 + c / 4096 mod 64; 128 + c / 64 mod 64; 128 + c mod 64].
(** A 16-bit unit, little endian. *)
Definition unit16 (u : N) : bytes := [u mod 256; u / 256].
(** The UTF-16 bytes of a code point that is not a surrogate. *)
Definition utf16_char (c : N) : bytes :=
  if c <? 65536 then unit16 c
  else unit16 (55296 + (c - 65536) / 1024) ++ unit16 (56320 + (c - 65536) mod 1024).
(** Can the codec represent the code point? *)
Definition encodes (k : codec) (c : N) : bool :=
  match k with Utf8 | Utf16 => negb (surrogate c) | Ascii => c <? 128 | Latin1 => c <? 256 end.
(** The bytes of a code point the codec can represent. *)
Definition code (k : codec) (c : N) : bytes :=
  match k with Utf8 => utf8_char c | Utf16 => utf16_char c | Ascii | Latin1 => [c] end.
(** A hexadecimal digit. *)
Definition hexdigit (d : N) : N := if d <? 10 then 48 + d else 87 + d.
(** The [n] lowest hexadecimal digits of a number. *)
Fixpoint hexdigits (n : nat) (c : N) : text :=
  match n with O => [] | S n' => hexdigits n' (c / 16) ++ [hexdigit (c mod 16)] end.
(** codecs.backslashreplace_errors for one code point: \xNN, \uNNNN or \UNNNNNNNN. *)
Definition escape (c : N) : text :=
  if c <? 256 then 92 :: 120 :: hexdigits 2 c
  else if c <? 65536 then 92 :: 117 :: hexdigits 4 c
  else 92 :: 85 :: hexdigits 8 c.
(** What the handler puts in place of a code point the codec cannot represent; None: it raises. *)
Definition handle (h : handler) (c : N) : option text :=
  match h with Strict => None | Replace => Some [63] | Ignore => Some [] | Backslash => Some (escape c) end.
(** One code point. *)
Definition encode_char (k : codec) (h : handler) (c : N) : option bytes :=
  if encodes k c then Some (code k c)
  else match handle h c with Some t => Some (flat_map (code k) t) | None => None end.
(** The code points of a text in turn. *)
Fixpoint encode_chars (k : codec) (h : handler) (t : text) : option bytes :=
  match t with
  | [] => Some []
  | c :: t' =>
    match encode_char k h c, encode_chars k h t' with
    | Some b, Some b' => Some (b ++ b')
    | _, _ => None
    end
  end.
(** [text.encode(encoding, errors)]: utf-16 puts a byte order mark in front of every result. *)
Definition encode (k : codec) (h : handler) (t : text) : option bytes :=
  match encode_chars k h t with
  | Some b => Some (match k with Utf16 => 255 :: 254 :: b | _ => b end)
  | None => None
  end.

(** What check_encoding_settings does. *)
Inductive checked := RaisedEncoding | RaisedHandler | Returned (r : option bool).
(** check_encoding_settings, utils.py 19-37
    [enc_ok]: the codec exists; [handler_ok]: the handler exists; [raises]: the handler
    raises when given a character (only strict does, of the standard ones). *)
Definition check_encoding_settings (enc_ok handler_ok raises reraise : bool) : checked :=
  if negb enc_ok then (if reraise then RaisedEncoding else Returned (Some false))      (* 20-26 *)
  else if negb handler_ok then (if reraise then RaisedHandler else Returned (Some false))   (* 27-34 *)
  else if raises then Returned (Some true)                                             (* 35-37 *)
  else Returned None.                                                                  (* end of function *)
