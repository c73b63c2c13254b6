(** [json.dumps] of a text, the default quoter (sensible.py 19), and [json.loads] of
    a JSON string.  CPython standard library code (json/encoder.py
    py_encode_basestring_ascii, json/decoder.py py_scanstring), modelled from its
    source.  A text is the list of its code points. *)
From Verif Require Import model.PyBase.
From Verif Require Export model.Emitters.
Open Scope N_scope.

(** A hexadecimal digit, lower case *)
Definition hexdigit (d : N) : N := if d <? 10 then 48 + d else 87 + d.
(** backslash, u and four hexadecimal digits *)
Definition u4 (n : N) : text := [92; 117; hexdigit (n / 4096 mod 16); hexdigit (n / 256 mod 16); hexdigit (n / 16 mod 16); hexdigit (n mod 16)].
(** Replacement of one character: ESCAPE_DCT and the [replace] function; the
    regular expression selects backslash, double quote and everything outside the
    range from space to tilde *)
Definition quote_char (c : N) : text :=
  if c =? 92 then [92; 92] else if c =? 34 then [92; 34]
  else if c =? 10 then [92; 110] else if c =? 13 then [92; 114] else if c =? 9 then [92; 116]
  else if c =? 12 then [92; 102] else if c =? 8 then [92; 98]
  else if (32 <=? c) && (c <=? 126) then [c]
  else if c <? 65536 then u4 c
  else let v := c - 65536 in u4 (55296 + v / 1024 mod 1024) ++ u4 (56320 + v mod 1024).
(** [json.dumps(t)] *)
Definition json_quote (t : text) : text := 34 :: flat_map quote_char t ++ [34].

(** [int(esc, 16)] of one digit *)
Definition unhex (c : N) : option N :=
  if (48 <=? c) && (c <=? 57) then Some (c - 48)
  else if (97 <=? c) && (c <=? 102) then Some (c - 87)
  else if (65 <=? c) && (c <=? 70) then Some (c - 55)
  else None.
(** _decode_uXXXX *)
Definition hex4 (a b c d : N) : option N :=
  match unhex a, unhex b, unhex c, unhex d with
  | Some x, Some y, Some z, Some w => Some (x * 4096 + y * 256 + z * 16 + w)
  | _, _, _, _ => None
  end.
(** BACKSLASH table *)
Definition unescape (c : N) : option N :=
  if c =? 34 then Some 34 else if c =? 92 then Some 92 else if c =? 47 then Some 47
  else if c =? 98 then Some 8 else if c =? 102 then Some 12 else if c =? 110 then Some 10
  else if c =? 114 then Some 13 else if c =? 116 then Some 9 else None.
(** py_scanstring (strict), after the opening quote: the text and what follows the
    closing quote; None is JSONDecodeError.  The fuel only has to be the length. *)
Fixpoint jscan (fuel : nat) (s : text) : option (text * text) :=
  match fuel with
  | O => None
  | S fuel' =>
    match s with
    | [] => None
    | c :: s1 =>
      if c =? 34 then Some ([], s1)
      else if c =? 92 then
        match s1 with
        | [] => None
        | e :: s2 =>
          if e =? 117 then
            match s2 with
            | a :: b :: c1 :: d :: s3 =>
              match hex4 a b c1 d with
              | None => None
              | Some uni =>
                let alone := match jscan fuel' s3 with Some (t, r) => Some (uni :: t, r) | None => None end in
                if (55296 <=? uni) && (uni <=? 56319) then
                  match s3 with
                  | b1 :: u1 :: s4 =>
                    if (b1 =? 92) && (u1 =? 117) then
                      match s4 with
                      | a2 :: b2 :: c2 :: d2 :: s5 =>
                        match hex4 a2 b2 c2 d2 with
                        | None => None
                        | Some uni2 =>
                          if (56320 <=? uni2) && (uni2 <=? 57343) then
                            match jscan fuel' s5 with
                            | Some (t, r) => Some (65536 + (uni - 55296) * 1024 + (uni2 - 56320) :: t, r)
                            | None => None
                            end
                          else alone
                        end
                      | _ => None
                      end
                    else alone
                  | _ => alone
                  end
                else alone
              end
            | _ => None
            end
          else
            match unescape e with
            | None => None
            | Some x => match jscan fuel' s2 with Some (t, r) => Some (x :: t, r) | None => None end
            end
        end
      else if c <? 32 then None
      else match jscan fuel' s1 with Some (t, r) => Some (c :: t, r) | None => None end
    end
  end.
(** Read a JSON string at the beginning of [s]. *)
Definition json_read (s : text) : option (text * text) :=
  match s with
  | c :: s1 => if c =? 34 then jscan (length s1) s1 else None
  | [] => None
  end.
(** [json.loads] of a text that is exactly one JSON string. *)
Definition json_loads (s : text) : option text :=
  match json_read s with Some (t, []) => Some t | _ => None end.
