(** Vocabulary for C81: reading bytes back. *)
From Verif Require Import model.PyBase model.Emitters model.Encoding.
Open Scope N_scope.

(** A continuation byte. *)
Definition cont (b : N) : bool := (128 <=? b) && (b <? 192).
(** The UTF-8 decoder of the Unicode standard (table 3-7: well-formed sequences), strict:
    None if the bytes are not well-formed. *)
Fixpoint decode_utf8 (bs : bytes) : option text :=
  match bs with
  | [] => Some []
  | a :: r =>
    if a <? 128 then match decode_utf8 r with Some t => Some (a :: t) | None => None end
    else if (194 <=? a) && (a <=? 223) then
      match r with
      | b :: r' => if cont b
                   then match decode_utf8 r' with Some t => Some ((a - 192) * 64 + (b - 128) :: t) | None => None end
                   else None
      | _ => None
      end
    else if (224 <=? a) && (a <=? 239) then
      match r with
      | b :: c :: r' => if cont b && cont c && negb ((a =? 224) && (b <? 160)) && negb ((a =? 237) && (160 <=? b))
                        then match decode_utf8 r' with Some t => Some ((a - 224) * 4096 + (b - 128) * 64 + (c - 128) :: t) | None => None end
                        else None
      | _ => None
      end
    else if (240 <=? a) && (a <=? 244) then
      match r with
      | b :: c :: d :: r' => if cont b && cont c && cont d && negb ((a =? 240) && (b <? 144)) && negb ((a =? 244) && (144 <=? b))
                             then match decode_utf8 r' with Some t => Some ((a - 240) * 262144 + (b - 128) * 4096 + (c - 128) * 64 + (d - 128) :: t) | None => None end
                             else None
      | _ => None
      end
    else None
  end.
(** Decoding utf-16 as Python does: the mark at the very beginning gives the byte order
    (only little endian here) and is dropped; a high surrogate must be followed by a low one. *)
Fixpoint decode_units (bs : bytes) : option text :=
  match bs with
  | [] => Some []
  | a :: b :: r =>
    let u := a + 256 * b in
    if (55296 <=? u) && (u <=? 56319) then
      match r with
      | c :: d :: r' =>
        let v := c + 256 * d in
        if (56320 <=? v) && (v <=? 57343)
        then match decode_units r' with Some t => Some (65536 + (u - 55296) * 1024 + (v - 56320) :: t) | None => None end
        else None
      | _ => None
      end
    else if (56320 <=? u) && (u <=? 57343) then None
    else match decode_units r with Some t => Some (u :: t) | None => None end
  | _ => None
  end.
Definition decode_utf16 (bs : bytes) : option text := match bs with 255 :: 254 :: r => decode_units r | _ => None end.
(** A Python text. *)
Definition is_text (t : text) : Prop := Forall (fun c => c < 1114112) t.
(** What a reader sees for a text: lone surrogates as \udXXX, everything else as it is. *)
Definition shown (t : text) : text := flat_map (fun c => if surrogate c then escape c else [c]) t.
(** No lone surrogates, 0xD800 to 0xDFFF. *)
Definition no_surrogates (t : text) : Prop := Forall (fun c => c < 55296 \/ 57343 < c) t.
(** Undoing backslash escapes: \xNN, \uNNNN and \UNNNNNNNN with lower-case digits; None
    for any other backslash. *)
Definition unhex (d : N) : option N :=
  if (48 <=? d) && (d <=? 57) then Some (d - 48) else if (97 <=? d) && (d <=? 102) then Some (d - 87) else None.
Fixpoint hex_value (acc : N) (ds : text) : option N :=
  match ds with [] => Some acc | d :: ds' => match unhex d with Some v => hex_value (acc * 16 + v) ds' | None => None end end.
Definition and_then (v : option N) (r : option text) : option text :=
  match v, r with Some x, Some t => Some (x :: t) | _, _ => None end.
Fixpoint unescape (t : text) : option text :=
  match t with
  | [] => Some []
  | c :: r =>
    if c =? 92 then
      match r with
      | k :: a :: b :: r2 =>
        if k =? 120 then and_then (hex_value 0 [a; b]) (unescape r2)
        else match r2 with
             | c :: d :: r4 =>
               if k =? 117 then and_then (hex_value 0 [a; b; c; d]) (unescape r4)
               else match r4 with
                    | e :: f :: g :: h :: r8 => if k =? 85 then and_then (hex_value 0 [a; b; c; d; e; f; g; h]) (unescape r8) else None
                    | _ => None
                    end
             | _ => None
             end
      | _ => None
      end
    else and_then (Some c) (unescape r)
  end.
(** Decoding ascii (strict) and latin-1. *)
Definition decode_ascii7 (bs : bytes) : option text := if forallb (fun b => b <? 128) bs then Some bs else None.
Definition decode_latin1 (bs : bytes) : option text := if forallb (fun b => b <? 256) bs then Some bs else None.
Definition decode (k : codec) (bs : bytes) : option text :=
  match k with Utf8 => decode_utf8 bs | Ascii => decode_ascii7 bs | Latin1 => decode_latin1 bs | Utf16 => decode_utf16 bs end.
(** [text.split('\n')] on a text that ends with a newline, without the empty last part. *)
Fixpoint split_lines (cur : text) (t : text) : list text :=
  match t with
  | [] => []
  | c :: t' => if c =? 10 then cur :: split_lines [] t' else split_lines (cur ++ [c]) t'
  end.
