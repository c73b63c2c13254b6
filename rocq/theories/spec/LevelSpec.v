(** Vocabulary for the statements about levels. *)
From Verif Require Import model.PyBase model.Levels.
From Coq Require Import Permutation Ascii.

(** The iteration order of a set is some permutation of its elements. *)
Definition any_order (f : list level -> list level) : Prop := forall l, Permutation (f l) l.

Definition distinct_levels (ls : list level) : Prop :=
  NoDup (map lv_name ls) /\ NoDup (map lv_value ls).

(** The keys under which a level can be looked up. *)
Definition aliases (l : level) : list lkey :=
  [KStr (lower (lv_name l)); KStr (upper (lv_name l)); KNum (lv_value l); KLev (lv_name l)].
(** The last level of [regs] having alias [k]. *)
Definition last_registered (k : lkey) (regs : list level) : option level :=
  find (fun l => existsb (lkey_eqb k) (aliases l)) (rev regs).

(** Letter case, by position in the alphabet. *)
Definition letters : list (ascii * ascii) :=
  combine (list_ascii_of_string "ABCDEFGHIJKLMNOPQRSTUVWXYZ") (list_ascii_of_string "abcdefghijklmnopqrstuvwxyz").
Definition small_letter (c : ascii) : ascii :=
  match find (fun p => Ascii.eqb (fst p) c) letters with Some p => snd p | None => c end.
Definition capital_letter (c : ascii) : ascii :=
  match find (fun p => Ascii.eqb (snd p) c) letters with Some p => fst p | None => c end.
Definition small (s : string) : string := string_of_list_ascii (map small_letter (list_ascii_of_string s)).
Definition capital (s : string) : string := string_of_list_ascii (map capital_letter (list_ascii_of_string s)).
(** Whether key [k] finds the level made by Level(name, value). *)
Definition finds (k : lkey) (nv : string * Z) : bool :=
  match k with
  | KStr s => String.eqb s (small (fst nv)) || String.eqb s (capital (fst nv))
  | KNum z => Z.eqb z (snd nv)
  | KLev s => String.eqb s (small (fst nv))
  end.

(** Number of registered levels below [l]. *)
Definition rank (regs : list level) (l : level) : nat :=
  length (filter (fun x => (lv_value x <? lv_value l)%Z) regs).

Definition sorted_by_value (ls : list level) : Prop :=
  forall i j a b, i < j -> nth_error ls i = Some a -> nth_error ls j = Some b -> (lv_value a <= lv_value b)%Z.
