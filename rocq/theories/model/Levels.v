(** Model of /repo/lithoxyl/common.py (levels). *)
From Verif Require Import model.PyBase.
From Coq Require Import Ascii.

(** [str.lower] / [str.upper], on ASCII letters only (other characters are left
    unchanged; Python also maps non-ASCII letters). *)
Definition lower_char (c : ascii) : ascii :=
  let n := N_of_ascii c in
  if (N.leb 65 n && N.leb n 90)%bool then ascii_of_N (n + 32) else c.
(** ASCII part of [str.upper]. *)
Definition upper_char (c : ascii) : ascii :=
  let n := N_of_ascii c in
  if (N.leb 97 n && N.leb n 122)%bool then ascii_of_N (n - 32) else c.
(** bookkeeping, no counterpart in /repo *)
Fixpoint map_string (f : ascii -> ascii) (s : string) : string :=
  match s with EmptyString => EmptyString | String c s' => String (f c) (map_string f s') end.
(** [str.lower] on ASCII, common.py 15, 55. *)
Definition lower := map_string lower_char.
(** [str.upper] on ASCII, common.py 56. *)
Definition upper := map_string upper_char.

(** [class Level], common.py 12-16: the name is lower-cased by [__init__].
    Values are integers.  Object identity is not modelled: every identity test
    in the class is implied by equality of [_value]. *)
Record level := mkLevelObj { lv_name : string; lv_value : Z }.
(** Level.__init__, common.py 14-16. *)
Definition Level (name : string) (value : Z) : level := mkLevelObj (lower name) value.

(** [__eq__], common.py 18-25.  [self.name == other] for another Level falls
    back to the reflected [other.__eq__(self.name)], which compares names. *)
Definition lv_eq (a b : level) : bool :=
  (lv_value a =? lv_value b)%Z || String.eqb (lv_name a) (lv_name b).
(** [__lt__], common.py 27-32 *)
Definition lv_lt (a b : level) : bool := (lv_value a <? lv_value b)%Z.
(** [total_ordering], common.py 12: derived from [__lt__] and [__eq__]. *)
Definition lv_gt (a b : level) : bool := negb (lv_lt a b) && negb (lv_eq a b).
(** [<=] by total_ordering, common.py 12. *)
Definition lv_le (a b : level) : bool := lv_lt a b || lv_eq a b.
(** [>=] by total_ordering, common.py 12. *)
Definition lv_ge (a b : level) : bool := negb (lv_lt a b).
(** [__hash__], common.py 37-38: a function of the name only. *)
Definition lv_hash (a : level) : string := lv_name a.

(** common.py 41-48 *)
Definition DEBUG := Level "debug" 20.
(** common.py 42 *)
Definition INFO := Level "info" 70.
(** common.py 43 *)
Definition CRITICAL := Level "critical" 90.
(** common.py 44 *)
Definition DEFAULT_LEVEL := DEBUG.
(** common.py 45 *)
Definition BUILTIN_LEVELS := [DEBUG; INFO; CRITICAL].
(** common.py 47 *)
Definition MIN_LEVEL := Level "_min" 0.
(** common.py 48 *)
Definition MAX_LEVEL := Level "_max" 100.

(** Keys of LEVEL_ALIAS_MAP: strings, numbers and Level objects.  Two Level
    keys are the same dict key when hash and [==] agree, i.e. when the names
    are equal; a string never finds a Level key (different hash). *)
Inductive lkey := KStr (s : string) | KNum (z : Z) | KLev (name : string).
(** Equality of keys of LEVEL_ALIAS_MAP (hash and [==], common.py 18-25, 37-38). *)
Definition lkey_eqb (a b : lkey) : bool :=
  match a, b with
  | KStr s, KStr t => String.eqb s t
  | KNum s, KNum t => Z.eqb s t
  | KLev s, KLev t => String.eqb s t
  | _, _ => false
  end.
(** A Level used as a key, common.py 58. *)
Definition level_key (l : level) : lkey := KLev (lv_name l).

(** LEVEL_ALIAS_MAP and LEVEL_LIST, common.py 62-63 *)
Record registry := mkReg { rg_map : list (lkey * level); rg_list : list level }.
(** common.py 62-63 *)
Definition empty_registry := mkReg [] [].

(** [set(...)] of Level objects: one per name (hash and [==]), the first met. *)
Fixpoint dedup (seen : list string) (ls : list level) : list level :=
  match ls with
  | [] => []
  | l :: ls' => if existsb (String.eqb (lv_name l)) seen then dedup seen ls'
                else l :: dedup (lv_name l :: seen) ls'
  end.
(** [sorted]: stable, by [__lt__]. *)
Fixpoint insert_level (x : level) (ls : list level) : list level :=
  match ls with
  | [] => [x]
  | y :: ls' => if lv_lt y x then y :: insert_level x ls' else x :: ls
  end.
(** [sorted], common.py 59. *)
Definition sort_levels (ls : list level) : list level := fold_right insert_level [] ls.

Section Registry.
(** Iteration order of a Python set: unspecified. *)
Variable set_order : list level -> list level.

(** [register_level], common.py 51-59; only Level objects (else TypeError). *)
Definition register_level (l : level) (rg : registry) : registry :=
  let m := rg_map rg in
  let m := dset lkey_eqb (KStr (lower (lv_name l))) l m in
  let m := dset lkey_eqb (KStr (upper (lv_name l))) l m in
  let m := dset lkey_eqb (KNum (lv_value l)) l m in
  let m := dset lkey_eqb (level_key l) l m in
  mkReg m (sort_levels (set_order (dedup [] (map snd m)))).

(** A sequence of register_level calls, common.py 64-67. *)
Definition register_all (ls : list level) (rg : registry) : registry :=
  fold_left (fun rg l => register_level l rg) ls rg.

(** Import time, common.py 64-67 *)
Definition import_registry : registry :=
  register_all ([MIN_LEVEL; MAX_LEVEL] ++ BUILTIN_LEVELS) empty_registry.

(** [get_level], common.py 71-72 *)
Definition get_level (rg : registry) (key : lkey) (default : level) : level :=
  match dget lkey_eqb key (rg_map rg) with Some l => l | None => default end.

(** [list.index]: first element equal (by [__eq__]); [None] is ValueError. *)
Fixpoint index_of (l : level) (ls : list level) : option nat :=
  match ls with
  | [] => None
  | x :: ls' => if lv_eq x l then Some 0 else option_map S (index_of l ls')
  end.
(** [list[i]] with Python's negative indices; [None] is IndexError. *)
Definition py_nth {A} (ls : list A) (i : Z) : option A :=
  let n := Z.of_nat (length ls) in
  if (i <? 0)%Z then (if (i + n <? 0)%Z then None else nth_error ls (Z.to_nat (i + n)))
  else nth_error ls (Z.to_nat i).

(** [get_next_level], common.py 75-79 *)
Definition get_next_level (rg : registry) (key : lkey) (delta : Z) : option level :=
  match index_of (get_level rg key DEFAULT_LEVEL) (rg_list rg) with
  | None => None
  | Some i => py_nth (rg_list rg) (Z.min (Z.of_nat i + delta) (Z.of_nat (length (rg_list rg)) - 1))
  end.
(** [get_prev_level], common.py 82-86 *)
Definition get_prev_level (rg : registry) (key : lkey) (delta : Z) : option level :=
  match index_of (get_level rg key DEFAULT_LEVEL) (rg_list rg) with
  | None => None
  | Some i => py_nth (rg_list rg) (Z.max (Z.of_nat i - Z.abs delta) 0)
  end.
End Registry.
