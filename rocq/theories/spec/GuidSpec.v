(** Vocabulary for C59. *)
From Verif Require Import model.PyBase model.Json.
Open Scope N_scope.

(** The number a hexadecimal text stands for. *)
Definition digit_value (c : N) : N := if c <=? 57 then c - 48 else c - 87.
Definition hex_value (t : text) : N := fold_left (fun n c => 16 * n + digit_value c) t 0.
(** Lower-case hexadecimal digits *)
Definition hex_char (c : N) : Prop := 48 <= c <= 57 \/ 97 <= c <= 102.
(** String comparison, as Python's. *)
Fixpoint text_lt (a b : text) : Prop :=
  match a, b with
  | _, [] => False
  | [], _ :: _ => True
  | x :: a', y :: b' => x < y \/ (x = y /\ text_lt a' b')
  end.
