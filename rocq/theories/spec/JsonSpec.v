(** Vocabulary for C56. *)
From Verif Require Import model.PyBase model.Json.
Open Scope N_scope.

(** Unicode code points, surrogates, and texts without a high surrogate directly
    followed by a low one. *)
Definition code_point (c : N) : Prop := c < 1114112.
Definition is_high (c : N) : bool := (55296 <=? c) && (c <=? 56319).
Definition is_low (c : N) : bool := (56320 <=? c) && (c <=? 57343).
Fixpoint no_pair (t : text) : bool :=
  match t with
  | c :: t' => negb (is_high c && match t' with d :: _ => is_low d | [] => false end) && no_pair t'
  | [] => true
  end.
