(** Vocabulary for C84: reading decimal numbers. *)
From Coq Require Import QArith Qabs.
From Verif Require Import model.PyBase model.Json spec.TemplateSpec.
Open Scope N_scope.

(** A number without sign, and its value. *)
Inductive reads_unsigned : text -> Q -> Prop :=
| rd_int i : i <> [] -> Forall digit i -> reads_unsigned i (Z.of_N (num i) # 1)
| rd_frac i f : i <> [] -> f <> [] -> Forall digit i -> Forall digit f ->
    reads_unsigned (i ++ 46 :: f) (Z.of_N (num (i ++ f)) # Pos.pow 10 (Pos.of_nat (length f))).
(** A number, and its value. *)
Inductive reads : text -> Q -> Prop :=
| rd_plus t x : reads_unsigned t x -> reads t x
| rd_minus t x : reads_unsigned t x -> reads (45 :: t) (- x).
(** The text is a number which differs from [v] by at most half a unit of the [n]-th digit
    after the point. *)
Definition near (t : text) (v : Q) (n : positive) : Prop :=
  exists x, reads t x /\ (Qabs (x - v) <= 1 # (2 * 10 ^ n))%Q.
