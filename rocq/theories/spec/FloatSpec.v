(** Vocabulary for the statements about floating point arithmetic.  A finite float is a
    rational; infinities, NaN and overflow are left out. *)
From Coq Require Export QArith Qabs Qround Qpower.
From Verif Require Import model.PyBase model.Quantile.

(** The numbers with a significand of [p] bits and no bit below 2^emin. *)
Definition is_float (p emin : Z) (x : Q) : Prop :=
  exists m e, (Z.abs m < 2 ^ p)%Z /\ (emin <= e)%Z /\ (x == inject_Z m * (2 # 1) ^ e)%Q.
(** IEEE 754 binary64 (Python's float) and binary32 (array type code 'f'). *)
Definition double : Q -> Prop := is_float 53 (-1074).
Definition single : Q -> Prop := is_float 24 (-149).

(** [rnd] rounds to a nearest double; ties are broken in any way. *)
Definition to_nearest (rnd : Q -> Q) : Prop :=
  (forall x y, (x == y)%Q -> (rnd x == rnd y)%Q) /\
  (forall x, double (rnd x)) /\
  (forall x y, double y -> (Qabs (x - rnd x) <= Qabs (x - y))%Q).

(** The rounding of IEEE 754: to nearest, ties to even. *)
Definition exponent (x : Q) : Z :=
  let n := Z.abs (Qnum x) in
  let e := (Z.log2 n - Z.log2 (Zpos (Qden x)))%Z in
  if Qle_bool ((2 # 1) ^ e) (Qabs x) then e else (e - 1)%Z.
Definition half_even (x : Q) : Z :=
  let f := Qfloor x in
  let r := (x - inject_Z f)%Q in
  (if qlt r (1 # 2) then f else if qlt (1 # 2) r then f + 1 else if Z.even f then f else f + 1)%Z.
Definition round_even (p emin : Z) (x : Q) : Q :=
  if Qeq_bool x 0 then 0%Q
  else let e := Z.max emin (exponent x - (p - 1)) in
       Qred (inject_Z (half_even (x / (2 # 1) ^ e)) * (2 # 1) ^ e)%Q.
Definition rn64 : Q -> Q := round_even 53 (-1074).
Definition rn32 : Q -> Q := round_even 24 (-149).
