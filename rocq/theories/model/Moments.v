(** Model of /repo/lithoxyl/moment.py in exact (real) arithmetic: float rounding
    is not modelled.  [-0.0] is 0. *)
From Coq Require Export Reals.
From Verif Require Import model.PyBase.
Open Scope R_scope.

(** MomentAccumulator.__init__, moment.py 24-31.  [None] is +inf in [mo_min]
    and -inf in [mo_max]. *)
Record moments := mkMoments {
  mo_count : nat; mo_min : option R; mo_max : option R;
  mo_mean : R; mo_m2 : R; mo_m3 : R; mo_m4 : R
}.
(** __init__, moment.py 24-31. *)
Definition mo_new : moments := mkMoments 0 None None 0 0 0 0.

(** The comparisons [val > self._max] and [val < self._min], moment.py 35-40. *)
Definition above_max (v : R) (mx : option R) : bool :=
  match mx with None => true | Some m => if Rlt_dec m v then true else false end.
(** [val < self._min], moment.py 39. *)
Definition below_min (v : R) (mn : option R) : bool :=
  match mn with None => true | Some m => if Rlt_dec v m then true else false end.

(** MomentAccumulator.add, moment.py 33-56. *)
Definition mo_add (s : moments) (v : R) : moments :=
  let '(mn, mx) :=
    if above_max v (mo_max s) then ((if Nat.eqb (mo_count s) 0 then Some v else mo_min s), Some v)
    else if below_min v (mo_min s) then (Some v, mo_max s)
    else (mo_min s, mo_max s) in
  let count := S (mo_count s) in
  let n := INR count in
  let m2 := mo_m2 s in let m3 := mo_m3 s in let m4 := mo_m4 s in
  let delta := v - mo_mean s in
  let delta_n := delta / n in
  let delta_n2 := delta_n ^ 2 in
  let term := delta * delta_n * (n - 1) in
  mkMoments count mn mx
    (mo_mean s + delta_n)
    (m2 + term)
    (m3 + term * delta_n * (n - 2) - 3 * delta_n * m2)
    (m4 + term * delta_n2 * (n ^ 2 - 3 * n + 3) + 6 * delta_n2 * m2 - 4 * delta_n * m3).
(** A sequence of add calls on a new accumulator. *)
Definition mo_adds (vs : list R) : moments := fold_left mo_add vs mo_new.

(** Division, with ZeroDivisionError (an ArithmeticError) caught as in moment.py
    69-70, 76-77 and 84-85. *)
Definition div_or_zero (a b : R) : R := if Req_EM_T b 0 then 0 else a / b.
(** [x ** y] for x >= 0 and y > 0. *)
Definition py_pow (x y : R) : R := if Req_EM_T x 0 then 0 else Rpower x y.
(** moment.py 67-71 *)
Definition mo_variance (s : moments) : R := div_or_zero (mo_m2 s) (INR (mo_count s) - 1).
(** moment.py 74-78 *)
Definition mo_skewness (s : moments) : R :=
  div_or_zero (py_pow (INR (mo_count s)) (1 / 2) * mo_m3 s) (py_pow (mo_m2 s) (3 / 2)).
(** moment.py 81-86 *)
Definition mo_kurtosis (s : moments) : R := div_or_zero (INR (mo_count s) * mo_m4 s) (mo_m2 s ^ 2).
(** moment.py 89-90 *)
Definition mo_std_dev (s : moments) : R := py_pow (mo_variance s) (1 / 2).
