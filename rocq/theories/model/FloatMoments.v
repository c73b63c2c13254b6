(** Model of /repo/lithoxyl/moment.py and of the update of /repo/lithoxyl/ewma.py in the
    arithmetic they use: every result of a float operation is rounded by [rnd] (Moments.v and
    Ewma.v are in exact arithmetic).  [-0.0] is 0.

    Simplifications: no overflow, infinities or NaN; [x ** 2] is the rounded square; [x ** 0.5],
    [x ** 1.5] and [math.exp] are functions given as arguments. *)
From Verif Require Import model.PyBase model.Bisect model.Levels model.Quantile model.FloatStats.
Open Scope nat_scope.

Section Float.
Variable rnd : Q -> Q.
(** An int as a float. *)
Definition of_int (z : Z) : Q := rnd (inject_Z z).
(** MomentAccumulator.__init__, moment.py 24-31; [None] is +inf in [fm_min], -inf in [fm_max]. *)
Record fmoments := mkFMoments {
  fm_count : Z; fm_min : option Q; fm_max : option Q;
  fm_mean : Q; fm_m2 : Q; fm_m3 : Q; fm_m4 : Q
}.
(** __init__, moment.py 24-31 *)
Definition fm_new : fmoments := mkFMoments 0 None None 0 0 0 0.
(** The comparisons at moment.py 35-40. *)
Definition fm_extremes (s : fmoments) (v : Q) : option Q * option Q :=
  if match fm_max s with None => true | Some m => qlt m v end
  then ((if (fm_count s =? 0)%Z then Some v else fm_min s), Some v)
  else if match fm_min s with None => true | Some m => qlt v m end then (Some v, fm_max s)
  else (fm_min s, fm_max s).
(** MomentAccumulator.add, moment.py 33-56 *)
Definition fm_add (s : fmoments) (v : Q) : fmoments :=
  let '(mn, mx) := fm_extremes s v in
  let n := (fm_count s + 1)%Z in
  let m2 := fm_m2 s in let m3 := fm_m3 s in let m4 := fm_m4 s in
  let delta := rnd (v - fm_mean s)%Q in
  let delta_n := rnd (delta / of_int n)%Q in
  let delta_n2 := rnd (delta_n * delta_n)%Q in
  let term := rnd (rnd (delta * delta_n) * of_int (n - 1))%Q in
  mkFMoments n mn mx
    (rnd (fm_mean s + delta_n))%Q
    (rnd (m2 + term))%Q
    (rnd (rnd (m3 + rnd (rnd (term * delta_n) * of_int (n - 2))) - rnd (rnd (3 * delta_n) * m2)))%Q
    (rnd (rnd (rnd (m4 + rnd (rnd (term * delta_n2) * of_int (n ^ 2 - 3 * n + 3)))
            + rnd (rnd (6 * delta_n2) * m2)) - rnd (rnd (4 * delta_n) * m3)))%Q.
(** A sequence of add calls on a new accumulator. *)
Definition fm_adds (vs : list Q) : fmoments := fold_left fm_add vs fm_new.
(** Division, with ArithmeticError caught as in moment.py 68-71, 75-78 and 83-86. *)
Definition fdiv_or_zero (a b : Q) : Q := match fdiv rnd a b with Ok x => x | _ => 0%Q end.
(** variance, moment.py 67-71 *)
Definition fm_variance (s : fmoments) : Q := fdiv_or_zero (fm_m2 s) (of_int (fm_count s - 1)).
(** skewness, moment.py 74-78 ([root x] is x ** 0.5, [three_halves x] is x ** 1.5) *)
Definition fm_skewness (root three_halves : Q -> Q) (s : fmoments) : Q :=
  fdiv_or_zero (rnd (root (of_int (fm_count s)) * fm_m3 s))%Q (three_halves (fm_m2 s)).
(** kurtosis, moment.py 81-86 *)
Definition fm_kurtosis (s : fmoments) : Q := fdiv_or_zero (rnd (of_int (fm_count s) * fm_m4 s))%Q (rnd (fm_m2 s * fm_m2 s))%Q.

(** EWMAAccumulator, ewma.py 12-23: the interval, the rate map, [_uncounted], [_last_update]
    and [_force_next_update]; see Ewma.v. *)
Record fewma := mkFewma { fw_interval : Q; fw_rates : list (Q * option Q); fw_uncounted : Q; fw_last : Q; fw_force : bool }.
(** __init__, ewma.py 12-23, for distinct periods and a positive interval. *)
Definition fw_new (periods : list Q) (interval now : Q) : fewma := mkFewma interval (map (fun p => (p, None)) periods) 0 now true.
(** add, ewma.py 25-27 *)
Definition fw_add (s : fewma) (v : Q) : fewma :=
  mkFewma (fw_interval s) (fw_rates s) (rnd (fw_uncounted s + v))%Q (fw_last s) (fw_force s).
(** The body of the loop of _update, ewma.py 35-41; [fexp] is math.exp. *)
Definition fw_step (fexp : Q -> Q) (uncounted interval : Q) (e : Q * option Q) : pyres (Q * option Q) :=
  let? new_rate := fdiv rnd uncounted interval in
  match snd e with
  | None => Ok (fst e, Some new_rate)
  | Some rate =>
    let? x := fdiv rnd (- interval)%Q (fst e) in
    let alpha := rnd (1 - fexp x)%Q in
    Ok (fst e, Some (rnd (rate + rnd (alpha * rnd (new_rate - rate))))%Q)
  end.
(** The loop of _update, ewma.py 35-41. *)
Fixpoint fw_steps (fexp : Q -> Q) (uncounted interval : Q) (l : list (Q * option Q)) : pyres (list (Q * option Q)) :=
  match l with
  | [] => Ok []
  | e :: l' => let? e' := fw_step fexp uncounted interval e in let? r := fw_steps fexp uncounted interval l' in Ok (e' :: r)
  end.
(** _update, ewma.py 29-43 *)
Definition fw_update (fexp : Q -> Q) (now : Q) (s : fewma) : pyres fewma :=
  let? rates := fw_steps fexp (fw_uncounted s) (rnd (now - fw_last s))%Q (fw_rates s) in
  Ok (mkFewma (fw_interval s) rates 0 now (fw_force s)).
(** get_rates, ewma.py 45-52: [t1] is the clock at line 47, [t2] in [_update]. *)
Definition fw_read (fexp : Q -> Q) (t1 t2 : Q) (s : fewma) : pyres fewma :=
  if Qle_bool (fw_interval s) (rnd (t1 - fw_last s)) then fw_update fexp t2 s
  else if fw_force s then fw_update fexp t2 (mkFewma (fw_interval s) (fw_rates s) (fw_uncounted s) (fw_last s) false)
  else Ok s.
End Float.
