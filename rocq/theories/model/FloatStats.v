(** Model of the arithmetic of /repo/lithoxyl/quantile.py 90-102, 144-153 and
    /repo/lithoxyl/p_squared.py 54-87 as it is carried out: every result of a float operation
    is rounded by [rnd].  Quantile.v has the same functions in exact arithmetic (it is this
    model with [rnd] the identity).

    Simplifications: no overflow, infinities or NaN; counts and positions stay below 2^53, where
    ints are converted to floats without change and sums of positions are exact. *)
From Verif Require Import model.PyBase model.Bisect model.Levels model.Quantile.
Open Scope nat_scope.

Section Float.
Variable rnd : Q -> Q.
(** [/] on floats. *)
Definition fdiv (a b : Q) : pyres Q := let? x := qdiv a b in Ok (rnd x).
(** ReservoirAccumulator._get_quantile, quantile.py 144-153 *)
Definition fr_get_quantile (s : reservoir) (q : Q) : reservoir * pyres Q :=
  if negb (qlt 0 q && qlt q 1) then (s, ValueError)
  else
    let s := r_sort s in
    let data := r_data s in
    let n := Z.of_nat (length data) in
    let idx := rnd (q * inject_Z (n - 1))%Q in
    let idx_f := Qfloor idx in
    let idx_c := Qceiling idx in
    let ith i := match py_nth data i with Some x => Ok x | None => IndexError end in
    (s, if (idx_f =? idx_c)%Z then ith idx_f
        else let? a := ith idx_f in let? b := ith idx_c in
             Ok (rnd (rnd (a * rnd (inject_Z idx_c - idx)) + rnd (b * rnd (idx - inject_Z idx_f))))%Q).
(** get_quantiles of a ReservoirAccumulator, quantile.py 34-39 *)
Definition fr_get_quantiles := get_quantiles fr_get_quantile r_base.
(** iqr, quantile.py 94-97 *)
Definition fiqr {S} (gq : S -> Q -> S * pyres Q) (s : S) : S * pyres Q :=
  let '(s1, c) := gq s (3#4)%Q in
  let '(s2, a) := gq s1 (1#4)%Q in
  (s2, let? c := c in let? a := a in Ok (rnd (c - a))%Q).

(** One iteration of the loop at p_squared.py 71-87. *)
Definition fadjust (prev : Z) (q : Q) (lft cur rgt : marker) : pyres marker :=
  let '(ln, lq) := lft in
  let '(cn, cq) := cur in
  let '(rn, rq) := rgt in
  let d := qtrunc (rnd (rnd (rnd (inject_Z prev * q) + 1) - inject_Z cn))%Q in
  if (d =? 0)%Z then Ok cur
  else
    let d := (if 0 <? d then 1 else -1)%Z in
    if negb ((ln <? cn + d) && (cn + d <? rn))%Z then Ok cur
    else
      let? t := fdiv (inject_Z d) (inject_Z (rn - ln)) in
      let? a := fdiv (rnd (inject_Z (cn - ln + d) * rnd (rq - cq)))%Q (inject_Z (rn - cn)) in
      let? b := fdiv (rnd (inject_Z (rn - cn - d) * rnd (cq - lq)))%Q (inject_Z (cn - ln)) in
      let nq := rnd (cq + rnd (t * rnd (a + b)))%Q in
      if qlt lq nq && qlt nq rq then Ok ((cn + d)%Z, nq)
      else if (d =? 1)%Z then
        let? e := fdiv (rnd (rq - cq))%Q (inject_Z (rn - cn)) in Ok ((cn + d)%Z, rnd (cq + e)%Q)
      else
        let? e := fdiv (rnd (lq - cq))%Q (inject_Z (ln - cn)) in Ok ((cn + d)%Z, rnd (cq - e)%Q).
(** The loop, p_squared.py 71-87. *)
Fixpoint fquad_pass (prev : Z) (qs : list Q) (lft : marker) (l : list marker) : pyres (list marker) :=
  match l, qs with
  | cur :: ((rgt :: _) as l'), q :: qs' =>
    let? cur' := fadjust prev q lft cur rgt in
    let? rest := fquad_pass prev qs' cur' l' in
    Ok (cur' :: rest)
  | _, _ => Ok l
  end.
(** P2Estimator.add, p_squared.py 54-87 *)
Definition fp2_add (s : p2) (v : Q) : pyres p2 :=
  let prev := fst (last (p2_vals s) (0%Z, 0%Q)) in
  match p2_extremes v (p2_vals s) with
  | [] => IndexError
  | mn :: rest =>
    let? rest' := fquad_pass prev (tl (p2_qps s)) mn (back_pass v rest) in
    Ok (mkP2 (p2_qps s) (mn :: rest'))
  end.
(** A sequence of P2Estimator.add calls. *)
Fixpoint fp2_adds (s : p2) (vs : list Q) : pyres p2 :=
  match vs with [] => Ok s | v :: vs' => let? s1 := fp2_add s v in fp2_adds s1 vs' end.
(** P2Estimator.__init__, p_squared.py 17-37 *)
Definition fp2_new (q_points : list qpoint) (data : list Q) : pyres p2 :=
  let? qs := process_q_points q_points in
  let qps := 0%Q :: qs ++ [1%Q] in
  let k := length qps in
  if length data <? k then ValueError
  else fp2_adds (mkP2 qps (number_from 1 (qsort (firstn k data)))) (skipn k data).
End Float.
