(** Model of /repo/lithoxyl/quantile.py and /repo/lithoxyl/p_squared.py over the
    rationals: every finite float is a rational, but the rounding of float
    additions, multiplications and divisions is not modelled.  Rounding of
    stored values to single precision (array type code 'f') is modelled by a
    parameter [rnd]. *)
From Coq Require Export QArith Qround Qabs.
From Verif Require Import model.PyBase model.Bisect model.Levels.
Open Scope nat_scope.

(** A result or one of the exceptions of the modelled code. *)
Inductive pyres (A : Type) := Ok (a : A) | ValueError | IndexError | ZeroDivisionError.
Arguments Ok {A} a. Arguments ValueError {A}. Arguments IndexError {A}. Arguments ZeroDivisionError {A}.
(** What follows a raise is not executed. *)
Definition rbind {A B} (x : pyres A) (f : A -> pyres B) : pyres B :=
  match x with Ok a => f a | ValueError => ValueError | IndexError => IndexError | ZeroDivisionError => ZeroDivisionError end.
Notation "'let?' x ':=' e1 'in' e2" := (rbind e1 (fun x => e2)) (at level 200, x name, e1 at level 100, e2 at level 200).

(** Python built-ins: strict comparison, [sorted] (stable), [int()] of a float
    (truncation), [/]. *)
Definition qlt (a b : Q) : bool := negb (Qle_bool b a).
(** bookkeeping, no counterpart in /repo *)
Fixpoint qinsert (x : Q) (l : list Q) : list Q :=
  match l with
  | [] => [x]
  | y :: l' => if qlt x y then x :: l else y :: qinsert x l'
  end.
(** [sorted] on numbers. *)
Definition qsort (l : list Q) : list Q := fold_left (fun acc x => qinsert x acc) l [].
(** [int] of a float. *)
Definition qtrunc (x : Q) : Z := Z.quot (Qnum x) (Zpos (Qden x)).
(** [/] on floats. *)
Definition qdiv (a b : Q) : pyres Q := if Qeq_bool b 0 then ZeroDivisionError else Ok (a / b)%Q.

(** ** BaseQuantileAccumulator, quantile.py 20-32.
    [None] is +inf in [b_min] and -inf in [b_max]. *)
Record base := mkBase { b_count : nat; b_min : option Q; b_max : option Q }.
(** BaseQuantileAccumulator.__init__, quantile.py 21-25. *)
Definition base_new : base := mkBase 0 None None.
(** BaseQuantileAccumulator.add, quantile.py 27-32. *)
Definition base_add (b : base) (v : Q) : base :=
  mkBase (S (b_count b))
    (match b_min b with None => Some v | Some m => if qlt v m then Some v else Some m end)
    (match b_max b with None => Some v | Some m => if qlt m v then Some v else Some m end).

(** ** ReservoirAccumulator, quantile.py 105-157.  [cap = None] is no cap;
    negative caps behave like 0.  The result of [random.randint(0, count)] is an
    argument of [r_add]. *)
Record reservoir := mkRes { r_base : base; r_data : list Q; r_sorted : bool; r_cap : option nat }.
(** 106-116 *)
Definition r_new (cap : option nat) : reservoir := mkRes base_new [] true cap.
(** [self._count < self._cap], quantile.py 111-116, 131. *)
Definition below_cap (n : nat) (cap : option nat) : bool :=
  match cap with None => true | Some c => n <? c end.
(** 130-142 *)
Definition r_add (rnd : Q -> Q) (draw : nat) (s : reservoir) (v : Q) : pyres reservoir :=
  if below_cap (b_count (r_base s)) (r_cap s) then
    Ok (mkRes (base_add (r_base s) v) (r_data s ++ [rnd v]) false (r_cap s))
  else if below_cap draw (r_cap s) then
    if draw <? length (r_data s) then
      Ok (mkRes (base_add (r_base s) v) (replace_at draw (rnd v) (r_data s)) false (r_cap s))
    else IndexError
  else Ok s.
(** 121-128 *)
Definition r_sort (s : reservoir) : reservoir :=
  if r_sorted s then s else mkRes (r_base s) (qsort (r_data s)) true (r_cap s).
(** 144-153; the sort is a side effect. *)
Definition r_get_quantile (s : reservoir) (q : Q) : reservoir * pyres Q :=
  if negb (qlt 0 q && qlt q 1) then (s, ValueError)
  else
    let s := r_sort s in
    let data := r_data s in
    let n := Z.of_nat (length data) in
    let idx := (q * inject_Z (n - 1))%Q in
    let idx_f := Qfloor idx in
    let idx_c := Qceiling idx in
    let ith i := match py_nth data i with Some x => Ok x | None => IndexError end in
    (s, if (idx_f =? idx_c)%Z then ith idx_f
        else let? a := ith idx_f in let? b := ith idx_c in
             Ok (a * (inject_Z idx_c - idx) + b * (idx - inject_Z idx_f))%Q).
(** 155-157 *)
Definition r_iter (s : reservoir) : reservoir * list Q := let s := r_sort s in (s, r_data s).

(** ** get_quantiles and get_histogram, quantile.py 34-67, for any accumulator
    given by its [_get_quantile].  The min and max entries are [None] when
    infinite. *)
Fixpoint map_quantiles {S} (gq : S -> Q -> S * pyres Q) (s : S) (qs : list Q) : S * pyres (list (Q * option Q)) :=
  match qs with
  | [] => (s, Ok [])
  | q :: qs' =>
    match gq s q with
    | (s1, r) =>
      match r with
      | Ok v => match map_quantiles gq s1 qs' with (s2, rs) => (s2, let? l := rs in Ok ((q, Some v) :: l)) end
      | ValueError => (s1, ValueError) | IndexError => (s1, IndexError) | ZeroDivisionError => (s1, ZeroDivisionError)
      end
    end
  end.
(** get_quantiles, quantile.py 34-39. *)
Definition get_quantiles {S} (gq : S -> Q -> S * pyres Q) (bs : S -> base) (s : S) (q_points : list Q)
  : S * pyres (list (Q * option Q)) :=
  let mn := b_min (bs s) in
  let '(s1, r) := map_quantiles gq s q_points in
  (s1, let? l := r in Ok ((0%Q, mn) :: l ++ [(1%Q, b_max (bs s1))])).
(** get_quantiles of a ReservoirAccumulator, quantile.py 34-39. *)
Definition r_get_quantiles := get_quantiles r_get_quantile r_base.

(** HistogramCell, quantile.py 9-10 *)
Record cell := mkCell { c_q : Q * Q; c_val : option Q * option Q; c_ratio : Q; c_count : Z }.
(** [end_val > start_val] on entries of [get_quantiles]: a [None] first is
    +inf (the empty min), a [None] last is -inf (the empty max). *)
Definition val_lt (a b : option Q) : bool :=
  match a, b with Some x, Some y => qlt x y | _, _ => false end.
(** The loop of get_histogram, quantile.py 55-66. *)
Definition histogram_cells (total : nat) (qw : list (Q * option Q)) : list cell :=
  map (fun p =>
    let '((start_q, start_val), (end_q, end_val)) := p in
    let ratio := (end_q - start_q)%Q in
    let count := qtrunc (ratio * inject_Z (Z.of_nat total))%Q in
    let count :=
      if total <? length qw then (if val_lt start_val end_val then count + 1 else count)%Z
      else (if Qeq_bool start_q 0 || Qeq_bool end_q 1 then count + 1 else count)%Z in
    mkCell (start_q, end_q) (start_val, end_val) ratio count)
  (combine qw (tl qw)).
(** get_histogram, quantile.py 41-67. *)
Definition get_histogram {S} (gq : S -> Q -> S * pyres Q) (bs : S -> base) (s : S) (q_points : list Q)
  : S * pyres (list cell) :=
  let '(s1, r) := get_quantiles gq bs s q_points in
  (s1, let? qw := r in Ok (histogram_cells (b_count (bs s1)) qw)).
(** median, quartiles, iqr and trimean, quantile.py 85-102 *)
Definition quartiles {S} (gq : S -> Q -> S * pyres Q) (s : S) : S * pyres (Q * Q * Q) :=
  let '(s1, a) := gq s (1#4)%Q in
  let '(s2, b) := gq s1 (1#2)%Q in
  let '(s3, c) := gq s2 (3#4)%Q in
  (s3, let? a := a in let? b := b in let? c := c in Ok (a, b, c)).
(** iqr, quantile.py 94-97. *)
Definition iqr {S} (gq : S -> Q -> S * pyres Q) (s : S) : S * pyres Q :=
  let '(s1, c) := gq s (3#4)%Q in
  let '(s2, a) := gq s1 (1#4)%Q in
  (s2, let? c := c in let? a := a in Ok (c - a)%Q).
(** trimean, quantile.py 99-102. *)
Definition trimean {S} (gq : S -> Q -> S * pyres Q) (s : S) : S * pyres Q :=
  let '(s1, r) := quartiles gq s in
  (s1, let? t := r in Ok ((fst (fst t) + 2 * snd (fst t) + snd t) / 4)%Q).

(** ** P2Estimator, p_squared.py 16-96 *)

(** A member of the [q_points] argument: [qp_key] identifies it up to Python
    equality and hash ([set] keeps one of each key); [qp_val] is [float(x)],
    [None] if that raises or is not finite. *)
Record qpoint := mkQp { qp_key : nat; qp_val : option Q }.
(** [set(q_points)], p_squared.py 42. *)
Fixpoint qp_dedup (seen : list nat) (l : list qpoint) : list qpoint :=
  match l with
  | [] => []
  | p :: l' => if existsb (Nat.eqb (qp_key p)) seen then qp_dedup seen l' else p :: qp_dedup (qp_key p :: seen) l'
  end.
(** [float(x) for x in ...], p_squared.py 42: [None] if one raises. *)
Fixpoint all_vals (l : list qpoint) : option (list Q) :=
  match l with
  | [] => Some []
  | p :: l' => match qp_val p, all_vals l' with Some q, Some qs => Some (q :: qs) | _, _ => None end
  end.
(** _process_q_points, 40-52.  A non-finite member sorts to some place and then
    fails the range check (it is not equal to 0.0 or 1.0), so it gives ValueError
    like a raising one. *)
Definition process_q_points (q_points : list qpoint) : pyres (list Q) :=
  match all_vals (qp_dedup [] q_points) with
  | None => ValueError
  | Some qs =>
    match qsort qs with
    | [] => ValueError
    | q0 :: rest =>
      let qps := if Qeq_bool q0 0 then rest else q0 :: rest in
      match qps with
      | [] => ValueError
      | _ =>
        let qps := if Qeq_bool (last qps 0%Q) 1 then removelast qps else qps in
        match qps with
        | [] => ValueError
        | _ => if forallb (fun x => qlt 0 x && qlt x 1) qps then Ok qps else ValueError
        end
      end
    end
  end.

(** Markers [[position, height]]; positions are integers (as int or float). *)
Definition marker := (Z * Q)%type.
(** 64-68 on [vals[1:]]: the pairs (point, next), last pair first.  The last
    marker is only ever a [next]. *)
Fixpoint back_pass (v : Q) (l : list marker) : list marker :=
  match l with
  | [] => []
  | p :: l' =>
    let l'' := back_pass v l' in
    match l'' with
    | [] => [p]
    | nxt :: _ =>
      (if Qle_bool v (snd p) then
         (if (fst p + 1 =? fst nxt)%Z then (fst p + 1 - 1)%Z else (fst p + 1)%Z, snd p)
       else p) :: l''
    end
  end.
(** One iteration of the loop at 71-87. *)
Definition adjust (prev : Z) (q : Q) (lft cur rgt : marker) : pyres marker :=
  let '(ln, lq) := lft in
  let '(cn, cq) := cur in
  let '(rn, rq) := rgt in
  let d := qtrunc (inject_Z prev * q + 1 - inject_Z cn)%Q in
  if (d =? 0)%Z then Ok cur
  else
    let d := (if 0 <? d then 1 else -1)%Z in
    if negb ((ln <? cn + d) && (cn + d <? rn))%Z then Ok cur
    else
      let? t := qdiv (inject_Z d) (inject_Z (rn - ln)) in
      let? a := qdiv (inject_Z (cn - ln + d) * (rq - cq))%Q (inject_Z (rn - cn)) in
      let? b := qdiv (inject_Z (rn - cn - d) * (cq - lq))%Q (inject_Z (cn - ln)) in
      let nq := (cq + t * (a + b))%Q in
      if qlt lq nq && qlt nq rq then Ok ((cn + d)%Z, nq)
      else if (d =? 1)%Z then
        let? e := qdiv (rq - cq)%Q (inject_Z (rn - cn)) in Ok ((cn + d)%Z, (cq + e)%Q)
      else
        let? e := qdiv (lq - cq)%Q (inject_Z (ln - cn)) in Ok ((cn + d)%Z, (cq - e)%Q).
(** The loop at 71-87: left to right, each step seeing the markers as updated so
    far.  [qs] is [q_points[1:]], [l] the markers from [lft]'s right neighbour on. *)
Fixpoint quad_pass (prev : Z) (qs : list Q) (lft : marker) (l : list marker) : pyres (list marker) :=
  match l, qs with
  | cur :: ((rgt :: _) as l'), q :: qs' =>
    let? cur' := adjust prev q lft cur rgt in
    let? rest := quad_pass prev qs' cur' l' in
    Ok (cur' :: rest)
  | _, _ => Ok l
  end.
(** [self._q_points] and the markers. *)
Record p2 := mkP2 { p2_qps : list Q; p2_vals : list marker }.
(** 55-62: the last marker moves up and the extremes are updated. *)
Definition set_last (f : marker -> marker) (l : list marker) : list marker :=
  match l with [] => [] | _ => removelast l ++ [f (last l (0%Z, 0%Q))] end.
(** P2Estimator.add, p_squared.py 55-62. *)
Definition p2_extremes (v : Q) (l : list marker) : list marker :=
  let mx := last l (0%Z, 0%Q) in
  let l1 := set_last (fun m => ((fst m + 1)%Z, snd m)) l in
  match l1 with
  | [] => []
  | mn :: rest =>
    if qlt v (snd mn) then (fst mn, v) :: rest
    else if qlt (snd mx) v then set_last (fun m => (fst m, v)) l1
    else l1
  end.
(** add, 54-87 *)
Definition p2_add (s : p2) (v : Q) : pyres p2 :=
  let prev := fst (last (p2_vals s) (0%Z, 0%Q)) in
  match p2_extremes v (p2_vals s) with
  | [] => IndexError
  | mn :: rest =>
    let? rest' := quad_pass prev (tl (p2_qps s)) mn (back_pass v rest) in
    Ok (mkP2 (p2_qps s) (mn :: rest'))
  end.
(** A sequence of P2Estimator.add calls. *)
Fixpoint p2_adds (s : p2) (vs : list Q) : pyres p2 :=
  match vs with [] => Ok s | v :: vs' => let? s1 := p2_add s v in p2_adds s1 vs' end.
(** [[i + 1, x] for i, x in enumerate(initial)], p_squared.py 27. *)
Fixpoint number_from (i : Z) (l : list Q) : list marker :=
  match l with [] => [] | x :: l' => (i, x) :: number_from (i + 1) l' end.
(** __init__, 17-37 *)
Definition p2_new (q_points : list qpoint) (data : list Q) : pyres p2 :=
  let? qs := process_q_points q_points in
  let qps := 0%Q :: qs ++ [1%Q] in
  let k := length qps in
  if length data <? k then ValueError
  else p2_adds (mkP2 qps (number_from 1 (qsort (firstn k data)))) (skipn k data).
(** get_quantiles, 89-90 *)
Definition p2_get_quantiles (s : p2) : list (Q * Q) := combine (p2_qps s) (map snd (p2_vals s)).
(** _get_quantile, 92-96: the lookup dict maps each point to its last marker. *)
Fixpoint find_last (q : Q) (l : list (Q * Q)) : option Q :=
  match l with
  | [] => None
  | (q', v) :: l' => match find_last q l' with Some w => Some w | None => if Qeq_bool q q' then Some v else None end
  end.
(** _get_quantile, p_squared.py 92-96. *)
Definition p2_get_quantile (s : p2) (q : Q) : pyres Q :=
  match find_last q (p2_get_quantiles s) with Some v => Ok v | None => ValueError end.

(** ** P2Accumulator, quantile.py 160-193 *)
Inductive p2_phase := Warm (tmp : reservoir) | Est (e : p2).
(** P2Accumulator, quantile.py 160-171. *)
Record p2acc := mkP2a { pa_base : base; pa_qps : list Q; pa_phase : p2_phase }.
(** The processed points (floats) passed on to [P2Estimator] again at 178; equal
    floats have the same key. *)
Fixpoint first_index (q : Q) (l : list Q) : nat :=
  match l with [] => 0 | q' :: l' => if Qeq_bool q q' then 0 else S (first_index q l') end.
(** Already processed points passed again, p_squared.py 18, quantile.py 178. *)
Definition as_qpoints (l : list Q) : list qpoint := map (fun q => mkQp (first_index q l) (Some q)) l.
(** 161-168 without initial data *)
Definition p2a_new (q_points : list qpoint) : pyres p2acc :=
  let? qs := process_q_points q_points in
  Ok (mkP2a base_new qs (Warm (r_new None))).
(** 173-183 *)
Definition p2a_add (rnd : Q -> Q) (s : p2acc) (v : Q) : pyres p2acc :=
  match pa_phase s with
  | Warm tmp =>
    let? tmp1 := r_add rnd 0 tmp v in
    if length (pa_qps s) + 2 <=? b_count (r_base tmp1) then
      let? e := p2_new (as_qpoints (pa_qps s)) (r_data tmp1) in
      Ok (mkP2a (pa_base s) (pa_qps s) (Est e))
    else Ok (mkP2a (pa_base s) (pa_qps s) (Warm tmp1))
  | Est e =>
    let? e1 := p2_add e v in
    Ok (mkP2a (base_add (pa_base s) v) (pa_qps s) (Est e1))
  end.
(** A sequence of P2Accumulator.add calls. *)
Fixpoint p2a_adds (rnd : Q -> Q) (s : p2acc) (vs : list Q) : pyres p2acc :=
  match vs with [] => Ok s | v :: vs' => let? s1 := p2a_add rnd s v in p2a_adds rnd s1 vs' end.
(** 189-193 *)
Definition p2a_get_quantile (s : p2acc) (q : Q) : p2acc * pyres Q :=
  match pa_phase s with
  | Est e => (s, p2_get_quantile e q)
  | Warm tmp => let '(tmp1, r) := r_get_quantile tmp q in (mkP2a (pa_base s) (pa_qps s) (Warm tmp1), r)
  end.
(** 185-187 *)
Definition p2a_get_quantiles (s : p2acc) (q_points : list Q) :=
  get_quantiles p2a_get_quantile pa_base s (match q_points with [] => pa_qps s | _ => q_points end).
