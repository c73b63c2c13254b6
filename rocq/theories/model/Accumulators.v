(** Model of /repo/lithoxyl/accumulators.py.

    Only comparisons matter here.  A finite float is an integer multiple of
    2^-1074, so finite floats are represented exactly by integers. *)
From Verif Require Import model.PyBase model.Bisect.

(** [MaxAccumulator], accumulators.py 7-27 (no NaN): the state is [max_list]. *)
Definition max_add (max_len : nat) (l : list Z) (v : Z) : list Z :=
  match l with
  | x :: _ =>
    if (v <=? x)%Z then l
    else if length l <? max_len then insort l v
    else
      let idx := bisect_right l v in
      if idx =? max_len then tl (l ++ [v]) else replace_at idx v l
  | [] =>
    if length l <? max_len then insort l v
    else
      let idx := bisect_right l v in
      if idx =? max_len then tl (l ++ [v]) else replace_at idx v l
  end.
(** A sequence of calls of MaxAccumulator.add on a new accumulator, accumulators.py 9-27. *)
Definition max_adds (max_len : nat) (vs : list Z) : list Z := fold_left (max_add max_len) vs [].

(** [MinAccumulator], accumulators.py 30-50: the state is [min_list]. *)
Definition min_add (max_len : nat) (l : list Z) (v : Z) : list Z :=
  if match l with [] => false | _ => (last l v <=? v)%Z end then l
  else if length l <? max_len then insort l v
  else
    let idx := bisect_right l v in
    if idx =? 0 then removelast (v :: l) else replace_at idx v l.
(** A sequence of calls of MinAccumulator.add on a new accumulator, accumulators.py 32-50. *)
Definition min_adds (max_len : nat) (vs : list Z) : list Z := fold_left (min_add max_len) vs [].

(** Floats: *)
Inductive flt := NegInf | Fin (z : Z) | PosInf | NaN.
(** Python [<] on floats (used by bisect and sorted, accumulators.py 66, 73). *)
Definition flt_lt (a b : flt) : bool :=
  match a, b with
  | NaN, _ | _, NaN => false
  | NegInf, NegInf => false
  | NegInf, _ => true
  | Fin x, Fin y => (x <? y)%Z
  | Fin _, PosInf => true
  | _, _ => false
  end.
(** Python [==] on floats (used by set, accumulators.py 62). *)
Definition flt_eq (a b : flt) : bool :=
  match a, b with
  | NegInf, NegInf | PosInf, PosInf => true
  | Fin x, Fin y => (x =? y)%Z
  | _, _ => false
  end.
(** Python [<=] on floats. *)
Definition flt_le (a b : flt) : bool := flt_lt a b || flt_eq a b.

(** [sorted(set(...))]: *)
Fixpoint flt_insert (x : flt) (l : list flt) : list flt :=
  match l with
  | [] => [x]
  | y :: l' => if flt_lt y x then y :: flt_insert x l' else if flt_eq x y then l else x :: l
  end.
(** [sorted(set(l))] for floats without NaN, accumulators.py 62-66. *)
Definition flt_sort_set (l : list flt) : list flt := fold_right flt_insert [] l.

(** [HistogramCounter], accumulators.py 53-70. *)
Record histogram := mkHist { h_bounds : list flt; h_buckets : list nat }.
(** [self.ranges], accumulators.py 68-69. *)
Definition h_ranges (h : histogram) : list (flt * flt) := combine (h_bounds h) (tl (h_bounds h)).
(** [None]: ValueError for NaN bounds. *)
Definition h_new (bounds : list flt) : option histogram :=
  if existsb (fun b => match b with NaN => true | _ => false end) bounds then None
  else
    let bs := flt_sort_set (NegInf :: PosInf :: bounds) in
    Some (mkHist bs (repeat 0 (length (combine bs (tl bs))))).
(** accumulators.py 72-75; [None]: IndexError.  The index is never negative:
    the first bound is -inf and is not above any value. *)
Definition h_add (h : histogram) (v : flt) : option histogram :=
  let i := bisect (fun b => flt_lt v b) (h_bounds h) - 1 in
  match nth_error (h_buckets h) i with
  | Some c => Some (mkHist (h_bounds h) (replace_at i (S c) (h_buckets h)))
  | None => None
  end.
(** A sequence of adds; the caller survives the IndexError. *)
Definition h_adds (h : histogram) (vs : list flt) : histogram :=
  fold_left (fun h v => match h_add h v with Some h' => h' | None => h end) vs h.
(** accumulators.py 77-78 *)
Definition h_results (h : histogram) : list (flt * flt * nat) := combine (h_ranges h) (h_buckets h).
