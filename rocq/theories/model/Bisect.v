(** Model of CPython's bisect module, used by /repo/lithoxyl/accumulators.py 2
    and /repo/lithoxyl/sinks.py. *)
From Verif Require Import model.PyBase.

(** [bisect_right(a, x)]: [below y] is [x < y].  The loop
    [while lo < hi: mid = (lo + hi) // 2; if x < a[mid]: hi = mid else: lo = mid + 1];
    [fuel] bounds the number of iterations and [length a] suffices. *)
Fixpoint bisect_loop {A} (fuel : nat) (below : A -> bool) (a : list A) (lo hi : nat) : nat :=
  match fuel with
  | 0 => lo
  | S f =>
    if lo <? hi then
      let mid := (lo + hi) / 2 in
      match nth_error a mid with
      | None => lo
      | Some y => if below y then bisect_loop f below a lo mid else bisect_loop f below a (mid + 1) hi
      end
    else lo
  end.
(** The whole search, bisect.py: [lo = 0], [hi = len(a)]. *)
Definition bisect {A} (below : A -> bool) (a : list A) : nat := bisect_loop (S (length a)) below a 0 (length a).

(** [list.insert]. *)
Definition insert_at {A} (i : nat) (x : A) (l : list A) : list A := firstn i l ++ x :: skipn i l.
(** [a[i] = x]. *)
Fixpoint replace_at {A} (i : nat) (x : A) (l : list A) : list A :=
  match l, i with
  | [], _ => []
  | _ :: l', 0 => x :: l'
  | y :: l', S i' => y :: replace_at i' x l'
  end.
(** bisect.bisect_right, accumulators.py 2. *)
Definition bisect_right (a : list Z) (x : Z) : nat := bisect (fun y => (x <? y)%Z) a.
(** [insort] is [insort_right] *)
Definition insort (a : list Z) (x : Z) : list Z := insert_at (bisect_right a x) x a.
