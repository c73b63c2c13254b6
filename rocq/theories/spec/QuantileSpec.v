(** Vocabulary for the quantile statements. *)
From Coq Require Export Permutation.
From Verif Require Import model.PyBase model.Quantile.

(** Non-decreasing lists of rationals. *)
Fixpoint qasc (l : list Q) : Prop :=
  match l with
  | [] => True
  | x :: l' => (forall y, In y l' -> (x <= y)%Q) /\ qasc l'
  end.
Definition in01 (q : Q) : Prop := (0 < q)%Q /\ (q < 1)%Q.

(** The least / greatest of the values; [None] (infinite) for no values. *)
Definition least_of (vs : list Q) (m : option Q) : Prop :=
  match m with None => vs = [] | Some x => In x vs /\ forall v, In v vs -> (x <= v)%Q end.
Definition greatest_of (vs : list Q) (m : option Q) : Prop :=
  match m with None => vs = [] | Some x => In x vs /\ forall v, In v vs -> (v <= x)%Q end.
Definition describes (b : base) (vs : list Q) : Prop :=
  b_count b = length vs /\ least_of vs (b_min b) /\ greatest_of vs (b_max b).

(** [v] is the [q]-quantile of the multiset [l] by linear interpolation
    between the order statistics on either side of [q*(n-1)]. *)
Definition linear_quantile (l : list Q) (q v : Q) : Prop :=
  exists s k frac lo hi,
    Permutation l s /\ qasc s /\
    (q * inject_Z (Z.of_nat (length l) - 1) == inject_Z (Z.of_nat k) + frac)%Q /\ (0 <= frac)%Q /\ (frac < 1)%Q /\
    nth_error s k = Some lo /\ (nth_error s (S k) = Some hi \/ (S k = length s /\ hi = lo)) /\
    (v == lo + frac * (hi - lo))%Q.

(** Histories of a reservoir: adds with the outcome of the random source, and
    reads. *)
Inductive rop := RAdd (v : Q) (draw : nat) | RQuantile (q : Q) | RIter.
Fixpoint r_run (rnd : Q -> Q) (s : reservoir) (ops : list rop) : pyres reservoir :=
  match ops with
  | [] => Ok s
  | RAdd v d :: ops' => let? s1 := r_add rnd d s v in r_run rnd s1 ops'
  | RQuantile q :: ops' => r_run rnd (fst (r_get_quantile s q)) ops'
  | RIter :: ops' => r_run rnd (fst (r_iter s)) ops'
  end.
Fixpoint r_adds_of (ops : list rop) : list (Q * nat) :=
  match ops with
  | [] => []
  | RAdd v d :: ops' => (v, d) :: r_adds_of ops'
  | _ :: ops' => r_adds_of ops'
  end.
Definition added (ops : list rop) : list Q := map fst (r_adds_of ops).
(** With a cap: the first [cap] values, and later those whose draw is below the cap. *)
Definition accepted (cap : nat) (ops : list rop) : list Q :=
  map fst (firstn cap (r_adds_of ops) ++ filter (fun p => snd p <? cap) (skipn cap (r_adds_of ops))).

(** Rounding to single precision (24 bit significand, ties to even) in the
    normal range. *)
Definition f32 (x : Q) : Q :=
  let n := Z.abs (Qnum x) in
  let d := Zpos (Qden x) in
  if (n =? 0)%Z then 0%Q
  else
    let e0 := (Z.log2 n - Z.log2 d)%Z in
    let e := (if Qle_bool (if (0 <=? e0)%Z then inject_Z (2 ^ e0) else 1 / inject_Z (2 ^ (- e0)))%Q (Qabs.Qabs x) then e0 else e0 - 1)%Z in
    let s := (e - 23)%Z in
    let scaled := (if (0 <=? s)%Z then x / inject_Z (2 ^ s) else x * inject_Z (2 ^ (- s)))%Q in
    let f := Qfloor scaled in
    let r := (scaled - inject_Z f)%Q in
    let m := (if qlt r (1#2) then f else if qlt (1#2) r then f + 1 else if Z.even f then f else f + 1)%Z in
    Qred (if (0 <=? s)%Z then inject_Z (m * 2 ^ s) else inject_Z m / inject_Z (2 ^ (- s)))%Q.

(** [vs] are the numbers given by the distinct members of [q_points], in some order. *)
Definition set_values (q_points : list qpoint) (vs : list Q) : Prop :=
  exists ms, NoDup (map qp_key ms) /\ (forall p, In p ms -> In p q_points) /\
    (forall p, In p q_points -> exists p', In p' ms /\ qp_key p' = qp_key p) /\
    map qp_val ms = map Some vs.
(** Equal members convert to the same float. *)
Definition consistent (q_points : list qpoint) : Prop :=
  forall p p', In p q_points -> In p' q_points -> qp_key p = qp_key p' -> qp_val p = qp_val p'.
Definition at_most_one (x : Q) (l : list Q) : Prop := l = [] \/ exists y, l = [y] /\ (y == x)%Q.
(** The interior points [mid] of the values [vs]: without one 0 and one 1. *)
Definition interior (vs mid : list Q) : Prop :=
  exists zs os, at_most_one 0 zs /\ at_most_one 1 os /\ Permutation vs (zs ++ mid ++ os) /\
    mid <> [] /\ Forall in01 mid.

Definition qsum (l : list Q) : Q := fold_right Qplus 0%Q l.
Definition zsum (l : list Z) : Z := fold_right Z.add 0%Z l.
(** Strictly increasing positions. *)
Fixpoint increasing (l : list Z) : Prop :=
  match l with
  | [] => True
  | x :: l' => (forall y, In y l' -> (x < y)%Z) /\ increasing l'
  end.

(** Histories of a P2 accumulator: adds and quantile reads. *)
Inductive pop := PAdd (v : Q) | PQuantile (q : Q).
Fixpoint p2a_run (rnd : Q -> Q) (s : p2acc) (ops : list pop) : pyres p2acc :=
  match ops with
  | [] => Ok s
  | PAdd v :: ops' => let? s1 := p2a_add rnd s v in p2a_run rnd s1 ops'
  | PQuantile q :: ops' => p2a_run rnd (fst (p2a_get_quantile s q)) ops'
  end.
Fixpoint padded (ops : list pop) : list Q :=
  match ops with [] => [] | PAdd v :: ops' => v :: padded ops' | PQuantile _ :: ops' => padded ops' end.
