(** Python data structures shared by the models: insertion ordered dicts and
    bounded deques.  These are CPython built-ins, not code of /repo; the model
    follows the language reference. *)
From Coq Require Export String.
From Coq Require Export List Arith NArith ZArith Bool Lia.
Export ListNotations.
#[global] Open Scope string_scope.
#[global] Open Scope list_scope.
#[global] Open Scope nat_scope.

Notation "a +s b" := (String.append a b) (at level 60, right associativity).

(** [dict]: association list in insertion order; assignment to an existing key
    keeps its position (Python >= 3.7 semantics). *)
Section Dict.
  Context {K V : Type} (eqb : K -> K -> bool).

  (** [d.get(k)]. *)
  Fixpoint dget (k : K) (d : list (K * V)) : option V :=
    match d with
    | [] => None
    | (k', v) :: d' => if eqb k k' then Some v else dget k d'
    end.

  (** [d[k] = v]. *)
  Fixpoint dset (k : K) (v : V) (d : list (K * V)) : list (K * V) :=
    match d with
    | [] => [(k, v)]
    | (k', v') :: d' => if eqb k k' then (k', v) :: d' else (k', v') :: dset k v d'
    end.

  (** [del d[k]] if present. *)
  Fixpoint ddel (k : K) (d : list (K * V)) : list (K * V) :=
    match d with
    | [] => []
    | (k', v') :: d' => if eqb k k' then d' else (k', v') :: ddel k d'
    end.

  (** [d.update(kw)]: the items of [kw] are assigned left to right. *)
  Definition dupdate (d kw : list (K * V)) : list (K * V) :=
    fold_left (fun acc p => dset (fst p) (snd p) acc) kw d.

  (** [k in d]. *)
  Definition dmem (k : K) (d : list (K * V)) : bool :=
    match dget k d with Some _ => true | None => false end.
End Dict.

(** [collections.deque(maxlen=lim).append(x)] with [lim >= 1]: when full, the
    leftmost item is discarded.  The boolean says whether one was discarded. *)
Definition bounded_append {A} (lim : N) (q : list A) (x : A) : list A * bool :=
  if (N.of_nat (length q) <? lim)%N then (q ++ [x], false)
  else (tl q ++ [x], true).
