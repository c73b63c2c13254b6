(** Model of /repo/lithoxyl/quantile.py, ReservoirAccumulator 105-153 with
    BaseQuantileAccumulator.add 27-32, used by several threads at a time: every load and store
    of an attribute and every operation on an array is a step of its own, and the steps of the
    threads are interleaved in any order.

    Simplifications: values are integers, which the array keeps as they are; q is a fraction
    and [q * (n - 1)] is exact; [array.array] has
    no method [sort], so 126-127 is what _sort does; [sorted(self._data)] and making an array
    of it are one step each (both are loops in C).  Every item of an array carries the number
    of the call of add that put it there; this and the history are recorded for the statements,
    and the code does not look at them. *)
From Verif Require Import model.PyBase.
Open Scope nat_scope.

(** An item: the value and the number of the call of add it comes from. *)
Definition item := (Z * nat)%type.
(** [sorted] on the values. *)
Fixpoint insert_item (x : item) (l : list item) : list item :=
  match l with
  | [] => [x]
  | y :: l' => if (fst x <=? fst y)%Z then x :: l else y :: insert_item x l'
  end.
(** bookkeeping: the whole of [sorted] *)
Definition sort_items (l : list item) : list item := fold_right insert_item [] l.
(** [l[k]]: a negative index counts from the end; None is IndexError. *)
Definition at_index {A} (l : list A) (k : Z) : option A :=
  if (k <? 0)%Z then (if (Z.of_nat (length l) + k <? 0)%Z then None else nth_error l (Z.to_nat (Z.of_nat (length l) + k))) else nth_error l (Z.to_nat k).
(** [l[k] = x] for k >= 0; None is IndexError. *)
Fixpoint put {A} (l : list A) (k : nat) (x : A) : option (list A) :=
  match l, k with
  | [], _ => None
  | _ :: l', O => Some (x :: l')
  | y :: l', S k' => match put l' k' x with Some l'' => Some (y :: l'') | None => None end
  end.
(** bookkeeping: the object with the given number is now [x] *)
Fixpoint set_nth {A} (l : list A) (k : nat) (x : A) : list A :=
  match l, k with
  | [], _ => []
  | _ :: l', O => x :: l'
  | y :: l', S k' => y :: set_nth l' k' x
  end.
(** [idx = q * (n - 1)] rounded down and up, 149-150, for q = num/den. *)
Definition idx_floor (q : Z * Z) (n : nat) : Z := ((fst q * (Z.of_nat n - 1)) / snd q)%Z.
(** 150 *)
Definition idx_ceil (q : Z * Z) (n : nat) : Z := (- ((- (fst q * (Z.of_nat n - 1))) / snd q))%Z.

(** Where a thread is: in add, with the number of the call and the value, or in _get_quantile. *)
Inductive pc :=
| Idle
| AddTest (i : nat) (v : Z)                     (* 131: about to load _count *)
| AddGet (i : nat) (v : Z)                      (* 132: about to load _data *)
| AddAppend (i : nat) (v : Z) (d : nat)         (* 132: about to append to that array *)
| AddFlag (i : nat) (v : Z)                     (* 133, 141 *)
| AddCount (i : nat) (v : Z)                    (* 28: about to load _count *)
| AddStore (i : nat) (v : Z) (c : nat)          (* 28: about to store *)
| AddMin (i : nat) (v : Z)                      (* 29 *)
| AddMinSet (i : nat) (v : Z)                   (* 30 *)
| AddMax (i : nat) (v : Z)                      (* 31 *)
| AddMaxSet (i : nat) (v : Z)                   (* 32 *)
| AddRand (i : nat) (v : Z)                     (* 138: about to load _count and draw *)
| AddItem (i : nat) (v : Z) (r : nat)           (* 140: about to load _data *)
| AddPut (i : nat) (v : Z) (r d : nat)          (* 140: about to store in that array *)
| QFlag (q : Z * Z)                             (* 122 *)
| QSort (q : Z * Z)                             (* 127: about to load _data and sort it *)
| QSet (q : Z * Z) (l : list item)              (* 127: about to store the new array *)
| QMark (q : Z * Z)                             (* 128 *)
| QData (q : Z * Z)                             (* 148: about to load _data *)
| QLen (q : Z * Z) (d : nat)                    (* 148: about to load _data again and take its length *)
| QLow (q : Z * Z) (d n : nat)                  (* 152, 153: about to load the first item *)
| QHigh (q : Z * Z) (d n : nat) (lo : Z).       (* 153: about to load the second *)

(** What happened: the i-th call of add stored the count, returned, raised IndexError;
    _get_quantile interpolates between two items (the same one twice, if the index is whole),
    after the given number of calls of add were started; it raised IndexError. *)
Inductive obs := Counted (i : nat) | Added (i : nat) | AddRaised (i : nat) | Got (t m : nat) (q : Z * Z) (lo hi : Z) | QRaised (t : nat).

(** The accumulator, 21-25 and 106-116: _count, _min, _max (None: infinite), the arrays made
    so far, which of them is _data, _is_sorted. *)
Record acc := mkAcc { ac_count : nat; ac_min : option Z; ac_max : option Z; ac_arrays : list (list item); ac_data : nat; ac_sorted : bool }.
(** The accumulator; where the threads are; the values of the calls of add started so far;
    what happened, the latest first. *)
Record rst := mkRst { rs_acc : acc; rs_pc : nat -> pc; rs_started : list Z; rs_log : list obs }.
(** bookkeeping: the array with that number *)
Definition array_of (arrays : list (list item)) (d : nat) : list item := nth d arrays [].
(** [self._count < self._cap], 131, and [idx < self._cap], 139. *)
Definition below (cap : option nat) (n : nat) : bool := match cap with None => true | Some c => n <? c end.

(** The next step of the schedule: a thread calls add(v), calls _get_quantile(q), draws the
    random number (138), or goes on. *)
Inductive ev := EvAdd (t : nat) (v : Z) | EvRead (t : nat) (q : Z * Z) | EvRand (t r : nat) | EvStep (t : nat).

(** Thread [t] goes on, after [m] calls of add were started.  None: it is not about to do this. *)
Definition advance (cap : option nat) (t m : nat) (p : pc) (a : acc) : option (acc * pc * list obs) :=
  let '(mkAcc count mn mx arrays data sorted) := a in
  match p with
  | Idle | AddRand _ _ => None
  | AddTest i v => Some (a, if below cap count then AddGet i v else AddRand i v, [])
  | AddGet i v => Some (a, AddAppend i v data, [])
  | AddAppend i v d => Some (mkAcc count mn mx (set_nth arrays d (array_of arrays d ++ [(v, i)])) data sorted, AddFlag i v, [])
  | AddFlag i v => Some (mkAcc count mn mx arrays data false, AddCount i v, [])
  | AddCount i v => Some (a, AddStore i v count, [])
  | AddStore i v c => Some (mkAcc (S c) mn mx arrays data sorted, AddMin i v, [Counted i])
  | AddMin i v => Some (a, if match mn with None => true | Some x => (v <? x)%Z end then AddMinSet i v else AddMax i v, [])
  | AddMinSet i v => Some (mkAcc count (Some v) mx arrays data sorted, AddMax i v, [])
  | AddMax i v =>
    if match mx with None => true | Some x => (x <? v)%Z end then Some (a, AddMaxSet i v, []) else Some (a, Idle, [Added i])
  | AddMaxSet i v => Some (mkAcc count mn (Some v) arrays data sorted, Idle, [Added i])
  | AddItem i v r => Some (a, AddPut i v r data, [])
  | AddPut i v r d =>
    match put (array_of arrays d) r (v, i) with
    | Some l => Some (mkAcc count mn mx (set_nth arrays d l) data sorted, AddFlag i v, [])
    | None => Some (a, Idle, [AddRaised i])
    end
  | QFlag q => Some (a, if sorted then QData q else QSort q, [])
  | QSort q => Some (a, QSet q (sort_items (array_of arrays data)), [])
  | QSet q l => Some (mkAcc count mn mx (arrays ++ [l]) (length arrays) sorted, QMark q, [])
  | QMark q => Some (mkAcc count mn mx arrays data true, QData q, [])
  | QData q => Some (a, QLen q data, [])
  | QLen q d => Some (a, QLow q d (length (array_of arrays data)), [])
  | QLow q d n =>
    match at_index (array_of arrays d) (idx_floor q n) with
    | None => Some (a, Idle, [QRaised t])
    | Some (x, _) => if (idx_floor q n =? idx_ceil q n)%Z then Some (a, Idle, [Got t m q x x]) else Some (a, QHigh q d n x, [])
    end
  | QHigh q d n x =>
    match at_index (array_of arrays d) (idx_ceil q n) with
    | None => Some (a, Idle, [QRaised t])
    | Some (y, _) => Some (a, Idle, [Got t m q x y])
    end
  end.
(** The thread is now there. *)
Definition upd_pc (f : nat -> pc) (t : nat) (p : pc) : nat -> pc := fun t' => if Nat.eqb t' t then p else f t'.
(** bookkeeping: the state with another accumulator and thread [t] at [p] *)
Definition moved (s : rst) (a : acc) (t : nat) (p : pc) (o : list obs) : rst :=
  mkRst a (upd_pc (rs_pc s) t p) (rs_started s) (o ++ rs_log s).
(** One step.  None: the thread is not about to do this.  [random.randint(0, self._count)] is
    at most the count. *)
Definition rstep (cap : option nat) (e : ev) (s : rst) : option rst :=
  match e with
  | EvAdd t v =>
    match rs_pc s t with
    | Idle => Some (mkRst (rs_acc s) (upd_pc (rs_pc s) t (AddTest (length (rs_started s)) v)) (rs_started s ++ [v]) (rs_log s))
    | _ => None
    end
  | EvRead t q =>
    match rs_pc s t with
    | Idle => if ((0 <? fst q) && (fst q <? snd q))%Z then Some (moved s (rs_acc s) t (QFlag q) []) else None      (* 145 *)
    | _ => None
    end
  | EvRand t r =>
    match rs_pc s t with
    | AddRand i v =>
      if r <=? ac_count (rs_acc s)
      then if below cap r then Some (moved s (rs_acc s) t (AddItem i v r) []) else Some (moved s (rs_acc s) t Idle [Added i])   (* 139 *)
      else None
    | _ => None
    end
  | EvStep t =>
    match advance cap t (length (rs_started s)) (rs_pc s t) (rs_acc s) with
    | Some (a, p, o) => Some (moved s a t p o)
    | None => None
    end
  end.
(** A schedule. *)
Fixpoint rruns (cap : option nat) (evs : list ev) (s : rst) : option rst :=
  match evs with
  | [] => Some s
  | e :: evs' => match rstep cap e s with Some s' => rruns cap evs' s' | None => None end
  end.
(** A new accumulator without data, 21-25 and 106-119. *)
Definition rst_new : rst := mkRst (mkAcc 0 None None [[]] 0 true) (fun _ => Idle) [] [].
(** What _data holds. *)
Definition held (s : rst) : list item := array_of (ac_arrays (rs_acc s)) (ac_data (rs_acc s)).
