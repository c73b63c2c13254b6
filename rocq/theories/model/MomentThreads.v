(** Model of /repo/lithoxyl/moment.py, MomentAccumulator 24-71, used by several threads at a
    time: every load and store of an attribute is a step of its own, and the steps of the
    threads are interleaved in any order.

    Simplifications: exact (real) arithmetic, as in Moments.v; [None] is +inf in the minimum and
    -inf in the maximum.  The numbers of the calls of add and the history are recorded for the
    statements; the code does not look at them. *)
From Coq Require Import Reals.
From Verif Require Import model.PyBase model.Moments.
Open Scope R_scope.

(** The locals of add once they are loaded, 43-44. *)
Record locals := mkLocals { lo_n : nat; lo_m2 : R; lo_m3 : R; lo_m4 : R; lo_delta : R }.
(** [delta_n], 45 *)
Definition delta_n (l : locals) : R := lo_delta l / INR (lo_n l).
(** [term], 47 *)
Definition term (l : locals) : R := lo_delta l * delta_n l * (INR (lo_n l) - 1).
(** What is stored at 49-52. *)
Definition new_m4 (l : locals) : R :=
  let n := INR (lo_n l) in lo_m4 l + term l * delta_n l ^ 2 * (n ^ 2 - 3 * n + 3) + 6 * delta_n l ^ 2 * lo_m2 l - 4 * delta_n l * lo_m3 l.
(** 53-55 *)
Definition new_m3 (l : locals) : R := lo_m3 l + term l * delta_n l * (INR (lo_n l) - 2) - 3 * delta_n l * lo_m2 l.
(** 56 *)
Definition new_m2 (l : locals) : R := lo_m2 l + term l.

(** Where a thread is: in add, with the number of the call and the value, or in variance. *)
Inductive pc :=
| Idle
| MTest (i : nat) (v : R)                       (* 35: about to load _max *)
| MMax (i : nat) (v : R)                        (* 36 *)
| MFirst (i : nat) (v : R)                      (* 37: about to load _count *)
| MMinFirst (i : nat) (v : R)                   (* 38 *)
| MBelow (i : nat) (v : R)                      (* 39: about to load _min *)
| MMin (i : nat) (v : R)                        (* 40 *)
| MCount (i : nat) (v : R)                      (* 42: about to load _count *)
| MStore (i : nat) (v : R) (c : nat)            (* 42: about to store *)
| MLoadN (i : nat) (v : R)                      (* 43: about to load _count, _m2, _m3, _m4 *)
| MLoad2 (i : nat) (v : R) (n : nat)
| MLoad3 (i : nat) (v : R) (n : nat) (m2 : R)
| MLoad4 (i : nat) (v : R) (n : nat) (m2 m3 : R)
| MDelta (i : nat) (v : R) (n : nat) (m2 m3 m4 : R)  (* 44: about to load _mean *)
| MMean (i : nat) (v : R) (l : locals)          (* 48: about to load _mean *)
| MMeanSet (i : nat) (v : R) (l : locals) (x : R)    (* 48: about to store *)
| MSet4 (i : nat) (v : R) (l : locals)          (* 49-52 *)
| MSet3 (i : nat) (v : R) (l : locals)          (* 53-55 *)
| MSet2 (i : nat) (v : R) (l : locals)          (* 56 *)
| VLoad2                                        (* 69: about to load _m2 *)
| VCount (m2 : R).                              (* 69: about to load _count *)

(** What happened: the i-th call of add stored the count; a thread got a variance, after the
    given number of calls of add were started. *)
Inductive obs := Counted (i : nat) | Variance (t m : nat) (x : R).
(** The accumulator; where the threads are; the values of the calls of add started so far; what
    happened, the latest first. *)
Record mst := mkMst { ms_acc : moments; ms_pc : nat -> pc; ms_started : list R; ms_log : list obs }.

(** The next step of the schedule: a thread calls add(v), asks for the variance, or goes on. *)
Inductive ev := EvAdd (t : nat) (v : R) | EvVariance (t : nat) | EvStep (t : nat).

(** Thread [t] goes on, after [k] calls of add were started.  None: it is in no call. *)
Definition advance (t k : nat) (p : pc) (a : moments) : option (moments * pc * list obs) :=
  let '(mkMoments count mn mx mean m2 m3 m4) := a in
  match p with
  | Idle => None
  | MTest i v => Some (a, if above_max v mx then MMax i v else MBelow i v, [])
  | MMax i v => Some (mkMoments count mn (Some v) mean m2 m3 m4, MFirst i v, [])
  | MFirst i v => Some (a, if Nat.eqb count 0 then MMinFirst i v else MCount i v, [])
  | MMinFirst i v => Some (mkMoments count (Some v) mx mean m2 m3 m4, MCount i v, [])
  | MBelow i v => Some (a, if below_min v mn then MMin i v else MCount i v, [])
  | MMin i v => Some (mkMoments count (Some v) mx mean m2 m3 m4, MCount i v, [])
  | MCount i v => Some (a, MStore i v count, [])
  | MStore i v c => Some (mkMoments (S c) mn mx mean m2 m3 m4, MLoadN i v, [Counted i])
  | MLoadN i v => Some (a, MLoad2 i v count, [])
  | MLoad2 i v n => Some (a, MLoad3 i v n m2, [])
  | MLoad3 i v n x2 => Some (a, MLoad4 i v n x2 m3, [])
  | MLoad4 i v n x2 x3 => Some (a, MDelta i v n x2 x3 m4, [])
  | MDelta i v n x2 x3 x4 => Some (a, MMean i v (mkLocals n x2 x3 x4 (v - mean)), [])
  | MMean i v l => Some (a, MMeanSet i v l (mean + delta_n l), [])
  | MMeanSet i v l x => Some (mkMoments count mn mx x m2 m3 m4, MSet4 i v l, [])
  | MSet4 i v l => Some (mkMoments count mn mx mean m2 m3 (new_m4 l), MSet3 i v l, [])
  | MSet3 i v l => Some (mkMoments count mn mx mean m2 (new_m3 l) m4, MSet2 i v l, [])
  | MSet2 i v l => Some (mkMoments count mn mx mean (new_m2 l) m3 m4, Idle, [])
  | VLoad2 => Some (a, VCount m2, [])
  | VCount x2 => Some (a, Idle, [Variance t k (div_or_zero x2 (INR count - 1))])
  end.
(** The thread is now there. *)
Definition upd_pc (f : nat -> pc) (t : nat) (p : pc) : nat -> pc := fun t' => if Nat.eqb t' t then p else f t'.
(** bookkeeping: the state with another accumulator and thread [t] at [p] *)
Definition moved (s : mst) (a : moments) (t : nat) (p : pc) (o : list obs) : mst := mkMst a (upd_pc (ms_pc s) t p) (ms_started s) (o ++ ms_log s).
(** One step.  None: the thread is not about to do this. *)
Definition mstep (e : ev) (s : mst) : option mst :=
  match e with
  | EvAdd t v =>
    match ms_pc s t with
    | Idle => Some (mkMst (ms_acc s) (upd_pc (ms_pc s) t (MTest (length (ms_started s)) v)) (ms_started s ++ [v]) (ms_log s))
    | _ => None
    end
  | EvVariance t => match ms_pc s t with Idle => Some (moved s (ms_acc s) t VLoad2 []) | _ => None end
  | EvStep t =>
    match advance t (length (ms_started s)) (ms_pc s t) (ms_acc s) with
    | Some (a, p, o) => Some (moved s a t p o)
    | None => None
    end
  end.
(** A schedule. *)
Fixpoint mruns (evs : list ev) (s : mst) : option mst :=
  match evs with
  | [] => Some s
  | e :: evs' => match mstep e s with Some s' => mruns evs' s' | None => None end
  end.
(** A new accumulator, 24-31. *)
Definition mst_new : mst := mkMst mo_new (fun _ => Idle) [] [].
