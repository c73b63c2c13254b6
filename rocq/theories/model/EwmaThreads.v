(** Model of /repo/lithoxyl/ewma.py, 9-52, for an EWMAAccumulator used by several threads at
    a time: every load and store of an attribute or of an item of the dict of rates is a step
    of its own, and the steps of the threads are interleaved in any order.

    Simplifications: as in Ewma.v the numbers are reals.  [dict(self._rate_map)], 52, is one
    step (CPython copies a dict without giving up the interpreter lock), and so is
    [self._interval], which never changes.  The history of the calls is recorded for the
    statements; the code does not look at it. *)
From Verif Require Import model.PyBase model.Ewma.
Open Scope R_scope.

(** Where a thread is. *)
Inductive pc :=
| Idle
| AddStore (i : nat) (v tmp : R)                  (* 27: has loaded [tmp], about to store; the i-th call of add *)
| ReadLast (t1 : R)                               (* 47: has read the clock, about to load _last_update *)
| ReadForce                                       (* 49: about to load _force_next_update *)
| ClearForce                                      (* 50 *)
| UpdClock                                        (* 32: about to read the clock *)
| UpdLast (cur : R)                               (* 33: about to load _last_update *)
| UpdLoop (cur itv : R) (k : nat)                 (* 35: about to handle the k-th period *)
| UpdTest (cur itv : R) (k : nat) (nr : R)        (* 37: has new_rate *)
| UpdFirst (cur itv : R) (k : nat) (nr : R)       (* 38: about to store it *)
| UpdLeft (cur itv : R) (k : nat) (nr : R)        (* 41: about to load the left operand of += *)
| UpdRight (cur itv : R) (k : nat) (nr l : R)     (* 41: about to load the rate once more *)
| UpdStore (cur itv : R) (k : nat) (x : R)        (* 41: about to store *)
| UpdReset (cur : R)                              (* 42 *)
| UpdDone (cur : R)                               (* 43 *)
| Copy.                                           (* 52 *)

(** What happened: the i-th call of add returned, a thread loaded [_uncounted] for the k-th
    period with the given interval, get_rates returned, get_rates raised ZeroDivisionError
    (or TypeError, if a rate is None at 41, which never happens). *)
Inductive obs :=
| Added (i : nat) | Sample (t k : nat) (itv u : R) | Returned (t : nat) (r : list (R * option R)) | Raised (t : nat).

(** The accumulator (Ewma.v), where the threads are, the values of the calls of add started
    so far, and what happened, the latest first. *)
Record est := mkEst { es_acc : ewma; es_pc : nat -> pc; es_started : list R; es_log : list obs }.

(** The next step of the schedule: a thread calls add(v), a thread calls get_rates and reads
    the clock (47), a thread in _update reads the clock (32), a thread goes on. *)
Inductive ev := EvAdd (t : nat) (v : R) | EvRead (t : nat) (now : R) | EvClock (t : nat) (now : R) | EvStep (t : nat).

(** [self._uncounted = ...], 27 and 42. *)
Definition set_uncounted (s : ewma) (u : R) := mkEwma (ew_interval s) (ew_rates s) u (ew_last s) (ew_force s).
(** [self._last_update = ...], 43. *)
Definition set_last (s : ewma) (l : R) := mkEwma (ew_interval s) (ew_rates s) (ew_uncounted s) l (ew_force s).
(** [self._force_next_update = False], 50. *)
Definition clear_force (s : ewma) := mkEwma (ew_interval s) (ew_rates s) (ew_uncounted s) (ew_last s) false.
(** [rate_map[period] = ...] for the k-th period, 38 and 41. *)
Fixpoint set_rate (l : list (R * option R)) (k : nat) (x : R) : list (R * option R) :=
  match l, k with
  | [], _ => []
  | (p, _) :: l', O => (p, Some x) :: l'
  | e :: l', S k' => e :: set_rate l' k' x
  end.
(** The dict of rates after that. *)
Definition set_rates (s : ewma) (l : list (R * option R)) := mkEwma (ew_interval s) l (ew_uncounted s) (ew_last s) (ew_force s).

(** Thread [t] goes on: the accumulator, where it is now, what happened.  None: it is not
    about to do this. *)
Definition advance (t : nat) (p : pc) (s : ewma) : option (ewma * pc * list obs) :=
  match p with
  | Idle => None
  | AddStore i v tmp => Some (set_uncounted s (tmp + v), Idle, [Added i])
  | ReadLast t1 => Some (s, if Rle_dec (ew_interval s) (t1 - ew_last s) then UpdClock else ReadForce, [])
  | ReadForce => Some (s, if ew_force s then ClearForce else Copy, [])
  | ClearForce => Some (clear_force s, UpdClock, [])
  | UpdClock => None
  | UpdLast cur => Some (s, UpdLoop cur (cur - ew_last s) 0, [])
  | UpdLoop cur itv k =>
    match nth_error (ew_rates s) k with
    | None => Some (s, UpdReset cur, [])
    | Some _ =>
      if Req_EM_T itv 0 then Some (s, Idle, [Raised t])
      else Some (s, UpdTest cur itv k (ew_uncounted s / itv), [Sample t k itv (ew_uncounted s)])
    end
  | UpdTest cur itv k nr =>
    match nth_error (ew_rates s) k with
    | Some (_, None) => Some (s, UpdFirst cur itv k nr, [])
    | Some (p, Some _) => if Req_EM_T p 0 then Some (s, Idle, [Raised t]) else Some (s, UpdLeft cur itv k nr, [])
    | None => None
    end
  | UpdFirst cur itv k nr => Some (set_rates s (set_rate (ew_rates s) k nr), UpdLoop cur itv (S k), [])
  | UpdLeft cur itv k nr =>
    match nth_error (ew_rates s) k with
    | Some (_, Some r) => Some (s, UpdRight cur itv k nr r, [])
    | _ => Some (s, Idle, [Raised t])
    end
  | UpdRight cur itv k nr l =>
    match nth_error (ew_rates s) k with
    | Some (p, Some r) => Some (s, UpdStore cur itv k (l + (1 - exp (- itv / p)) * (nr - r)), [])
    | _ => Some (s, Idle, [Raised t])
    end
  | UpdStore cur itv k x => Some (set_rates s (set_rate (ew_rates s) k x), UpdLoop cur itv (S k), [])
  | UpdReset cur => Some (set_uncounted s 0, UpdDone cur, [])
  | UpdDone cur => Some (set_last s cur, Copy, [])
  | Copy => Some (s, Idle, [Returned t (ew_rates s)])
  end.
(** The thread is now there. *)
Definition upd_pc (f : nat -> pc) (t : nat) (p : pc) : nat -> pc := fun t' => if Nat.eqb t' t then p else f t'.
(** One step.  None: the thread is not about to do this. *)
Definition estep (e : ev) (s : est) : option est :=
  match e with
  | EvAdd t v =>                                               (* 27: load *)
    match es_pc s t with
    | Idle => Some (mkEst (es_acc s) (upd_pc (es_pc s) t (AddStore (length (es_started s)) v (ew_uncounted (es_acc s))))
                          (es_started s ++ [v]) (es_log s))
    | _ => None
    end
  | EvRead t now =>                                            (* 47: clock *)
    match es_pc s t with
    | Idle => Some (mkEst (es_acc s) (upd_pc (es_pc s) t (ReadLast now)) (es_started s) (es_log s))
    | _ => None
    end
  | EvClock t now =>                                           (* 32 *)
    match es_pc s t with
    | UpdClock => Some (mkEst (es_acc s) (upd_pc (es_pc s) t (UpdLast now)) (es_started s) (es_log s))
    | _ => None
    end
  | EvStep t =>
    match advance t (es_pc s t) (es_acc s) with
    | Some (a, p, o) => Some (mkEst a (upd_pc (es_pc s) t p) (es_started s) (o ++ es_log s))
    | None => None
    end
  end.
(** A schedule. *)
Fixpoint eruns (evs : list ev) (s : est) : option est :=
  match evs with
  | [] => Some s
  | e :: evs' => match estep e s with Some s' => eruns evs' s' | None => None end
  end.
(** A new accumulator, 12-23, and no thread in it. *)
Definition est_new (a : ewma) : est := mkEst a (fun _ => Idle) [] [].
