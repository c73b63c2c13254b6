(** Model of /repo/lithoxyl/ewma.py over the reals: float rounding and the
    OverflowError of [math.exp] for huge arguments are not modelled. *)
From Coq Require Export Reals.
From Verif Require Import model.PyBase.
Open Scope R_scope.

(** EWMAAccumulator, ewma.py 9-23: [ew_rates] is [_rate_map] (a rate is [None]
    before the first update), in the iteration order of the dict. *)
Record ewma := mkEwma {
  ew_interval : R; ew_rates : list (R * option R); ew_uncounted : R; ew_last : R; ew_force : bool }.
(** [dict([(p, None) for p in periods])]: equal periods are one key. *)
Fixpoint period_map (seen : list R) (periods : list R) : list (R * option R) :=
  match periods with
  | [] => []
  | p :: ps => if in_dec Req_EM_T p seen then period_map seen ps else (p, None) :: period_map (p :: seen) ps
  end.
(** __init__, 12-23, for arguments that are given and not falsy; [now] is the
    clock.  [None] is ValueError. *)
Definition ew_new (periods : list R) (interval now : R) : option ewma :=
  if Rlt_dec 0 interval then Some (mkEwma interval (period_map [] periods) 0 now true) else None.
(** add, 25-27 *)
Definition ew_add (s : ewma) (v : R) : ewma :=
  mkEwma (ew_interval s) (ew_rates s) (ew_uncounted s + v) (ew_last s) (ew_force s).
(** The loop body at 35-41; [None] is ZeroDivisionError. *)
Definition ew_step (uncounted interval : R) (e : R * option R) : option (R * option R) :=
  let '(period, rate) := e in
  if Req_EM_T interval 0 then None
  else
    let new_rate := uncounted / interval in
    match rate with
    | None => Some (period, Some new_rate)
    | Some r =>
      if Req_EM_T period 0 then None
      else
        let alpha := 1 - exp (- interval / period) in
        Some (period, Some (r + alpha * (new_rate - r)))
    end.
(** The loop of _update, ewma.py 35-41. *)
Fixpoint ew_steps (uncounted interval : R) (l : list (R * option R)) : option (list (R * option R)) :=
  match l with
  | [] => Some []
  | e :: l' =>
    match ew_step uncounted interval e, ew_steps uncounted interval l' with
    | Some e', Some l'' => Some (e' :: l'')
    | _, _ => None
    end
  end.
(** _update, 29-43; [cur_time] is the clock. *)
Definition ew_update (cur_time : R) (s : ewma) : option ewma :=
  match ew_steps (ew_uncounted s) (cur_time - ew_last s) (ew_rates s) with
  | Some rates => Some (mkEwma (ew_interval s) rates 0 cur_time (ew_force s))
  | None => None
  end.
(** get_rates, 45-52: [t1] is the clock at line 47, [t2] the clock in [_update].
    The state after the call; the result is its rate map.  A failing update is
    not rolled back, but no theorem below looks at the state after a failure. *)
Definition ew_read (t1 t2 : R) (s : ewma) : option ewma :=
  if Rle_dec (ew_interval s) (t1 - ew_last s) then ew_update t2 s
  else if ew_force s then
    ew_update t2 (mkEwma (ew_interval s) (ew_rates s) (ew_uncounted s) (ew_last s) false)
  else Some s.
