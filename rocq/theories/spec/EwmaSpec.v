(** Vocabulary for the EWMA statements. *)
From Verif Require Import model.PyBase model.Ewma.
Open Scope R_scope.

(** Histories: values added, and reads with the two clock readings a read may make. *)
Inductive eop := EAdd (v : R) | ERead (t1 t2 : R).
Fixpoint ew_run (s : ewma) (ops : list eop) : option ewma :=
  match ops with
  | [] => Some s
  | EAdd v :: ops' => ew_run (ew_add s v) ops'
  | ERead t1 t2 :: ops' => match ew_read t1 t2 s with Some s' => ew_run s' ops' | None => None end
  end.
(** The clock never stands still between two reads: [last] is the previous
    reading (at first: the creation time). *)
Fixpoint advancing (last : R) (ops : list eop) : Prop :=
  match ops with
  | [] => True
  | EAdd _ :: ops' => advancing last ops'
  | ERead t1 t2 :: ops' => last < t1 /\ t1 <= t2 /\ advancing t2 ops'
  end.
Fixpoint added_values (ops : list eop) : list R :=
  match ops with [] => [] | EAdd v :: ops' => v :: added_values ops' | ERead _ _ :: ops' => added_values ops' end.
Fixpoint has_read (ops : list eop) : bool :=
  match ops with [] => false | EAdd _ :: ops' => has_read ops' | ERead _ _ :: _ => true end.
Definition total (l : list R) : R := fold_right Rplus 0 l.

(** A measuring interval: the values that arrived in it and its length. *)
Definition segment := (list R * R)%type.
Definition seg_rate (g : segment) : R := total (fst g) / snd g.
(** The moving average of a list of intervals, oldest first: the first rate, then
    each new rate weighed by 1 - e^(-length/period). *)
Definition moving_average (period : R) (segs : list segment) : option R :=
  fold_left (fun (avg : option R) g =>
    match avg with
    | None => Some (seg_rate g)
    | Some r => Some (exp (- snd g / period) * r + (1 - exp (- snd g / period)) * seg_rate g)
    end) segs None.
(** A stream whose values between any two reads sum to [c] times the time
    between them; [pend] is the sum since the last read, at [last]. *)
Fixpoint steady (c last pend : R) (ops : list eop) : Prop :=
  match ops with
  | [] => True
  | EAdd v :: ops' => steady c last (pend + v) ops'
  | ERead t1 t2 :: ops' => pend = c * (t2 - last) /\ steady c t2 0 ops'
  end.
