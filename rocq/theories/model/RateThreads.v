(** Model of /repo/lithoxyl/sinks.py, RateAccumulator 66-129, with threads that add times and
    threads that read rates and normalised times: every load and store of an attribute and every
    operation on the deque is a step of its own, and the steps of the threads are interleaved in
    any order.

    Simplifications: exact arithmetic, as in Sinks.v.  [bisect.bisect_left] of a deque of floats
    runs no Python code and keeps the interpreter lock: it is one step.  The window of get_rate is
    given with its defaults (113-114) resolved, which looks at nothing shared.  The rounding at
    97 is any function.  The numbers of appends at the call and at the return, and the history,
    are recorded for the statements; the code does not look at them. *)
From Verif Require Import model.PyBase model.Bisect model.Quantile model.Sinks.
Open Scope nat_scope.

(** Where a thread is.  [m0]: how many times were appended when the call began (recorded only). *)
Inductive tpc :=
| TIdle
| ALoad (v : Q)                                   (* 86: about to load total_count *)
| AStore (v : Q) (c : nat)                        (* 86: about to store *)
| AAppend (v : Q)                                 (* 87 *)
| GTest (m0 : nat) (st en : Q)                    (* 111 *)
| GTotal (m0 : nat) (st en : Q)                   (* 116: about to load total_count *)
| GBisect (m0 : nat) (st en : Q)                  (* 118 *)
| GLen (m0 : nat) (st en : Q) (idx : nat)         (* 119: about to take the length *)
| GAll (m0 : nat) (st en : Q)                     (* 125: about to take the length *)
| GFirst (m0 : nat) (st en : Q) (c : nat)         (* 126: about to load times[0] *)
| GLast (m0 : nat) (st en : Q) (c : nat) (a : Q)  (* 126: about to load times[-1] *)
| GStart (m0 : nat) (st en : Q) (c : nat)         (* 128: about to load times[0] *)
| NTest (m0 : nat)                                (* 94 *)
| NFirst (m0 : nat)                               (* 96 *)
| NIter (m0 : nat) (f : Q)                        (* 97: about to make the iterator *)
| NNext (m0 : nat) (f : Q) (ver k : nat) (out : list Q).  (* 97: about to ask it for the k-th item *)
(** What happened: get_rate and get_norm_times, called when [m0] times were appended, ended when
    [m1] were.  None: RuntimeError (deque mutated during iteration). *)
Inductive tobs :=
| RateOf (m0 m1 : nat) (st en : Q) (r : pyres Q)
| NormOf (m0 m1 : nat) (r : option (list Q)).
(** The accumulator; how often its deque was changed (the [state] of CPython's deque, which its
    iterators compare); where the threads are; all times appended so far, in order; what happened,
    the latest first. *)
Record tst := mkTst { ts_acc : rate_acc; ts_version : nat; ts_pc : nat -> tpc; ts_appended : list Q; ts_log : list tobs }.
(** The next step of the schedule: a thread calls add(v), get_rate with a window, get_norm_times,
    or goes on. *)
Inductive tev := EvAdd (t : nat) (v : Q) | EvRate (t : nat) (st en : Q) | EvNorm (t : nat) | EvStep (t : nat).

Section Rnd.
Context (rnd : Q -> Q).
(** A count over a length of time, 129. *)
Definition per (c : nat) (d : Q) : pyres Q := qdiv (inject_Z (Z.of_nat c)) d.
(** bookkeeping: thread [t] goes to [p] *)
Definition tgo (s : tst) (t : nat) (p : tpc) (o : list tobs) : tst :=
  mkTst (ts_acc s) (ts_version s) (fun t' => if t' =? t then p else ts_pc s t') (ts_appended s) (o ++ ts_log s).
(** bookkeeping: the state with another accumulator *)
Definition tset (s : tst) (a : rate_acc) (ver : nat) (app : list Q) : tst := mkTst a ver (ts_pc s) app (ts_log s).
(** Thread [t] goes on.  None: it is in no call.  The deque is never emptied, so times[0] and
    times[-1] exist. *)
Definition advance (t : nat) (s : tst) : option tst :=
  let '(mkRate size times total created) := ts_acc s in let m1 := length (ts_appended s) in
  match ts_pc s t with
  | TIdle => None
  | ALoad v => Some (tgo s t (AStore v total) [])
  | AStore v c => Some (tgo (tset s (mkRate size times (S c) created) (ts_version s) (ts_appended s)) t (AAppend v) [])
  | AAppend v => Some (tgo (tset s (mkRate size (dq_append size times v) total created) (S (ts_version s)) (ts_appended s ++ [v])) t TIdle [])
  | GTest m0 st en =>
    match times with
    | [] => Some (tgo s t TIdle [RateOf m0 m1 st en (Ok 0%Q)])
    | _ => Some (tgo s t (if Qle_bool st created then GTotal m0 st en else GBisect m0 st en) [])
    end
  | GTotal m0 st en => Some (tgo s t TIdle [RateOf m0 m1 st en (per total (en - st))])
  | GBisect m0 st en => Some (tgo s t (GLen m0 st en (q_bisect_left times st)) [])
  | GLen m0 st en idx =>
    let count := length times - idx in
    if count =? 0 then Some (tgo s t (GAll m0 st en) [])
    else if idx =? 0 then Some (tgo s t (GStart m0 st en count) [])
    else Some (tgo s t TIdle [RateOf m0 m1 st en (per count (en - st))])
  | GAll m0 st en => Some (tgo s t (GFirst m0 st en (length times)) [])
  | GFirst m0 st en c => Some (tgo s t (GLast m0 st en c (hd 0%Q times)) [])
  | GLast m0 st en c a => Some (tgo s t TIdle [RateOf m0 m1 st en (per c (last times 0%Q - a))])
  | GStart m0 st en c => Some (tgo s t TIdle [RateOf m0 m1 st en (per c (en - hd 0%Q times))])
  | NTest m0 =>
    match times with
    | [] => Some (tgo s t TIdle [NormOf m0 m1 (Some [])])
    | _ => Some (tgo s t (NFirst m0) [])
    end
  | NFirst m0 => Some (tgo s t (NIter m0 (hd 0%Q times)) [])
  | NIter m0 f => Some (tgo s t (NNext m0 f (ts_version s) 0 []) [])
  | NNext m0 f ver k out =>
    if negb (ver =? ts_version s) then Some (tgo s t TIdle [NormOf m0 m1 None])
    else match nth_error times k with
         | Some x => Some (tgo s t (NNext m0 f ver (S k) (out ++ [rnd (x - f)%Q])) [])
         | None => Some (tgo s t TIdle [NormOf m0 m1 (Some out)])
         end
  end.
(** One step.  None: the thread is not about to do this. *)
Definition tstep (e : tev) (s : tst) : option tst :=
  let m0 := length (ts_appended s) in
  match e with
  | EvAdd t v => match ts_pc s t with TIdle => Some (tgo s t (ALoad v) []) | _ => None end
  | EvRate t st en => match ts_pc s t with TIdle => Some (tgo s t (GTest m0 st en) []) | _ => None end
  | EvNorm t => match ts_pc s t with TIdle => Some (tgo s t (NTest m0) []) | _ => None end
  | EvStep t => advance t s
  end.
(** A schedule. *)
Fixpoint truns (evs : list tev) (s : tst) : option tst :=
  match evs with
  | [] => Some s
  | e :: evs' => match tstep e s with Some s' => truns evs' s' | None => None end
  end.
End Rnd.
(** A new accumulator, 72-75. *)
Definition tst_new (size : option nat) (created : Q) : tst := mkTst (ra_new size created) 0 (fun _ => TIdle) [] [].
