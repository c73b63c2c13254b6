(** Reading a RateSink while other threads deliver to it: RateSink.on_end (sinks.py
    159-168) and RateSink.get_total_counts (sinks.py 204-227).

    One step is one operation on shared state.  A Python dict without deletions is the list
    of its keys in insertion order; an iterator over it is the position and the size the
    dict had when the iterator was made, and every step of the iterator raises RuntimeError
    if the size has changed (CPython, dictiter_iternextitem).  Assigning to an existing key
    keeps the size.

    Simplifications: loggers are named by their names (C41 covers two loggers of one name);
    statuses, names and loggers are numbers; the getter returns; the reservoir of timestamps
    is not kept, since totals do not use it (C80 covers it).  get_rates (170-202),
    EWMASink.get_values (276-292), QuantileSink.to_dict (331-339) and CounterSink.to_dict
    (386-394) loop over their dicts in the same way. *)
From Verif Require Import model.PyBase model.Core.
Open Scope nat_scope.

(** Logger, name and status of an end event. *)
Definition group := (nat * nat * nat)%type.
(** What a thread does: deliver an end event, or read the totals. *)
Inductive sop := Deliver (g : group) | ReadTotals.
(** An entry of the result: a count, or the '__all__' of a name, of a logger, of all. *)
Inductive sline := LStat (g : group) (c : nat) | LName (l n c : nat) | LLogger (l c : nat) | LAll (c : nat).
(** An iterator: position, size of the dict when it was made. *)
Definition iter := (nat * nat)%type.
(** Where a reader is. *)
Inductive rpos :=
| PTop (i : iter)                                           (* before the next item of acc_map, 212 *)
| PNames (i : iter) (l : nat)                               (* before name_map.items(), 215 *)
| PName (i : iter) (l : nat) (j : iter)                     (* before the next item of name_map, 215 *)
| PStats (i : iter) (l : nat) (j : iter) (n : nat)          (* before status_map.items(), 218 *)
| PStat (i : iter) (l : nat) (j : iter) (n : nat) (k : iter)        (* before the next item of status_map, 218 *)
| PCount (i : iter) (l : nat) (j : iter) (n : nat) (k : iter) (s a : nat).  (* has acc [a]; before acc.total_count, 219 *)
(** Where a thread is. *)
Inductive spc :=
| QIdle
| QTop (g : group)                  (* before acc_map.setdefault, 161 *)
| QName (g : group)                 (* before name_time_map.setdefault, 162 *)
| QLook (g : group)                 (* before status_time_map[ev.status], 164 *)
| QStore (g : group)                (* missing; before status_time_map[...] = acc, 166-167 *)
| QLoad (g : group) (a : nat)       (* before reading total_count in add, 86 *)
| QWrite (g : group) (a c : nat)    (* read [c]; before writing c + 1, 86 *)
| QTimes (g : group)                (* before times.append, 87 *)
| QBegin                            (* before acc_map.items(), 212 *)
| QReading (p : rpos) (out : list sline) (cn cl ca : nat).  (* the result so far; cur_name_count, cur_logger_count, all_loggers_count *)
(** What happened. *)
Inductive sobs :=
| SCalled (t : nat) (g : group)          (* on_end was called *)
| SWrote (t : nat) (g : group)           (* its count was written *)
| SDone (t : nat) (g : group)            (* it returned *)
| SReadStart (t : nat)                   (* get_total_counts was called *)
| SReadDone (t : nat) (out : list sline) (* it returned *)
| SReadFailed (t : nat).                 (* it raised RuntimeError *)
(** A thread: where it is and what it has still to do. *)
Record sthread := mkST { st_pc : spc; st_todo : list sop }.
(** acc_map with its inner dicts (inner dicts are never replaced, so they are named by
    their keys), total_count of each accumulator made, number of accumulators made. *)
Record sstate := mkSS {
  s_top : list nat;
  s_names : nat -> list nat;
  s_stats : nat -> nat -> list (nat * nat);
  s_count : nat -> nat;
  s_next : nat;
  s_threads : list sthread;
  s_trace : list sobs }.

(** bookkeeping, no counterpart in /repo: thread [t] moves on *)
Definition sat (t : nat) (p : spc) (todo : list sop) (new : list sobs) (w : sstate) : sstate :=
  mkSS (s_top w) (s_names w) (s_stats w) (s_count w) (s_next w) (list_set (s_threads w) t (mkST p todo)) (s_trace w ++ new).
(** dict.setdefault with a key and a fresh inner dict, 161-162 *)
Definition add_key (k : nat) (d : list nat) : list nat := if existsb (Nat.eqb k) d then d else d ++ [k].
(** dict lookup, 164 *)
Fixpoint look (s : nat) (d : list (nat * nat)) : option nat :=
  match d with [] => None | (s', a) :: d' => if Nat.eqb s' s then Some a else look s d' end.
(** dict assignment, 167 *)
Fixpoint put (s a : nat) (d : list (nat * nat)) : list (nat * nat) :=
  match d with [] => [(s, a)] | (s', a') :: d' => if Nat.eqb s' s then (s, a) :: d' else (s', a') :: put s a d' end.
(** bookkeeping, no counterpart in /repo *)
Definition set_top (d : list nat) (w : sstate) : sstate :=
  mkSS d (s_names w) (s_stats w) (s_count w) (s_next w) (s_threads w) (s_trace w).
(** bookkeeping, no counterpart in /repo *)
Definition set_names (l : nat) (d : list nat) (w : sstate) : sstate :=
  mkSS (s_top w) (fun l' => if Nat.eqb l' l then d else s_names w l') (s_stats w) (s_count w) (s_next w) (s_threads w) (s_trace w).
(** A new accumulator, stored under its status, 166-167 *)
Definition store (l n s : nat) (w : sstate) : sstate :=
  mkSS (s_top w) (s_names w)
       (fun l' n' => if Nat.eqb l' l && Nat.eqb n' n then put s (s_next w) (s_stats w l n) else s_stats w l' n')
       (fun a => if Nat.eqb a (s_next w) then 0 else s_count w a) (S (s_next w)) (s_threads w) (s_trace w).
(** bookkeeping, no counterpart in /repo *)
Definition set_count (a c : nat) (w : sstate) : sstate :=
  mkSS (s_top w) (s_names w) (s_stats w) (fun a' => if Nat.eqb a' a then c else s_count w a') (s_next w) (s_threads w) (s_trace w).

(** One step of a dict iterator: RuntimeError (None) if the size changed; otherwise the
    next item, if any. *)
Definition advance {X} (i : iter) (d : list X) : option (option X) :=
  if Nat.eqb (length d) (snd i) then Some (nth_error d (fst i)) else None.
(** bookkeeping, no counterpart in /repo: the iterator after that step *)
Definition past (i : iter) : iter := (S (fst i), snd i).
(** iter(d.items()) *)
Definition start_iter {X} (d : list X) : iter := (0, length d).

(** One step of a reader, 210-227: the new position and local variables, or the result
    ([inr (Some out)]), or RuntimeError ([inr None]). *)
Definition read_step (w : sstate) (p : rpos) (out : list sline) (cn cl ca : nat) : spc + option (list sline) :=
  match p with
  | PTop i =>
    match advance i (s_top w) with
    | None => inr None
    | Some None => inr (Some (out ++ [LAll ca]))                          (* 226-227 *)
    | Some (Some l) => inl (QReading (PNames (past i) l) out cn 0 ca)     (* 213-214 *)
    end
  | PNames i l => inl (QReading (PName i l (start_iter (s_names w l))) out cn cl ca)
  | PName i l j =>
    match advance j (s_names w l) with
    | None => inr None
    | Some None => inl (QReading (PTop i) (out ++ [LLogger l cl]) cn cl ca)              (* 225 *)
    | Some (Some n) => inl (QReading (PStats i l (past j) n) out 0 cl ca)                (* 216-217 *)
    end
  | PStats i l j n => inl (QReading (PStat i l j n (start_iter (s_stats w l n))) out cn cl ca)
  | PStat i l j n k =>
    match advance k (s_stats w l n) with
    | None => inr None
    | Some None => inl (QReading (PName i l j) (out ++ [LName l n cn]) cn cl ca)         (* 224 *)
    | Some (Some (s, a)) => inl (QReading (PCount i l j n (past k) s a) out cn cl ca)
    end
  | PCount i l j n k s a =>
    let c := s_count w a in
    inl (QReading (PStat i l j n k) (out ++ [LStat (l, n, s) c]) (cn + c) (cl + c) (ca + c))   (* 219-223 *)
  end.

(** One step of thread [t]; None: it has nothing to do. *)
Definition sstep (t : nat) (w : sstate) : option sstate :=
  match nth_error (s_threads w) t with
  | None => None
  | Some th =>
    let todo := st_todo th in
    match st_pc th with
    | QIdle =>
      match todo with
      | [] => None
      | Deliver g :: todo' => Some (sat t (QTop g) todo' [SCalled t g] w)
      | ReadTotals :: todo' => Some (sat t QBegin todo' [SReadStart t] w)
      end
    | QTop (l, n, s) => Some (sat t (QName (l, n, s)) todo [] (set_top (add_key l (s_top w)) w))
    | QName (l, n, s) => Some (sat t (QLook (l, n, s)) todo [] (set_names l (add_key n (s_names w l)) w))
    | QLook (l, n, s) =>
      Some (sat t (match look s (s_stats w l n) with Some a => QLoad (l, n, s) a | None => QStore (l, n, s) end) todo [] w)
    | QStore (l, n, s) => Some (sat t (QLoad (l, n, s) (s_next w)) todo [] (store l n s w))
    | QLoad g a => Some (sat t (QWrite g a (s_count w a)) todo [] w)
    | QWrite g a c => Some (sat t (QTimes g) todo [SWrote t g] (set_count a (S c) w))
    | QTimes g => Some (sat t QIdle todo [SDone t g] w)
    | QBegin => Some (sat t (QReading (PTop (start_iter (s_top w))) [] 0 0 0) todo [] w)
    | QReading p out cn cl ca =>
      match read_step w p out cn cl ca with
      | inl q => Some (sat t q todo [] w)
      | inr (Some r) => Some (sat t QIdle todo [SReadDone t r] w)
      | inr None => Some (sat t QIdle todo [SReadFailed t] w)
      end
    end
  end.
(** Running a schedule; threads with nothing to do are skipped. *)
Fixpoint srun (sc : list nat) (w : sstate) : sstate :=
  match sc with
  | [] => w
  | t :: sc' => srun sc' (match sstep t w with Some w' => w' | None => w end)
  end.
(** A fresh sink (155, acc_map = {}) and threads about to do the given operations. *)
Definition sstart (progs : list (list sop)) : sstate :=
  mkSS [] (fun _ => []) (fun _ _ => []) (fun _ => 0) 0 (map (mkST QIdle) progs) [].
