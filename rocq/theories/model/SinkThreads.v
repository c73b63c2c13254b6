(** Small-step model of RateSink.on_end (sinks.py 159-168) and RateAccumulator.add
    (sinks.py 81-87) when several threads deliver end events to one sink.

    One step is one operation on shared state.  The two [setdefault] calls (161-162) are
    atomic in CPython and the dicts they install are never replaced, so a group is named by
    one number [k] standing for logger, name and status.  [self.total_count += 1] is a
    read and a write.  The getter is evaluated before [add] is entered and touches nothing
    shared; its result is the number [x] of the event. *)
From Verif Require Import model.PyBase model.Core model.Sinks.
Open Scope nat_scope.

(** A RateAccumulator: total_count and times (sinks.py 72-75); [sa_key] is the group it was made for, bookkeeping. *)
Record sacc := mkSA { sa_key : nat; sa_count : nat; sa_times : list nat }.
(** Where a thread is in on_end for group [k] and value [x]. *)
Inductive rpc :=
| RIdle                                   (* not in on_end *)
| RLookup (k x : nat)                     (* before status_time_map[ev.status], 164 *)
| RStore (k x : nat)                      (* missing; before status_time_map[..] = acc, 166-167 *)
| RRead (a k x : nat)                     (* has acc [a]; before reading total_count, 86 *)
| RWrite (a k x c : nat)                  (* read [c]; before writing c + 1, 86 *)
| RTimes (a k x : nat).                   (* before times.append, 87 *)
(** A thread: where it is and the end events it has still to deliver. *)
Record rthread := mkRT { rt_pc : rpc; rt_todo : list (nat * nat) }.
(** What happened: on_end was called, on_end returned. *)
Inductive robs := RCalled (t k x : nat) | RReturned (t k x : nat).
(** acc_map (group to accumulator), the accumulators made so far, the threads, the observations. *)
Record rstate := mkRS { rs_map : nat -> option nat; rs_heap : list sacc; rs_threads : list rthread; rs_trace : list robs }.

(** bookkeeping, no counterpart in /repo: thread [t] moves on *)
Definition rat (t : nat) (p : rpc) (todo : list (nat * nat)) (m : nat -> option nat) (h : list sacc) (new : list robs) (w : rstate) : rstate :=
  mkRS m h (list_set (rs_threads w) t (mkRT p todo)) (rs_trace w ++ new).
(** One step of thread [t]; None: it has delivered everything.  [size]: sample_size. *)
Definition rstep (size : option nat) (t : nat) (w : rstate) : option rstate :=
  match nth_error (rs_threads w) t with
  | None => None
  | Some th =>
    let todo := rt_todo th in let m := rs_map w in let h := rs_heap w in
    match rt_pc th with
    | RIdle =>
      match todo with
      | [] => None
      | (k, x) :: todo' => Some (rat t (RLookup k x) todo' m h [RCalled t k x] w)
      end
    | RLookup k x => Some (rat t (match m k with Some a => RRead a k x | None => RStore k x end) todo m h [] w)
    | RStore k x =>
      Some (rat t (RRead (length h) k x) todo (fun k' => if k' =? k then Some (length h) else m k') (h ++ [mkSA k 0 []]) [] w)
    | RRead a k x =>
      match nth_error h a with
      | Some s => Some (rat t (RWrite a k x (sa_count s)) todo m h [] w)
      | None => None
      end
    | RWrite a k x c =>
      match nth_error h a with
      | Some s => Some (rat t (RTimes a k x) todo m (list_set h a (mkSA (sa_key s) (c + 1) (sa_times s))) [] w)
      | None => None
      end
    | RTimes a k x =>
      match nth_error h a with
      | Some s => Some (rat t RIdle todo m (list_set h a (mkSA (sa_key s) (sa_count s) (dq_append size (sa_times s) x))) [RReturned t k x] w)
      | None => None
      end
    end
  end.
(** Running a schedule: a thread that is done is skipped. *)
Fixpoint rrun (size : option nat) (sc : list nat) (w : rstate) : rstate :=
  match sc with
  | [] => w
  | t :: sc' => rrun size sc' (match rstep size t w with Some w' => w' | None => w end)
  end.
(** A new sink and threads about to deliver the given events. *)
Definition rstart (progs : list (list (nat * nat))) : rstate := mkRS (fun _ => None) [] (map (mkRT RIdle) progs) [].
(** get_total_counts for one group (sinks.py 204-227): 0 if it is not there. *)
Definition rcount (w : rstate) (k : nat) : nat :=
  match rs_map w k with
  | Some a => match nth_error (rs_heap w) a with Some s => sa_count s | None => 0 end
  | None => 0
  end.
(** The times the accumulator of a group holds. *)
Definition rtimes (w : rstate) (k : nat) : list nat :=
  match rs_map w k with
  | Some a => match nth_error (rs_heap w) a with Some s => sa_times s | None => [] end
  | None => []
  end.
