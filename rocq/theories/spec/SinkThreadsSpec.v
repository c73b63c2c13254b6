(** Vocabulary for C80. *)
From Verif Require Import model.PyBase model.SinkThreads.
Open Scope nat_scope.

(** The number of on_end calls for group [k] that were made / the values of those that have returned. *)
Definition calls (k : nat) (tr : list robs) : nat :=
  length (filter (fun o => match o with RCalled _ k' _ => k' =? k | _ => false end) tr).
Definition returned (k : nat) (tr : list robs) : list nat :=
  flat_map (fun o => match o with RReturned _ k' x => if k' =? k then [x] else [] | _ => [] end) tr.
(** A thread is inside on_end. *)
Definition busy (th : rthread) : Prop := rt_pc th <> RIdle.
(** At most one thread is inside on_end. *)
Definition one_busy (w : rstate) : Prop :=
  forall t1 th1 t2 th2, nth_error (rs_threads w) t1 = Some th1 -> nth_error (rs_threads w) t2 = Some th2 -> busy th1 -> busy th2 -> t1 = t2.
(** on_end calls never overlap in this run: as when all deliveries are made by flush
    (C15_one_deliverer), or by one thread. *)
Definition no_overlap (size : option nat) (sc : list nat) (w : rstate) : Prop :=
  forall sc1 sc2, sc = sc1 ++ sc2 -> one_busy (rrun size sc1 w).
Definition nobody_busy (w : rstate) : Prop := Forall (fun th => ~ busy th) (rs_threads w).
