(** Vocabulary for C15 and C16. *)
From Verif Require Import model.PyBase model.Core model.Concurrent spec.CoreSpec.

(** Events for which a logging call started / queued / discarded by the full queue, in order. *)
Definition logged (tr : list tobs) : list item :=
  flat_map (fun o => match o with TLog _ x => [x] | _ => [] end) tr.
Definition appended (tr : list tobs) : list item :=
  flat_map (fun o => match o with TAppend _ x => [x] | _ => [] end) tr.
Definition dropped (tr : list tobs) : list item :=
  flat_map (fun o => match o with TDrop x => [x] | _ => [] end) tr.
(** Those queued by thread [t]. *)
Definition appended_by (t : nat) (tr : list tobs) : list item :=
  flat_map (fun o => match o with TAppend t' x => if Nat.eqb t' t then [x] else [] | _ => [] end) tr.
(** Events handed to sink [s]: all of them, or those handed over by flush. *)
Definition got (s : nat) (tr : list tobs) : list item :=
  flat_map (fun o => match o with TCall _ s' x _ => if Nat.eqb s' s then [x] else [] | _ => [] end) tr.
Definition got_queued (s : nat) (tr : list tobs) : list item :=
  flat_map (fun o => match o with TCall _ s' x true => if Nat.eqb s' s then [x] else [] | _ => [] end) tr.
Definition got_inline (s : nat) (tr : list tobs) : list item :=
  flat_map (fun o => match o with TCall _ s' x false => if Nat.eqb s' s then [x] else [] | _ => [] end) tr.
(** Does sink [s] listen to this event? *)
Definition wants (lis : kind -> list nat) (s : nat) (x : item) : bool := existsb (Nat.eqb s) (lis (fst x)).

(** Thread [th] is inside a flush that holds the lock. *)
Definition flushing (th : thread) : Prop :=
  match th_pc th with Checking | Popping | Dispatching _ _ _ | Delivering _ _ _ _ => True | _ => False end.
(** Thread [th] is inside a hook called by flush. *)
Definition delivering (th : thread) : Prop := match th_pc th with Delivering _ _ _ _ => True | _ => False end.
(** Thread [th] is inside a logging call. *)
Definition in_log_call (th : thread) : Prop :=
  match th_pc th with Logging _ _ | Appending _ _ | Inline _ _ _ | InHook _ _ _ _ => True | _ => False end.
Definition finished (th : thread) : Prop := th_pc th = Idle /\ th_todo th = [].

(** No hook raises. *)
Definition nobody_raises (sc : sched) : Prop := Forall (fun p => snd p = false) sc.
(** Whenever an event is queued fewer than QUEUE_LIMIT events wait: at no time do more
    than QUEUE_LIMIT events have to wait. *)
Definition never_full (lis : kind -> list nat) (sc : sched) (g : gstate) : Prop :=
  forall sc1 t b sc2 th, sc = sc1 ++ (t, b) :: sc2 -> nth_error (g_threads (trun lis sc1 g)) t = Some th ->
    match th_pc th with
    | Appending _ _ => (N.of_nat (length (g_queue (trun lis sc1 g))) < QUEUE_LIMIT)%N
    | _ => True
    end.
(** The number of steps in which the chosen thread could run. *)
Fixpoint steps (lis : kind -> list nat) (sc : sched) (g : gstate) : nat :=
  match sc with
  | [] => 0
  | (t, b) :: sc' => match tstep lis t b g with Some g' => S (steps lis sc' g') | None => steps lis sc' g end
  end.
(** The programs only log and flush. *)
Definition no_switch (progs : list (list call)) : Prop := forall p b, In p progs -> ~ In (CSetAsync b) p.
(** The events a program logs, except exception events, which are never queued. *)
Definition plain_logs (p : list call) : list item :=
  flat_map (fun c => match c with CLog KExc _ => [] | CLog k e => [(k, e)] | _ => [] end) p.
(** Hook calls in order, as sink and event: by flush (any thread); inline by thread [t]. *)
Definition handed (tr : list tobs) : list (nat * item) :=
  flat_map (fun o => match o with TCall _ s x true => [(s, x)] | _ => [] end) tr.
Definition handed_inline_by (t : nat) (tr : list tobs) : list (nat * item) :=
  flat_map (fun o => match o with TCall t' s x false => if Nat.eqb t' t then [(s, x)] else [] | _ => [] end) tr.
(** Events for which thread [t] started a logging call. *)
Definition logged_by (t : nat) (tr : list tobs) : list item :=
  flat_map (fun o => match o with TLog t' x => if Nat.eqb t' t then [x] else [] | _ => [] end) tr.
(** Each event to each of its listeners, in registration order. *)
Definition to_all (lis : kind -> list nat) (xs : list item) : list (nat * item) :=
  flat_map (fun x => map (fun s => (s, x)) (lis (fst x))) xs.
