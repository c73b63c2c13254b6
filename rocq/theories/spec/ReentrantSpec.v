(** Vocabulary for C95: sinks and preflush hooks that call back into the loggers. *)
From Verif Require Import model.PyBase model.Core model.Concurrent model.Reentrant.

(** Events for which a logging call on [l] started / queued, in order. *)
Definition r_logged (l : nat) (tr : list robs) : list item :=
  flat_map (fun o => match o with RLog _ l' x => if Nat.eqb l' l then [x] else [] | _ => [] end) tr.
Definition r_appended (l : nat) (tr : list robs) : list item :=
  flat_map (fun o => match o with RAppend _ l' x => if Nat.eqb l' l then [x] else [] | _ => [] end) tr.
(** Events of [l] handed to sink [s]: all of them, or those handed over by flush. *)
Definition r_got (l s : nat) (tr : list robs) : list item :=
  flat_map (fun o => match o with RCall _ l' s' x _ => if Nat.eqb l' l && Nat.eqb s' s then [x] else [] | _ => [] end) tr.
Definition r_got_queued (l s : nat) (tr : list robs) : list item :=
  flat_map (fun o => match o with RCall _ l' s' x true => if Nat.eqb l' l && Nat.eqb s' s then [x] else [] | _ => [] end) tr.
(** Does sink [s] of [l] listen to this event? *)
Definition r_wants (H : hookset) (l s : nat) (x : item) : bool := existsb (Nat.eqb s) (h_lis H l (fst x)).

(** Every sink is registered once. *)
Definition registered_once (H : hookset) : Prop := forall l k, NoDup (h_lis H l k).
(** Thread [st] has returned from all its calls. *)
Definition r_finished (st : rthread) : Prop := st = [FBody []].
(** Thread [st] is inside a flush of [l] that has the lock. *)
Definition in_flush (l : nat) (st : rthread) : Prop :=
  exists f, In f st /\ match f with FPre l' _ | FCheck l' | FPop l' | FDispatch l' _ _ => l' = l | _ => False end.

(** No sink of any logger flushes [l] from one of its hooks, nor do the preflush hooks of
    other loggers. *)
Definition hooks_do_not_flush (H : hookset) (l : nat) : Prop :=
  (forall tr t l' s x, ~ In (l, CFlush) (h_react H tr t l' s x)) /\
  (forall tr t l' h, l' <> l -> ~ In (l, CFlush) (h_prereact H tr t l' h)).
(** Sink [s] comes first among the sinks of [l] for the kinds it listens to. *)
Definition listed_first (H : hookset) (l s : nat) : Prop := forall k, In s (h_lis H l k) -> exists hs, h_lis H l k = s :: hs.
(** Nobody switches the mode of [l]. *)
Definition no_switches (H : hookset) (progs : list (list rcall)) (l : nat) : Prop :=
  (forall p b, In p progs -> ~ In (l, CSetAsync b) p) /\
  (forall tr t l' s x b, ~ In (l, CSetAsync b) (h_react H tr t l' s x)) /\
  (forall tr t l' h b, ~ In (l, CSetAsync b) (h_prereact H tr t l' h)).
(** The hooks of a logger only use that logger and loggers that come later. *)
Definition hooks_upwards (H : hookset) : Prop :=
  (forall tr t l s x l' c, In (l', c) (h_react H tr t l s x) -> l <= l') /\
  (forall tr t l h l' c, In (l', c) (h_prereact H tr t l h) -> l <= l').

(** No hook raises. *)
Definition no_raises (sc : list (nat * bool)) : Prop := Forall (fun p => snd p = false) sc.
(** Whenever an event of [l] is queued fewer than QUEUE_LIMIT events wait. *)
Definition room (H : hookset) (l : nat) (sc : list (nat * bool)) (g : rstate) : Prop :=
  forall sc1 t b sc2 x rest, sc = sc1 ++ (t, b) :: sc2 ->
    nth_error (r_threads (rrun H sc1 g)) t = Some (FAppending l x :: rest) ->
    (N.of_nat (length (rl_queue (r_logs (rrun H sc1 g) l))) < QUEUE_LIMIT)%N.
(** The number of steps in which the chosen thread could run. *)
Fixpoint r_steps (H : hookset) (sc : list (nat * bool)) (g : rstate) : nat :=
  match sc with
  | [] => 0
  | (t, b) :: sc' => match rstep H t b g with Some g' => S (r_steps H sc' g') | None => r_steps H sc' g end
  end.

(** Hooks only log, at most [B] events each time, and what a sink logs because of an event
    is of lower [rank] than that event; what preflush hooks log is of rank below [R].
    Every logger has at most [B] hooks of each kind. *)
Definition calls_below (rank : nat * item -> nat) (R B : nat) (cs : list rcall) : Prop :=
  length cs <= B /\ forall c, In c cs -> exists l k e, c = (l, CLog k e) /\ rank (l, (k, e)) < R.
Definition grounded (H : hookset) (rank : nat * item -> nat) (B R : nat) : Prop :=
  (forall tr t l s x, calls_below rank (rank (l, x)) B (h_react H tr t l s x)) /\
  (forall tr t l h, calls_below rank R B (h_prereact H tr t l h)) /\
  (forall l k, length (h_lis H l k) <= B) /\ (forall l, length (h_pre H l) <= B).
(** There are [n] loggers. *)
Definition loggers_below (n : nat) (H : hookset) (progs : list (list rcall)) : Prop :=
  (forall p l c, In p progs -> In (l, c) p -> l < n) /\
  (forall tr t l s x l' c, In (l', c) (h_react H tr t l s x) -> l' < n) /\
  (forall tr t l h l' c, In (l', c) (h_prereact H tr t l h) -> l' < n).
