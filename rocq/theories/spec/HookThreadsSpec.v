(** Vocabulary for C93. *)
From Verif Require Import model.PyBase model.Core model.HookThreads.
Open Scope nat_scope.

(** Nobody replaces the sinks. *)
Definition no_set (progs : list (list hop)) : Prop := forall p ss, In p progs -> ~ In (HSet ss) p.
(** Event numbers identify publications. *)
Definition events_of (p : list hop) : list nat := flat_map (fun o => match o with HPub _ e => [e] | _ => [] end) p.
Definition distinct_events (progs : list (list hop)) : Prop := NoDup (flat_map events_of progs).
(** Every sink is added by one thread only (which may add it again and again). *)
Definition one_adder (progs : list (list hop)) : Prop :=
  forall i j p q s, nth_error progs i = Some p -> nth_error progs j = Some q -> In (HAdd s) p -> In (HAdd s) q -> i = j.

(** The hooks called with an event, in order. *)
Definition callees (e : nat) (tr : list hobs) : list nat :=
  flat_map (fun o => match o with PCall _ _ e' s => if e' =? e then [s] else [] | _ => [] end) tr.
(** add_sink(s) has been called / has returned. *)
Definition add_called (s : nat) (tr : list hobs) : Prop := exists t, In (ACalled t s) tr.
Definition added (s : nat) (tr : list hobs) : Prop := exists t, In (AReturned t s) tr.
(** [s1] stands somewhere before [s2] in the list. *)
Definition before {A} (s1 s2 : A) (l : list A) : Prop := exists a b c, l = a ++ s1 :: b ++ s2 :: c.
