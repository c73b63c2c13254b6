(** Vocabulary for C96: reading a RateSink while other threads deliver to it. *)
From Verif Require Import model.PyBase model.StatReads.
Open Scope nat_scope.

Definition group_dec (g h : group) : {g = h} + {g <> h}.
Proof. repeat decide equality. Defined.
Definition is_group (g h : group) : bool := if group_dec g h then true else false.
(** The number of deliveries to a group that were called / have returned. *)
Definition called (g : group) (tr : list sobs) : nat :=
  length (filter (fun o => match o with SCalled _ h => is_group g h | _ => false end) tr).
Definition done (g : group) (tr : list sobs) : nat :=
  length (filter (fun o => match o with SDone _ h => is_group g h | _ => false end) tr).

(** The entries of a result. *)
Definition stats_of (out : list sline) : list (group * nat) :=
  flat_map (fun x => match x with LStat g c => [(g, c)] | _ => [] end) out.
Definition names_of (out : list sline) : list (nat * nat * nat) :=
  flat_map (fun x => match x with LName l n c => [(l, n, c)] | _ => [] end) out.
Definition loggers_of (out : list sline) : list (nat * nat) :=
  flat_map (fun x => match x with LLogger l c => [(l, c)] | _ => [] end) out.
Definition totals_of (out : list sline) : list nat :=
  flat_map (fun x => match x with LAll c => [c] | _ => [] end) out.
(** The sum of the counts of the groups that satisfy [f]. *)
Definition sum_where (f : group -> bool) (out : list sline) : nat :=
  list_sum (map snd (filter (fun p => f (fst p)) (stats_of out))).
Definition of_logger (l : nat) (g : group) : bool := Nat.eqb (fst (fst g)) l.
Definition of_name (l n : nat) (g : group) : bool := Nat.eqb (fst (fst g)) l && Nat.eqb (snd (fst g)) n.
(** Every aggregate of a result is the sum of the counts below it, and every count has its
    aggregates. *)
Definition adds_up (out : list sline) : Prop :=
  (forall l n c, In (l, n, c) (names_of out) -> c = sum_where (of_name l n) out) /\
  (forall l c, In (l, c) (loggers_of out) -> c = sum_where (of_logger l) out) /\
  totals_of out = [sum_where (fun _ => true) out] /\
  (forall l n s c, In ((l, n, s), c) (stats_of out) ->
     (exists c', In (l, n, c') (names_of out)) /\ exists c', In (l, c') (loggers_of out)).

(** Only thread [t] delivers to group [g]. *)
Definition delivers_alone (t : nat) (g : group) (progs : list (list sop)) : Prop :=
  forall t' p, nth_error progs t' = Some p -> In (Deliver g) p -> t' = t.
(** The number of deliveries to a group in the programs of the threads. *)
Definition planned (g : group) (progs : list (list sop)) : nat :=
  length (filter (fun o => match o with Deliver h => is_group g h | ReadTotals => false end) (concat progs)).
