(** Vocabulary for C97: a FileEmitter used by several threads. *)
From Verif Require Import model.PyBase model.Emitters model.EmitThreads.
Open Scope nat_scope.

(** The calls of emit_entry, the lines handed to a file object, the calls that returned and
    those that raised: thread and entry, in order. *)
Definition emits_called (tr : list xobs) : list (nat * nat) := flat_map (fun o => match o with OCalled t k => [(t, k)] | _ => [] end) tr.
Definition emits_written (tr : list xobs) : list (nat * nat) := flat_map (fun o => match o with OWrote t k => [(t, k)] | _ => [] end) tr.
Definition emits_ended (tr : list xobs) : list (nat * nat) := flat_map (fun o => match o with ODone t k | ORaised t k => [(t, k)] | _ => [] end) tr.
(** Those of thread [t]. *)
Definition by_thread (t : nat) (l : list (nat * nat)) : list nat := map snd (filter (fun p => Nat.eqb (fst p) t) l).
(** Thread [t] is not inside emit_entry. *)
Definition outside (t : nat) (tr : list xobs) : Prop := by_thread t (emits_called tr) = by_thread t (emits_ended tr).
(** The entries a program emits. *)
Definition entries_of (p : list xop) : list nat := flat_map (fun o => match o with XEmit k => [k] | _ => [] end) p.
(** The bytes of entries, one line after the other. *)
Definition text_of (line : nat -> bytes) (ks : list nat) : bytes := concat (map line ks).
(** No incident ever happens. *)
Definition no_incident (progs : list (list xop)) : Prop := forall p, In p progs -> ~ In XStale p.
(** close() has not been called. *)
Definition not_closed (tr : list xobs) : Prop := forall t, ~ In (OClose t) tr.
(** Nothing is left to do. *)
Definition all_done (cap : nat) (line : nat -> bytes) (w : xstate) : Prop := forall t, xstep cap line t w = None.
(** How many incidents there were. *)
Definition incidents (tr : list xobs) : nat := length (filter (fun o => match o with OStale _ => true | _ => false end) tr).
