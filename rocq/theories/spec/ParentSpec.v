(** Vocabulary for C79: what the parent of an action should be. *)
From Verif Require Import model.PyBase model.ParentThreads.
Open Scope nat_scope.

(** The with-blocks of thread [t] on logger [l] that are open after the observations [tr],
    innermost first. *)
Definition blocks (t l : nat) (tr : list pobs) : list nat :=
  fold_left (fun st o =>
    match o with
    | Entered t' l' id => if (t' =? t) && (l' =? l) then id :: st else st
    | Left t' l' _ => if (t' =? t) && (l' =? l) then tl st else st
    | _ => st
    end) tr [].
(** The innermost of them. *)
Definition innermost (t l : nat) (tr : list pobs) : option nat := hd_error (blocks t l tr).
(** The loggers a program uses. *)
Definition uses (p : list pop) (l : nat) : Prop := In (PWith l) p \/ In (PMake l) p.
(** No two threads share an entry of the map of active actions. *)
Definition private (key : nat -> nat -> pkey) (progs : list (list pop)) : Prop :=
  forall t t' p p' l l', nth_error progs t = Some p -> nth_error progs t' = Some p' -> uses p l -> uses p' l' ->
    key t l = key t' l' -> t = t' /\ l = l'.
(** No logger is used by two threads. *)
Definition own_loggers (progs : list (list pop)) : Prop :=
  forall t t' p p' l, nth_error progs t = Some p -> nth_error progs t' = Some p' -> uses p l -> uses p' l -> t = t'.
(** The ids of the actions created, and the parent recorded for one. *)
Definition made (tr : list pobs) : list nat := flat_map (fun o => match o with Created _ _ id _ => [id] | _ => [] end) tr.
(** [parent tr c p]: action [c] was created with parent_action [p]. *)
Definition parent (tr : list pobs) (c p : nat) : Prop := exists t l, In (Created t l c (Some p)) tr.
(** Following parent_action from [c] leads to [p] in one or more steps. *)
Inductive ancestor (tr : list pobs) (c : nat) : nat -> Prop :=
| anc_one p : parent tr c p -> ancestor tr c p
| anc_more q p : ancestor tr c q -> parent tr q p -> ancestor tr c p.
(** All threads are done and have closed their blocks. *)
Definition all_closed (w : pstate) : Prop := Forall (fun th => pt_pc th = PIdle /\ pt_open th = [] /\ pt_todo th = []) (ps_threads w).
