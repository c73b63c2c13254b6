(** Vocabulary for the actor statements. *)
From Coq Require Import QArith.
From Verif Require Import model.PyBase model.Actor.
Open Scope nat_scope.

Definition failures (k : nat) : list outcome := repeat (TaskRaises false) k.
Definition successes (k : nat) : list outcome := repeat TaskOk k.
Definition interval_after (a : actor) (os : list outcome) : Q := ac_interval (fst (fst (run_loop a os))).
Definition calls (a : actor) (os : list outcome) : nat := snd (fst (run_loop a os)).
Definition still_running (a : actor) (os : list outcome) : bool := snd (run_loop a os).
(** Returns and ordinary exceptions whose report succeeds. *)
Definition ordinary (o : outcome) : Prop := o = TaskOk \/ o = TaskRaises false.

(** Executions from the initial state. *)
Definition execution (tr : list label) (s : lstate) : Prop := exists pid, lsteps (l_init pid) tr s.
Definition alive_workers (s : lstate) : nat := length (filter pc_alive (l_workers s)).
Definition task_calls (tr : list label) : nat := length (filter (fun l => match l with LTask _ => true | _ => false end) tr).
Definition no_start (tr : list label) : Prop := ~ In (LCall OStart) tr.

(** A worker does not go on after a call that raises out of the loop: a raising report,
    or SystemExit or KeyboardInterrupt in a thread that is not a daemon. *)
Definition ends_worker (daemon : bool) (o : outcome) : bool :=
  match o with TaskRaises true => true | TaskExits => negb daemon | _ => false end.
(** The calls a worker makes: all up to and including the first that ends it. *)
Fixpoint made (daemon : bool) (cs : list tcall) : list tcall :=
  match cs with
  | [] => []
  | c :: cs' => c :: (if ends_worker daemon (tc_outcome c) then [] else made daemon cs')
  end.
Definition all_made (daemon : bool) (ws : list (Q * list tcall)) : list tcall := flat_map (fun w => made daemon (snd w)) ws.
(** Time spent in the calls that returned to the loop. *)
Definition time_spent (daemon : bool) (cs : list tcall) : Q :=
  fold_right (fun c t => (tc_after c - tc_before c) + t)%Q 0%Q (filter (fun c => negb (ends_worker daemon (tc_outcome c))) cs).
