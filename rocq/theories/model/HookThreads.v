(** Small-step model of the sinks of one logger while several threads publish events and
    change the registration: Logger.add_sink (logger.py 161-184), set_sinks (145-155) and the
    loops [for hook in self._..._hooks: hook(event)] (186-218, 118-131, 244-245).

    Hook lists are objects: set_sinks binds the attributes to new lists (148-153) while
    loops and calls of append that have already read the attribute go on with the old ones.
    One step is one operation on shared state: reading an attribute, a membership test, an
    append, the next element of an iteration (each atomic in CPython; sinks are compared by
    identity), an assignment to an attribute.  Hooks return without raising and do not
    change the registration. *)
From Verif Require Import model.PyBase model.Core.
Open Scope nat_scope.

(** What a thread does: add_sink(s), set_sinks(ss), or the publication of event number [e] of
    kind [k] to the hooks. *)
Inductive hop := HAdd (s : nat) | HSet (ss : list nat) | HPub (k : kind) (e : nat).
(** Where a thread is. *)
Inductive hpc :=
| HIdle
| HAdding (s : nat) (ks : list kind)                  (* before reading the hook list of the first of [ks]; none left: before 184 *)
| HHave (s : nat) (k : kind) (l : nat) (ks : list kind)   (* attribute read: list object [l]; before append *)
| HLast (s : nat) (l : nat)                           (* 184: attribute read, before append *)
| HResetting (ks : list kind)                         (* 149-153: lists still to be replaced *)
| HIter (k : kind) (e : nat) (l : nat) (i : nat).     (* in the loop over list object [l] *)
(** A thread: its place, the operations left. *)
Record hthread := mkHT { ht_pc : hpc; ht_todo : list hop }.
(** What happened, in order. *)
Inductive hobs :=
| ACalled (t s : nat) | AReturned (t s : nat)         (* add_sink *)
| SCalled (t : nat)                                   (* set_sinks *)
| PStarted (t : nat) (k : kind) (e : nat) | PCall (t : nat) (k : kind) (e s : nat) | PDone (t : nat) (k : kind) (e : nat).
(** List objects (the next number is new), self._all_sinks, self._..._hooks, threads, observations. *)
Record hstate := mkHS {
  hs_heap : nat -> list nat; hs_new : nat; hs_all : nat; hs_hooks : kind -> nat;
  hs_threads : list hthread; hs_trace : list hobs }.

(** The order of 168-182. *)
Definition ADD_ORDER : list kind := [KBegin; KWarn; KEnd; KExc; KComment].

(** bookkeeping, no counterpart in /repo: thread [t] moves on *)
Definition hmove (t : nat) (pc : hpc) (todo : list hop) (o : list hobs) (w : hstate) : hstate :=
  mkHS (hs_heap w) (hs_new w) (hs_all w) (hs_hooks w) (list_set (hs_threads w) t (mkHT pc todo)) (hs_trace w ++ o).
(** list.append on a list object *)
Definition happend (l s : nat) (w : hstate) : hstate :=
  mkHS (fun l' => if l' =? l then hs_heap w l ++ [s] else hs_heap w l') (hs_new w) (hs_all w) (hs_hooks w) (hs_threads w) (hs_trace w).
(** [self._all_sinks = []] *)
Definition hreset_all (w : hstate) : hstate :=
  mkHS (fun l' => if l' =? hs_new w then [] else hs_heap w l') (S (hs_new w)) (hs_new w) (hs_hooks w) (hs_threads w) (hs_trace w).
(** [self._..._hooks = []] *)
Definition hreset (k : kind) (w : hstate) : hstate :=
  mkHS (fun l' => if l' =? hs_new w then [] else hs_heap w l') (S (hs_new w)) (hs_all w)
    (fun k' => if kind_eqb k' k then hs_new w else hs_hooks w k') (hs_threads w) (hs_trace w).

(** One step of thread [t]; None: it is done.  [has s k]: the sink has a callable hook of this kind. *)
Definition hstep (has : nat -> kind -> bool) (t : nat) (w : hstate) : option hstate :=
  match nth_error (hs_threads w) t with
  | None => None
  | Some th =>
    let todo := ht_todo th in
    match ht_pc th with
    | HIdle =>
      match todo with
      | [] => None
      | HAdd s :: todo' =>                                                                    (* 166-167 *)
        if existsb (Nat.eqb s) (hs_heap w (hs_all w)) then Some (hmove t HIdle todo' [ACalled t s; AReturned t s] w)
        else Some (hmove t (HAdding s ADD_ORDER) todo' [ACalled t s] w)
      | HSet ss :: todo' => Some (hmove t (HResetting ADD_ORDER) (map HAdd ss ++ todo') [SCalled t] (hreset_all w))   (* 148, 154-155 *)
      | HPub k e :: todo' => Some (hmove t (HIter k e (hs_hooks w k) 0) todo' [PStarted t k e] w)
      end
    | HAdding s [] => Some (hmove t (HLast s (hs_all w)) todo [] w)                           (* 184 *)
    | HAdding s (k :: ks) =>
      if has s k then Some (hmove t (HHave s k (hs_hooks w k) ks) todo [] w)                  (* 169-170 *)
      else Some (hmove t (HAdding s ks) todo [] w)
    | HHave s k l ks => Some (hmove t (HAdding s ks) todo [] (happend l s w))                 (* 170 *)
    | HLast s l => Some (hmove t HIdle todo [AReturned t s] (happend l s w))                  (* 184 *)
    | HResetting [] => Some (hmove t HIdle todo [] w)
    | HResetting (k :: ks) => Some (hmove t (HResetting ks) todo [] (hreset k w))             (* 149-153 *)
    | HIter k e l i =>                                                                        (* 191-192 *)
      match nth_error (hs_heap w l) i with
      | Some s => Some (hmove t (HIter k e l (S i)) todo [PCall t k e s] w)
      | None => Some (hmove t HIdle todo [PDone t k e] w)
      end
    end
  end.
(** Running a schedule: a thread that is done is skipped. *)
Fixpoint hrun (has : nat -> kind -> bool) (sc : list nat) (w : hstate) : hstate :=
  match sc with
  | [] => w
  | t :: sc' => hrun has sc' (match hstep has t w with Some w' => w' | None => w end)
  end.
(** A logger without sinks (logger.py 102) and threads about to run their programs. *)
Definition hstart (progs : list (list hop)) : hstate :=
  mkHS (fun _ => []) 6 0 (fun k => match k with KBegin => 1 | KWarn => 2 | KEnd => 3 | KExc => 4 | KComment => 5 end)
    (map (mkHT HIdle) progs) [].
