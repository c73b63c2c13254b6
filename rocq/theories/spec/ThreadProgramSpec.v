(** What the threads of a program log, from their texts: C99. *)
From Coq Require Import Cantor.
From Verif Require Import model.PyBase model.Core model.Concurrent model.ThreadPrograms spec.CoreSpec spec.ConcurrentSpec spec.ProgramSpec.
Open Scope nat_scope.

(** Loggers on which a program makes actions. *)
Fixpoint makes_on (s : stmt) : list nat :=
  match s with
  | SNew _ l _ _ _ _ _ => [l]
  | SWithNew _ l _ _ _ _ _ b => l :: makes_on b
  | SComment l _ _ => [l]
  | SSeq a b | STry _ a b => makes_on a ++ makes_on b
  | SWith _ b => makes_on b
  | _ => []
  end.

(** Thread [t] has run to its end, and how it ended. *)
Definition done_with (s : mstate) (t : nat) (r : res unit) : Prop :=
  exists th, nth_error (ms_threads s) t = Some th /\ tp_busy th = None /\
    tp_code th = match r with Ok _ => Return tt | Raise e => Fail e end.
Definition done (s : mstate) (t : nat) : Prop := exists r, done_with s t r.

(** The thread that made action [r], and the action. *)
Definition maker (r : nat) : nat := fst (of_nat r).
Definition made (s : mstate) (r : nat) : option action :=
  match nth_error (ms_threads s) (maker r) with
  | Some th => nth_error (tp_acts th) (snd (of_nat r))
  | None => None
  end.
(** An event logged on [l], as a sink can see it. *)
Definition line_of (s : mstate) (l : nat) (x : item) : line :=
  let a := made s (e_act (snd x)) in
  Line l (fst x) (e_act (snd x))
    (match a with Some a => a_name a | None => "" end)
    (match a with Some a => a_level a | None => 0%Z end)
    (match a with Some a => a_parent a | None => None end)
    (e_status (snd x)) (e_msg (snd x)) (e_exc (snd x)).

(** The lines of a program alone, on one logger; ... *)
Definition own_lines (describe : exn -> string) (p : stmt) (l : nat) : list line :=
  filter (fun n => Nat.eqb (n_log n) l) (lines_of describe (fun _ => None) p 0).
(** ... with its actions as actions of thread [t]; ... *)
Definition in_thread (t : nat) (n : line) : line :=
  Line (n_log n) (n_kind n) (obj t (n_act n)) (n_name n) (n_level n) (option_map (obj t) (n_parent n)) (n_status n) (n_msg n) (n_exc n).
(** ... leaving out whose child the action is. *)
Definition no_parent (n : line) : line :=
  Line (n_log n) (n_kind n) (n_act n) (n_name n) (n_level n) None (n_status n) (n_msg n) (n_exc n).
(** The same lines; [exact] tells when the parents agree too. *)
Definition same_lines (exact : Prop) (xs ys : list line) : Prop :=
  map no_parent xs = map no_parent ys /\ (exact -> xs = ys).
(** [xs] is how [ys] begins. *)
Definition begins_with (ys xs : list line) : Prop := exists rest, ys = xs ++ rest.

(** No other thread that shares a part of the map of active actions with thread [t] makes
    actions or comments on logger [l]. *)
Definition undisturbed (slot : nat -> nat) (progs : list stmt) (t l : nat) : Prop :=
  forall t' p', t' <> t -> slot t' = slot t -> nth_error progs t' = Some p' -> ~ In l (makes_on p').

(** The events of thread [t] that sink [sk] received, in order. *)
Definition got_from (t sk : nat) (tr : list tobs) : list item :=
  filter (fun x => Nat.eqb (maker (e_act (snd x))) t) (got sk tr).
(** Does sink [sk] listen to lines of this kind on a logger with these hooks? *)
Definition wanted (lis : kind -> list nat) (sk : nat) (n : line) : bool := existsb (Nat.eqb sk) (lis (n_kind n)).
Definition exc_line (n : line) : bool := match n_kind n with KExc => true | _ => false end.
