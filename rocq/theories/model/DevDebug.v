(** DevDebugSink, sinks.py 44-63. *)
From Verif Require Import model.PyBase model.Core.

(** The argument [reraise], 50-53: False (or an empty tuple), True, or classes. *)
Inductive dbg_arg := DNone | DAll | DTypes (cs : list nat).

(** [self.reraise and isinstance(exc_obj, self.reraise)], 61, after 51-52; [isa x c] is
    [isinstance(x, c)] for the class numbered [c]. *)
Definition dbg_matches (isa : exn -> nat -> bool) (arg : dbg_arg) (x : exn) : bool :=
  match arg with
  | DNone => false
  | DAll => exn_ord x
  | DTypes cs => existsb (isa x) cs
  end.

(** on_exception, 58-63: what it raises.  The post-mortem prompt (59-60) is assumed to
    return; [reraise] (utils.py 238-247) raises the exception object it was given. *)
Definition dbg_on_exception (isa : exn -> nat -> bool) (arg : dbg_arg) (e : event) : option exn :=
  match e_exc e with
  | Some x => if dbg_matches isa arg x then Some x else None
  | None => None
  end.
