(** Vocabulary for C61. *)
From Verif Require Import model.PyBase model.Core model.Wrap spec.CoreSpec.

(** A call [m] of a function is an execution of the program [s] that also returns a value:
    same effects, same exception. *)
Definition runs (cfg : config) (m : M pyval) (s : stmt) : Prop :=
  forall w, fst (m w) = fst (eval cfg None s w) /\
    match snd (m w), snd (eval cfg None s w) with
    | Ok _, Ok _ => True
    | Raise e, Raise e' => e = e'
    | _, _ => False
    end.

(** Example functions: with arguments [a] and [k] run [body a k], then return [value a k]. *)
Definition script (cfg : config) (name : string) (body : args -> kwargs -> stmt) (value : args -> kwargs -> world -> pyval) : fobj :=
  mkFobj name (fun a k w =>
    match eval cfg None (body a k) w with
    | (w', Ok _) => (w', Ok (value a k w'))
    | (w', Raise e) => (w', Raise e)
    end).

(** What a wrapped call returns, given how the function itself ended. *)
Definition passes_on (reraise : option bool) (r : res pyval) : res pyval :=
  match r with
  | Ok v => Ok v
  | Raise e => match reraise with Some false => Ok VNone | _ => Raise e end
  end.

(** The state in which the wrapped function starts: the action exists and has begun. *)
Definition wrap_start (cfg : config) (c : wrapcfg) (x : nat) (f : fobj) (w : world) : world :=
  block_start cfg x (wr_log c) (wr_level c) (wrap_name c f) (wr_data c) (wr_reraise c) (wr_parent c) w.
