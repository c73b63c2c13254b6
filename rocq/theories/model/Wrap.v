(** Logger.wrap (logger.py 276-303): a decorated function. *)
From Verif Require Import model.PyBase model.Core.

(** Python values, as far as they matter here; [VAct x] is the action bound to variable [x]. *)
Inductive pyval := VNone | VInt (z : Z) | VStr (s : string) | VAct (x : nat).
(** Positional and keyword arguments. *)
Definition args := list pyval.
(** Keyword arguments. *)
Definition kwargs := list (string * pyval).
(** A Python function: given arguments it acts on the world and returns or raises. *)
Definition func := args -> kwargs -> M pyval.

(** [with act: return body()]: the return value survives [__exit__]; a suppressed
    exception makes the function fall off its end and return None.  Language reference
    and logger.py 294-295. *)
Definition with_return (cfg : config) (r : nat) (body : M pyval) : M pyval :=
  fun w =>
    match enter cfg r w with
    | (w1, Raise e) => (w1, Raise e)
    | (w1, Ok _) =>
      match body w1 with
      | (w2, Ok v) =>
        match exit_ cfg r None w2 with
        | (w3, Ok _) => (w3, Ok v)
        | (w3, Raise e') => (w3, Raise e')
        end
      | (w2, Raise e) =>
        match exit_ cfg r (Some e) w2 with
        | (w3, Ok true) => (w3, Ok VNone)
        | (w3, Ok false) => (w3, Raise e)
        | (w3, Raise e') => (w3, Raise e')
        end
      end
    end.

(** The keyword arguments of [wrap] that are passed on to [Logger.action] on every call
    (logger.py 279-284, 290), and [inject_as]. *)
Record wrapcfg := mkWrap {
  wr_log : nat;                    (* self *)
  wr_level : Z;
  wr_name : option string;         (* action_name *)
  wr_inject : option string;       (* inject_as *)
  wr_enable : bool;                (* enable_wrap *)
  wr_data : data;                  (* other keyword arguments *)
  wr_reraise : option bool;        (* reraise= *)
  wr_parent : option nat }.        (* parent_action=, a bound variable *)

(** A function object: its name, its behaviour. *)
Record fobj := mkFobj { fo_name : string; fo_call : func }.

(** logger.py 287-288: the name of the actions *)
Definition wrap_name (c : wrapcfg) (f : fobj) : string :=
  match wr_name c with Some n => n | None => fo_name f end.
(** logger.py 293-294; [if inject_as]: an empty name injects nothing *)
Definition inject (c : wrapcfg) (x : nat) (k : kwargs) : kwargs :=
  match wr_inject c with
  | Some n => if String.eqb n "" then k else dset String.eqb n (VAct x) k
  | None => k
  end.
(** logger.py 290-296.  [x] is the local variable [act] of this call; the environment of
    the model is flat, so the caller picks a variable of its own for each call.  The
    keyword arguments are unpacked anew on every call, so [Logger.action] popping
    [reraise] and [parent_action] does not affect later calls. *)
Definition logged_func (cfg : config) (c : wrapcfg) (x : nat) (f : fobj) : func :=
  fun a k =>
    p <- lookup_opt (wr_parent c) ;;
    r <- new_action (wr_log c) (wr_level c) (wrap_name c f) (wr_data c) (wr_reraise c) p ;;
    with_return cfg r (bind_var x r ;;; fo_call f a (inject c x k)).
(** logger.py 281-301: the decorator; boltons' [wraps] keeps the name. *)
Definition wrap (cfg : config) (c : wrapcfg) (x : nat) (f : fobj) : fobj :=
  if wr_enable c then mkFobj (fo_name f) (logged_func cfg c x f) else f.
