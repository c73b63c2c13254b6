(** Model of /repo/lithoxyl/context.py 74-89: Context.note with its handlers and with the
    [%]-formatting of messages.

    Simplifications: in messages that are formatted, a [%] is followed by another [%] or by the one
    letter of a conversion: flags, widths and mapping keys are not modelled.  What a conversion
    makes of a value is the oracle [conv]; None is any Exception (an unknown letter, a value of the
    wrong type, a [__repr__] that raises).  BaseExceptions that are not Exceptions are not raised
    by conversions.  A handler is named by a number; what it does besides being called is the
    oracle [react]. *)
From Verif Require Import model.PyBase model.Json.
Open Scope N_scope.

(** [message % a] for a tuple [a], 84; None: an Exception is raised. *)
Fixpoint percent {V} (conv : N -> V -> option text) (message : text) (a : list V) {struct message} : option text :=
  match message with
  | [] => match a with [] => Some [] | _ => None end          (* not all arguments converted *)
  | c :: m =>
    if negb (c =? 37) then option_map (cons c) (percent conv m a)
    else match m with
         | [] => None                                         (* incomplete format *)
         | d :: m' =>
           if d =? 37 then option_map (cons 37) (percent conv m' a)
           else match a with
                | [] => None                                  (* not enough arguments *)
                | v :: a' => match conv d v with Some x => option_map (app x) (percent conv m' a') | None => None end
                end
         end
  end.
(** The message handlers get, 82-86. *)
Definition note_text {V} (conv : N -> V -> option text) (message : text) (a : list V) : text :=
  match a with
  | [] => message
  | _ => match percent conv message a with Some t => t | None => message end
  end.

(** A call of a handler with a name and a message. *)
Record called := mkCalled { cl_handler : nat; cl_name : text; cl_message : text }.
(** The list note_handlers, 67, and the calls of handlers so far. *)
Record nworld := mkNworld { nw_handlers : list nat; nw_calls : list called }.
(** How note ends; [NGoesOn]: it is still running. *)
Inductive nres (E : Type) := NDone | NRaised (e : E) | NGoesOn.
Arguments NDone {E}. Arguments NRaised {E} e. Arguments NGoesOn {E}.

Section Handlers.
Context {E : Type} (react : list called -> nat -> (list nat -> list nat) * option E).
(** [for nh in self.note_handlers: nh(name, message)], 87-88, from the i-th item of the list on, as
    it is then; [fuel] bounds the number of calls.  A handler may change the list and may raise. *)
Fixpoint note_loop (fuel i : nat) (name message : text) (w : nworld) : nworld * nres E :=
  match nth_error (nw_handlers w) i with
  | None => (w, NDone)
  | Some h =>
    match fuel with
    | O => (w, NGoesOn)
    | S f =>
      let '(change, exc) := react (nw_calls w) h in
      let w1 := mkNworld (change (nw_handlers w)) (nw_calls w ++ [mkCalled h name message]) in
      match exc with
      | Some e => (w1, NRaised e)
      | None => note_loop f (S i) name message w1
      end
    end
  end.
(** note, 74-89. *)
Definition note {V} (conv : N -> V -> option text) (fuel : nat) (name message : text) (a : list V) (w : nworld) : nworld * nres E :=
  match nw_handlers w with
  | [] => (w, NDone)
  | _ => note_loop fuel 0 name (note_text conv message a) w
  end.
End Handlers.
