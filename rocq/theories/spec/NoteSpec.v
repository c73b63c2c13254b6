(** What a message with arguments reads. *)
From Verif Require Import model.PyBase model.Json model.Notes.
Open Scope N_scope.

(** The message with every [%%] read as a percent sign and every conversion as what it makes of
    the argument it stands for, all arguments used. *)
Inductive reads {V} (conv : N -> V -> option text) : text -> list V -> text -> Prop :=
| reads_end : reads conv [] [] []
| reads_char c m a t : c <> 37 -> reads conv m a t -> reads conv (c :: m) a (c :: t)
| reads_percent m a t : reads conv m a t -> reads conv (37 :: 37 :: m) a (37 :: t)
| reads_value d v x m a t : d <> 37 -> conv d v = Some x -> reads conv m a t -> reads conv (37 :: d :: m) (v :: a) (x ++ t).
(** The text handlers are to get. *)
Definition shown {V} (conv : N -> V -> option text) (message : text) (a : list V) (t : text) : Prop :=
  (a <> [] /\ reads conv message a t) \/ ((a = [] \/ ~ exists t', reads conv message a t') /\ t = message).
(** These handlers, called in this order. *)
Definition calls_of (name t : text) (hs : list nat) : list called := map (fun h => mkCalled h name t) hs.
(** The handler leaves the list of handlers alone, whatever happened before. *)
Definition steady {E} (react : list called -> nat -> (list nat -> list nat) * option E) (h : nat) : Prop :=
  forall before l, fst (react before h) l = l.
(** It raises nothing. *)
Definition quiet {E} (react : list called -> nat -> (list nat -> list nat) * option E) (h : nat) : Prop :=
  forall before, snd (react before h) = None.
