(** Vocabulary for C62. *)
From Verif Require Import model.PyBase model.Core model.WrapAll.

(** Not the product of an earlier wrap. *)
Definition unwrapped (f : fn) : Prop := match f with Wrapped _ _ _ => False | _ => True end.

(** The namespaces are dictionaries, class references lead to objects of the heap. *)
Definition well_formed (h : heap) : Prop :=
  (forall i, NoDup (map fst (own h i))) /\ (forall i n j, find h i n = Some (AType j) -> j < length h).

(** The heaps C62 is about: nothing is wrapped yet; and every function that wrap_all may
    touch (its name is not skipped) is a plain function (no staticmethod, no classmethod)
    of the object itself (not inherited). *)
Definition simple (c : wconf) (h : heap) : Prop :=
  forall i n a, find h i n = Some a ->
    match a with AFun f | AStatic f | AClassM f => unwrapped f | _ => True end /\
    (wc_skip c n = false ->
     match a with
     | AFun _ => assoc n (own h i) = Some a
     | AStatic _ | AClassM _ => False
     | _ => True
     end).

(** The number of wrappers around the function at attribute [n] of object [i]. *)
Fixpoint layers (f : fn) : nat := match f with Wrapped _ _ g => S (layers g) | _ => 0 end.
Definition wrappers (h : heap) (i : nat) (n : string) : nat :=
  match assoc n (own h i) with Some (AFun f) => layers f | _ => 0 end.
(** Does reading the attribute through an instance pass the instance as first argument? *)
Definition passes_self (a : attr) : bool :=
  match a with AFun (Plain _ _) | AFun (Wrapped _ _ _) => true | _ => false end.

(** [f'] is [f] with one or more logging wrappers around it. *)
Inductive wrapper_of (f : fn) : fn -> Prop :=
| wrapper_one n l : wrapper_of f (Wrapped n l f)
| wrapper_more n l f' : wrapper_of f f' -> wrapper_of f (Wrapped n l f').
(** setattr is refused on the object (extension types). *)
Definition fixed (h : heap) (i : nat) : bool := match nth_error h i with Some o => ob_fixed o | None => true end.

(** The logging wrappers around a function: the action name and the level of each. *)
Fixpoint log_layers (f : fn) : list (string * string) :=
  match f with Wrapped n l g => (n, l) :: log_layers g | Bound _ g => log_layers g | Plain _ _ => [] end.
Definition attr_layers (a : attr) : list (string * string) :=
  match a with AFun f | AStatic f | AClassM f => log_layers f | _ => [] end.
(** Nothing is wrapped yet.  Unlike [simple] this allows inherited functions, staticmethods
    and classmethods. *)
Definition bare (h : heap) : Prop := forall i n a, assoc n (own h i) = Some a -> attr_layers a = [].

(** [path h skip d t label d' i lab]: from object [t], called [label], one gets to object [i] by
    following class attributes whose names are not skipped, [d - d'] of them; [lab] is
    [label] followed by these names, with dots between. *)
Inductive path (h : heap) (skip : string -> bool) (d t : nat) (label : string) : nat -> nat -> string -> Prop :=
| path_here : path h skip d t label d t label
| path_class d' i lab m j : path h skip d t label (S d') i lab -> skip m = false -> find h i m = Some (AType j) ->
    path h skip d t label d' j (lab +s "." +s m).

(** Which names a [skip] argument excludes: by default those starting with an underscore; a
    nonempty string, those starting with it; a callable, those for which it is true. *)
Definition skips (a : skip_arg) (n : string) : Prop :=
  match a with
  | SkipDefault => exists r, n = "_" +s r
  | SkipPrefix p => p <> "" /\ exists r, n = p +s r
  | SkipCall f => f n = true
  | SkipOther => False
  end.
(** The first entry of [level_map] for the name, else the level of the call. *)
Definition level_of (a : wargs) (n l : string) : Prop :=
  (exists m1 m2, wa_map a = m1 ++ (n, l) :: m2 /\ ~ In n (map fst m1)) \/ (~ In n (map fst (wa_map a)) /\ l = wa_level a).
