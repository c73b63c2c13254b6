(** wrap_all, unwrap_all and unwrap (utils.py 40-163) over a heap of modules and classes,
    with the attribute access of Python 3.

    Simplifications: the target is given (not looked up from the calling frame); extras
    and the log messages of the wrapped functions are modelled in Wrap.v; getattr never
    runs user code.  An attribute is data, a callable without [__name__], a function, a
    staticmethod, a classmethod or a class. *)
From Verif Require Import model.PyBase model.Core.

(** Function objects.  [Plain id ok]: the [id]th function of the program; [ok] says whether
    boltons' [wraps] accepts it (it refuses builtins).  [Bound c f]: the bound method that
    accessing a classmethod [f] on class [c] gives.  [Wrapped name level f]: what
    [logger.wrap(level, action_name=name)] makes of [f]; its [__lithoxyl_wrapped__] tuple
    holds [f] at index 3 (logger.py 297-298). *)
Inductive fn :=
| Plain (id : nat) (ok : bool)
| Bound (c : nat) (f : fn)
| Wrapped (name level : string) (f : fn).

(** What is stored in a namespace. *)
Inductive attr := AData | AObj | AFun (f : fn) | AStatic (f : fn) | AClassM (f : fn) | AType (i : nat).

(** A module or class: its own namespace, the classes after it in its method resolution
    order, and whether setattr on it raises TypeError (builtin and extension types). *)
Record obj := mkObj { ob_attrs : list (string * attr); ob_mro : list nat; ob_fixed : bool }.
(** Objects by reference. *)
Definition heap := list obj.

(** bookkeeping, no counterpart in /repo *)
Definition own (h : heap) (i : nat) : list (string * attr) :=
  match nth_error h i with Some o => ob_attrs o | None => [] end.
(** The method resolution order of an object (Python 3). *)
Definition mro (h : heap) (i : nat) : list nat :=
  match nth_error h i with Some o => i :: ob_mro o | None => [i] end.
(** bookkeeping, no counterpart in /repo *)
Fixpoint assoc (n : string) (l : list (string * attr)) : option attr :=
  match l with [] => None | (n', a) :: l' => if String.eqb n n' then Some a else assoc n l' end.

(** Attribute lookup along the method resolution order (object model of Python). *)
Fixpoint find_in (h : heap) (n : string) (cs : list nat) : option attr :=
  match cs with
  | [] => None
  | c :: cs' => match assoc n (own h c) with Some a => Some a | None => find_in h n cs' end
  end.
(** Attribute lookup. *)
Definition find (h : heap) (i : nat) (n : string) : option attr := find_in h n (mro h i).

(** What getattr returns: staticmethods give the function, classmethods a bound method. *)
Inductive value := VData | VCallable | VFun (f : fn) | VType (i : nat).
(** [getattr(obj, name)], utils.py 132. *)
Definition getattr (h : heap) (i : nat) (n : string) : option value :=
  match find h i n with
  | None => None
  | Some AData => Some VData
  | Some AObj => Some VCallable
  | Some (AFun f) => Some (VFun f)
  | Some (AStatic f) => Some (VFun f)
  | Some (AClassM f) => Some (VFun (Bound i f))
  | Some (AType j) => Some (VType j)
  end.

(** setattr of a function: it always lands in the object's own namespace, as a plain
    function.  [None]: TypeError. *)
Fixpoint put (n : string) (a : attr) (l : list (string * attr)) : list (string * attr) :=
  match l with
  | [] => [(n, a)]
  | (n', a') :: l' => if String.eqb n n' then (n', a) :: l' else (n', a') :: put n a l'
  end.
(** [setattr(obj, name, f)], utils.py 154. *)
Definition setattr (h : heap) (i : nat) (n : string) (f : fn) : option heap :=
  match nth_error h i with
  | Some o => if ob_fixed o then None else Some (list_set h i (mkObj (put n (AFun f) (ob_attrs o)) (ob_mro o) (ob_fixed o)))
  | None => None
  end.

(** dir(): the names of the object and of its bases, each once, sorted. *)
Fixpoint insert (n : string) (l : list string) : list string :=
  match l with
  | [] => [n]
  | m :: l' => match String.compare n m with Gt => m :: insert n l' | _ => n :: l end
  end.
(** [dir(obj)], utils.py 129. *)
Definition dir (h : heap) (i : nat) : list string :=
  fold_right insert [] (nodup string_dec (flat_map (fun c => map fst (own h c)) (mro h i))).

(** utils.py 40-48; [Some h'] is also the result when ValueError is raised and caught by
    unwrap_all (78-81), [None] a TypeError of setattr, which is not caught. *)
Definition unwrap (h : heap) (i : nat) (n : string) : option heap :=
  match getattr h i n with
  | Some (VFun (Wrapped _ _ f)) => setattr h i n f
  | _ => Some h
  end.

(** logger.wrap(...)(val): None when boltons' wraps raises *)
Definition wrap_fn (name level : string) (f : fn) : option fn :=
  match f with
  | Plain _ false => None
  | _ => Some (Wrapped name level f)
  end.

(** The arguments of wrap_all that matter: the skip test (105-113), the level of each name
    (150), skip_exc (113-116). *)
Record wconf := mkWConf { wc_skip : string -> bool; wc_level : string -> string; wc_skip_exc : bool }.
(** The default skip test, 105-108 *)
Definition skip_underscore (n : string) : bool := String.prefix "_" n.

(** [wrapped] (126), [ret] (92) and whether an exception has escaped *)
Record wstate := mkWS { ws_heap : heap; ws_seen : list nat; ws_ret : list string; ws_raised : bool }.
(** The test for objects already visited, utils.py 126, 139-141. *)
Definition seen (j : nat) (l : list nat) : bool := existsb (Nat.eqb j) l.

(** utils.py 130-158: one attribute that is not a class *)
Definition wrap_one (c : wconf) (label : string) (i : nat) (n : string) (f : fn) (st : wstate) : wstate :=
  match match wrap_fn (label +s "." +s n) (wc_level c n) f with
        | Some g => setattr (ws_heap st) i n g
        | None => None
        end with
  | Some h => mkWS h (ws_seen st) (ws_ret st ++ [label +s "." +s n]) (ws_raised st)
  | None => mkWS (ws_heap st) (ws_seen st) (ws_ret st) (negb (wc_skip_exc c))
  end.
(** The inner function of wrap_all, utils.py 128-159, with the remaining depth. *)
Fixpoint wrap_sub (c : wconf) (d : nat) (label : string) (i : nat) (st : wstate) : wstate :=
  fold_left (fun st n =>
    if ws_raised st then st
    else if wc_skip c n then st
    else match getattr (ws_heap st) i n with
         | Some (VFun f) => wrap_one c label i n f st
         | Some (VType j) =>
           match d with
           | O => st
           | S d' =>
             if seen j (ws_seen st) then st
             else wrap_sub c d' (label +s "." +s n) j (mkWS (ws_heap st) (j :: ws_seen st) (ws_ret st) (ws_raised st))
           end
         | _ => st
         end)
    (dir (ws_heap st) i) st.
(** utils.py 87-163 *)
Definition wrap_all (c : wconf) (d : nat) (label : string) (t : nat) (h : heap) : wstate :=
  wrap_sub c d label t (mkWS h [] [] false).

(** The [skip] argument (utils.py 105-113): None, a string, a callable, anything else. *)
Inductive skip_arg := SkipDefault | SkipPrefix (p : string) | SkipCall (f : string -> bool) | SkipOther.
(** utils.py 105-113; [None]: ValueError.  [skip and attr_name.startswith(skip)]: the empty
    string skips nothing. *)
Definition skip_test (a : skip_arg) : option (string -> bool) :=
  match a with
  | SkipDefault => Some (fun n => String.prefix "_" n)
  | SkipPrefix p => Some (fun n => negb (String.eqb p "") && String.prefix p n)
  | SkipCall f => Some f
  | SkipOther => None
  end.
(** The arguments of a call of wrap_all, except the logger and the extras (87-89). *)
Record wargs := mkWArgs {
  wa_level : string; wa_skip : skip_arg; wa_label : option string;
  wa_map : list (string * string); wa_depth : Z; wa_skip_exc : bool }.
(** utils.py 87-163: a call; [name] is the target's [__name__], or the text made of its class
    and identity when it has none (118-122).  [level_map.get(attr_name, level)] is 150;
    [depth <= 0] (139) makes negative depths the same as 0. *)
Definition wrap_all_call (a : wargs) (name : string) (t : nat) (h : heap) : option wstate :=
  match skip_test (wa_skip a) with
  | None => None
  | Some f =>
    let level n := match dget String.eqb n (wa_map a) with Some l => l | None => wa_level a end in
    Some (wrap_all (mkWConf f level (wa_skip_exc a)) (Z.to_nat (wa_depth a))
                   (match wa_label a with Some l => l | None => name end) t h)
  end.

(** utils.py 63-81.  The recursion is bounded by the number of classes not seen yet, which
    the fuel stands for. *)
Fixpoint unwrap_sub (fuel : nat) (i : nat) (st : heap * list nat * bool) : heap * list nat * bool :=
  match fuel with
  | O => st
  | S fuel' =>
    fold_left (fun st n =>
      let '(h, vis, raised) := st in
      if raised : bool then st
      else match getattr h i n with
           | Some (VType j) => if seen j vis then st else unwrap_sub fuel' j (h, j :: vis, false)
           | Some (VFun _) => match unwrap h i n with Some h' => (h', vis, false) | None => (h, vis, true) end
           | _ => st
           end)
      (dir (fst (fst st)) i) st
  end.
(** utils.py 51-84 *)
Definition unwrap_all (t : nat) (h : heap) : heap * bool :=
  let '(h', _, raised) := unwrap_sub (S (S (length h))) t (h, [], false) in (h', raised).
