(** Call stacks: callpoints of actions, the module of a new logger, and the default target of
    wrap_all() and unwrap_all().  A stack is a list of frames, innermost first; it is the stack
    of one thread. *)
From Verif Require Import model.PyBase model.Pipeline model.Format model.Fields.
Open Scope nat_scope.

(** Code objects and the globals they run with (CPython): [__name__] in the globals,
    co_filename, co_name, and the names of the positional parameters. *)
Record code := mkCode { co_module : option text; co_path : text; co_name : text; co_args : list string }.
(** Frames: f_code, f_lineno and f_locals.  Objects are numbers. *)
Record frame := mkFrame { fr_code : code; fr_line : Z; fr_locals : list (string * nat) }.
(** f_lineno moves with every statement. *)
Definition at_line (f : frame) (ln : Z) : frame := mkFrame (fr_code f) ln (fr_locals f).
(** sys._getframe(n): ValueError (None) if the stack is not deep enough. *)
Definition getframe (n : nat) (st : list frame) : option frame := nth_error st n.

(** Callpoint.from_frame (boltons.tbutils): used in action.py 82. *)
Definition from_frame (f : frame) : callpoint :=
  mkCp (match co_module (fr_code f) with Some m => m | None => [] end) (co_path (fr_code f)) (co_name (fr_code f)) (fr_line f).
(** A frame of the library: file, method, line. *)
Definition lib_frame (modul path name : string) (args : list string) (ln : Z) (self : nat) : frame :=
  mkFrame (mkCode (Some (lit modul)) (lit path) (lit name) args) ln (match args with a :: _ => [(a, self)] | [] => [] end).
(** [st] is the stack inside Action.__init__, its own frame included: action.py 80-82. *)
Definition init_callpoint (given : option frame) (st : list frame) : option callpoint :=
  match given with
  | Some f => Some (from_frame f)                                  (* 80: frame is not None *)
  | None => match getframe 1 st with Some f => Some (from_frame f) | None => None end   (* 81 *)
  end.
(** Action.__init__ called from the stack [st]: its frame comes on top. *)
Definition new_action (given : option frame) (st : list frame) : option callpoint :=
  init_callpoint given (lib_frame "lithoxyl.action" "lithoxyl/action.py" "__init__" ["self"] 81 0 :: st).
(** Logger.debug, info, critical, action, called from [st]: logger.py 248-274.  All four pass
    frame=sys._getframe(1). *)
Definition level_method (name : string) (st : list frame) : option callpoint :=
  let st' := lib_frame "lithoxyl.logger" "lithoxyl/logger.py" name ["self"] 253 1 :: st in
  new_action (getframe 1 st') st'.
(** Logger.comment, called from [st]: logger.py 232-233.  No frame is passed. *)
Definition comment_action (st : list frame) : option callpoint :=
  new_action None (lib_frame "lithoxyl.logger" "lithoxyl/logger.py" "comment" ["self"] 232 1 :: st).
(** The frames between the caller of a decorated function and the function: the function
    that boltons.funcutils.wraps compiles, and logged_func (logger.py 290-296, which has
    no positional parameters). *)
Definition wrapped_frames (builder : code) (ln : Z) (st : list frame) : list frame :=
  lib_frame "lithoxyl.logger" "lithoxyl/logger.py" "logged_func" [] ln 0 :: mkFrame builder 2 [] :: st.

(** What a program does, as a tree: statements at lines of the running function. *)
Inductive node :=
| NLog (ln : Z) (method : string)                                    (* log.debug(...) and so on *)
| NAction (ln : Z)                                                   (* Action(log, ...) *)
| NComment (ln : Z)                                                  (* log.comment(...) *)
| NCall (ln : Z) (c : code) (locals : list (string * nat)) (body : list node)       (* f(...) *)
| NWrapped (ln : Z) (builder c : code) (locals : list (string * nat)) (body : list node).   (* g(...), g decorated with log.wrap *)
(** The callpoints of the actions a statement creates, in order of creation: logger.py 220-303,
    action.py 67-91. *)
Fixpoint exec (f : frame) (st : list frame) (n : node) {struct n} : list (option callpoint) :=
  match n with
  | NLog ln m => [level_method m (at_line f ln :: st)]
  | NAction ln => [new_action None (at_line f ln :: st)]
  | NComment ln => [comment_action (at_line f ln :: st)]
  | NCall ln c loc body =>
      (fix go ns := match ns with [] => [] | n :: ns => exec (mkFrame c 0 loc) (at_line f ln :: st) n ++ go ns end) body
  | NWrapped ln b c loc body =>
      level_method "action" (wrapped_frames b 292 (at_line f ln :: st)) ::
      (fix go ns := match ns with [] => [] | n :: ns => exec (mkFrame c 0 loc) (wrapped_frames b 296 (at_line f ln :: st)) n ++ go ns end) body
  end.

(** ** get_frame_excluding_subtypes *)
(** Why a frame lookup failed. *)
Inductive frame_err := ETopmost | ENoFrame | EAttribute.
(** The loop of logger.py 44-54.  [is_type o]: [o] is an instance or a subclass of the target
    type.  [None] for f_back of the outermost frame is the empty stack; on it f_locals is an
    AttributeError.  10000 rounds: 47. *)
Fixpoint skip_frames (is_type : nat -> bool) (name : string) (rounds : nat) (st : list frame) : frame_err + list frame :=
  match st with
  | [] => inl EAttribute
  | f :: outer =>
      match rounds with
      | O => inl ENoFrame
      | S rounds =>
          match dget String.eqb name (fr_locals f) with
          | Some o => if is_type o then skip_frames is_type name rounds outer else inr st
          | None => inr st
          end
      end
  end.
(** _get_previous_frame: logger.py 22-26 *)
Definition previous (st : list frame) : frame_err + list frame :=
  match st with [] => inl ETopmost | _ :: outer => inr outer end.
(** for i in range(offset): logger.py 55-56 *)
Fixpoint go_back (offset : nat) (st : list frame) : frame_err + list frame :=
  match offset with
  | O => inr st
  | S k => match previous st with inl e => inl e | inr st' => go_back k st' end
  end.
(** get_frame_excluding_subtypes called from the function whose frame is on top of [st]:
    logger.py 33-57.  The name of the first parameter is read once, from that frame (40-41). *)
Definition frame_excluding (is_type : nat -> bool) (offset : nat) (st : list frame) : frame_err + list frame :=
  match st with
  | [] => inl EAttribute
  | f :: _ =>
      let name := match co_args (fr_code f) with a :: _ => a | [] => EmptyString end in
      match skip_frames is_type name (N.to_nat 10000) st with inl e => inl e | inr st' => go_back offset st' end
  end.
(** The module and the name of a new logger [self], created from the stack [st]: logger.py 93-98
    and 101. *)
Definition logger_module (is_type : nat -> bool) (self : nat) (modul : option text) (offset : nat) (st : list frame) : frame_err + text :=
  match modul with
  | Some m => inr m
  | None =>
      match frame_excluding is_type offset (lib_frame "lithoxyl.logger" "lithoxyl/logger.py" "__init__" ["self"; "name"; "sinks"] 96 self :: st) with
      | inl e => inl e
      | inr [] => inl EAttribute                                   (* None.f_globals *)
      | inr (f :: _) => inr (match co_module (fr_code f) with Some m => m | None => lit "<module>" end)
      end
  end.
(** name or self.module: 101 *)
Definition logger_name (given : option text) (modul : text) : text :=
  match given with Some (c :: n) => c :: n | _ => modul end.

(** ** The default target of wrap_all and unwrap_all *)
(** Attributes of dict objects (CPython): its methods, and no [__name__]. *)
Definition dict_attr (globals : option text) (name : string) : option text := None.
(** utils.py 52-59 and 94-101, called from [st]: the name of the module that is wrapped;
    [None] is ValueError. *)
Definition default_target (is_module : text -> bool) (target : nat) (st : list frame) : option text :=
  let target := match target with O => 1 | n => n end in           (* target or 1 *)
  match getframe target (lib_frame "lithoxyl.utils" "lithoxyl/utils.py" "wrap_all" ["logger"] 97 0 :: st) with
  | Some f => match dict_attr (co_module (fr_code f)) "__name__" with
              | Some m => if is_module m then Some m else None     (* sys.modules[...] *)
              | None => None
              end
  | None => None
  end.
