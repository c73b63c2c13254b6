(** Where actions are created: C86. *)
From Verif Require Import model.PyBase model.Pipeline model.Format model.Fields model.Frames.
Open Scope nat_scope.

(** Line [ln] of the function [c]. *)
Definition place (c : code) (ln : Z) : callpoint :=
  mkCp (match co_module c with Some m => m | None => [] end) (co_path c) (co_name c) ln.
(** Lines of the library itself. *)
Definition inside_comment : callpoint := mkCp (lit "lithoxyl.logger") (lit "lithoxyl/logger.py") (lit "comment") 232.
Definition inside_wrapper : callpoint := mkCp (lit "lithoxyl.logger") (lit "lithoxyl/logger.py") (lit "logged_func") 292.
(** The places a statement of the function [c] logs from, in order of execution. *)
Fixpoint places (c : code) (n : node) : list callpoint :=
  match n with
  | NLog ln _ | NAction ln => [place c ln]
  | NComment _ => [inside_comment]
  | NCall _ c' _ body => (fix go ns := match ns with [] => [] | n :: ns => places c' n ++ go ns end) body
  | NWrapped _ _ c' _ body => inside_wrapper :: (fix go ns := match ns with [] => [] | n :: ns => places c' n ++ go ns end) body
  end.
(** A frame of a method of a logger type: its variable [self] is a logger. *)
Definition method_frame (is_type : nat -> bool) (f : frame) : Prop :=
  exists o, dget String.eqb "self"%string (fr_locals f) = Some o /\ is_type o = true.
(** The name of the module a frame runs in. *)
Definition module_of (f : frame) : text := match co_module (fr_code f) with Some m => m | None => lit "<module>" end.
