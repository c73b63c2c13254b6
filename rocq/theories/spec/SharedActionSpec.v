(** Vocabulary for C94. *)
From Coq Require Import ZArith.
From Verif Require Import model.PyBase model.Core model.SharedAction.
Open Scope nat_scope.

(** Every call has returned and none is left. *)
Definition finished (w : sstate) : Prop := forall th, In th (ss_threads w) -> th = mkST [] [].
(** No call is in progress. *)
Definition quiet (w : sstate) : Prop := forall th, In th (ss_threads w) -> st_code th = [].

(** What was published: begin, end and warning events, by anyone and by thread [t]. *)
Definition begins (tr : list sobs) : list sev := flat_map (fun o => match o with SPubB _ e => [e] | _ => [] end) tr.
Definition ends (tr : list sobs) : list sev := flat_map (fun o => match o with SPubE _ e => [e] | _ => [] end) tr.
Definition warns (tr : list sobs) : list sev := flat_map (fun o => match o with SPubW _ e => [e] | _ => [] end) tr.
Definition by_thread (t : nat) (tr : list sobs) : list sobs :=
  filter (fun o => match o with SCall t' _ | SRet t' _ | SPubB t' _ | SPubE t' _ | SPubW t' _ => t' =? t end) tr.
Definition outcomes (l : list sev) : list (option status) := map sv_out l.
(** Outcomes a program asks for, and its warnings. *)
Definition asked (p : list sop) : list (option status) := flat_map (fun o => match o with SEnd s => [Some s] | _ => [] end) p.
Definition warned (p : list sop) : list sop := filter (fun o => match o with SWarn => true | _ => false end) p.
(** Action.status (action.py 118-123); None for 'begin'. *)
Definition shown_status (w : sstate) : option status := match ss_end w with Some e => sv_out e | None => None end.
(** Programs that do not use the action as a context manager. *)
Definition plain (p : list sop) : Prop := ~ In SEnter p /\ ~ In SExit p.
(** Other threads use the action only after __enter__() has returned. *)
Definition forked_inside (tr : list sobs) : Prop :=
  forall x t op y, tr = x ++ SCall t op :: y -> t <> 0 -> In (SRet 0 SEnter) x.
