(** Debugging sinks: C92. *)
From Verif Require Import model.PyBase model.Core model.DevDebug.

(** The same setting, except for what the hooks of the sinks do. *)
Definition with_sinks (cfg : config) (f : list obs -> nat -> kind -> nat -> event -> option exn) : config :=
  mkConfig (cf_clock cfg) (cf_has cfg) f (cf_pre cfg) (cf_note cfg) (cf_describe cfg).

(** Two ways for the hooks to behave that do not differ on any of the calls [new], which
    follow the history [old]. *)
Definition same_calls (f g : list obs -> nat -> kind -> nat -> event -> option exn) (old new : list obs) : Prop :=
  forall before l k s e after, new = before ++ ODeliver l k s e :: after -> f (old ++ before) l k s e = g (old ++ before) l k s e.

(** The exceptions DevDebugSink(reraise=arg) is meant for; [isa x c]: x is an instance of the class c. *)
Definition covers (isa : exn -> nat -> bool) (arg : dbg_arg) (x : exn) : Prop :=
  match arg with
  | DNone => False
  | DAll => exn_ord x = true
  | DTypes cs => exists c, In c cs /\ isa x c = true
  end.

(** The sink number [d] is DevDebugSink(reraise=arg): it has an exception hook only. *)
Definition is_debug_sink (isa : exn -> nat -> bool) (cfg : config) (d : nat) (arg : dbg_arg) : Prop :=
  (forall k, cf_has cfg d k = true <-> k = KExc) /\
  forall t l e, cf_sink cfg t l KExc d e = dbg_on_exception isa arg e.

(** The same setting with a debugging sink that never raises. *)
Definition silenced (cfg : config) (d : nat) : config :=
  with_sinks cfg (fun t l k s e => match k with KExc => if Nat.eqb s d then None else cf_sink cfg t l k s e | _ => cf_sink cfg t l k s e end).
