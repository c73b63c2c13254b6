(** Vocabulary for C13, C14, C60, C68. *)
From Verif Require Import model.PyBase model.Core model.Context spec.CoreSpec.

(** States a context can be in after any history. *)
Definition creachable (cfg : config) (c : cstate) : Prop :=
  exists os sig n async, c = crun cfg os (c_init sig n (init async)).

(** The loggers registered by a history, in order of registration. *)
Fixpoint registered (old : list nat) (os : list cop) : list nat :=
  match os with
  | [] => old
  | CoCreate l _ :: os' | CoAdd l :: os' => registered (if existsb (Nat.eqb l) old then old else old ++ [l]) os'
  | CoRemove l :: os' => registered (filter (fun x => negb (Nat.eqb l x)) old) os'
  | _ :: os' => registered old os'
  end.

(** Hooks and preflush hooks of logger [l] never raise. *)
Definition logger_quiet (cfg : config) (l : nat) : Prop :=
  (forall t k s e, cf_sink cfg t l k s e = None) /\ (forall t h, cf_pre cfg t l h = None).
(** Nothing raises anything but ordinary exceptions, note handlers nothing at all. *)
Definition ordinary (cfg : config) : Prop :=
  (forall t l k s e x, cf_sink cfg t l k s e = Some x -> exn_ord x = true) /\
  (forall t l h x, cf_pre cfg t l h = Some x -> exn_ord x = true) /\
  (forall t m, cf_note cfg t m = None).

(** One flush after the other, whatever each one's outcome; a note after each failure. *)
Inductive flushed_each (cfg : config) : list nat -> world -> world -> Prop :=
| each_none w : flushed_each cfg [] w w
| each_ok l ls w w' : snd (flush cfg l w) = Ok tt -> flushed_each cfg ls (fst (flush cfg l w)) w' -> flushed_each cfg (l :: ls) w w'
| each_failed l ls w w' x : snd (flush cfg l w) = Raise x ->
    flushed_each cfg ls (set_trace (w_trace (fst (flush cfg l w)) ++ [ONote "context_flush"]) (fst (flush cfg l w))) w' ->
    flushed_each cfg (l :: ls) w w'.

(** Of new observations [n], the calls of hooks of logger [l]'s sinks. *)
Definition by_logger (l : nat) (n : list obs) : list obs :=
  filter (fun o => match o with ODeliver l' _ _ _ => Nat.eqb l' l | _ => false end) n.

(** No [signal.signal(SIGTERM, ...)] by the application. *)
Definition no_signal (os : list cop) : Prop := forall h, ~ In (CoSignal h) os.

(** The handler the application installed last, if any. *)
Fixpoint last_signal (os : list cop) : option handler :=
  match os with
  | [] => None
  | CoSignal h :: os' => match last_signal os' with Some h' => Some h' | None => Some h end
  | _ :: os' => last_signal os'
  end.

(** Some enable_async of the history returned normally. *)
Definition was_enabled (cfg : config) (os : list cop) (c : cstate) : Prop :=
  exists os1 m o os2, os = os1 ++ CoEnable m o :: os2 /\ snd (enable_async m o (crun cfg os1 c)) = Ok tt.
(** SIGTERMs whose SystemExit the application caught. *)
Definition sigterms (os : list cop) : nat := length (filter (fun o => match o with CoSigterm => true | _ => false end) os).
(** Exit functions other than lithoxyl's reissuing of the signal. *)
Definition ordinary_hook (h : hook) : bool := match h with HReissue => false | _ => true end.
(** Two ways to end: by itself with an exit code, or by SIGTERM with lithoxyl's handler
    installed. *)
Definition ending (py2 : bool) (hs : list hook) (code : option nat) : list hook * death :=
  match code with
  | Some n => on_exit py2 n hs
  | None => match on_sigterm py2 SigLithoxyl hs with Some x => x | None => ([], Exited 0) end
  end.
