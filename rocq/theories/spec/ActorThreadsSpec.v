(** Vocabulary for C98: calls in progress, read off what happened. *)
From Verif Require Import model.PyBase model.ActorThreads.
Open Scope nat_scope.

(** The threads whose latest call, as seen by [on] (called) and [off] (returned or raised), is
    still in progress. *)
Fixpoint in_progress (on off : cevent -> option nat) (now : list nat) (tr : list cevent) : list nat :=
  match tr with
  | [] => now
  | e :: tr' =>
    let now1 := match on e with Some t => t :: now | None => now end in
    let now2 := match off e with Some t => filter (fun u => negb (Nat.eqb u t)) now1 | None => now1 end in
    in_progress on off now2 tr'
  end.
(** Calls of start() of the actor [a]. *)
Definition start_on (a : nat) (e : cevent) : option nat := match e with EStart t b => if Nat.eqb b a then Some t else None | _ => None end.
Definition start_off (a : nat) (e : cevent) : option nat := match e with EStartRet t b _ => if Nat.eqb b a then Some t else None | _ => None end.
Definition starting (a : nat) (tr : list cevent) : list nat := in_progress (start_on a) (start_off a) [] tr.
(** Calls of stop() of the actor [a]. *)
Definition stop_on (a : nat) (e : cevent) : option nat := match e with EStop t b => if Nat.eqb b a then Some t else None | _ => None end.
Definition stop_off (a : nat) (e : cevent) : option nat := match e with EStopRet t b => if Nat.eqb b a then Some t else None | _ => None end.
Definition stopping (a : nat) (tr : list cevent) : list nat := in_progress (stop_on a) (stop_off a) [] tr.
(** Calls of start(), stop() or join() of the actor [a]. *)
Definition call_on (a : nat) (e : cevent) : option nat :=
  match e with EStart t b | EStop t b | EJoin t b => if Nat.eqb b a then Some t else None | _ => None end.
Definition call_off (a : nat) (e : cevent) : option nat :=
  match e with EStartRet t b _ | EStopRet t b | EJoinRet t b _ => if Nat.eqb b a then Some t else None | _ => None end.
Definition calling (a : nat) (tr : list cevent) : list nat := in_progress (call_on a) (call_off a) [] tr.
(** Calls of enable_async() and of disable_async() of the context. *)
Definition enabling (tr : list cevent) : list nat :=
  in_progress (fun e => match e with EEnable t => Some t | _ => None end) (fun e => match e with EEnableRet t _ => Some t | _ => None end) [] tr.
Definition disabling (tr : list cevent) : list nat :=
  in_progress (fun e => match e with EDisable t => Some t | _ => None end) (fun e => match e with EDisableRet t _ => Some t | _ => None end) [] tr.

(** No two calls of start() of [a] overlap. *)
Definition starts_apart (a : nat) (tr : list cevent) : Prop := forall x t y, tr = x ++ EStart t a :: y -> starting a x = [].
(** No two calls of enable_async() overlap. *)
Definition enables_apart (tr : list cevent) : Prop := forall x t y, tr = x ++ EEnable t :: y -> enabling x = [].
(** Nor does a call of enable_async() overlap one of disable_async() (calls of disable_async()
    may overlap each other). *)
Definition switches_apart (tr : list cevent) : Prop :=
  (forall x t y, tr = x ++ EEnable t :: y -> enabling x = [] /\ disabling x = []) /\
  (forall x t y, tr = x ++ EDisable t :: y -> enabling x = []).
(** No call of start() of [a] is made. *)
Definition no_start_of (a : nat) (tr : list cevent) : Prop := forall t, ~ In (EStart t a) tr.
(** No call of stop() of [a] is made. *)
Definition no_stop_of (a : nat) (tr : list cevent) : Prop := forall t, ~ In (EStop t a) tr.
(** No call of enable_async() is made. *)
Definition no_enable (tr : list cevent) : Prop := forall t, ~ In (EEnable t) tr.

(** No call of disable_async() is made. *)
Definition no_disable (tr : list cevent) : Prop := forall t, ~ In (EDisable t) tr.

(** Worker [w] of actor [a] is running. *)
Definition works (s : cstate) (a w : nat) : Prop :=
  wk_actor (cs_workers s w) = a /\ wk_pc (cs_workers s w) <> WNew /\ wk_pc (cs_workers s w) <> WDead.
(** The task calls made by the actors selected by [sel]. *)
Definition task_calls (sel : nat -> bool) (tr : list cevent) : nat :=
  length (filter (fun e => match e with ETask a _ _ => sel a | _ => false end) tr).
(** No task call ended its worker. *)
Definition no_fatal (tr : list cevent) : Prop := forall a w, ~ In (ETask a w true) tr.
(** How often the scheduler picks worker [w]. *)
Definition picks (w : nat) (sc : list pick) : nat := length (filter (fun p => match p with PW v _ => Nat.eqb v w | _ => false end) sc).
(** How often the scheduler picks the controlling thread [t]. *)
Definition turns (t : nat) (sc : list pick) : nat := length (filter (fun p => match p with PT u _ => Nat.eqb u t | _ => false end) sc).
(** The application uses start, stop and join with its own [n] actors only ... *)
Definition own_actors (n : nat) (progs : list (list cop)) : Prop :=
  forall p, In p progs -> forall a, In (OpStart a) p \/ In (OpStop a) p \/ (exists b, In (OpJoin a b) p) -> a < n.
(** ... and always waits in disable_async for the worker to end. *)
Definition patient (progs : list (list cop)) : Prop := forall p, In p progs -> ~ In (OpDisable true) p.
