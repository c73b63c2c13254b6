(** What the statistics sinks read from the end events handed to them:
    RateSink.on_end (/repo/lithoxyl/sinks.py 159-168), QuantileSink.on_end (341-352) and
    CounterSink.on_end (375-384), attached to the loggers of model/Core.v. *)
From Verif Require Import model.PyBase model.Quantile model.Sinks model.Core.
Open Scope nat_scope.

(** EndEvent.status: action.py 157-196. *)
Definition status_name (st : option status) : string :=
  match st with
  | Some Success => "success"
  | Some Failure => "failure"
  | Some Exception_ => "exception"
  | None => "begin"
  end.
(** [ev.logger], [ev.name] (delegated to the action, action.py 304), [ev.status] (the
    event's own, action.py 354-362) and what the getter returned for the event:
    sinks.py 161-168, 254-263, 342-352, 367, 377-382.  Loggers are numbered; [names] gives their names. *)
Definition end_seen (names : nat -> string) (getter : event -> Q) (w : world) (e : event) : end_ev :=
  match nth_error (w_acts w) (e_act e) with
  | Some a => mkEnd (a_log a, names (a_log a)) (a_name a) (status_name (e_status e)) (Some (getter e))
  | None => mkEnd (0, "") "" "" None   (* unreachable: events belong to actions *)
  end.
(** RateSink's default getter, sinks.py 149-150. *)
Definition end_time (e : event) : Q := inject_Z (e_time e).
(** The calls of the sink's on_end among the observations, in order.  (The logger and
    name of an action and the fields of an event never change, so reading them in a
    later state gives the same.) *)
Definition fed (names : nat -> string) (getter : event -> Q) (w : world) (s : nat) (t : list obs) : list end_ev :=
  flat_map (fun o => match o with
                     | ODeliver _ KEnd s' e => if Nat.eqb s' s then [end_seen names getter w e] else []
                     | _ => []
                     end) t.
