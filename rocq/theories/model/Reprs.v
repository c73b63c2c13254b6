(** Model of the [__repr__]s of loggers, statistics sinks and accumulators:
    /repo/lithoxyl/logger.py 305-310, sinks.py 35-41, 131-134, 229-234, 354-361, emitters.py 41-45,
    ewma.py 54-56.

    Simplifications: the class names are those of the classes themselves, not of subclasses; [%r] of
    a str is the oracle [quote]; [%.4f] is applied to the exact rate; what [object.__repr__] gives
    is an oracle.  Sinks other than AggregateSink and RateSink are given by what their [__repr__]
    does. *)
From Verif Require Import model.PyBase model.Quantile model.Sinks model.Json model.Template model.Format model.Fields model.Ewma.
Open Scope nat_scope.

(** How a [__repr__] ends: with a text, with an Exception, or with a BaseException that is not an
    Exception (KeyboardInterrupt). *)
Inductive shown := SText (t : text) | SRaises | SInterrupt.
(** [%r] of a count. *)
Definition num (n : nat) : text := str_of_N (N.of_nat n).
(** [%r] of [limit]: an int or None. *)
Definition limit_text (l : option nat) : text := match l with Some n => num n | None => lit "None" end.
(** [%.4f] of a rate. *)
Definition rate_text (r : Q) : text := fixed 4 (Qnum r) (Qden r).

(** AggregateSink.__repr__, sinks.py 35-41. *)
Definition agg_repr {A} (s : agg_sink A) : text :=
  lit "<AggregateSink limit=" ++ limit_text (ag_limit s) ++ lit " begins=" ++ num (length (ag_begins s)) ++ lit " ends=" ++ num (length (ag_ends s))
  ++ lit " warns=" ++ num (length (ag_warns s)) ++ lit " comments=" ++ num (length (ag_comments s)) ++ lit ">".
(** AggregateEmitter.__repr__, emitters.py 41-45. *)
Definition agg_emitter_repr {A B} (s : agg_emitter A B) : text :=
  lit "<AggregateEmitter limit=" ++ limit_text (ae_limit s) ++ lit " entry_count=" ++ num (length (ae_items s)) ++ lit ">".
(** RateAccumulator.__repr__, sinks.py 131-134; [now] is the clock. *)
Definition ra_repr (now : Q) (s : rate_acc) : pyres text :=
  let? rate := ra_get_rate s None None now in
  Ok (lit "<RateAccumulator rate=" ++ rate_text rate ++ lit " count=" ++ num (ra_total s) ++ lit ">").
(** [ret['__all__']] for a grouped result, sinks.py 231-232. *)
Definition all_entry {V} (t : tree V) : option V :=
  match t with Node l => match dget String.eqb "__all__" l with Some (Leaf v) => Some v | _ => None end | Leaf _ => None end.
(** RateSink.__repr__, sinks.py 229-234: get_rates() without arguments uses the creation time and
    the clock.  The only exception of get_rate is ZeroDivisionError. *)
Definition rs_repr (now : Q) (s : rate_sink) : pyres text :=
  match rs_get_rates s (rs_created s) now now with
  | None => ZeroDivisionError
  | Some rates =>
    match all_entry rates, all_entry (rs_total_counts s) with
    | Some r, Some n => Ok (lit "<RateSink total_rate=" ++ rate_text r ++ lit " total_count=" ++ num n ++ lit ">")
    | _, _ => IndexError                                          (* KeyError *)
    end
  end.

(** The nested dict that QuantileSink.__repr__ prints, sinks.py 356-359, with reservoirs: the count and
    the rounded median of each group; [round4] is [round(x, 4)]. *)
Definition qs_shown (round4 : Q -> Q) (m : list (string * list (string * reservoir))) : pyres (list (string * list (string * (nat * Q)))) :=
  seq_res (map (fun p => let? l := seq_res (map (fun q =>
      let? e := (let? v := snd (r_get_quantile (snd q) (1#2)) in Ok (b_count (r_base (snd q)), round4 v)) in Ok (fst q, e)) (snd p)) in
    Ok (fst p, l)) m).

(** A sink of a logger. *)
Inductive psink := PAgg (s : agg_sink nat) | PRate (s : rate_sink) | POther (o : shown).
(** [repr(sink)] at a time. *)
Definition sink_repr (now : Q) (s : psink) : shown :=
  match s with
  | PAgg s => SText (agg_repr s)
  | PRate s => match rs_repr now s with Ok t => SText t | _ => SRaises end
  | POther o => o
  end.
(** The items of [%r] of a list, from the second on: the first that does not give a text ends it. *)
Fixpoint items_repr (l : list shown) : shown :=
  match l with
  | [] => SText []
  | SText t :: l' => match items_repr l' with SText r => SText (lit ", " ++ t ++ r) | o => o end
  | o :: _ => o
  end.
(** [%r] of a list. *)
Definition list_repr (l : list shown) : shown :=
  match l with
  | [] => SText (lit "[]")
  | SText t :: l' => match items_repr l' with SText r => SText (lit "[" ++ t ++ r ++ lit "]") | o => o end
  | o :: _ => o
  end.
(** Logger.__repr__, logger.py 305-310; [fallback] is [object.__repr__(self)]. *)
Definition logger_repr (quote : text -> text) (fallback name : text) (now : Q) (sinks : list psink) : shown :=
  match list_repr (map (sink_repr now) sinks) with
  | SText t => SText (lit "<Logger name=" ++ quote name ++ lit " sinks=" ++ t ++ lit ">")
  | SRaises => SText fallback
  | SInterrupt => SInterrupt
  end.

(** EWMAAccumulator.__repr__, ewma.py 54-56: the accumulator afterwards and the text; [t1] and [t2]
    are the clock as in [ew_read], [show] is [%r] of the dict of rates.  None: ZeroDivisionError. *)
Definition ew_repr (show : list (R * option R) -> text) (t1 t2 : R) (s : ewma) : option (ewma * text) :=
  match ew_read t1 t2 s with
  | Some s' => Some (s', lit "<EWMAAccumulator rates=" ++ show (ew_rates s') ++ lit ">")
  | None => None
  end.
