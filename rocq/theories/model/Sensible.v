(** Model of /repo/lithoxyl/sensible.py 34-139 (SensibleSink, SensibleFilter) and
    of /repo/lithoxyl/_syslog_emitter.py. *)
From Verif Require Import model.PyBase model.Levels.
From Verif Require Export model.Core.
Open Scope nat_scope.

(** What filters look at: the hook the event arrives at, [event.action.level],
    [event.status] (of an EndEvent) and [event.action.data_map]. *)
Record sevent := mkSev { sv_kind : kind; sv_level : level; sv_status : option status; sv_data : data }.

(** ** SensibleFilter, 90-139 *)
(** A level argument; None stands for Python's None.  Truth of the value: zero and
    the empty string are false, Level objects are true. *)
Definition truthy (k : option lkey) : bool :=
  match k with
  | None => false
  | Some (KStr s) => negb (String.eqb s "")
  | Some (KNum z) => negb (Z.eqb z 0)
  | Some (KLev _) => true
  end.
(** [get_level(x or MAX_LEVEL)], 94-101 *)
Definition level_or_max (rg : registry) (x : option lkey) : level :=
  match x with
  | Some k => if truthy x then get_level rg k DEFAULT_LEVEL else get_level rg (level_key MAX_LEVEL) DEFAULT_LEVEL
  | None => get_level rg (level_key MAX_LEVEL) DEFAULT_LEVEL
  end.
(** Keyword arguments of the constructor: the outer None means "not given".
    [verbose_check] is a total predicate here (an exception it raises would simply
    propagate). *)
Record filter_args := mkFArgs {
  fa_base : option lkey;
  fa_begin : option (option lkey); fa_success : option (option lkey); fa_failure : option (option lkey);
  fa_exception : option (option lkey); fa_warn : option (option lkey);
  fa_block_comments : bool;
  fa_verbose_check : option (sevent -> bool);
  fa_verbose_flag : option string
}.
(** SensibleFilter.__init__, sensible.py 91-109. *)
Record sfilter := mkFilter {
  sf_begin : level; sf_success : level; sf_failure : level; sf_exception : level; sf_warn : level;
  sf_block_comments : bool; sf_verbose : sevent -> bool
}.
(** [kw.pop(name, base)] with [base] already resolved, 94-101 *)
Definition kw_level (rg : registry) (base : level) (x : option (option lkey)) : level :=
  level_or_max rg (match x with Some v => v | None => Some (level_key base) end).
(** [lambda e: e.action.data_map.get(verbose_flag)], 106; data values are integers,
    zero is false *)
Definition verbose_by_flag (flag : string) (ev : sevent) : bool :=
  match dget String.eqb flag (sv_data ev) with Some v => negb (Z.eqb v 0) | None => false end.
(** __init__, 94-106: the attributes *)
Definition make_filter (rg : registry) (a : filter_args) : sfilter :=
  let base := level_or_max rg (fa_base a) in
  mkFilter (kw_level rg base (fa_begin a)) (kw_level rg base (fa_success a)) (kw_level rg base (fa_failure a))
    (kw_level rg base (fa_exception a)) (kw_level rg base (fa_warn a)) (fa_block_comments a)
    (match fa_verbose_check a with
     | Some f => f
     | None => verbose_by_flag (match fa_verbose_flag a with Some s => s | None => "verbose"%string end)
     end).
(** __init__ with the check at 108-109: [extra] are the keywords left over besides
    those of [filter_args].  'verbose_flag' is taken out only if there is no
    'verbose_check'.  None is TypeError. *)
Definition new_filter (rg : registry) (a : filter_args) (extra : list string) : option sfilter :=
  let left_over := match fa_verbose_check a, fa_verbose_flag a with Some _, Some _ => "verbose_flag"%string :: extra | _, _ => extra end in
  match left_over with [] => Some (make_filter rg a) | _ => None end.
(** on_begin, 111-116 *)
Definition f_on_begin (f : sfilter) (ev : sevent) : bool :=
  if lv_ge (sv_level ev) (sf_begin f) then true else if sf_verbose f ev then true else false.
(** on_end, 118-129 *)
Definition f_on_end (f : sfilter) (ev : sevent) : bool :=
  let ret :=
    match sv_status ev with
    | Some Success => lv_ge (sv_level ev) (sf_success f)
    | Some Failure => lv_ge (sv_level ev) (sf_failure f)
    | Some Exception_ => lv_ge (sv_level ev) (sf_exception f)
    | None => false
    end in
  if ret then ret else if sf_verbose f ev then true else ret.
(** on_warn, 131-136 *)
Definition f_on_warn (f : sfilter) (ev : sevent) : bool :=
  if lv_ge (sv_level ev) (sf_warn f) then true else if sf_verbose f ev then true else false.
(** on_comment, 138-139 *)
Definition f_on_comment (f : sfilter) (ev : sevent) : bool := negb (sf_block_comments f).
(** The method called for an event kind; there is no [on_exception] *)
Definition f_on (f : sfilter) (k : kind) (ev : sevent) : bool :=
  match k with
  | KBegin => f_on_begin f ev | KEnd => f_on_end f ev | KWarn => f_on_warn f ev | KComment => f_on_comment f ev
  | KExc => false
  end.

(** ** SensibleSink, 34-82 *)
(** EVENTS, common.py 5 *)
Definition EVENTS : list string := ["begin"; "warn"; "end"; "exception"; "comment"]%string.
Section Sink.
Context {E T : Type}.
(** Filters, formatter and emitter are arbitrary objects.  A filter answers or
    raises (None); a formatter returns a text or raises; an emitter raises or not. *)
Record ssink := mkSink {
  ss_events : list string;
  ss_filters : list (kind -> E -> option bool);
  ss_formatter : kind -> E -> option T;
  ss_emitter : kind -> E -> T -> bool
}.
(** __init__, 35-57: None is ValueError.  [e.lower()] is the identity on EVENTS. *)
Definition make_sink (on : list string) (fs : list (kind -> E -> option bool)) fmt emit : option ssink :=
  if existsb (fun e => negb (existsb (String.eqb e) EVENTS)) on then None
  else Some (mkSink on fs fmt emit).
(** Which [on_...] attribute the instance has, 50-57 *)
Definition ss_has (s : ssink) (k : kind) : bool :=
  match k with
  | KBegin => existsb (String.eqb "begin") (ss_events s)
  | KWarn => existsb (String.eqb "warn") (ss_events s)
  | KEnd => existsb (String.eqb "end") (ss_events s)
  | KComment => existsb (String.eqb "comment") (ss_events s)
  | KExc => false
  end.
(** [[f.on_...(event) for f in self.filters]]: None if one raises *)
Fixpoint ask_filters (fs : list (kind -> E -> option bool)) (k : kind) (ev : E) : option (list bool) :=
  match fs with
  | [] => Some []
  | f :: fs' =>
    match f k ev with
    | None => None
    | Some b => match ask_filters fs' k ev with None => None | Some bs => Some (b :: bs) end
    end
  end.
(** _on_begin, _on_warn, _on_end, _on_comment, 59-82: what is handed to the emitter
    and whether the call returned. *)
Definition ss_on (s : ssink) (k : kind) (ev : E) : list (kind * E * T) * bool :=
  match ask_filters (ss_filters s) k ev with
  | None => ([], false)
  | Some bs =>
    if (match ss_filters s with [] => false | _ => true end) && negb (forallb (fun b => b) bs) then ([], true)
    else
      match ss_formatter s k ev with
      | None => ([], false)
      | Some t => ([(k, ev, t)], ss_emitter s k ev t)
      end
  end.
(** The sink bound to a logger and given a sequence of events (logger.py 161-218
    calls a hook if the sink has it); the logger's handling of a raising hook is
    modelled in Core.v. *)
Fixpoint ss_run (s : ssink) (evs : list (kind * E)) : list (kind * E * T) :=
  match evs with
  | [] => []
  | (k, ev) :: r => (if ss_has s k then fst (ss_on s k ev) else []) ++ ss_run s r
  end.
End Sink.
Arguments ssink : clear implicits.

(** ** SyslogEmitter *)
(** Values of the syslog module *)
Definition LOG_ERR : Z := 3. Definition LOG_WARNING : Z := 4. Definition LOG_NOTICE : Z := 5.
(** LOG_INFO and LOG_DEBUG of the syslog module. *)
Definition LOG_INFO : Z := 6. Definition LOG_DEBUG : Z := 7.
(** default_priority_map, 8-22; Level keys are found by name (see Levels.v) *)
Definition default_priority_map : list (lkey * list (string * Z)) :=
  [(level_key DEBUG, [("begin", LOG_DEBUG); ("success", LOG_DEBUG); ("failure", LOG_INFO); ("warn", LOG_INFO); ("exception", LOG_NOTICE)]);
   (level_key INFO, [("begin", LOG_INFO); ("success", LOG_INFO); ("failure", LOG_NOTICE); ("warn", LOG_NOTICE); ("exception", LOG_WARNING)]);
   (level_key CRITICAL, [("begin", LOG_NOTICE); ("success", LOG_NOTICE); ("failure", LOG_WARNING); ("warn", LOG_WARNING); ("exception", LOG_ERR)])]%string.
(** The status texts, action.py 168, 182, 224. *)
Definition status_name (s : status) : string :=
  match s with Success => "success" | Failure => "failure" | Exception_ => "exception" end%string.
(** _get_syslog_priority, 35-44: None is KeyError.  [st] is [event.status]. *)
Definition syslog_priority (rg : registry) (pm : list (lkey * list (string * Z))) (event_name : string) (l : level) (st : string) : option Z :=
  let level := get_level rg (level_key l) DEFAULT_LEVEL in
  let status := if String.eqb event_name "warn" then "warn"%string else if String.eqb event_name "begin" then "begin"%string else st in
  match dget lkey_eqb (level_key level) pm with
  | None => None
  | Some m => dget String.eqb status m
  end.
(** on_begin, on_warn, on_end, 46-56: the priority passed to [syslog.syslog];
    other hooks do not exist (AttributeError, None). *)
Definition syslog_on (rg : registry) (pm : list (lkey * list (string * Z))) (ev : sevent) : option Z :=
  match sv_kind ev with
  | KBegin => syslog_priority rg pm "begin" (sv_level ev) "begin"
  | KWarn => syslog_priority rg pm "warn" (sv_level ev) "warning"
  | KEnd => match sv_status ev with Some s => syslog_priority rg pm "end" (sv_level ev) (status_name s) | None => None end
  | KComment | KExc => None
  end.
