(** The built-in fields of sensible.py 401-535 over the actions and events of Core.v, and the
    appender (Pipeline.v) made of SensibleFilters (90-139) and a SensibleFormatter (164-190).

    Simplifications: what does not change while the program runs comes from an environment
    (names of loggers and levels, call points and guids by action id, the process id); times
    are integers counted in ticks, [en_ticks] per second, and what floating point would round
    is exact; messages have no positional arguments; the rendered message of an event is not
    cached (action.py 309-310; MessageCache.v has the cache); values in data maps are integers. *)
From Verif Require Import model.PyBase model.Core model.Levels model.Sensible model.Timestamps model.Pipeline model.Format.
Open Scope Z_scope.

(** Values of fields: text, integer, a number [p / q], None, and any other object. *)
Inductive fval := VText (t : text) | VInt (z : Z) | VNum (p : Z) (q : positive) | VNone | VOther.

(** Callpoint, of boltons: action.py 82. *)
Record callpoint := mkCp { cp_module : text; cp_path : text; cp_func : text; cp_line : Z }.
(** What the fields show that is not in the event and its action. *)
Record fenv := mkEnv {
  en_logger_name : nat -> text;         (* logger.name, logger.py 83 *)
  en_logger_id : nat -> Z;              (* logger.logger_id, logger.py 138-143 *)
  en_guid : nat -> text;                (* action.guid, action.py 110-112 *)
  en_level : Z -> level;                (* action.level, action.py 71 *)
  en_upper : text -> text;              (* str.upper *)
  en_callpoint : nat -> callpoint;      (* action.callpoint, action.py 80-82 *)
  en_exc : exn -> text * text * text;   (* exc_info.exc_type, exc_msg, str(tb_info) *)
  en_json : data -> text;               (* json.dumps(data_map, sort_keys=True) *)
  en_repr : data -> text;               (* repr(data_map) *)
  en_pid : Z;                           (* os.getpid() *)
  en_import : Z;                        (* IMPORT_TIME, common.py *)
  en_ticks : positive;                  (* ticks per second *)
  en_local : zone;                      (* LocalTZ *)
  en_off : N -> Z }.                    (* offset of time.localtime *)

(** event.status: action.py 329, 341, 353-362, 374, 386 *)
Definition event_status (e : event) : string :=
  match e_kind e with
  | KBegin => "begin" | KWarn => "warning" | KExc => "exception" | KComment => "comment"
  | KEnd => match e_status e with Some s => status_name s | None => "" end
  end%string.
(** [status[:1].upper()], [status[:1].lower()] of an EndEvent, action.py 364-370 *)
Definition end_char (trans : bool) (s : option status) : string :=
  match s with
  | Some Success => if trans then "S" else "s"
  | Some Failure => if trans then "F" else "f"
  | Some Exception_ => if trans then "E" else "e"
  | None => ""
  end%string.
(** event.status_char: action.py 330, 342, 364-370, 375, 387 *)
Definition status_char (e : event) (a : action) : string :=
  match e_kind e with
  | KBegin => "b" | KWarn => "W" | KExc => "!" | KComment => "#" | KEnd => end_char (a_trans a) (e_status e)
  end%string.

Section Fields.
Variable env : fenv.
(** Python's formatting of a value, see Format.v. *)
Variable fmt_named : ftoken -> fval -> option text.
Variable fmt_nested : ftoken -> list fval -> option text.

(** [event[key]], action.py 301-302 and 273-274: the data map *)
Definition data_of (x : shown) : list (text * fval) :=
  match snd (fst x) with Some a => map (fun p => (lit (fst p), VInt (snd p))) (a_data a) | None => [] end.
(** [e.action...]; every event has an action. *)
Definition with_act (f : event -> action -> nat -> gres fval) (x : shown) : gres fval :=
  match x with (e, Some a, d) => f e a d | (_, None, _) => GOther end.
(** [e.action.begin_event...]: AttributeError if there is none yet. *)
Definition with_begin (f : event -> gres fval) : shown -> gres fval :=
  with_act (fun _ a _ => match a_begin a with Some b => f b | None => GOther end).
(** [e.action.end_event...] *)
Definition with_end (f : event -> gres fval) : shown -> gres fval :=
  with_act (fun _ a _ => match a_end a with Some e => f e | None => GOther end).
(** [e.action.exc_event.exc_info...]: the last exception event, action.py 98-100 *)
Definition with_exc (f : text * text * text -> gres fval) : shown -> gres fval :=
  with_act (fun _ a _ =>
    match rev (a_excs a) with
    | x :: _ => match e_exc x with Some ex => f (en_exc env ex) | None => GOther end
    | [] => GOther
    end).
(** A text as the value of a field. *)
Definition gtext (t : text) : gres fval := GVal (VText t).
(** ISO 8601 of an event's time, sensible.py 472-506 *)
Definition iso (z : zone) (with_tz : bool) (e : event) : gres fval :=
  gtext (timestamp2iso8601 z with_tz (Z.to_N (e_time e)) (N.pos (en_ticks env))).
(** The same without fraction. *)
Definition iso_noms (with_tz : bool) (e : event) : gres fval :=
  gtext (timestamp2iso8601_noms (en_off env) with_tz (Z.to_N (e_time e)) (N.pos (en_ticks env))).
(** A duration in seconds times [scale]. *)
Definition seconds (z scale : Z) : fval := VNum (z * scale) (en_ticks env).
(** '%.Nf' of [p / q]: rounded half to even, with [n] digits after the point. *)
Definition fixed (n : nat) (p : Z) (q : positive) : text :=
  let m := round_half_even (Z.abs_N p * 10 ^ N.of_nat n) (N.pos q) in
  (if p <? 0 then [45%N] else []) ++ str_of_N (m / 10 ^ N.of_nat n) ++ 46%N :: dec n (m mod 10 ^ N.of_nat n).
(** '%.14g' of [p / q] from 1 up to 10^14 - 1, and of 0: 14 significant digits without
    trailing zeros; other numbers are not modelled. *)
Fixpoint drop_zeros (t : text) : text :=
  match t with 48%N :: t' => drop_zeros t' | 46%N :: t' => t' | _ => t end.
(** See there. *)
Definition general14 (p : Z) (q : positive) : option text :=
  if p =? 0 then Some [48%N]
  else if (Z.pos q <=? p) && (p + Z.pos q <=? 10 ^ 14 * Z.pos q) then
    Some (rev (drop_zeros (rev (fixed (14 - length (str_of_N (Z.to_N (p / Z.pos q)))) p q))))
  else None.
(** duration_auto, sensible.py 420-426 *)
Definition duration_auto (d : Z) : text :=
  let t := Z.pos (en_ticks env) in
  if d * 1000 <? t then fixed 3 (d * 1000000) (en_ticks env) ++ lit "us"
  else if d <? t then fixed 3 (d * 1000) (en_ticks env) ++ lit "ms"
  else fixed 4 d (en_ticks env) ++ lit "s".
(** [depth * PARENT_DEPTH_INDENT], sensible.py 518-525 *)
Definition indent (d : nat) : text := flat_map (fun _ => [32; 32; 32]%N) (seq 0 d).

(** The getters of sensible.py 431-525.  [msg] is [event.message]. *)
Definition getters (msg : event -> action -> nat -> gres fval) : list (string * (shown -> gres fval)) :=
  [("logger_name", with_act (fun _ a _ => gtext (en_logger_name env (a_log a))));
   ("logger_id", with_act (fun _ a _ => GVal (VInt (en_logger_id env (a_log a)))));
   ("action_name", with_act (fun _ a _ => gtext (lit (a_name a))));
   ("action_id", with_act (fun _ a _ => GVal (VInt (Z.of_nat (a_id a)))));
   ("action_guid", with_act (fun _ a _ => gtext (en_guid env (a_id a))));
   ("status_str", with_act (fun e _ _ => gtext (lit (event_status e))));
   ("status_char", with_act (fun e a _ => gtext (lit (status_char e a))));
   ("warn_char", with_act (fun _ _ _ => GOther));               (* no such attribute *)
   ("level_name", with_act (fun _ a _ => gtext (lit (lv_name (en_level env (a_level a))))));
   ("level_name_upper", with_act (fun _ a _ => gtext (en_upper env (lit (lv_name (en_level env (a_level a)))))));
   ("level_char", with_act (fun _ a _ =>
      match en_upper env (lit (lv_name (en_level env (a_level a)))) with c :: _ => gtext [c] | [] => GOther end));
   ("level_number", with_act (fun _ a _ => GVal (VInt (lv_value (en_level env (a_level a))))));
   ("data_map", with_act (fun _ a _ => gtext (en_json env (a_data a))));
   ("data_map_repr", with_act (fun _ a _ => gtext (en_repr env (a_data a))));
   ("begin_message", with_act (fun _ a d => match a_begin a with Some b => msg b a d | None => GOther end));
   ("begin_message_raw", with_begin (fun b => gtext (lit (e_msg b))));
   ("end_message", with_act (fun _ a d => match a_end a with Some b => msg b a d | None => GOther end));
   ("end_message_raw", with_end (fun b => gtext (lit (e_msg b))));
   ("event_message", with_act msg);
   ("event_message_raw", with_act msg);                         (* also [e.message], 459 *)
   ("begin_timestamp", with_begin (fun b => GVal (seconds (e_time b) 1)));
   ("end_timestamp", with_end (fun b => GVal (seconds (e_time b) 1)));
   ("duration_s", with_act (fun _ a _ => GVal (seconds (duration a) 1)));
   ("duration_ms", with_act (fun _ a _ => GVal (seconds (duration a) 1000)));
   ("duration_us", with_act (fun _ a _ => GVal (seconds (duration a) 1000000)));
   ("duration_auto", with_act (fun _ a _ => gtext (duration_auto (duration a))));
   ("module_name", with_act (fun _ a _ => gtext (cp_module (en_callpoint env (a_id a)))));
   ("module_path", with_act (fun _ a _ => gtext (cp_path (en_callpoint env (a_id a)))));
   ("func_name", with_act (fun _ a _ => gtext (cp_func (en_callpoint env (a_id a)))));
   ("line_number", with_act (fun _ a _ => GVal (VInt (cp_line (en_callpoint env (a_id a))))));
   ("exc_type", with_exc (fun x => gtext (fst (fst x))));
   ("exc_message", with_exc (fun x => gtext (snd (fst x))));
   ("exc_tb_str", with_exc (fun x => gtext (snd x)));
   ("exc_tb_list", with_exc (fun _ => GVal VOther));            (* a list of frames *)
   ("process_id", with_act (fun _ _ _ => GVal (VInt (en_pid env))));
   ("parent_depth", with_act (fun _ _ d => GVal (VInt (Z.of_nat d))));
   ("parent_depth_indent", with_act (fun _ _ d => gtext (indent d)));
   ("iso_begin", with_begin (iso utc true)); ("iso_end", with_end (iso utc true));
   ("iso_begin_notz", with_begin (iso utc false)); ("iso_end_notz", with_end (iso utc false));
   ("iso_begin_local", with_begin (iso (en_local env) true)); ("iso_end_local", with_end (iso (en_local env) true));
   ("iso_begin_local_notz", with_begin (iso (en_local env) false)); ("iso_end_local_notz", with_end (iso (en_local env) false));
   ("iso_begin_local_noms", with_begin (iso_noms true)); ("iso_end_local_noms", with_end (iso_noms true));
   ("iso_begin_local_noms_notz", with_begin (iso_noms false)); ("iso_end_local_noms_notz", with_end (iso_noms false));
   ("import_delta_s", with_act (fun e _ _ => GVal (seconds (e_time e - en_import env) 1)));
   ("import_delta_ms", with_act (fun e _ _ => GVal (seconds (e_time e - en_import env) 1000)))]%string.
(** A getter of the table. *)
Definition from_table (t : list (string * (shown -> gres fval))) (name : string) (x : shown) : gres fval :=
  match dget String.eqb name t with Some g => g x | None => GKeyError end.
(** Event.message, action.py 307-321, with the getters a message may use.  A message that
    contains itself recurses until Python gives up: [fuel] is how deep it can go. *)
Fixpoint getter (fuel : nat) : string -> shown -> gres fval :=
  let msg := match fuel with
    | O => fun _ _ _ => GOther
    | S f => fun e a d =>
      match fst (event_message VNone fmt_named fmt_nested data_of (field_map (builtin_fields (getter f)) []) (e, Some a, d) (lit (e_msg e)) [] []) with
      | Some t => gtext t
      | None => GOther
      end
    end in
  from_table (getters msg).

(** BUILTIN_FIELD_MAP, sensible.py 25-31, 528-535 *)
Definition field_table (fuel : nat) : list (text * sfield fval shown) := field_map (builtin_fields (getter fuel)) [].
(** What a SensibleFilter looks at. *)
Definition filter_view (k : kind) (x : shown) : sevent :=
  match x with
  | (e, Some a, _) => mkSev k (en_level env (a_level a)) (e_status e) (a_data a)
  | (e, None, _) => mkSev k (en_level env 0) (e_status e) []
  end.
(** SensibleSink(formatter, emitter, filters, on=...), 34-82, with a
    SensibleFormatter(begin=..., warn=..., end=..., comment=..., quoter=...), 164-190; [tpl]
    gives the template for each kind of event.  The defaulter is the default one, so that
    formatting never raises (C55); a malformed template makes the constructor raise, there is
    no sink then (here: it writes empty entries). *)
Definition sensible_sink (fuel : nat) (on : list string) (fs : list sfilter) (q : quoter_fn) (tpl : kind -> text) : appender :=
  mkApp on (map (fun f k x => f_on f k (filter_view k x)) fs)
    (fun k x =>
      match make_formatter (field_table fuel) q default_defaulter (tpl k) with
      | Some cs => match render VNone fmt_named fmt_nested data_of (field_table fuel) x [] [] cs with Some t => t | None => [] end
      | None => []
      end).
End Fields.

(** Python's formatting of a value through a field without attributes, indices and
    conversion, for the format specs of the built-in fields (431-525) and the empty spec
    only; None stands for the exceptions it raises, and for everything that is not modelled. *)
Definition builtin_format (k : ftoken) (v : fval) : option text :=
  let is (s : string) := text_eqb (tk_fspec k) (lit s) in
  match v with
  | VText t =>
    if is ""%string || is "s"%string then Some t
    else if is ">9s"%string then Some (repeat 32%N (9 - length t) ++ t)
    else None
  | VInt z => if is ""%string || is "d"%string then Some ((if z <? 0 then [45%N] else []) ++ str_of_N (Z.abs_N z)) else None
  | VNum p q =>
    if is ".14g"%string then general14 p q
    else if is ".3f"%string then Some (fixed 3 p q) else if is "0.4f"%string then Some (fixed 4 p q) else if is "0.6f"%string then Some (fixed 6 p q)
    else None
  | VNone => if is ""%string then Some (lit "None"%string) else None
  | VOther => None
  end.
