(** Model of the statistics sinks of /repo/lithoxyl/sinks.py and of
    AggregateEmitter (/repo/lithoxyl/emitters.py 22-45).  Numbers are rationals;
    the rounding of float arithmetic is not modelled. *)
From Verif Require Import model.PyBase model.Bisect model.Quantile.
Open Scope nat_scope.

(** [collections.deque(maxlen=m).append(x)] (CPython built-in): items beyond
    [maxlen] are discarded on the left; [None] is unbounded. *)
Definition dq_append {A} (maxlen : option nat) (q : list A) (x : A) : list A :=
  match maxlen with
  | None => q ++ [x]
  | Some m => skipn (length q + 1 - m) (q ++ [x])
  end.
(** [d.setdefault(k, default)] followed by an in-place change [f] of the value. *)
Definition dupd {K V} (eqb : K -> K -> bool) (k : K) (default : V) (f : V -> V) (d : list (K * V)) : list (K * V) :=
  dset eqb k (f (match dget eqb k d with Some v => v | None => default end)) d.

(** ** AggregateSink, sinks.py 14-41 *)
Inductive ev_kind := KBegin | KWarn | KEnd | KComment.
(** AggregateSink.__init__, sinks.py 16-21. *)
Record agg_sink (A : Type) := mkAgg {
  ag_limit : option nat; ag_begins : list A; ag_warns : list A; ag_ends : list A; ag_comments : list A }.
Arguments mkAgg {A}. Arguments ag_limit {A}. Arguments ag_begins {A}. Arguments ag_warns {A}. Arguments ag_ends {A}. Arguments ag_comments {A}.
(** 16-21 *)
Definition ag_new {A} (limit : option nat) : agg_sink A := mkAgg limit [] [] [] [].
(** on_begin, on_warn, on_end, on_comment: 23-33 *)
Definition ag_on {A} (s : agg_sink A) (k : ev_kind) (e : A) : agg_sink A :=
  let m := ag_limit s in
  match k with
  | KBegin => mkAgg m (dq_append m (ag_begins s) e) (ag_warns s) (ag_ends s) (ag_comments s)
  | KWarn => mkAgg m (ag_begins s) (dq_append m (ag_warns s) e) (ag_ends s) (ag_comments s)
  | KEnd => mkAgg m (ag_begins s) (ag_warns s) (dq_append m (ag_ends s) e) (ag_comments s)
  | KComment => mkAgg m (ag_begins s) (ag_warns s) (ag_ends s) (dq_append m (ag_comments s) e)
  end.
(** AggregateEmitter, emitters.py 22-39: all four hooks are [emit_entry]. *)
Record agg_emitter (A B : Type) := mkAggE { ae_limit : option nat; ae_items : list (A * B) }.
Arguments mkAggE {A B}. Arguments ae_limit {A B}. Arguments ae_items {A B}.
(** AggregateEmitter.__init__, emitters.py 23-25. *)
Definition ae_new {A B} (limit : option nat) : agg_emitter A B := mkAggE limit [].
(** emit_entry, emitters.py 36-39. *)
Definition ae_on {A B} (s : agg_emitter A B) (k : ev_kind) (e : A) (entry : B) : agg_emitter A B :=
  mkAggE (ae_limit s) (dq_append (ae_limit s) (ae_items s) (e, entry)).
(** get_entries, 27-28, and clear, 33-34 *)
Definition ae_entries {A B} (s : agg_emitter A B) : list B := map snd (ae_items s).
(** clear, emitters.py 33-34. *)
Definition ae_clear {A B} (s : agg_emitter A B) : agg_emitter A B := mkAggE (ae_limit s) [].

(** ** RateAccumulator, sinks.py 66-134 *)
Record rate_acc := mkRate { ra_max : option nat; ra_times : list Q; ra_total : nat; ra_created : Q }.
(** 72-75; [now] is the clock *)
Definition ra_new (sample_size : option nat) (now : Q) : rate_acc := mkRate sample_size [] 0 now.
(** 81-87 *)
Definition ra_add (s : rate_acc) (t : Q) : rate_acc :=
  mkRate (ra_max s) (dq_append (ra_max s) (ra_times s) t) (S (ra_total s)) (ra_created s).
(** [x or y] for an optional number: [None] and zero are falsy. *)
Definition or_default (x : option Q) (y : Q) : Q :=
  match x with Some v => if Qeq_bool v 0 then y else v | None => y end.
(** [bisect.bisect_left(times, x)] *)
Definition q_bisect_left (l : list Q) (x : Q) : nat := bisect (fun y => negb (qlt y x)) l.
(** get_rate, 99-129; [now] is the clock *)
Definition ra_get_rate (s : rate_acc) (start_time end_time : option Q) (now : Q) : pyres Q :=
  match ra_times s with
  | [] => Ok 0%Q
  | first :: _ =>
    let end_time := or_default end_time now in
    let start_time := or_default start_time (ra_created s) in
    if Qle_bool start_time (ra_created s) then
      qdiv (inject_Z (Z.of_nat (ra_total s))) (end_time - start_time)
    else
      let target_idx := q_bisect_left (ra_times s) start_time in
      let count := length (ra_times s) - target_idx in
      if count =? 0 then
        qdiv (inject_Z (Z.of_nat (length (ra_times s)))) (last (ra_times s) first - first)
      else
        qdiv (inject_Z (Z.of_nat count)) (end_time - (if target_idx =? 0 then first else start_time))
  end.

(** ** Grouped results.  The nested dicts returned by get_rates, get_total_counts,
    get_values. *)
Inductive tree (V : Type) := Leaf (v : V) | Node (l : list (string * tree V)).
Arguments Leaf {V} v. Arguments Node {V} l.
Section Grouped.
  Context {A V : Type} (leaf : A -> V) (add : V -> V -> V) (zero : V).
  (** The innermost loop, sinks.py 190-199 and 216-224: the dict of one name and
      its sum. *)
  Definition group_name (sm : list (string * A)) : tree V * V :=
    let '(d, tot) := fold_left (fun acc p =>
      (dset String.eqb (fst p) (Leaf (leaf (snd p))) (fst acc), add (snd acc) (leaf (snd p)))) sm ([], zero) in
    (Node (dset String.eqb "__all__" (Leaf tot) d), tot).
  (** The middle loop, 187-200 and 213-225: the dict of one logger. *)
  Definition group_logger (nm : list (string * list (string * A))) : tree V * V :=
    let '(d, tot) := fold_left (fun acc p =>
      (dset String.eqb (fst p) (fst (group_name (snd p))) (fst acc), add (snd acc) (snd (group_name (snd p))))) nm ([], zero) in
    (Node (dset String.eqb "__all__" (Leaf tot) d), tot).
  (** The outer loop, 184-202 and 210-227.  Keys are loggers (identity and name).
      A running sum that is added to per leaf is modelled by the sum of sums. *)
  Definition group_all (m : list ((nat * string) * list (string * list (string * A)))) : tree V :=
    let '(d, tot) := fold_left (fun acc p =>
      (dset String.eqb (snd (fst p)) (fst (group_logger (snd p))) (fst acc), add (snd acc) (snd (group_logger (snd p))))) m ([], zero) in
    Node (dset String.eqb "__all__" (Leaf tot) d).
End Grouped.

(** ** RateSink, sinks.py 137-234 *)
(** What the sinks see of an end event: the logger (identity and name), the
    action name, the status and the result of the getter ([None]: it raises). *)
Record end_ev := mkEnd { ee_logger : nat * string; ee_name : string; ee_status : string; ee_value : option Q }.
(** Loggers are dict keys by identity, sinks.py 161. *)
Definition logger_eqb (a b : nat * string) : bool := fst a =? fst b.
(** acc_map of RateSink, sinks.py 155, 161-167. *)
Definition rate_map := list ((nat * string) * list (string * list (string * rate_acc))).
(** RateSink.__init__, sinks.py 147-157. *)
Record rate_sink := mkRS { rs_size : option nat; rs_map : rate_map; rs_created : Q }.
(** 147-157 *)
Definition rs_new (sample_size : option nat) (now : Q) : rate_sink := mkRS sample_size [] now.
(** on_end, 159-168; [now] is the clock read by a new accumulator *)
Definition rs_on_end (now : Q) (s : rate_sink) (e : end_ev) : rate_sink :=
  mkRS (rs_size s)
    (dupd logger_eqb (ee_logger e) []
      (dupd String.eqb (ee_name e) []
        (dupd String.eqb (ee_status e) (ra_new (rs_size s) now)
          (fun acc => match ee_value e with Some v => ra_add acc v | None => acc end)))
      (rs_map s)) (rs_created s).
(** get_total_counts, 204-227 *)
Definition rs_total_counts (s : rate_sink) : tree nat := group_all ra_total Nat.add 0 (rs_map s).
(** get_rates, 170-202: [None] if some accumulator's get_rate raises. *)
Definition rs_leaf_rates (s : rate_sink) (start_time end_time now : Q) : list (pyres Q) :=
  flat_map (fun p => flat_map (fun q => map (fun r => ra_get_rate (snd r) (Some start_time) (Some end_time) now) (snd q)) (snd p)) (rs_map s).
(** bookkeeping, no counterpart in /repo *)
Definition ok_value (r : pyres Q) : Q := match r with Ok v => v | _ => 0%Q end.
(** get_rates, sinks.py 170-202. *)
Definition rs_get_rates (s : rate_sink) (start_time end_time now : Q) : option (tree Q) :=
  if forallb (fun r => match r with Ok _ => true | _ => false end) (rs_leaf_rates s start_time end_time now) then
    Some (group_all (fun a => ok_value (ra_get_rate a (Some start_time) (Some end_time) now)) Qplus 0%Q (rs_map s))
  else None.

(** ** QuantileSink, sinks.py 300-361.  The accumulator type is a parameter:
    [new] is [self._acc_type(q_points=self.q_points)], [add] its [add]. *)
Section QuantileSink.
  Context {A : Type} (new : A) (add : A -> Q -> A).
  (** on_end, 341-352 *)
  Definition qs_on_end (m : list (string * list (string * A))) (e : end_ev) : list (string * list (string * A)) :=
    dupd String.eqb (snd (ee_logger e)) []
      (dupd String.eqb (ee_name e) new (fun acc => match ee_value e with Some v => add acc v | None => acc end)) m.
End QuantileSink.
(** to_dict, 331-339, with reservoir accumulators: count, trimean and quantiles of
    each.  The sorting side effects of the reads are not kept. *)
Fixpoint seq_res {A} (l : list (pyres A)) : pyres (list A) :=
  match l with [] => Ok [] | r :: l' => let? a := r in let? rest := seq_res l' in Ok (a :: rest) end.
(** One entry of to_dict, sinks.py 336-338. *)
Definition qs_entry (q_points : list Q) (acc : reservoir) : pyres (nat * Q * list (Q * option Q)) :=
  let? t := snd (trimean r_get_quantile acc) in
  let? qs := snd (r_get_quantiles acc q_points) in
  Ok (b_count (r_base acc), t, qs).
(** to_dict, sinks.py 331-339. *)
Definition qs_to_dict (q_points : list Q) (m : list (string * list (string * reservoir))) :=
  seq_res (map (fun p => let? l := seq_res (map (fun q => let? e := qs_entry q_points (snd q) in Ok (fst q, e)) (snd p)) in Ok (fst p, l)) m).

(** ** EWMASink, sinks.py 237-297: keyed by logger name, action name, status;
    [rates acc] is what [acc.get_rates()] returns (a rate is [None] before the
    first update). *)
Definition rates_map := list (Q * option Q).
(** _update_add, 265-274 *)
Definition update_add (target : list (Q * Q)) (other : rates_map) : list (Q * Q) :=
  fold_left (fun d p =>
    match snd p with
    | None => d
    | Some v => match dget Qeq_bool (fst p) d with
                | Some x => dset Qeq_bool (fst p) (x + v)%Q d
                | None => dset Qeq_bool (fst p) v d
                end
    end) other target.
Section EwmaSink.
  Context {A : Type} (rates : A -> rates_map).
  (** acc_map of EWMASink, sinks.py 251-261. *)
  Definition es_map := list (string * list (string * list (string * A))).
  (** on_end, 253-263: the accumulator under logger name, name and status. *)
  Definition es_on_end (new : A) (add : A -> Q -> A) (m : es_map) (e : end_ev) : es_map :=
    dupd String.eqb (snd (ee_logger e)) []
      (dupd String.eqb (ee_name e) []
        (dupd String.eqb (ee_status e) new
          (fun acc => match ee_value e with Some v => add acc v | None => acc end))) m.
  (** get_values, 276-292.  The '__all__' dicts are filled while the loops run;
      the model inserts them when they are complete.  [inr] are member rates,
      [inl] are sums. *)
  Definition ev_name (sm : list (string * A)) : list (string * tree (list (Q * Q) + rates_map)) * (list (Q * Q) -> list (Q * Q)) :=
    fold_left (fun acc p =>
      (dset String.eqb (fst p) (Leaf (inr (rates (snd p)))) (fst acc),
       fun d => update_add (snd acc d) (rates (snd p)))) sm ([], fun d => d).
  (** The part of get_values for one action name, sinks.py 284-289. *)
  Definition ev_name_tree (sm : list (string * A)) : tree (list (Q * Q) + rates_map) :=
    Node (("__all__", Leaf (inl (snd (ev_name sm) []))) :: fst (ev_name sm)).
  (** The rates of one logger, sinks.py 283-291. *)
  Definition ev_logger (nm : list (string * list (string * A))) :=
    fold_left (fun acc p =>
      (dset String.eqb (fst p) (ev_name_tree (snd p)) (fst acc),
       fun d => snd (ev_name (snd p)) (snd acc d))) nm ([], fun d : list (Q * Q) => d).
  (** The part of get_values for one logger, sinks.py 281-290. *)
  Definition ev_logger_tree (nm : list (string * list (string * A))) : tree (list (Q * Q) + rates_map) :=
    Node (("__all__", Leaf (inl (snd (ev_logger nm) []))) :: fst (ev_logger nm)).
  (** get_values, sinks.py 276-292. *)
  Definition es_get_values (m : es_map) : tree (list (Q * Q) + rates_map) :=
    let '(d, f) := fold_left (fun acc p =>
      (dset String.eqb (fst p) (ev_logger_tree (snd p)) (fst acc),
       fun d => snd (ev_logger (snd p)) (snd acc d))) m ([], fun d : list (Q * Q) => d) in
    Node (("__all__", Leaf (inl (f []))) :: d).
End EwmaSink.

(** ** CounterSink, sinks.py 364-394, and the external
    [boltons.cacheutils.ThresholdCounter] it uses (not part of /repo; modelled
    after its documentation and published source). *)
Record tcounter := mkTC { tc_total : N; tc_map : list (string * (N * N)); tc_width : N; tc_bucket : N }.
(** [_thresh_count = int(1 / threshold)] *)
Definition tc_new (width : N) : tcounter := mkTC 0 [] width 1.
(** ThresholdCounter.add (boltons.cacheutils, external). *)
Definition tc_add (c : tcounter) (key : string) : tcounter :=
  let total := (tc_total c + 1)%N in
  let m := match dget String.eqb key (tc_map c) with
           | Some (n, d) => dset String.eqb key ((n + 1)%N, d) (tc_map c)
           | None => dset String.eqb key (1%N, (tc_bucket c - 1)%N) (tc_map c)
           end in
  if (total mod tc_width c =? 0)%N then
    mkTC total (filter (fun p => (tc_bucket c <? fst (snd p) + snd (snd p))%N) m) (tc_width c) (tc_bucket c + 1)
  else mkTC total m (tc_width c) (tc_bucket c).
(** [sum]. *)
Definition nsum (l : list N) : N := fold_right N.add 0%N l.
(** ThresholdCounter.get_common_count (boltons.cacheutils, external). *)
Definition tc_common (c : tcounter) : N := nsum (map (fun p => fst (snd p)) (tc_map c)).
(** ThresholdCounter.get_uncommon_count (boltons.cacheutils, external). *)
Definition tc_uncommon (c : tcounter) : N := (tc_total c - tc_common c)%N.
(** on_end, 375-384, for a getter that returns the key [ee_name] *)
Definition counter_map := list ((nat * string) * tcounter).
(** on_end, sinks.py 375-384. *)
Definition cs_on_end (width : N) (m : counter_map) (e : end_ev) : counter_map :=
  dupd logger_eqb (ee_logger e) (tc_new width) (fun c => tc_add c (ee_name e)) m.
(** to_dict, 386-394 *)
Definition cs_logger_dict (c : tcounter) : list (string * N) :=
  let cur := map (fun p => (fst p, fst (snd p))) (tc_map c) in
  let cur := if (tc_uncommon c =? 0)%N then cur else dset String.eqb "__missing__" (tc_uncommon c) cur in
  dset String.eqb "__all__" (nsum (map snd cur)) cur.
(** to_dict, sinks.py 386-394. *)
Definition cs_to_dict (m : counter_map) : list (string * list (string * N)) :=
  fold_left (fun d p => dset String.eqb (snd (fst p)) (cs_logger_dict (snd p)) d) m [].
