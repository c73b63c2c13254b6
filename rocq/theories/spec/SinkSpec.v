(** Vocabulary for the statements about the statistics sinks. *)
From Verif Require Import model.PyBase model.Quantile model.Sinks spec.QuantileSpec.
Open Scope nat_scope.

(** The last [n] members of a list (all of them for [None]), in order. *)
Definition most_recent {A} (n : option nat) (l : list A) : list A :=
  match n with None => l | Some n => skipn (length l - n) l end.
Definition count_if {A} (f : A -> bool) (l : list A) : nat := length (filter f l).

(** Follow a path of keys into a grouped result. *)
Fixpoint path {V} (t : tree V) (ks : list string) : option (tree V) :=
  match ks with
  | [] => Some t
  | k :: ks' => match t with
                | Leaf _ => None
                | Node l => match dget String.eqb k l with Some t' => path t' ks' | None => None end
                end
  end.
Definition entry {V} (t : tree V) (ks : list string) : option V :=
  match path t ks with Some (Leaf v) => Some v | _ => None end.

(** Loggers with the same name are the same logger, and equal identities carry
    the same name. *)
Definition distinct_names (evs : list end_ev) : Prop :=
  forall e e', In e evs -> In e' evs -> (fst (ee_logger e) = fst (ee_logger e') <-> snd (ee_logger e) = snd (ee_logger e')).
(** No logger, action or status is called '__all__'. *)
Definition no_reserved (evs : list end_ev) : Prop :=
  forall e, In e evs -> snd (ee_logger e) <> "__all__" /\ ee_name e <> "__all__" /\ ee_status e <> "__all__".
(** The getter returned a value for the event. *)
Definition answered (e : end_ev) : bool := match ee_value e with Some _ => true | None => false end.

Definition of_logger (l : string) (e : end_ev) : bool := String.eqb l (snd (ee_logger e)).
Definition of_name (l n : string) (e : end_ev) : bool := of_logger l e && String.eqb n (ee_name e).
Definition of_status (l n st : string) (e : end_ev) : bool := of_name l n e && String.eqb st (ee_status e).
(** The getter values of the events selected by [f], in order. *)
Definition values_of (f : end_ev -> bool) (evs : list end_ev) : list Q :=
  flat_map (fun e => match ee_value e with Some v => [v] | None => [] end) (filter f evs).

(** A history of end events, each with the clock at that moment. *)
Definition rs_run (sample_size : option nat) (created : Q) (evs : list (Q * end_ev)) : rate_sink :=
  fold_left (fun s p => rs_on_end (fst p) s (snd p)) evs (rs_new sample_size created).
(** The distinct keys of a history. *)
Definition logger_names (evs : list end_ev) : list string := nodup string_dec (map (fun e => snd (ee_logger e)) evs).
Definition names_in (l : string) (evs : list end_ev) : list string := nodup string_dec (map ee_name (filter (of_logger l) evs)).
Definition statuses_in (l n : string) (evs : list end_ev) : list string := nodup string_dec (map ee_status (filter (of_name l n) evs)).
Definition qsum (l : list Q) : Q := fold_right Qplus 0%Q l.

(** EWMASink: the reported sums ([inl]) and member rates ([inr]). *)
Definition es_run {A} (new : A) (add : A -> Q -> A) (evs : list end_ev) : es_map := fold_left (es_on_end new add) evs [].
Definition sums_at (t : tree (list (Q * Q) + rates_map)) (ks : list string) : list (Q * Q) :=
  match entry t ks with Some (inl d) => d | _ => [] end.
Definition rates_at (t : tree (list (Q * Q) + rates_map)) (ks : list string) : rates_map :=
  match entry t ks with Some (inr d) => d | _ => [] end.
Definition sum_for (p : Q) (d : list (Q * Q)) : Q := match dget Qeq_bool p d with Some v => v | None => 0%Q end.
(** The rate a member reports for a period, zero if it has none yet (its dict
    lists the period once; a repeated one would count as often). *)
Definition rate_for (p : Q) (r : rates_map) : Q :=
  qsum (flat_map (fun q => if Qeq_bool p (fst q) then match snd q with Some v => [v] | None => [] end else []) r).
Definition has_rate (p : Q) (r : rates_map) : Prop := exists q v, In (q, Some v) r /\ (p == q)%Q.

Definition cs_run (width : N) (evs : list end_ev) : counter_map := fold_left (cs_on_end width) evs [].
(** No logger, and no key, is '__all__' or '__missing__'. *)
Definition no_reserved_keys (evs : list end_ev) : Prop :=
  forall e, In e evs -> ee_name e <> "__all__" /\ ee_name e <> "__missing__".
Definition shown (k : string) (d : list (string * N)) : N := match dget String.eqb k d with Some n => n | None => 0%N end.
Definition ncount (f : end_ev -> bool) (evs : list end_ev) : N := N.of_nat (count_if f evs).
