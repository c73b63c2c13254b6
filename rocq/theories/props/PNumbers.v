(** C84: numbers in log lines. *)
From Coq Require Import QArith Qabs.
From Verif Require Import model.PyBase model.Core model.Levels model.Timestamps model.Pipeline model.Format model.Fields
  spec.FormatSpec spec.FieldSpec spec.NumberSpec proof.FieldLines proof.NumberProofs proof.TimestampProofs.
Open Scope nat_scope.
Local Opaque general14 fixed.

Lemma line_value env fnest fuel n s q e a d v : In (n, s, q) BUILTIN_FIELDS -> unshadowed a n ->
  getter env builtin_format fnest fuel n (e, Some a, d) = GVal v ->
  field_line env fnest fuel n e a d = match builtin_format (mkTok (lit n) (lit s) None) v with Some t => t | None => lit ("{" +s n +s "}") end.
Proof.
  intros H1 H2 H3. unfold field_line. rewrite (alone_line env builtin_format fnest fuel [] [] (e_kind e) (e, Some a, d) n s q H1); [|apply no_data_key, H2].
  rewrite H3. reflexivity.
Qed.

(** The duration fields show the time between begin and end of the action in seconds,
    milliseconds and microseconds, correctly rounded to three digits. *)
Theorem C84_durations : forall env fmt_nested fuel e a d b x,
  let s := (e_time x - e_time b # en_ticks env)%Q in
  let line n := field_line env fmt_nested fuel n e a d in
  a_begin a = Some b -> a_end a = Some x ->
  unshadowed a "duration_s" -> unshadowed a "duration_ms" -> unshadowed a "duration_us" ->
  near (line "duration_s"%string) s 3 /\
  near (line "duration_ms"%string) (1000 * s) 3 /\
  near (line "duration_us"%string) (1000000 * s) 3.
Proof.
  intros env fnest fuel e a d b x s line Hb Hx U1 U2 U3. unfold line.
  assert (D : duration a = (e_time x - e_time b)%Z) by (unfold duration; rewrite Hb, Hx; reflexivity).
  rewrite (line_value env fnest fuel "duration_s" ".3f" None e a d (seconds env (duration a) 1)); [|cbn; tauto|exact U1|destruct fuel; reflexivity].
  rewrite (line_value env fnest fuel "duration_ms" ".3f" None e a d (seconds env (duration a) 1000)); [|cbn; tauto|exact U2|destruct fuel; reflexivity].
  rewrite (line_value env fnest fuel "duration_us" ".3f" None e a d (seconds env (duration a) 1000000)); [|cbn; tauto|exact U3|destruct fuel; reflexivity].
  rewrite D. split; [|split].
  - eapply near_eq; [|apply (fixed_near 2)]. unfold s, Qeq. cbn [Qnum Qden Qmult]. lia.
  - eapply near_eq; [|apply (fixed_near 2)]. unfold s, Qeq. cbn [Qnum Qden Qmult]. lia.
  - eapply near_eq; [|apply (fixed_near 2)]. unfold s, Qeq. cbn [Qnum Qden Qmult]. lia.
Qed.
Print Assumptions C84_durations.

(** duration_auto shows the duration right-aligned in nine columns, in microseconds below one
    millisecond (and below zero), in milliseconds below one second, and in seconds from
    there on, with three or four digits after the point, correctly rounded. *)
Theorem C84_duration_auto : forall env fmt_nested fuel e a d b x,
  let s := (e_time x - e_time b # en_ticks env)%Q in
  a_begin a = Some b -> a_end a = Some x -> unshadowed a "duration_auto" ->
  exists spaces number unit,
    field_line env fmt_nested fuel "duration_auto" e a d = spaces ++ number ++ lit unit /\
    spaces = repeat 32%N (9 - length (number ++ lit unit)) /\
    (((s < 1 # 1000)%Q /\ unit = "us"%string /\ near number (1000000 * s) 3) \/
     ((1 # 1000 <= s /\ s < 1)%Q /\ unit = "ms"%string /\ near number (1000 * s) 3) \/
     ((1 <= s)%Q /\ unit = "s"%string /\ near number s 4)).
Proof.
  intros env fnest fuel e a d b x s Hb Hx U.
  assert (D : duration a = (e_time x - e_time b)%Z) by (unfold duration; rewrite Hb, Hx; reflexivity).
  rewrite (line_value env fnest fuel "duration_auto" ">9s" (Some false) e a d (VText (duration_auto env (duration a)))); [|cbn; tauto|exact U|destruct fuel; reflexivity].
  rewrite D. set (z := (e_time x - e_time b)%Z) in *. subst s. unfold duration_auto. set (q := en_ticks env).
  destruct (Z.ltb_spec (z * 1000) (Z.pos q)) as [H1|H1]; [|destruct (Z.ltb_spec z (Z.pos q)) as [H2|H2]].
  - eexists _, (fixed 3 (z * 1000000) q), "us"%string. split; [reflexivity|]. split; [reflexivity|]. left.
    split; [unfold Qlt; cbn [Qnum Qden]; lia|]. split; [reflexivity|]. eapply near_eq; [|apply (fixed_near 2)]. unfold Qeq. cbn [Qnum Qden Qmult]. lia.
  - eexists _, (fixed 3 (z * 1000) q), "ms"%string. split; [reflexivity|]. split; [reflexivity|]. right; left.
    split; [unfold Qlt, Qle; cbn [Qnum Qden]; lia|]. split; [reflexivity|]. eapply near_eq; [|apply (fixed_near 2)]. unfold Qeq. cbn [Qnum Qden Qmult]. lia.
  - eexists _, (fixed 4 z q), "s"%string. split; [reflexivity|]. split; [reflexivity|]. right; right.
    split; [unfold Qle; cbn [Qnum Qden]; lia|]. split; [reflexivity|]. apply (fixed_near 3).
Qed.
Print Assumptions C84_duration_auto.

(** An action that has not begun or not ended has duration zero. *)
Theorem C84_unfinished : forall env fmt_nested fuel e a d,
  let line n := field_line env fmt_nested fuel n e a d in
  a_begin a = None \/ a_end a = None ->
  (forall n, In n ["duration_s"; "duration_ms"; "duration_us"; "duration_auto"]%string -> unshadowed a n) ->
  line "duration_s"%string = lit "0.000" /\ line "duration_ms"%string = lit "0.000" /\ line "duration_us"%string = lit "0.000" /\
  line "duration_auto"%string = lit "  0.000us".
Proof.
  intros env fnest fuel e a d line H U. unfold line.
  assert (D : duration a = 0%Z) by (unfold duration; destruct H as [->| ->]; [reflexivity|destruct (a_begin a); reflexivity]).
  rewrite (line_value env fnest fuel "duration_s" ".3f" None e a d (seconds env (duration a) 1)); [|cbn; tauto|apply U; cbn; tauto|destruct fuel; reflexivity].
  rewrite (line_value env fnest fuel "duration_ms" ".3f" None e a d (seconds env (duration a) 1000)); [|cbn; tauto|apply U; cbn; tauto|destruct fuel; reflexivity].
  rewrite (line_value env fnest fuel "duration_us" ".3f" None e a d (seconds env (duration a) 1000000)); [|cbn; tauto|apply U; cbn; tauto|destruct fuel; reflexivity].
  rewrite (line_value env fnest fuel "duration_auto" ">9s" (Some false) e a d (VText (duration_auto env (duration a)))); [|cbn; tauto|apply U; cbn; tauto|destruct fuel; reflexivity].
  rewrite D. assert (Z : fixed 3 0 (en_ticks env) = lit "0.000").
  { Local Transparent fixed. unfold fixed. Local Opaque fixed. replace (round_half_even (Z.abs_N 0 * 10 ^ N.of_nat 3) (N.pos (en_ticks env))) with 0%N; [reflexivity|].
    unfold round_half_even. rewrite N.mul_0_l, N.div_0_l, N.mod_0_l by discriminate. reflexivity. }
  unfold builtin_format, seconds, duration_auto. rewrite !Z.mul_0_l. cbn [text_eqb tk_fspec lit]. rewrite Z.
  repeat split; try reflexivity.
Qed.
Print Assumptions C84_unfinished.

(** import_delta_s and import_delta_ms show the time of the event since the import of the
    library, correctly rounded to six and four digits. *)
Theorem C84_import_delta : forall env fmt_nested fuel e a d,
  let s := (e_time e - en_import env # en_ticks env)%Q in
  let line n := field_line env fmt_nested fuel n e a d in
  unshadowed a "import_delta_s" -> unshadowed a "import_delta_ms" ->
  near (line "import_delta_s"%string) s 6 /\ near (line "import_delta_ms"%string) (1000 * s) 4.
Proof.
  intros env fnest fuel e a d s line U1 U2. unfold line.
  rewrite (line_value env fnest fuel "import_delta_s" "0.6f" None e a d (seconds env (e_time e - en_import env) 1)); [|cbn; tauto|exact U1|destruct fuel; reflexivity].
  rewrite (line_value env fnest fuel "import_delta_ms" "0.4f" None e a d (seconds env (e_time e - en_import env) 1000)); [|cbn; tauto|exact U2|destruct fuel; reflexivity].
  split.
  - eapply near_eq; [|apply (fixed_near 5)]. unfold s, Qeq. cbn [Qnum Qden Qmult]. lia.
  - eapply near_eq; [|apply (fixed_near 3)]. unfold s, Qeq. cbn [Qnum Qden Qmult]. lia.
Qed.
Print Assumptions C84_import_delta.

(** begin_timestamp shows the time of the begin event with 14 significant digits, that is,
    from 2001 to 2286, to the nearest tenth of a millisecond; later times are never shown
    as earlier.  The same holds for end_timestamp. *)
Definition this_epoch (env : fenv) (e : event) : Prop := (inject_Z (10 ^ 9) <= (e_time e # en_ticks env) /\ (e_time e # en_ticks env) < inject_Z (10 ^ 10))%Q.
Lemma stamp_line env fnest fuel n e a d b : this_epoch env b -> In (n, ".14g"%string, None) BUILTIN_FIELDS -> unshadowed a n ->
  getter env builtin_format fnest fuel n (e, Some a, d) = GVal (seconds env (e_time b) 1) ->
  exists x, reads (field_line env fnest fuel n e a d) x /\
    (x == Z.of_N (round_half_even (Z.to_N (e_time b) * 10 ^ N.of_nat 4) (N.pos (en_ticks env))) # 10 ^ 4)%Q /\
    (Qabs (x - (e_time b # en_ticks env)) <= 1 # (2 * 10 ^ 4))%Q.
Proof.
  intros (H1 & H2) Hn U Hg. rewrite (line_value env fnest fuel n ".14g" None e a d _ Hn U Hg).
  unfold Qle, Qlt in H1, H2. cbn [Qnum Qden inject_Z] in H1, H2.
  destruct (general14_near (e_time b) (en_ticks env) 10) as (t & x & G & R & V & A); [lia|cbn [Nat.sub Z.of_nat]; lia|cbn [Z.of_nat]; lia|].
  exists x. split; [|split; [exact V|exact A]].
  unfold builtin_format, seconds. rewrite Z.mul_1_r. cbn [text_eqb tk_fspec lit]. rewrite G. exact R.
Qed.
Theorem C84_timestamps : forall env fmt_nested fuel e a d,
  let line n := field_line env fmt_nested fuel n e a d in
  unshadowed a "begin_timestamp" -> unshadowed a "end_timestamp" ->
  (forall b, a_begin a = Some b -> this_epoch env b -> near (line "begin_timestamp"%string) (e_time b # en_ticks env) 4) /\
  (forall x, a_end a = Some x -> this_epoch env x -> near (line "end_timestamp"%string) (e_time x # en_ticks env) 4).
Proof.
  intros env fnest fuel e a d line U1 U2. split; intros b Hb Ht; unfold line.
  - destruct (stamp_line env fnest fuel "begin_timestamp" e a d b Ht) as (x & R & _ & A); [cbn; tauto|exact U1| |exists x; split; [exact R|exact A]].
    destruct fuel; cbn; unfold with_begin; cbn; rewrite Hb; reflexivity.
  - destruct (stamp_line env fnest fuel "end_timestamp" e a d b Ht) as (x & R & _ & A); [cbn; tauto|exact U2| |exists x; split; [exact R|exact A]].
    destruct fuel; cbn; unfold with_end; cbn; rewrite Hb; reflexivity.
Qed.
Print Assumptions C84_timestamps.
Theorem C84_timestamp_order : forall env fmt_nested fuel e1 a1 d1 b1 e2 a2 d2 b2,
  a_begin a1 = Some b1 -> a_begin a2 = Some b2 -> this_epoch env b1 -> this_epoch env b2 -> (e_time b1 <= e_time b2)%Z ->
  unshadowed a1 "begin_timestamp" -> unshadowed a2 "begin_timestamp" ->
  exists x1 x2, reads (field_line env fmt_nested fuel "begin_timestamp" e1 a1 d1) x1 /\
    reads (field_line env fmt_nested fuel "begin_timestamp" e2 a2 d2) x2 /\ (x1 <= x2)%Q.
Proof.
  intros env fnest fuel e1 a1 d1 b1 e2 a2 d2 b2 H1 H2 T1 T2 L U1 U2.
  destruct (stamp_line env fnest fuel "begin_timestamp" e1 a1 d1 b1 T1) as (x1 & R1 & V1 & _); [cbn; tauto|exact U1|destruct fuel; cbn; unfold with_begin; cbn; rewrite H1; reflexivity|].
  destruct (stamp_line env fnest fuel "begin_timestamp" e2 a2 d2 b2 T2) as (x2 & R2 & V2 & _); [cbn; tauto|exact U2|destruct fuel; cbn; unfold with_begin; cbn; rewrite H2; reflexivity|].
  exists x1, x2. split; [exact R1|]. split; [exact R2|]. rewrite V1, V2. unfold Qle. cbn [Qnum Qden].
  apply Z.mul_le_mono_nonneg_r; [lia|]. apply N2Z.inj_le. apply rhe_mono; [lia|lia|].
  assert (X : (Z.to_N (e_time b1) <= Z.to_N (e_time b2))%N) by lia.
  apply N.mul_le_mono_r, N.mul_le_mono_r, X.
Qed.
Print Assumptions C84_timestamp_order.

(** Fields that show integers show exactly that number. *)
Theorem C84_integers : forall env fmt_nested fuel e a d,
  let line n := field_line env fmt_nested fuel n e a d in
  (forall n, In n ["logger_id"; "action_id"; "level_number"; "line_number"; "process_id"; "parent_depth"]%string -> unshadowed a n) ->
  reads (line "logger_id"%string) (en_logger_id env (a_log a) # 1) /\
  reads (line "action_id"%string) (Z.of_nat (a_id a) # 1) /\
  reads (line "level_number"%string) (lv_value (en_level env (a_level a)) # 1) /\
  reads (line "line_number"%string) (cp_line (en_callpoint env (a_id a)) # 1) /\
  reads (line "process_id"%string) (en_pid env # 1) /\
  reads (line "parent_depth"%string) (Z.of_nat d # 1).
Proof.
  intros env fnest fuel e a d line U. unfold line.
  rewrite (line_value env fnest fuel "logger_id" "d" None e a d (VInt (en_logger_id env (a_log a)))); [|cbn; tauto|apply U; cbn; tauto|destruct fuel; reflexivity].
  rewrite (line_value env fnest fuel "action_id" "d" None e a d (VInt (Z.of_nat (a_id a)))); [|cbn; tauto|apply U; cbn; tauto|destruct fuel; reflexivity].
  rewrite (line_value env fnest fuel "level_number" "d" None e a d (VInt (lv_value (en_level env (a_level a))))); [|cbn; tauto|apply U; cbn; tauto|destruct fuel; reflexivity].
  rewrite (line_value env fnest fuel "line_number" "d" None e a d (VInt (cp_line (en_callpoint env (a_id a))))); [|cbn; tauto|apply U; cbn; tauto|destruct fuel; reflexivity].
  rewrite (line_value env fnest fuel "process_id" "d" None e a d (VInt (en_pid env))); [|cbn; tauto|apply U; cbn; tauto|destruct fuel; reflexivity].
  rewrite (line_value env fnest fuel "parent_depth" "d" None e a d (VInt (Z.of_nat d))); [|cbn; tauto|apply U; cbn; tauto|destruct fuel; reflexivity].
  repeat split; apply int_reads.
Qed.
Print Assumptions C84_integers.

(** Fields that show texts show exactly what was given: names, the level, the message before
    formatting, the place of the call, the last exception recorded; indentation is three
    spaces for each level of nesting. *)
Theorem C84_texts : forall env fmt_nested fuel e a d,
  let line n := field_line env fmt_nested fuel n e a d in
  (forall n, unshadowed a n) ->
  line "logger_name"%string = en_logger_name env (a_log a) /\
  line "action_name"%string = lit (a_name a) /\
  line "action_guid"%string = en_guid env (a_id a) /\
  line "level_name"%string = lit (lv_name (en_level env (a_level a))) /\
  line "level_name_upper"%string = en_upper env (lit (lv_name (en_level env (a_level a)))) /\
  line "module_name"%string = cp_module (en_callpoint env (a_id a)) /\
  line "module_path"%string = cp_path (en_callpoint env (a_id a)) /\
  line "func_name"%string = cp_func (en_callpoint env (a_id a)) /\
  line "data_map"%string = en_json env (a_data a) /\
  line "data_map_repr"%string = en_repr env (a_data a) /\
  line "parent_depth_indent"%string = repeat 32%N (3 * d) /\
  (forall b, a_begin a = Some b -> line "begin_message_raw"%string = lit (e_msg b)) /\
  (forall x, a_end a = Some x -> line "end_message_raw"%string = lit (e_msg x)) /\
  (forall before x ex, a_excs a = before ++ [x] -> e_exc x = Some ex ->
     (line "exc_type"%string, line "exc_message"%string, line "exc_tb_str"%string) = en_exc env ex).
Proof.
  intros env fnest fuel e a d line U. unfold line.
  assert (L : forall n q t, In (n, "s"%string, q) BUILTIN_FIELDS -> getter env builtin_format fnest fuel n (e, Some a, d) = gtext t -> field_line env fnest fuel n e a d = t).
  { intros n q t H1 H2. rewrite (line_value env fnest fuel n "s" q e a d (VText t) H1 (U n) H2). reflexivity. }
  repeat split;
    try (eapply L; [cbn; tauto|destruct fuel; reflexivity]).
  - transitivity (indent d); [eapply L; [cbn; tauto|destruct fuel; reflexivity]|]. unfold indent. clear. generalize 0 at 1. induction d as [|d IH]; intros m; [reflexivity|].
    cbn [seq flat_map]. rewrite IH. replace (3 * S d) with (S (S (S (3 * d)))) by lia. reflexivity.
  - intros b Hb. eapply L; [cbn; tauto|]. destruct fuel; cbn; unfold with_begin; cbn; rewrite Hb; reflexivity.
  - intros b Hb. eapply L; [cbn; tauto|]. destruct fuel; cbn; unfold with_end; cbn; rewrite Hb; reflexivity.
  - intros before x ex Ha Hx.
    assert (R : rev (a_excs a) = x :: rev before) by (rewrite Ha, rev_app_distr; reflexivity).
    destruct (en_exc env ex) as [[t1 t2] t3] eqn:Ee. f_equal; [f_equal|].
    + eapply L; [cbn; tauto|]. destruct fuel; cbn; unfold with_exc; cbn; rewrite R, Hx, Ee; reflexivity.
    + eapply L; [cbn; tauto|]. destruct fuel; cbn; unfold with_exc; cbn; rewrite R, Hx, Ee; reflexivity.
    + eapply L; [cbn; tauto|]. destruct fuel; cbn; unfold with_exc; cbn; rewrite R, Hx, Ee; reflexivity.
Qed.
Print Assumptions C84_texts.

(** ** Examples *)
Definition env84 (ticks : positive) : fenv := mkEnv (fun _ => lit "log") (fun _ => 1%Z) (fun _ => lit "guid") (fun _ => INFO) (fun t => t)
  (fun _ => mkCp [] [] [] 12%Z) (fun _ => ([], [], [])) (fun _ => lit "json") (fun _ => lit "repr") 99%Z 0%Z ticks utc (fun _ => 0%Z).
(** A block entered and left at these times. *)
Definition block (t1 t2 : Z) : world :=
  run_ops (mkConfig (fun n => match n with O => t1 | _ => t2 end) (fun _ _ => true) (fun _ _ _ _ _ => None) (fun _ _ _ => None) (fun _ _ => None) (fun _ => Ok "boom"%string))
    [OpNew 0 70 "job" [] None None; OpEnter 0; OpExit 0 None] (init (fun _ => false)).
(** What a field shows in the line for the end of that block. *)
Definition block_line (ticks : positive) (t1 t2 : Z) (n : string) : option text :=
  match nth_error (w_acts (block t1 t2)) 0 with
  | Some a => match a_end a with Some x => Some (field_line (env84 ticks) (fun _ _ => None) 1 n x a (parent_depth (block t1 t2) 0)) | None => None end
  | None => None
  end.
Local Transparent general14 fixed.
Example C84_nonvacuous :
  block_line 1000000 1700000000123440 1700000000125681 "duration_ms" = Some (lit "2.241") /\
  block_line 1000000 1700000000123440 1700000000125681 "duration_auto" = Some (lit "  2.241ms") /\
  block_line 1000000 1700000000123440 1700000000125681 "begin_timestamp" = Some (lit "1700000000.1234") /\
  block_line 1000000 1700000000123440 1700000000125681 "end_timestamp" = Some (lit "1700000000.1257") /\
  block_line 1000 0 61500 "duration_auto" = Some (lit " 61.5000s") /\
  block_line 1000 1000000000000 1000000000000 "begin_timestamp" = Some (lit "1000000000") /\
  block_line 1000000 0 700 "duration_auto" = Some (lit "700.000us") /\
  block_line 1000000 0 700 "level_number" = option_map str_of_N (Some (Z.to_N (lv_value INFO))).
Proof. repeat split; vm_compute; reflexivity. Qed.

(** A duration below a second can be shown as 1000 milliseconds, and one below a millisecond
    as 1000 microseconds: the unit is chosen before rounding. *)
Theorem C84_auto_unit_refuted : exists ticks t1 t2, (t1 <= t2 < t1 + Z.pos ticks)%Z /\
  block_line ticks t1 t2 "duration_auto" = Some (lit "1000.000ms").
Proof. exists 10000000%positive, 0%Z, 9999996%Z. split; [lia|]. vm_compute. reflexivity. Qed.
Print Assumptions C84_auto_unit_refuted.
(** If the clock is set back, even five seconds are shown in microseconds. *)
Theorem C84_auto_negative_refuted : exists ticks t1 t2, (t2 <= t1 - 5 * Z.pos ticks)%Z /\
  block_line ticks t1 t2 "duration_auto" = Some (lit "-5000000.000us").
Proof. exists 1000%positive, 6000%Z, 1000%Z. split; [lia|]. vm_compute. reflexivity. Qed.
Print Assumptions C84_auto_negative_refuted.
(** Events 80 microseconds apart can have the same timestamp. *)
Theorem C84_timestamp_distinct_refuted : exists ticks t1 t2, ((t2 - t1) * 1000000 = 80 * Z.pos ticks)%Z /\
  block_line ticks t1 t2 "begin_timestamp" = block_line ticks t1 t2 "end_timestamp".
Proof. exists 1000000%positive, 1700000000123360%Z, 1700000000123440%Z. split; [lia|]. vm_compute. reflexivity. Qed.
Print Assumptions C84_timestamp_distinct_refuted.
