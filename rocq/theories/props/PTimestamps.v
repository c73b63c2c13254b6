(** C82: time stamps in log lines. *)
From Verif Require Import model.PyBase model.Emitters model.Timestamps spec.TimestampSpec proof.TimestampProofs.
Open Scope N_scope.

(** [p / q] is a timestamp the UTC fields can show: from 1970 on and, once rounded, before the year 10000. *)
Definition in_range (p q : N) : Prop := 0 < q /\ micros p q < year_10000.

Lemma utc_wall u : Z.to_N (wall utc (Z.of_N u)) = u.
Proof. unfold wall, us_of_min. cbn [z_std z_dst utc]. lia. Qed.

(** C82: the text of iso_begin / iso_end, read with nothing but the calendar, is the time
    of the event to the nearest microsecond. *)
Theorem C82_utc_reads_back :
  forall p q, in_range p q ->
  exists u, read_instant (timestamp2iso8601 utc true p q) = Some (Z.of_N u) /\
  read_micros (timestamp2iso8601 utc false p q) = Some (u, []) /\
  2 * (u * q) <= 2 * (p * 1000000) + q /\ 2 * (p * 1000000) <= 2 * (u * q) + q.
Proof.
  intros p q [Hq H]. exists (micros p q). unfold timestamp2iso8601. rewrite utc_wall. rewrite app_nil_r. split; [|split].
  - unfold read_instant. rewrite read_fmt_micros by exact H. unfold utcoffset. cbn [z_std z_dst utc]. rewrite read_fmt_zone by lia. f_equal. lia.
  - rewrite <- (app_nil_r (fmt_micros _)). apply read_fmt_micros. exact H.
  - unfold micros. pose proof (rhe_near (p * 1000000) q Hq) as (A & B & _). cbn zeta in *. lia.
Qed.
Print Assumptions C82_utc_reads_back.

(** C82: sorting lines by the text of a UTC time stamp sorts them by time: a later event
    never sorts before an earlier one, and sorts after it if they are more than a
    microsecond apart. *)
Theorem C82_utc_sorts :
  forall tz p1 q1 p2 q2, in_range p1 q1 -> in_range p2 q2 ->
  (p1 * q2 <= p2 * q1 -> text_compare (timestamp2iso8601 utc tz p1 q1) (timestamp2iso8601 utc tz p2 q2) <> Gt) /\
  (p1 * q2 * 1000000 + q1 * q2 < p2 * q1 * 1000000 -> text_compare (timestamp2iso8601 utc tz p1 q1) (timestamp2iso8601 utc tz p2 q2) = Lt).
Proof.
  intros tz p1 q1 p2 q2 [Hq1 H1] [Hq2 H2].
  assert (E : text_compare (timestamp2iso8601 utc tz p1 q1) (timestamp2iso8601 utc tz p2 q2) = (micros p1 q1 ?= micros p2 q2)).
  { unfold timestamp2iso8601. rewrite !utc_wall, compare_micros by assumption. unfold utcoffset. cbn [z_std z_dst utc].
    destruct tz; cbn [text_compare]; unfold lexi; destruct (micros p1 q1 ?= micros p2 q2); vm_compute; reflexivity. }
  rewrite E. split; intros H.
  - apply N.compare_le_iff. apply rhe_mono; [assumption|assumption|]. lia.
  - apply N.compare_lt_iff. apply rhe_apart; [assumption|assumption|]. lia.
Qed.
Print Assumptions C82_utc_sorts.

(** C82: a UTC time stamp has a fixed length and contains neither white space nor quotes,
    so it can stand in a line without being quoted. *)
Theorem C82_fixed_width :
  forall tz p q, length (timestamp2iso8601 utc tz p q) = (if tz then 31 else 26)%nat /\
  Forall (fun c => 43 <= c <= 84) (timestamp2iso8601 utc tz p q).
Proof.
  intros tz p q. unfold timestamp2iso8601, fmt_micros, fmt_seconds, fmt_zone. split.
  - repeat (rewrite ?app_length, ?dec_length; cbn [length]). destruct tz; reflexivity.
  - assert (D : forall w n, Forall (fun c => 43 <= c <= 84) (dec w n)).
    { intros w n. eapply Forall_impl; [|apply dec_digits]. cbn. lia. }
    repeat first [apply D | apply Forall_app; split | (apply Forall_cons; [lia|])].
    destruct tz; [|constructor]. cbn [utcoffset z_std z_dst utc]. apply Forall_cons; [cbn; lia|]. apply Forall_app. split; apply D.
Qed.
Print Assumptions C82_fixed_width.

(** 2026-11-13T11:41:30.5, less than half a microsecond before midnight, and the last day of February 2000. *)
Example C82_nonvacuous :
  in_range 17945700905 10 /\
  timestamp2iso8601 utc true 17945700905 10 = dec 4 2026 ++ [45] ++ dec 2 11 ++ [45] ++ dec 2 13 ++ [84] ++ dec 2 11 ++ [58] ++ dec 2 41 ++ [58] ++ dec 2 30 ++ [46] ++ dec 6 500000 ++ [43; 48; 48; 48; 48] /\
  in_range 1727999999999 20000000 /\ micros 1727999999999 20000000 = 86400000000 /\
  civil_of 951868799000000 = mkCiv 2000 2 29 23 59 59 0 /\ civil_of (year_10000 - 1) = mkCiv 9999 12 31 23 59 59 999999.
Proof. unfold in_range. vm_compute. intuition (try reflexivity; try discriminate). Qed.

(** C82: with the local time zone and its offset printed, the text stands for the right
    instant whenever the zone gives the same daylight saving for the reading shown as was
    used to find it; otherwise it is off by exactly the difference. *)
Theorem C82_local_with_offset :
  forall z p q, let u := Z.of_N (micros p q) in let w := wall z u in let s := (u + us_of_min (z_std z))%Z in
  (0 <= w < Z.of_N year_10000)%Z -> (-1440 < utcoffset z w < 1440)%Z ->
  read_instant (timestamp2iso8601 z true p q) = Some (u + us_of_min (z_dst z s - z_dst z w))%Z /\
  (read_instant (timestamp2iso8601 z true p q) = Some u <-> z_dst z w = z_dst z s).
Proof.
  intros z p q u w s Hw Ho.
  assert (E : read_instant (timestamp2iso8601 z true p q) = Some (u + us_of_min (z_dst z s - z_dst z w))%Z).
  { unfold timestamp2iso8601. fold u. fold w. unfold read_instant. rewrite read_fmt_micros by lia. rewrite read_fmt_zone by exact Ho. f_equal.
    unfold utcoffset, us_of_min. rewrite Z2N.id by lia. subst w. unfold wall. fold s. unfold us_of_min in *. subst s. lia. }
  split; [exact E|]. rewrite E. unfold us_of_min. split; intros H; [injection H as H; lia|f_equal; lia].
Qed.
Print Assumptions C82_local_with_offset.

(** New York in 2026: daylight saving ends on 1 November; the readings from 1:00 to 2:00
    occur twice and are taken for standard time. *)
Definition new_york : zone := mkZone (-300) (fun w => if (w <? 1793494800000000)%Z then 60%Z else 0%Z).
Example C82_local_nonvacuous :
  let u := Z.of_N (micros 1793511000 1) in (0 <= wall new_york u < Z.of_N year_10000)%Z /\ z_dst new_york (wall new_york u) <> z_dst new_york (u + us_of_min (-300)) /\
  let u := Z.of_N (micros 1790000000 1) in (0 <= wall new_york u < Z.of_N year_10000)%Z /\ z_dst new_york (wall new_york u) = z_dst new_york (u + us_of_min (-300)).
Proof. vm_compute. intuition discriminate. Qed.

(** C82: so the offset does not always identify the instant: when the clocks go back, two
    events an hour apart have the same time stamp, offset included. *)
Theorem C82_local_repeat_refuted :
  exists z p1 p2, in_range p1 1 /\ in_range p2 1 /\ p2 = p1 + 3600 /\
  timestamp2iso8601 z true p1 1 = timestamp2iso8601 z true p2 1.
Proof. exists new_york, 1793511000, 1793514600. unfold in_range. vm_compute. intuition reflexivity. Qed.
Print Assumptions C82_local_repeat_refuted.
(** C82: without an offset the order can be reversed too. *)
Theorem C82_local_order_refuted :
  exists z p1 p2, in_range p1 1 /\ in_range p2 1 /\ p1 < p2 /\
  text_compare (timestamp2iso8601 z false p1 1) (timestamp2iso8601 z false p2 1) = Gt.
Proof. exists new_york, 1793512799, 1793512800. unfold in_range. vm_compute. intuition reflexivity. Qed.
Print Assumptions C82_local_order_refuted.

(** C82: the variants without a fraction show the second the event happened in. *)
Theorem C82_noms_reads_back :
  forall off p q, 0 < q -> let s := p / q in
  let w := (Z.of_N (s * 1000000) + us_of_min (off s))%Z in (0 <= w < Z.of_N year_10000)%Z -> (-1440 < off s < 1440)%Z ->
  exists v rest, read_seconds (timestamp2iso8601_noms off true p q) = Some (v, rest) /\
  read_zone rest = Some (off s) /\ (Z.of_N v - off s * 60 = Z.of_N s)%Z /\ s * q <= p < (s + 1) * q.
Proof.
  intros off p q Hq s w Hw Ho. unfold timestamp2iso8601_noms. fold s. fold w. assert (HW : Z.to_N w < year_10000) by lia.
  rewrite (read_fmt_seconds _ _ _ (civil_ok _ HW)). eexists _, _. split; [reflexivity|]. split; [apply read_fmt_zone; exact Ho|]. split.
  - subst w. unfold us_of_min in *. zify. lia.
  - subst s. pose proof (N.div_mod' p q). pose proof (N.mod_lt p q ltac:(lia)). clear - H H0. lia.
Qed.
Print Assumptions C82_noms_reads_back.
Example C82_noms_nonvacuous :
  timestamp2iso8601_noms (fun _ => (-300)%Z) true 17945700905 10 = dec 4 2026 ++ [45] ++ dec 2 11 ++ [45] ++ dec 2 13 ++ [84] ++ dec 2 6 ++ [58] ++ dec 2 41 ++ [58] ++ dec 2 30 ++ [45] ++ dec 4 500.
Proof. vm_compute. reflexivity. Qed.
(** C82: one variant cuts the fraction off and the other rounds it, so the two fields of the
    same event can show different seconds. *)
Theorem C82_two_seconds_refuted :
  exists p q, in_range p q /\ 
  (forall v rest v' rest', read_seconds (timestamp2iso8601 utc false p q) = Some (v, rest) ->
   read_seconds (timestamp2iso8601_noms (fun _ => 0%Z) false p q) = Some (v', rest') -> v = v' + 1) /\
  read_seconds (timestamp2iso8601 utc false p q) <> None /\ read_seconds (timestamp2iso8601_noms (fun _ => 0%Z) false p q) <> None.
Proof.
  exists 19999996, 10000000. split; [unfold in_range; vm_compute; intuition reflexivity|]. split; [|split; vm_compute; discriminate].
  intros v rest v' rest' H H'. vm_compute in H, H'. injection H as <- <-. injection H' as <- <-. reflexivity.
Qed.
Print Assumptions C82_two_seconds_refuted.
