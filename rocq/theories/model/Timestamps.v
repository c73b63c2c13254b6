(** Model of timestamp2iso8601 (sensible.py 389-398) and timestamp2iso8601_noms (368-386)
    for the ISO8601_FIELDS (472-506), with the parts of CPython's datetime they use:
    [datetime.fromtimestamp(t, tz)], [tzinfo.fromutc], [strftime].

    A timestamp is a non-negative rational number of seconds, [p / q], within the years
    1970 to 9999.  Simplifications: CPython multiplies the fractional part by 10^6 in
    double precision before rounding it, here the product is exact. *)
From Verif Require Import model.PyBase model.Emitters.
Open Scope N_scope.

(** The [w] lowest decimal digits, as text: strftime's zero padded fields. *)
Fixpoint dec (w : nat) (n : N) : text :=
  match w with O => [] | S w' => dec w' (n / 10) ++ [48 + n mod 10] end.

(** Rounding half to even, as in CPython's _PyTime_ObjectToTimeval. *)
Definition round_half_even (a b : N) : N :=
  let f := a / b in let r := a mod b in
  if 2 * r <? b then f else if b <? 2 * r then f + 1 else if N.even f then f else f + 1.
(** Microseconds of the timestamp [p / q]: datetime.fromtimestamp. *)
Definition micros (p q : N) : N := round_half_even (p * 1000000) q.

(** ** CPython's ord_to_ymd (Modules/_datetimemodule.c): day 1 is 0001-01-01 *)
Definition leap (y : N) : bool := (y mod 4 =? 0) && (negb (y mod 100 =? 0) || (y mod 400 =? 0)).
(** _days_before_month[month], not counting a leap day *)
Definition days_before (m : N) : N :=
  nth (N.to_nat m) [0; 0; 31; 59; 90; 120; 151; 181; 212; 243; 273; 304; 334] 0.
(** days_before_month(year, month) *)
Definition days_before_month (lp : bool) (m : N) : N := days_before m + (if lp && (2 <? m) then 1 else 0).
(** month and day from the day of the year, counted from 0 *)
Definition month_day (lp : bool) (n : N) : N * N :=
  let m := (n + 50) / 32 in
  let m := if n <? days_before_month lp m then m - 1 else m in
  (m, n - days_before_month lp m + 1).
(** ord_to_ymd *)
Definition ord_to_ymd (ordinal : N) : N * N * N :=
  let n := ordinal - 1 in
  let n400 := n / 146097 in let n := n mod 146097 in
  let n100 := n / 36524 in let n := n mod 36524 in
  let n4 := n / 1461 in let n := n mod 1461 in
  let n1 := n / 365 in let n := n mod 365 in
  let year := n400 * 400 + 1 + n100 * 100 + n4 * 4 + n1 in
  if (n1 =? 4) || (n100 =? 4) then (year - 1, 12, 31)
  else let '(m, d) := month_day ((n1 =? 3) && (negb (n4 =? 24) || (n100 =? 3))) n in (year, m, d).
(** The ordinal of 1970-01-01. *)
Definition epoch : N := 719163.

(** Broken-down time. *)
Record civil := mkCiv { c_year : N; c_month : N; c_day : N; c_hour : N; c_min : N; c_sec : N; c_micro : N }.
(** The reading of a clock [us] microseconds after 1970-01-01T00:00:00 on that clock. *)
Definition civil_of (us : N) : civil :=
  let s := us / 1000000 in
  let '(y, m, d) := ord_to_ymd (epoch + s / 86400) in
  mkCiv y m d (s mod 86400 / 3600) (s mod 3600 / 60) (s mod 60) (us mod 1000000).

(** '%Y-%m-%dT%H:%M:%S' *)
Definition fmt_seconds (c : civil) : text :=
  dec 4 (c_year c) ++ 45 :: dec 2 (c_month c) ++ 45 :: dec 2 (c_day c) ++ 84 ::
  dec 2 (c_hour c) ++ 58 :: dec 2 (c_min c) ++ 58 :: dec 2 (c_sec c).
(** '%Y-%m-%dT%H:%M:%S.%f' *)
Definition fmt_micros (c : civil) : text := fmt_seconds c ++ 46 :: dec 6 (c_micro c).
(** '%z' for an offset in minutes (whole minutes only) *)
Definition fmt_zone (o : Z) : text :=
  (if (o <? 0)%Z then 45 else 43) :: dec 2 (Z.abs_N o / 60) ++ dec 2 (Z.abs_N o mod 60).

(** ** Time zones (boltons' UTC and LocalTZ)
    A zone given by its standard offset and its daylight saving at a wall clock reading
    (microseconds on that clock), both in minutes.  LocalTZ does not look at [fold]; its
    [fromutc] is the default of datetime.tzinfo. *)
Record zone := mkZone { z_std : Z; z_dst : Z -> Z }.
(** boltons.timeutils.UTC *)
Definition utc : zone := mkZone 0 (fun _ => 0%Z).
(** minutes in microseconds *)
Definition us_of_min (m : Z) : Z := (m * 60000000)%Z.
(** tzinfo.fromutc: the wall clock reading for an instant *)
Definition wall (z : zone) (us : Z) : Z :=
  let s := (us + us_of_min (z_std z))%Z in (s + us_of_min (z_dst z s))%Z.
(** tzinfo.utcoffset at a wall clock reading *)
Definition utcoffset (z : zone) (w : Z) : Z := (z_std z + z_dst z w)%Z.
(** sensible.py 389-398.  [z]: UTC (395-396) or LocalTZ (393-394). *)
Definition timestamp2iso8601 (z : zone) (with_tz : bool) (p q : N) : text :=
  let w := wall z (Z.of_N (micros p q)) in
  fmt_micros (civil_of (Z.to_N w)) ++ (if with_tz then fmt_zone (utcoffset z w) else []).
(** sensible.py 368-386: time.localtime / gmtime cut off the fraction.  [off]: the offset in
    minutes the operating system gives for an instant in seconds; %z prints it. *)
Definition timestamp2iso8601_noms (off : N -> Z) (with_tz : bool) (p q : N) : text :=
  let s := p / q in
  fmt_seconds (civil_of (Z.to_N (Z.of_N (s * 1000000) + us_of_min (off s)))) ++ (if with_tz then fmt_zone (off s) else []).
