(** Vocabulary for C82: the calendar, reading a time stamp, the order of texts. *)
From Verif Require Import model.PyBase model.Emitters.
Open Scope N_scope.

(** The Gregorian calendar: every fourth year has a leap day, except full centuries that
    are not multiples of 400. *)
Definition leap_year (y : N) : Prop := y mod 4 = 0 /\ (y mod 100 <> 0 \/ y mod 400 = 0).
Definition is_leap (y : N) : bool := (y mod 4 =? 0) && (negb (y mod 100 =? 0) || (y mod 400 =? 0)).
Definition year_length (y : N) : N := if is_leap y then 366 else 365.
Definition month_length (y m : N) : N :=
  if m =? 2 then (if is_leap y then 29 else 28)
  else if (m =? 4) || (m =? 6) || (m =? 9) || (m =? 11) then 30 else 31.
(** Days of the [k] years from 1970 on, of the first [k] months of a year. *)
Fixpoint days_of_years (k : nat) : N := match k with O => 0 | S k' => days_of_years k' + year_length (1970 + N.of_nat k') end.
Fixpoint days_of_months (y : N) (k : nat) : N := match k with O => 0 | S k' => days_of_months y k' + month_length y (N.of_nat (S k')) end.
(** Days from 1970-01-01 to a date. *)
Definition days_since_1970 (y m d : N) : N :=
  days_of_years (N.to_nat (y - 1970)) + days_of_months y (N.to_nat (m - 1)) + (d - 1).
Definition valid_date (y m d : N) : Prop := 1970 <= y /\ 1 <= m <= 12 /\ 1 <= d <= month_length y m.

(** Reading [w] digits. *)
Fixpoint read_digits (w : nat) (acc : N) (t : text) : option (N * text) :=
  match w, t with
  | O, _ => Some (acc, t)
  | S w', c :: t' => if (48 <=? c) && (c <=? 57) then read_digits w' (acc * 10 + (c - 48)) t' else None
  | _, [] => None
  end.
Definition read_char (c : N) (t : text) : option text :=
  match t with c' :: t' => if c' =? c then Some t' else None | [] => None end.
Notation "'do' x <- e ; k" := (match e with Some x => k | None => None end) (at level 200, x pattern, k at level 200).
(** Reading YYYY-MM-DDTHH:MM:SS: the seconds since 1970-01-01T00:00:00 on that clock, and the rest of the text. *)
Definition read_seconds (t : text) : option (N * text) :=
  do (y, t) <- read_digits 4 0 t; do t <- read_char 45 t;
  do (m, t) <- read_digits 2 0 t; do t <- read_char 45 t;
  do (d, t) <- read_digits 2 0 t; do t <- read_char 84 t;
  do (hh, t) <- read_digits 2 0 t; do t <- read_char 58 t;
  do (mm, t) <- read_digits 2 0 t; do t <- read_char 58 t;
  do (ss, t) <- read_digits 2 0 t;
  Some (days_since_1970 y m d * 86400 + hh * 3600 + mm * 60 + ss, t).
(** ... with six digits of fraction: microseconds. *)
Definition read_micros (t : text) : option (N * text) :=
  do (s, t) <- read_seconds t; do t <- read_char 46 t; do (f, t) <- read_digits 6 0 t;
  Some (s * 1000000 + f, t).
(** +HHMM or -HHMM: minutes. *)
Definition read_zone (t : text) : option Z :=
  match t with
  | c :: t' =>
    do (h, t') <- read_digits 2 0 t'; do (m, t') <- read_digits 2 0 t';
    match t' with
    | [] => if c =? 43 then Some (Z.of_N (h * 60 + m)) else if c =? 45 then Some (- Z.of_N (h * 60 + m))%Z else None
    | _ => None
    end
  | [] => None
  end.
(** The instant, in microseconds UTC, a complete time stamp stands for. *)
Definition read_instant (t : text) : option Z :=
  do (w, t') <- read_micros t; do o <- read_zone t'; Some (Z.of_N w - o * 60000000)%Z.

(** The order of texts (Python's [<] on str, or sort). *)
Fixpoint text_compare (a b : text) : comparison :=
  match a, b with
  | [], [] => Eq
  | [], _ => Lt
  | _, [] => Gt
  | x :: a', y :: b' => match x ?= y with Eq => text_compare a' b' | c => c end
  end.
(** The first instant of the year 10000, in microseconds. *)
Definition year_10000 : N := 253402300800000000.
