(** The Gregorian calendar by counting days, and how dates are written. *)
From Coq Require Import String Ascii.
From stdpp Require Import list numbers.
From Coq Require Import NArith ZArith.
From Verif Require Dec.
Local Open Scope list_scope.
Local Open Scope Z_scope.

(** A day: the year, the month from 1, the day of the month from 1, the day of the week, Sunday being 0. *)
Record day := Day { year : Z; month : Z; day_of_month : Z; day_of_week : Z }.
Definition leap_year (y : Z) : Prop := (y mod 4 = 0 ∧ y mod 100 ≠ 0) ∨ y mod 400 = 0.
Definition last_of_month (y m : Z) : Z :=
  if bool_decide (m = 2) then (if bool_decide ((y mod 4 = 0 ∧ y mod 100 ≠ 0) ∨ y mod 400 = 0) then 29 else 28)
  else if bool_decide (m = 4 ∨ m = 6 ∨ m = 9 ∨ m = 11) then 30 else 31.
Definition next_day (d : day) : day :=
  let w := if bool_decide (day_of_week d = 6) then 0 else day_of_week d + 1 in
  if bool_decide (day_of_month d < last_of_month (year d) (month d)) then Day (year d) (month d) (day_of_month d + 1) w
  else if bool_decide (month d < 12) then Day (year d) (month d + 1) 1 w
  else Day (year d + 1) 1 1 w.
(** 1 January 1970 was a Thursday. *)
Definition first_day : day := Day 1970 1 1 4.
Definition day_after (n : nat) : day := Nat.iter n next_day first_day.

(** Writing. *)
Fixpoint str (s : string) : list N := match s with EmptyString => [] | String c s' => N_of_ascii c :: str s' end.
Definition decimal (width : nat) (n : Z) : list N := let d := Dec.dec (Z.to_N n) in replicate (width - length d) 48%N ++ d.
Definition weekday_name (w : Z) : string :=
  nth (Z.to_nat w) ["Sunday"; "Monday"; "Tuesday"; "Wednesday"; "Thursday"; "Friday"; "Saturday"]%string ""%string.
Definition month_name (m : Z) : string :=
  nth (Z.to_nat (m - 1)) ["Jan"; "Feb"; "Mar"; "Apr"; "May"; "Jun"; "Jul"; "Aug"; "Sep"; "Oct"; "Nov"; "Dec"]%string ""%string.
(** The hours, minutes and seconds of the day. *)
Definition clock_time (s : Z) : list N :=
  decimal 2 (s mod 86400 / 3600) ++ str ":" ++ decimal 2 (s mod 3600 / 60) ++ str ":" ++ decimal 2 (s mod 60).
(** RFC 7231, 7.1.1.1: IMF-fixdate of a number of seconds since 1970. *)
Definition imf_fixdate (s : Z) : list N :=
  let d := day_after (Z.to_nat (s / 86400)) in
  take 3 (str (weekday_name (day_of_week d))) ++ str ", " ++ decimal 2 (day_of_month d) ++ str " " ++ str (month_name (month d)) ++ str " " ++
  decimal 4 (year d) ++ str " " ++ clock_time s ++ str " GMT".
(** The obsolete format of RFC 850. *)
Definition rfc850_date (s : Z) : list N :=
  let d := day_after (Z.to_nat (s / 86400)) in
  str (weekday_name (day_of_week d)) ++ str ", " ++ decimal 2 (day_of_month d) ++ str "-" ++ str (month_name (month d)) ++ str "-" ++
  decimal 2 (year d mod 100) ++ str " " ++ clock_time s ++ str " GMT".
(** 2015/08/16 00:00:00 *)
Definition plain_date (s : Z) : list N :=
  let d := day_after (Z.to_nat (s / 86400)) in
  decimal 4 (year d) ++ str "/" ++ decimal 2 (month d) ++ str "/" ++ decimal 2 (day_of_month d) ++ str " " ++ clock_time s.

(** Microseconds and seconds. *)
Definition second_of (us : Z) : Z := us / 1000000.
(** From 1970 until 11 April 2262. *)
Definition representable (us : Z) : Prop := 0 ≤ us < 9223372036854775.
