(** Model of the UTC dates of bricks/time/chrono.h 160-300 and of bricks/net/http/headers/headers.h 58-78.

    The C library's gmtime_r, timegm, strftime and strptime are modelled as glibc has them in the "C" locale, for the
    directives the formats of this codebase use.  [int64_t] arithmetic wraps (in C++ its overflow is undefined); the
    system clock counts nanoseconds (libstdc++).  The local time zone is not modelled. *)
From Coq Require Import String Ascii.
From stdpp Require Import list numbers.
From Coq Require Import NArith ZArith.
Local Open Scope list_scope.
Local Open Scope Z_scope.

Notation text := (list N) (only parsing).
Fixpoint lit (s : string) : text := match s with EmptyString => [] | String c s' => N_of_ascii c :: lit s' end.
Definition wrap64 (x : Z) : Z := (x + 2 ^ 63) mod 2 ^ 64 - 2 ^ 63.

(** ** The C library *)
(** [std::tm]: years as they are and months from 1, rather than from 1900 and 0; without the day of the year. *)
Record tm := Tm { tm_year : Z; tm_mon : Z; tm_mday : Z; tm_wday : Z; tm_hour : Z; tm_min : Z; tm_sec : Z }.

Definition leap (y : Z) : bool := (y mod 4 =? 0) && (negb (y mod 100 =? 0) || (y mod 400 =? 0)).
Definition year_length (y : Z) : Z := if leap y then 366 else 365.
Definition month_length (y m : Z) : Z :=
  if m =? 2 then (if leap y then 29 else 28) else if (m =? 4) || (m =? 6) || (m =? 9) || (m =? 11) then 30 else 31.
(** The year and the day of the year of a day counted from 1 January of the year [y]. *)
Fixpoint find_year (fuel : nat) (y d : Z) : Z * Z :=
  match fuel with
  | O => (y, d)
  | S fuel' => if d <? 0 then find_year fuel' (y - 1) (d + year_length (y - 1))
               else if d <? year_length y then (y, d) else find_year fuel' (y + 1) (d - year_length y)
  end.
Fixpoint find_month (fuel : nat) (y m d : Z) : Z * Z :=
  match fuel with
  | O => (m, d)
  | S fuel' => if d <? month_length y m then (m, d) else find_month fuel' y (m + 1) (d - month_length y m)
  end.
(** gmtime_r, for years from 1270 to 2670. *)
Definition gmtime (tt : Z) : tm :=
  let days := tt / 86400 in let rem := tt mod 86400 in
  let '(y, d) := find_year 700 1970 days in
  let '(m, d) := find_month 12 y 1 d in
  Tm y m (d + 1) ((days + 4) mod 7) (rem / 3600) (rem / 60 mod 60) (rem mod 60).
(** Leap days before the year [y]. *)
Definition leaps (y : Z) : Z := (y - 1) / 4 - (y - 1) / 100 + (y - 1) / 400.
Definition days_before_year (y : Z) : Z := 365 * (y - 1970) + leaps y - leaps 1970.
Fixpoint days_before_month (n : nat) (y : Z) : Z :=
  match n with O => 0 | S n' => days_before_month n' y + month_length y (Z.of_nat n) end.
(** timegm, for months from 1 to 12; the other fields may have any values. *)
Definition timegm (t : tm) : Z :=
  (((days_before_year (tm_year t) + days_before_month (Z.to_nat (tm_mon t - 1)) (tm_year t) + (tm_mday t - 1)) * 24 + tm_hour t) * 60 + tm_min t) * 60 + tm_sec t.

Definition weekdays : list text := map lit ["Sunday"; "Monday"; "Tuesday"; "Wednesday"; "Thursday"; "Friday"; "Saturday"]%string.
Definition months : list text :=
  map lit ["January"; "February"; "March"; "April"; "May"; "June"; "July"; "August"; "September"; "October"; "November"; "December"]%string.
Definition digit (x : Z) : N := (48 + Z.to_N (x mod 10))%N.
Definition two (x : Z) : text := [digit (x / 10); digit x].
(** %Y is not padded; years are from 1000 to 9999 here. *)
Definition four (x : Z) : text := [digit (x / 1000); digit (x / 100); digit (x / 10); digit x].
Definition directive (c : N) (t : tm) : text :=
  let is (s : string) := bool_decide ([c] = lit s) in
  if is "Y"%string then four (tm_year t) else if is "y"%string then two (tm_year t mod 100) else if is "m"%string then two (tm_mon t) else if is "d"%string then two (tm_mday t)
  else if is "H"%string then two (tm_hour t) else if is "M"%string then two (tm_min t) else if is "S"%string then two (tm_sec t)
  else if is "a"%string then take 3 (nth (Z.to_nat (tm_wday t)) weekdays []) else if is "A"%string then nth (Z.to_nat (tm_wday t)) weekdays []
  else if is "b"%string then take 3 (nth (Z.to_nat (tm_mon t - 1)) months []) else [].
(** strftime. *)
Fixpoint strftime (fmt : text) (t : tm) : text :=
  match fmt with
  | [] => []
  | c :: fmt' => if bool_decide (c = 37%N) then match fmt' with d :: fmt'' => directive d t ++ strftime fmt'' t | [] => [] end else c :: strftime fmt' t
  end.

Definition is_digit (c : N) : bool := bool_decide (48 ≤ c ∧ c ≤ 57)%N.
Definition is_space (c : N) : bool := bool_decide (c = 32 ∨ (9 ≤ c ∧ c ≤ 13))%N.
Definition lower (c : N) : N := if bool_decide (65 ≤ c ∧ c ≤ 90)%N then (c + 32)%N else c.
Fixpoint skip (p : N → bool) (s : text) : text := match s with c :: s' => if p c then skip p s' else s | [] => [] end.
(** get_number of strptime: spaces, then up to [n] digits as long as the number can be at most [to]. *)
Fixpoint more_digits (n : nat) (to v : Z) (s : text) : Z * text :=
  match n, s with
  | S n', c :: s' => if is_digit c && (v * 10 <=? to) then more_digits n' to (v * 10 + Z.of_N (c - 48)%N) s' else (v, s)
  | _, _ => (v, s)
  end.
Definition number (from to : Z) (n : nat) (s : text) : option (Z * text) :=
  match skip (λ c, bool_decide (c = 32%N)) s with
  | c :: s' =>
      if is_digit c
      then let '(v, rest) := more_digits (n - 1) to (Z.of_N (c - 48)%N) s' in if (from <=? v) && (v <=? to) then Some (v, rest) else None
      else None
  | [] => None
  end.
Fixpoint match_name (name s : text) : option text :=
  match name, s with
  | [], _ => Some s
  | a :: name', c :: s' => if bool_decide (lower a = lower c) then match_name name' s' else None
  | _, [] => None
  end.
(** The full name or the first three letters, in any case. *)
Fixpoint name_of (names : list text) (i : Z) (s : text) : option (Z * text) :=
  match names with
  | [] => None
  | n :: names' =>
      match match_name n s with
      | Some rest => Some (i, rest)
      | None => match match_name (take 3 n) s with Some rest => Some (i, rest) | None => name_of names' (i + 1) s end
      end
  end.
Definition read_directive (c : N) (s : text) (t : tm) : option (tm * text) :=
  let is (x : string) := bool_decide ([c] = lit x) in
  let '(Tm y mo d w h mi se) := t in
  if is "Y"%string then '(v, r) ← number 0 9999 4 s; Some (Tm v mo d w h mi se, r)
  else if is "y"%string then '(v, r) ← number 0 99 2 s; Some (Tm (if v <? 69 then 2000 + v else 1900 + v) mo d w h mi se, r)
  else if is "m"%string then '(v, r) ← number 1 12 2 s; Some (Tm y v d w h mi se, r)
  else if is "d"%string then '(v, r) ← number 1 31 2 s; Some (Tm y mo v w h mi se, r)
  else if is "H"%string then '(v, r) ← number 0 23 2 s; Some (Tm y mo d w v mi se, r)
  else if is "M"%string then '(v, r) ← number 0 59 2 s; Some (Tm y mo d w h v se, r)
  else if is "S"%string then '(v, r) ← number 0 61 2 s; Some (Tm y mo d w h mi v, r)
  else if is "a"%string || is "A"%string then '(v, r) ← name_of weekdays 0 s; Some (Tm y mo d v h mi se, r)
  else if is "b"%string then '(v, r) ← name_of months 1 s; Some (Tm y v d w h mi se, r)
  else None.
(** strptime: what follows is ignored. *)
Fixpoint strptime (s fmt : text) (t : tm) : option tm :=
  match fmt with
  | [] => Some t
  | c :: fmt' =>
      if bool_decide (c = 37%N)
      then match fmt' with d :: fmt'' => '(t, s) ← read_directive d s t; strptime s fmt'' t | [] => None end
      else if is_space c then strptime (skip is_space s) fmt' t
      else match s with x :: s' => if bool_decide (x = c) then strptime s' fmt' t else None | [] => None end
  end.

(** ** chrono.h *)
(** system_clock::to_time_t and from_time_t with time_point_cast. *)
Definition to_time_t (us : Z) : Z := Z.quot (wrap64 (us * 1000)) 1000000000.
Definition from_time_t (tt : Z) : Z := Z.quot (wrap64 (tt * 1000000000)) 1000.
(** 192-214, FillStructTM for UTC. *)
Definition fill_struct_tm (us : Z) : tm := gmtime (to_time_t us).
(** 223-233, FormatDateTime for UTC: strftime has written something. *)
Definition format_date_time (us : Z) (fmt : text) : text := strftime fmt (fill_struct_tm us).
(** 166-167. *)
Definition imf_fix : text := lit "%a, %d %b %Y %H:%M:%S GMT".
Definition rfc850 : text := lit "%A, %d-%b-%y %H:%M:%S GMT".
(** 223, the default format. *)
Definition default_format : text := lit "%Y/%m/%d %H:%M:%S".
(** 243-274, DateTimeStringToTimestamp for UTC. *)
Inductive padding := Lower | Upper.
Definition parse_date_time (s fmt : text) (p : padding) : Z :=
  match strptime s fmt (Tm 1900 1 0 0 0 0 0) with                            (* 249-250: all zeros *)
  | Some t => let result := from_time_t (timegm t) in match p with Lower => result | Upper => wrap64 (result + (1000000 - 1)) end
  | None => 0
  end.
(** 235-237 and 239-241. *)
Definition format_imf_fix (us : Z) : text := format_date_time us imf_fix.
Definition format_rfc850 (us : Z) : text := format_date_time us rfc850.
(** headers.h 58-78, ParseHTTPDate; [None]: it throws. *)
Definition parse_http_date (s : text) (p : padding) : option Z :=
  let t := parse_date_time s imf_fix p in
  if t =? 0 then let t := parse_date_time s rfc850 p in if t =? 0 then None else Some t else Some t.
