(** Proofs about writing and reading dates. *)
From Coq Require Import String Ascii.
From stdpp Require Import list numbers.
From Coq Require Import NArith ZArith Lia.
From Verif Require Import Dec Date_Model Date_Spec Date_Proofs.
Local Open Scope list_scope.
Local Open Scope Z_scope.

(** ** Numbers *)
Lemma digit_val x : Z.of_N (digit x - 48)%N = x mod 10.
Proof. unfold digit. pose proof (Z.mod_pos_bound x 10). rewrite N.add_comm, N.add_sub, Z2N.id by lia. done. Qed.
Lemma digit_is x : is_digit (digit x) = true.
Proof. unfold is_digit, digit. pose proof (Z.mod_pos_bound x 10). apply bool_decide_eq_true. lia. Qed.
Lemma digit_ne x c : (c < 48 ∨ 57 < c)%N → digit x ≠ c.
Proof. unfold digit. pose proof (Z.mod_pos_bound x 10). lia. Qed.
Lemma digit_space x : is_space (digit x) = false.
Proof. unfold is_space, digit. pose proof (Z.mod_pos_bound x 10). apply bool_decide_eq_false. lia. Qed.
Lemma skip_digit p x s : p (digit x) = false → skip p (digit x :: s) = digit x :: s.
Proof. intros H. simpl. by rewrite H. Qed.
Lemma read_two from to n rest : from ≤ n ≤ to → 0 ≤ n < 100 → number from to 2 (two n ++ rest) = Some (n, rest).
Proof.
  intros H Hn. unfold number, two. cbn [app]. rewrite skip_digit by (apply bool_decide_eq_false, digit_ne; lia). rewrite digit_is. rewrite digit_val.
  change (2 - 1)%nat with 1%nat. cbn [more_digits]. rewrite digit_is, digit_val. rewrite (proj2 (Z.leb_le (n / 10 mod 10 * 10) to)) by lia. cbn [andb].
  replace (n / 10 mod 10 * 10 + n mod 10) with n by lia. rewrite (proj2 (Z.leb_le from n)), (proj2 (Z.leb_le n to)) by lia. done.
Qed.
Lemma read_four n rest : 0 ≤ n < 10000 → number 0 9999 4 (four n ++ rest) = Some (n, rest).
Proof.
  intros Hn. unfold number, four. cbn [app]. rewrite skip_digit by (apply bool_decide_eq_false, digit_ne; lia). rewrite digit_is. rewrite digit_val.
  change (4 - 1)%nat with 3%nat. cbn [more_digits]. rewrite !digit_is, !digit_val. rewrite (proj2 (Z.leb_le (n / 1000 mod 10 * 10) 9999)) by lia. cbn [andb].
  replace (n / 1000 mod 10 * 10 + n / 100 mod 10) with (n / 100) by lia. rewrite (proj2 (Z.leb_le (n / 100 * 10) 9999)) by lia. cbn [andb].
  replace (n / 100 * 10 + n / 10 mod 10) with (n / 10) by lia. rewrite (proj2 (Z.leb_le (n / 10 * 10) 9999)) by lia. cbn [andb].
  replace (n / 10 * 10 + n mod 10) with n by lia. rewrite (proj2 (Z.leb_le 0 n)), (proj2 (Z.leb_le n 9999)) by lia. done.
Qed.
(** ** Names *)
Lemma seven (Q : Z → Prop) : Q 0 → Q 1 → Q 2 → Q 3 → Q 4 → Q 5 → Q 6 → ∀ w, 0 ≤ w < 7 → Q w.
Proof. intros. assert (w = 0 ∨ w = 1 ∨ w = 2 ∨ w = 3 ∨ w = 4 ∨ w = 5 ∨ w = 6) as Hw by lia. by destruct Hw as [-> |[-> |[-> |[-> |[-> |[-> | ->]]]]]]. Qed.
Lemma twelve (Q : Z → Prop) : Q 1 → Q 2 → Q 3 → Q 4 → Q 5 → Q 6 → Q 7 → Q 8 → Q 9 → Q 10 → Q 11 → Q 12 → ∀ m, 1 ≤ m ≤ 12 → Q m.
Proof.
  intros. assert (m = 1 ∨ m = 2 ∨ m = 3 ∨ m = 4 ∨ m = 5 ∨ m = 6 ∨ m = 7 ∨ m = 8 ∨ m = 9 ∨ m = 10 ∨ m = 11 ∨ m = 12) as Hm by lia.
  by destruct Hm as [-> |[-> |[-> |[-> |[-> |[-> |[-> |[-> |[-> |[-> |[-> | ->]]]]]]]]]]].
Qed.
Lemma read_weekday3 w rest : 0 ≤ w < 7 → name_of weekdays 0 (take 3 (nth (Z.to_nat w) weekdays []) ++ 44%N :: rest) = Some (w, 44%N :: rest).
Proof. revert w. by apply seven. Qed.
Lemma read_weekday w rest : 0 ≤ w < 7 → name_of weekdays 0 (nth (Z.to_nat w) weekdays [] ++ 44%N :: rest) = Some (w, 44%N :: rest).
Proof. revert w. by apply seven. Qed.
Lemma read_month m c rest : c = 32%N ∨ c = 45%N → 1 ≤ m ≤ 12 → name_of months 1 (take 3 (nth (Z.to_nat (m - 1)) months []) ++ c :: rest) = Some (m, c :: rest).
Proof. intros [-> | ->]; revert m; by apply twelve. Qed.
Lemma months_start m : 1 ≤ m ≤ 12 → ∃ c s, take 3 (nth (Z.to_nat (m - 1)) months []) = c :: s ∧ is_space c = false.
Proof. revert m. apply twelve; by do 2 eexists. Qed.

(** ** Formats *)
Lemma strptime_directive d s fmt t : strptime s (37%N :: d :: fmt) t = ('(t, s) ← read_directive d s t; strptime s fmt t).
Proof. done. Qed.
Lemma strptime_char c s fmt t : bool_decide (c = 37%N) = false → is_space c = false → strptime (c :: s) (c :: fmt) t = strptime s fmt t.
Proof. intros H1 H2. cbn [strptime]. rewrite H1, H2. by rewrite bool_decide_true. Qed.
Lemma strptime_space c s fmt t : is_space c = false → strptime (32%N :: c :: s) (32%N :: fmt) t = strptime (c :: s) fmt t.
Proof. intros H. cbn [strptime]. change (bool_decide (32%N = 37%N)) with false. change (is_space 32) with true. cbn [skip]. change (is_space 32) with true. by rewrite H. Qed.
Lemma strptime_space_two n s fmt t : strptime (32%N :: two n ++ s) (32%N :: fmt) t = strptime (two n ++ s) fmt t.
Proof. unfold two. cbn [app]. apply strptime_space, digit_space. Qed.
Lemma strptime_space_four n s fmt t : strptime (32%N :: four n ++ s) (32%N :: fmt) t = strptime (four n ++ s) fmt t.
Proof. unfold four. cbn [app]. apply strptime_space, digit_space. Qed.
Definition fields_ok (t : tm) : Prop :=
  0 ≤ tm_year t < 10000 ∧ 1 ≤ tm_mon t ≤ 12 ∧ 1 ≤ tm_mday t ≤ 31 ∧ 0 ≤ tm_wday t < 7 ∧ 0 ≤ tm_hour t < 24 ∧ 0 ≤ tm_min t < 60 ∧ 0 ≤ tm_sec t < 60.
Definition clock_text (t : tm) (rest : list N) : list N := two (tm_hour t) ++ 58%N :: two (tm_min t) ++ 58%N :: two (tm_sec t) ++ rest.
Definition clock_format : list N := lit "%H:%M:%S".
Lemma dir_Y n rest y mo d w h mi s : 0 ≤ n < 10000 → read_directive 89 (four n ++ rest) (Tm y mo d w h mi s) = Some (Tm n mo d w h mi s, rest).
Proof. intros H. transitivity ('(v, r) ← number 0 9999 4 (four n ++ rest); Some (Tm v mo d w h mi s, r)); [done|]. by rewrite read_four. Qed.
Lemma dir_y n rest y mo d w h mi s : 0 ≤ n < 100 →
  read_directive 121 (two n ++ rest) (Tm y mo d w h mi s) = Some (Tm (if n <? 69 then 2000 + n else 1900 + n) mo d w h mi s, rest).
Proof. intros H. transitivity ('(v, r) ← number 0 99 2 (two n ++ rest); Some (Tm (if v <? 69 then 2000 + v else 1900 + v) mo d w h mi s, r)); [done|]. by rewrite read_two by lia. Qed.
Lemma dir_m n rest y mo d w h mi s : 1 ≤ n ≤ 12 → read_directive 109 (two n ++ rest) (Tm y mo d w h mi s) = Some (Tm y n d w h mi s, rest).
Proof. intros H. transitivity ('(v, r) ← number 1 12 2 (two n ++ rest); Some (Tm y v d w h mi s, r)); [done|]. by rewrite read_two by lia. Qed.
Lemma dir_d n rest y mo d w h mi s : 1 ≤ n ≤ 31 → read_directive 100 (two n ++ rest) (Tm y mo d w h mi s) = Some (Tm y mo n w h mi s, rest).
Proof. intros H. transitivity ('(v, r) ← number 1 31 2 (two n ++ rest); Some (Tm y mo v w h mi s, r)); [done|]. by rewrite read_two by lia. Qed.
Lemma dir_H n rest y mo d w h mi s : 0 ≤ n < 24 → read_directive 72 (two n ++ rest) (Tm y mo d w h mi s) = Some (Tm y mo d w n mi s, rest).
Proof. intros H. transitivity ('(v, r) ← number 0 23 2 (two n ++ rest); Some (Tm y mo d w v mi s, r)); [done|]. by rewrite read_two by lia. Qed.
Lemma dir_M n rest y mo d w h mi s : 0 ≤ n < 60 → read_directive 77 (two n ++ rest) (Tm y mo d w h mi s) = Some (Tm y mo d w h n s, rest).
Proof. intros H. transitivity ('(v, r) ← number 0 59 2 (two n ++ rest); Some (Tm y mo d w h v s, r)); [done|]. by rewrite read_two by lia. Qed.
Lemma dir_S n rest y mo d w h mi s : 0 ≤ n < 60 → read_directive 83 (two n ++ rest) (Tm y mo d w h mi s) = Some (Tm y mo d w h mi n, rest).
Proof. intros H. transitivity ('(v, r) ← number 0 61 2 (two n ++ rest); Some (Tm y mo d w h mi v, r)); [done|]. by rewrite read_two by lia. Qed.
Lemma dir_a n rest y mo d w h mi s : 0 ≤ n < 7 →
  read_directive 97 (take 3 (nth (Z.to_nat n) weekdays []) ++ 44%N :: rest) (Tm y mo d w h mi s) = Some (Tm y mo d n h mi s, 44%N :: rest).
Proof. intros H. transitivity ('(v, r) ← name_of weekdays 0 (take 3 (nth (Z.to_nat n) weekdays []) ++ 44%N :: rest); Some (Tm y mo d v h mi s, r)); [done|]. by rewrite read_weekday3. Qed.
Lemma dir_A n rest y mo d w h mi s : 0 ≤ n < 7 →
  read_directive 65 (nth (Z.to_nat n) weekdays [] ++ 44%N :: rest) (Tm y mo d w h mi s) = Some (Tm y mo d n h mi s, 44%N :: rest).
Proof. intros H. transitivity ('(v, r) ← name_of weekdays 0 (nth (Z.to_nat n) weekdays [] ++ 44%N :: rest); Some (Tm y mo d v h mi s, r)); [done|]. by rewrite read_weekday. Qed.
Lemma dir_b n c rest y mo d w h mi s : c = 32%N ∨ c = 45%N → 1 ≤ n ≤ 12 →
  read_directive 98 (take 3 (nth (Z.to_nat (n - 1)) months []) ++ c :: rest) (Tm y mo d w h mi s) = Some (Tm y n d w h mi s, c :: rest).
Proof.
  intros Hc H. transitivity ('(v, r) ← name_of months 1 (take 3 (nth (Z.to_nat (n - 1)) months []) ++ c :: rest); Some (Tm y v d w h mi s, r)); [done|]. by rewrite read_month.
Qed.
Lemma space_month m s fmt t : 1 ≤ m ≤ 12 →
  strptime (32%N :: take 3 (nth (Z.to_nat (m - 1)) months []) ++ s) (32%N :: fmt) t = strptime (take 3 (nth (Z.to_nat (m - 1)) months []) ++ s) fmt t.
Proof. intros H. destruct (months_start m H) as (c & l & -> & Hc). cbn [app]. by apply strptime_space. Qed.
Ltac dir L := rewrite strptime_directive, L by (done || lia || (by left) || (by right)); cbn [mbind option_bind].
Lemma read_clock t y mo d w h mi s rest fmt : fields_ok t →
  strptime (clock_text t rest) (clock_format ++ fmt) (Tm y mo d w h mi s) = strptime rest fmt (Tm y mo d w (tm_hour t) (tm_min t) (tm_sec t)).
Proof.
  intros (_ & _ & _ & _ & Hh & Hm & Hs). unfold clock_text.
  change (clock_format ++ fmt) with (37 :: 72 :: 58 :: 37 :: 77 :: 58 :: 37 :: 83 :: fmt)%N.
  dir dir_H. rewrite strptime_char by done. dir dir_M. rewrite strptime_char by done. dir dir_S. done.
Qed.
(** The texts. *)
Lemma strftime_imf t : strftime imf_fix t =
  take 3 (nth (Z.to_nat (tm_wday t)) weekdays []) ++ 44%N :: 32%N :: two (tm_mday t) ++ 32%N :: take 3 (nth (Z.to_nat (tm_mon t - 1)) months []) ++ 32%N ::
  four (tm_year t) ++ 32%N :: clock_text t (lit " GMT").
Proof. reflexivity. Qed.
Lemma strftime_rfc850 t : strftime rfc850 t =
  nth (Z.to_nat (tm_wday t)) weekdays [] ++ 44%N :: 32%N :: two (tm_mday t) ++ 45%N :: take 3 (nth (Z.to_nat (tm_mon t - 1)) months []) ++ 45%N ::
  two (tm_year t mod 100) ++ 32%N :: clock_text t (lit " GMT").
Proof. reflexivity. Qed.
Lemma strftime_default t : strftime default_format t =
  four (tm_year t) ++ 47%N :: two (tm_mon t) ++ 47%N :: two (tm_mday t) ++ 32%N :: clock_text t [].
Proof. unfold clock_text. rewrite app_nil_r. reflexivity. Qed.
Lemma space_clock t rest fmt x : strptime (32%N :: clock_text t rest) (32%N :: fmt) x = strptime (clock_text t rest) fmt x.
Proof. apply strptime_space_two. Qed.
Definition blank : tm := Tm 1900 1 0 0 0 0 0.
Lemma read_gmt x : strptime (lit " GMT") (lit " GMT") x = Some x.
Proof. reflexivity. Qed.
Lemma round_imf t : fields_ok t → strptime (strftime imf_fix t) imf_fix blank = Some t.
Proof.
  intros Hok. pose proof Hok as (Hy & Hmo & Hd & Hw & _). rewrite strftime_imf. unfold blank.
  change imf_fix with (37 :: 97 :: 44 :: 32 :: 37 :: 100 :: 32 :: 37 :: 98 :: 32 :: 37 :: 89 :: 32 :: clock_format ++ lit " GMT")%N.
  dir dir_a. rewrite strptime_char by done. rewrite strptime_space_two. dir dir_d. rewrite space_month by done. dir dir_b. rewrite strptime_space_four. dir dir_Y.
  rewrite space_clock, read_clock, read_gmt by done. by destruct t.
Qed.
Lemma round_rfc850 t : fields_ok t → 1969 ≤ tm_year t < 2069 → strptime (strftime rfc850 t) rfc850 blank = Some t.
Proof.
  intros Hok Hyear. pose proof Hok as (Hy & Hmo & Hd & Hw & _). rewrite strftime_rfc850. unfold blank.
  change rfc850 with (37 :: 65 :: 44 :: 32 :: 37 :: 100 :: 45 :: 37 :: 98 :: 45 :: 37 :: 121 :: 32 :: clock_format ++ lit " GMT")%N.
  dir dir_A. rewrite strptime_char by done. rewrite strptime_space_two. dir dir_d. rewrite strptime_char by done. dir dir_b. rewrite strptime_char by done. dir dir_y.
  rewrite space_clock, read_clock, read_gmt by done. destruct t as [ty a1 a2 a3 a4 a5 a6]. cbn [tm_year tm_mon tm_mday tm_wday tm_hour tm_min tm_sec] in *.
  do 2 f_equal. destruct (Z.ltb_spec (ty mod 100) 69); lia.
Qed.
Lemma round_default t : fields_ok t → strptime (strftime default_format t) default_format blank = Some (Tm (tm_year t) (tm_mon t) (tm_mday t) 0 (tm_hour t) (tm_min t) (tm_sec t)).
Proof.
  intros Hok. pose proof Hok as (Hy & Hmo & Hd & Hw & _). rewrite strftime_default. unfold blank.
  change default_format with (37 :: 89 :: 47 :: 37 :: 109 :: 47 :: 37 :: 100 :: 32 :: clock_format ++ [])%N.
  dir dir_Y. rewrite strptime_char by done. dir dir_m. rewrite strptime_char by done. dir dir_d. rewrite space_clock, read_clock by done. done.
Qed.
(** An RFC 850 date is not an IMF-fixdate. *)
Lemma rfc850_not_imf t : fields_ok t → strptime (strftime rfc850 t) imf_fix blank = None.
Proof.
  intros Hok. pose proof Hok as (Hy & Hmo & Hd & Hw & _). rewrite strftime_rfc850. unfold blank.
  change imf_fix with (37 :: 97 :: 44 :: 32 :: 37 :: 100 :: 32 :: 37 :: 98 :: 32 :: 37 :: 89 :: 32 :: clock_format ++ lit " GMT")%N.
  rewrite strptime_directive. change (read_directive 97) with (read_directive 65). rewrite dir_A by done. cbn [mbind option_bind].
  rewrite strptime_char by done. rewrite strptime_space_two. dir dir_d. reflexivity.
Qed.

(** ** Whole seconds *)
Lemma to_time_t_small us : - 9223372036854775 ≤ us < 9223372036854775 → to_time_t us = Z.quot us 1000000.
Proof.
  intros H. unfold to_time_t, wrap64. change (2 ^ 63) with 9223372036854775808. change (2 ^ 64) with 18446744073709551616. rewrite Z.mod_small by lia.
  replace (us * 1000 + 9223372036854775808 - 9223372036854775808) with (us * 1000) by lia. change 1000000000 with (1000000 * 1000). by rewrite Z.quot_mul_cancel_r.
Qed.
Lemma from_time_t_small tt : - 9223372036 ≤ tt ≤ 9223372036 → from_time_t tt = tt * 1000000.
Proof.
  intros H. unfold from_time_t, wrap64. change (2 ^ 63) with 9223372036854775808. change (2 ^ 64) with 18446744073709551616. rewrite Z.mod_small by lia.
  replace (tt * 1000000000 + 9223372036854775808 - 9223372036854775808) with (tt * 1000000 * 1000) by lia. by rewrite Z.quot_mul.
Qed.
Lemma second_bounds us : representable us → 0 ≤ second_of us ≤ 9223372036.
Proof. intros [H1 H2]. unfold second_of. split; [apply Z.div_pos; lia|]. apply Z.lt_succ_r, Z.div_lt_upper_bound; lia. Qed.
Lemma fill_spec us : representable us → fill_struct_tm us = gmtime (second_of us).
Proof. intros H. unfold fill_struct_tm. rewrite to_time_t_small by (unfold representable in H; lia). f_equal. unfold second_of. apply Z.quot_div_nonneg; unfold representable in H; lia. Qed.
(** The years in question. *)
Lemma year_bounds tt t : 0 ≤ tt ≤ 9223372036 → t = gmtime tt → 1970 ≤ tm_year t ≤ 2262.
Proof.
  intros H Et. destruct (gmtime_spec tt ltac:(lia) t Et) as (V & E & _). clear Et. pose proof (day_of_year_bound _ _ _ V) as B. unfold number_of in E.
  assert (0 ≤ tt / 86400 ≤ 106751) as Hd by (split; [apply Z.div_pos; lia|apply Z.lt_succ_r, Z.div_lt_upper_bound; lia]).
  split.
  - destruct (Z.lt_ge_cases (tm_year t) 1970) as [Hlt|]; [|done]. exfalso. pose proof (days_before_mono _ _ Hlt) as Hm. rewrite days_before_step in Hm.
    change (days_before_year 1970) with 0 in Hm. lia.
  - destruct (Z.le_gt_cases (tm_year t) 2262) as [|Hgt]; [done|]. exfalso.
    assert (days_before_year 2263 ≤ days_before_year (tm_year t)) as Hm by (apply (days_before_mono 2262); lia).
    change (days_before_year 2263) with 107016 in Hm. lia.
Qed.
Lemma gmtime_ok tt t : 0 ≤ tt ≤ 9223372036 → t = gmtime tt → fields_ok t.
Proof.
  intros H Et. pose proof (year_bounds tt t H Et) as Hy. destruct (gmtime_spec tt ltac:(lia) t Et) as ([V1 V2] & _ & E1 & E2 & E3 & E4). clear Et.
  pose proof (month_length_bounds (tm_year t) (tm_mon t)). repeat split; try lia.
Qed.
Lemma parse_some s fmt p tt t : strptime s fmt blank = Some t → timegm t = tt → 0 ≤ tt ≤ 9223372036 →
  parse_date_time s fmt p = tt * 1000000 + match p with Lower => 0 | Upper => 999999 end.
Proof.
  intros E Et H. unfold parse_date_time. fold blank. rewrite E, Et. rewrite from_time_t_small by lia. destruct p; [lia|].
  unfold wrap64. change (2 ^ 63) with 9223372036854775808. change (2 ^ 64) with 18446744073709551616. rewrite Z.mod_small by lia. lia.
Qed.
Lemma format_round us p fmt : representable us → (∀ t, fields_ok t → 1970 ≤ tm_year t ≤ 2262 → t = gmtime (second_of us) → ∃ w, strptime (strftime fmt t) fmt blank = Some (Tm (tm_year t) (tm_mon t) (tm_mday t) w (tm_hour t) (tm_min t) (tm_sec t))) →
  parse_date_time (format_date_time us fmt) fmt p = second_of us * 1000000 + match p with Lower => 0 | Upper => 999999 end.
Proof.
  intros H Hf. pose proof (second_bounds us H) as Hb. unfold format_date_time. rewrite fill_spec by done. remember (gmtime (second_of us)) as t eqn:Et.
  pose proof (gmtime_ok _ t Hb Et) as Hok. pose proof (year_bounds _ t Hb Et) as Hy. destruct (Hf t Hok Hy eq_refl) as [w E].
  eapply parse_some; [exact E| |done]. transitivity (timegm t); [by destruct t|]. rewrite Et. apply timegm_gmtime. lia.
Qed.
