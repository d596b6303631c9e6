(** C78: dates. *)
From Coq Require Import String Ascii.
From stdpp Require Import list numbers.
From Coq Require Import NArith ZArith Lia.
From Verif Require Import Dec Date_Model Date_Spec Date_Proofs Date_Proofs2.
Local Open Scope list_scope.
Local Open Scope Z_scope.

Lemma range_check (Q : Z → Prop) `{∀ x, Decision (Q x)} lo n : forallb (λ k, bool_decide (Q (lo + Z.of_nat k))) (seq 0 n) = true → ∀ x, lo ≤ x < lo + Z.of_nat n → Q x.
Proof.
  intros Hc x Hx. rewrite forallb_forall in Hc. specialize (Hc (Z.to_nat (x - lo))). replace (lo + Z.of_nat (Z.to_nat (x - lo))) with x in Hc by lia.
  apply bool_decide_eq_true in Hc; [done|]. apply in_seq. lia.
Qed.
Lemma two_decimal n : 0 ≤ n < 100 → two n = decimal 2 n.
Proof. revert n. apply (range_check (λ n, two n = decimal 2 n) 0 100). vm_compute. reflexivity. Qed.
Lemma four_decimal n : 1970 ≤ n ≤ 2262 → four n = decimal 4 n.
Proof. intros Hn. apply (range_check (λ n, four n = decimal 4 n) 1970 300); [vm_compute; reflexivity|lia]. Qed.
Lemma weekday_text w : 0 ≤ w < 7 → nth (Z.to_nat w) weekdays [] = str (weekday_name w).
Proof. revert w. by apply seven. Qed.
Lemma month_text m : 1 ≤ m ≤ 12 → take 3 (nth (Z.to_nat (m - 1)) months []) = str (month_name m).
Proof. revert m. by apply twelve. Qed.
Lemma clock_text_eq tt t rest : 0 ≤ tt ≤ 9223372036 → t = gmtime tt → clock_text t rest = clock_time tt ++ rest.
Proof.
  intros H Et. pose proof (gmtime_ok tt t H Et) as (_ & _ & _ & _ & Hh & Hm & Hs). destruct (gmtime_spec tt ltac:(lia) t Et) as (_ & _ & _ & E2 & E3 & E4). clear Et.
  unfold clock_text, clock_time. rewrite <- E2, <- E3, <- E4, <- !two_decimal by lia. rewrite <- !app_assoc. done.
Qed.

(** What is written, for all times from 1970 to 11 April 2262: the day found by counting from Thursday 1 January 1970
    in the calendar, and the time of the day, fractions of a second dropped. *)
Theorem C78_format : ∀ us, representable us →
  format_imf_fix us = imf_fixdate (second_of us) ∧
  format_rfc850 us = rfc850_date (second_of us) ∧
  format_date_time us default_format = plain_date (second_of us).
Proof.
  intros us H. pose proof (second_bounds us H) as Hb. unfold format_imf_fix, format_rfc850, format_date_time. rewrite fill_spec by done.
  remember (gmtime (second_of us)) as t eqn:Et. remember (day_after (Z.to_nat (second_of us / 86400))) as d eqn:Ed.
  pose proof (gmtime_ok _ t Hb Et) as (_ & Hmo & Hd & Hw & _). pose proof (year_bounds _ t Hb Et) as Hy.
  destruct (gmtime_day (second_of us) ltac:(lia) t d Et Ed) as (E1 & E2 & E3 & E4).
  unfold imf_fixdate, rfc850_date, plain_date. rewrite <- Ed. cbv zeta. rewrite <- E1, <- E2, <- E3, <- E4.
  rewrite strftime_imf, strftime_rfc850, strftime_default, !(clock_text_eq (second_of us) t _ Hb Et), app_nil_r.
  rewrite <- !two_decimal, <- !four_decimal, <- weekday_text, <- month_text by lia. done.
Qed.
(** Reading what was written: the second of the time, or its last microsecond. *)
Theorem C78_round_trip : ∀ us, representable us →
  let second := us - us mod 1000000 in
  parse_date_time (format_imf_fix us) imf_fix Lower = second ∧ parse_date_time (format_imf_fix us) imf_fix Upper = second + 999999 ∧
  parse_date_time (format_date_time us default_format) default_format Lower = second ∧
  (us < 3124224000000000 →                                                 (* 1 January 2069 *)
   parse_date_time (format_rfc850 us) rfc850 Lower = second ∧ parse_date_time (format_rfc850 us) rfc850 Upper = second + 999999).
Proof.
  intros us H second. unfold format_imf_fix, format_rfc850. assert (second = second_of us * 1000000) as -> by (unfold second, second_of; lia).
  assert (∀ p, parse_date_time (format_date_time us imf_fix) imf_fix p = second_of us * 1000000 + match p with Lower => 0 | Upper => 999999 end) as Himf.
  { intros p. apply format_round; [done|]. intros t Hok _ _. exists (tm_wday t). rewrite round_imf by done. by destruct t. }
  split; [by rewrite (Himf Lower), Z.add_0_r|]. split; [by rewrite (Himf Upper)|]. split.
  { rewrite (format_round us Lower default_format H); [lia|]. intros t Hok _ _. exists 0. by rewrite round_default. }
  intros Hus.
  assert (∀ p, parse_date_time (format_date_time us rfc850) rfc850 p = second_of us * 1000000 + match p with Lower => 0 | Upper => 999999 end) as Hr.
  { intros p. apply format_round; [done|]. intros t Hok Hy Et. exists (tm_wday t). rewrite round_rfc850; [by destruct t|done|]. split; [lia|].
    destruct (Z.lt_ge_cases (tm_year t) 2069) as [|Hge]; [done|]. exfalso. pose proof (second_bounds us H) as Hb. destruct (gmtime_spec (second_of us) ltac:(lia) t Et) as (V & E & _).
    clear Et. pose proof (day_of_year_bound _ _ _ V) as B. unfold number_of in E.
    assert (days_before_year 2069 ≤ days_before_year (tm_year t)) as Hm.
    { destruct (Z.eq_dec (tm_year t) 2069) as [-> |]; [done|]. apply (days_before_mono 2068). lia. }
    change (days_before_year 2069) with 36160 in Hm.
    assert (second_of us / 86400 < 36160) by (apply Z.div_lt_upper_bound; [lia|]; unfold second_of; apply Z.div_lt_upper_bound; lia). lia. }
  split; [by rewrite (Hr Lower), Z.add_0_r|by rewrite (Hr Upper)].
Qed.
(** Two times are written alike only if they are of one second; read back by [ParseHTTPDate] as the HTTP server does, a
    date is not before the time it was made from, and before the next second. *)
Theorem C78_http : ∀ us, representable us →
  parse_http_date (format_imf_fix us) Upper = Some (us - us mod 1000000 + 999999) ∧
  (us < 3124224000000000 → parse_http_date (format_rfc850 us) Upper = Some (us - us mod 1000000 + 999999)).
Proof.
  intros us H. destruct (C78_round_trip us H) as (_ & H2 & _ & H4). cbv zeta in *. unfold parse_http_date.
  assert (0 ≤ us - us mod 1000000) as Hpos by (unfold representable in H; lia). split.
  - rewrite H2. destruct (Z.eqb_spec (us - us mod 1000000 + 999999) 0); [lia|done].
  - intros Hus. destruct (H4 Hus) as [_ ->].
    assert (parse_date_time (format_rfc850 us) imf_fix Upper = 0) as ->.
    { unfold parse_date_time. fold blank. unfold format_rfc850, format_date_time. rewrite rfc850_not_imf; [done|]. rewrite fill_spec by done.
      pose proof (second_bounds us H). by eapply gmtime_ok. }
    rewrite Z.eqb_refl. destruct (Z.eqb_spec (us - us mod 1000000 + 999999) 0); [lia|done].
Qed.
Theorem C78_injective : ∀ us us', representable us → representable us' →
  (format_imf_fix us = format_imf_fix us' ↔ us / 1000000 = us' / 1000000) ∧
  (format_date_time us default_format = format_date_time us' default_format ↔ us / 1000000 = us' / 1000000).
Proof.
  intros us us' H H'. destruct (C78_round_trip us H) as (E1 & _ & E2 & _), (C78_round_trip us' H') as (E1' & _ & E2' & _). cbv zeta in *. split; split.
  - intros E. rewrite E in E1. rewrite E1 in E1'. lia.
  - intros E. unfold format_imf_fix, format_date_time. rewrite !fill_spec by done. unfold second_of. by rewrite E.
  - intros E. rewrite E in E2. rewrite E2 in E2'. lia.
  - intros E. unfold format_date_time. rewrite !fill_spec by done. unfold second_of. by rewrite E.
Qed.
(** A text which is no date in the format is read as zero, so that [ParseHTTPDate] throws. *)
Theorem C78_not_a_date : ∀ s p, strptime s imf_fix blank = None → strptime s rfc850 blank = None → parse_http_date s p = None.
Proof. intros s p H1 H2. unfold parse_http_date, parse_date_time. fold blank. by rewrite H1, H2. Qed.

Example C78_example : representable 429840000123456 ∧ format_imf_fix 429840000123456 = lit "Tue, 16 Aug 1983 00:00:00 GMT" ∧
  format_rfc850 784111777000000 = lit "Sunday, 06-Nov-94 08:49:37 GMT" ∧ parse_http_date (lit "Sunday, 06-Nov-94 08:49:37 GMT") Upper = Some 784111777999999 ∧
  parse_http_date (lit "Tue, 29 Feb 2000 00:00:00 GMT") Lower = Some 951782400000000 ∧ parse_http_date (lit "yesterday") Upper = None.
Proof. split; [unfold representable; lia|]. repeat split; vm_compute; reflexivity. Qed.

(** Before 1970 the time is rounded up, not down: half a second before 1970 is written as 1970. *)
Theorem C78_before_1970_refuted : ¬ (∀ us, - 9223372036854775 ≤ us < 9223372036854775 → parse_date_time (format_imf_fix us) imf_fix Lower = us - us mod 1000000).
Proof. intros H. specialize (H (-500000) ltac:(lia)). vm_compute in H. discriminate H. Qed.
(** The times are [std::chrono::microseconds], but pass through the nanoseconds of the system clock, which overflow on
    11 April 2262 (undefined behaviour; wrapping around, 1 January 2300 is written as a day of 1715). *)
Theorem C78_after_2262_refuted : ¬ (∀ us, 0 ≤ us < 2 ^ 63 → us < 253402300800000000 → parse_date_time (format_imf_fix us) imf_fix Lower = us - us mod 1000000).
Proof. intros H. specialize (H 10413792000000000 ltac:(lia) ltac:(lia)). vm_compute in H. discriminate H. Qed.
(** A date of 2300 in a header is read as one of 1715. *)
Theorem C78_read_after_2262_refuted : ¬ (∀ s us, parse_date_time s imf_fix Lower = us → s = lit "Mon, 01 Jan 2300 00:00:00 GMT" → 0 ≤ us).
Proof. intros H. specialize (H (lit "Mon, 01 Jan 2300 00:00:00 GMT") _ eq_refl eq_refl). vm_compute in H. by apply H. Qed.
(** The years of RFC 850 have two digits: 2069 is read as 1969. *)
Theorem C78_rfc850_refuted : ¬ (∀ us, representable us → parse_date_time (format_rfc850 us) rfc850 Lower = us - us mod 1000000).
Proof. intros H. specialize (H 3124224000000000 ltac:(unfold representable; lia)). vm_compute in H. discriminate H. Qed.
(** Zero stands for "not a date": the first second of 1970, read with the padding [Lower], throws. *)
Theorem C78_epoch_refuted : ¬ (∀ us, representable us → parse_http_date (format_imf_fix us) Lower = Some (us - us mod 1000000)).
Proof. intros H. specialize (H 0 ltac:(unfold representable; lia)). vm_compute in H. discriminate H. Qed.
(** Days which do not exist, and wrong days of the week, are accepted: 31 February is read as 3 March. *)
Theorem C78_no_such_day_refuted : ¬ (∀ s us, parse_http_date s Upper = Some us → 0 ≤ us → format_imf_fix us = s).
Proof. intros H. specialize (H (lit "Sun, 31 Feb 2015 00:00:00 GMT") _ eq_refl). vm_compute in H. specialize (H ltac:(discriminate)). discriminate H. Qed.

Print Assumptions C78_format.
Print Assumptions C78_round_trip.
Print Assumptions C78_http.
Print Assumptions C78_injective.
Print Assumptions C78_not_a_date.
Print Assumptions C78_before_1970_refuted.
Print Assumptions C78_after_2262_refuted.
Print Assumptions C78_read_after_2262_refuted.
Print Assumptions C78_rfc850_refuted.
Print Assumptions C78_epoch_refuted.
Print Assumptions C78_no_such_day_refuted.
