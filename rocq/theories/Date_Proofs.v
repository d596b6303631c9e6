(** Proofs about dates. *)
From Coq Require Import String Ascii.
From stdpp Require Import list numbers.
From Coq Require Import NArith ZArith Lia.
From Verif Require Import Date_Model Date_Spec.
Local Open Scope list_scope.
Local Open Scope Z_scope.

(** ** The calendar *)
Lemma leap_spec y : leap y = true ↔ leap_year y.
Proof.
  unfold leap, leap_year. destruct (Z.eqb_spec (y mod 4) 0), (Z.eqb_spec (y mod 100) 0), (Z.eqb_spec (y mod 400) 0); simpl; split; try tauto; try lia; intros; try done; exfalso; lia.
Qed.
Lemma leaps_step y : leaps (y + 1) = leaps y + (if leap y then 1 else 0).
Proof.
  unfold leaps, leap. replace (y + 1 - 1) with y by lia.
  destruct (Z.eqb_spec (y mod 4) 0), (Z.eqb_spec (y mod 100) 0), (Z.eqb_spec (y mod 400) 0); simpl; lia.
Qed.
Lemma days_before_step y : days_before_year (y + 1) = days_before_year y + year_length y.
Proof. unfold days_before_year, year_length. rewrite leaps_step. destruct (leap y); lia. Qed.
Lemma year_length_bounds y : 365 ≤ year_length y ≤ 366.
Proof. unfold year_length. destruct (leap y); lia. Qed.
Lemma days_before_mono y y' : y < y' → days_before_year (y + 1) ≤ days_before_year y'.
Proof.
  intros H. replace y' with (y + 1 + Z.of_nat (Z.to_nat (y' - y - 1))) by lia. generalize (Z.to_nat (y' - y - 1)). clear.
  induction n as [|n IH]; [rewrite Z.add_0_r; lia|]. replace (y + 1 + Z.of_nat (S n)) with (y + 1 + Z.of_nat n + 1) by lia.
  rewrite (days_before_step (y + 1 + Z.of_nat n)). pose proof (year_length_bounds (y + 1 + Z.of_nat n)). lia.
Qed.
Lemma find_year_spec fuel : ∀ y d, 0 ≤ d < 365 * Z.of_nat fuel ∨ - 365 * (Z.of_nat fuel - 2) ≤ d < 0 →
  let '(y', d') := find_year fuel y d in 0 ≤ d' < year_length y' ∧ days_before_year y' + d' = days_before_year y + d.
Proof.
  induction fuel as [|fuel IH]; intros y d H; [lia|]. cbn [find_year]. pose proof (year_length_bounds y). pose proof (year_length_bounds (y - 1)).
  destruct (Z.ltb_spec d 0).
  - specialize (IH (y - 1) (d + year_length (y - 1)) ltac:(lia)). destruct (find_year fuel _ _) as [y' d']. destruct IH as [Ha Hb]. split; [done|].
    pose proof (days_before_step (y - 1)) as Hs. replace (y - 1 + 1) with y in Hs by lia. lia.
  - destruct (Z.ltb_spec d (year_length y)); [lia|].
    specialize (IH (y + 1) (d - year_length y) ltac:(lia)). destruct (find_year fuel _ _) as [y' d']. destruct IH as [Ha Hb]. split; [done|].
    rewrite days_before_step in Hb. lia.
Qed.
Lemma month_length_bounds y m : 28 ≤ month_length y m ≤ 31.
Proof. unfold month_length. repeat match goal with |- context [if ?b then _ else _] => destruct b end; lia. Qed.
Lemma days_before_month_12 y : days_before_month 12 y = year_length y.
Proof. unfold year_length. cbn [days_before_month]. unfold month_length. simpl. destruct (leap y); reflexivity. Qed.
Lemma days_before_month_mono n k y : days_before_month n y ≤ days_before_month (n + k) y.
Proof. induction k as [|k IH]; [by rewrite Nat.add_0_r|]. rewrite Nat.add_succ_r. cbn [days_before_month]. pose proof (month_length_bounds y (Z.of_nat (S (n + k)))). lia. Qed.
Lemma find_month_spec fuel y : ∀ n d, (n + fuel = 12)%nat → 0 ≤ d < days_before_month 12 y - days_before_month n y →
  let '(m', d') := find_month fuel y (Z.of_nat n + 1) d in
  1 ≤ m' ≤ 12 ∧ 0 ≤ d' < month_length y m' ∧ days_before_month (Z.to_nat (m' - 1)) y + d' = days_before_month n y + d.
Proof.
  induction fuel as [|fuel IH]; intros n d Hn Hd.
  { replace n with 12%nat in Hd by lia. lia. }
  cbn [find_month]. destruct (Z.ltb_spec d (month_length y (Z.of_nat n + 1))).
  - split; [lia|]. split; [lia|]. do 2 f_equal. lia.
  - assert (days_before_month (S n) y = days_before_month n y + month_length y (Z.of_nat n + 1)) as Es.
    { cbn [days_before_month]. do 2 f_equal. lia. }
    specialize (IH (S n) (d - month_length y (Z.of_nat n + 1)) ltac:(lia) ltac:(lia)).
    replace (Z.of_nat n + 1 + 1) with (Z.of_nat (S n) + 1) by lia. destruct (find_month fuel _ _ _) as [m' d']. destruct IH as (H1 & H2 & H3). split; [done|].
    split; [done|]. lia.
Qed.
(** A day in its year and month. *)
Definition number_of (y m d : Z) : Z := days_before_year y + days_before_month (Z.to_nat (m - 1)) y + (d - 1).
Definition valid (y m d : Z) : Prop := 1 ≤ m ≤ 12 ∧ 1 ≤ d ≤ month_length y m.
Lemma day_of_year_bound y m d : valid y m d → 0 ≤ days_before_month (Z.to_nat (m - 1)) y + (d - 1) < year_length y.
Proof.
  intros [Hm Hd]. rewrite <- days_before_month_12. pose proof (days_before_month_mono 0 (Z.to_nat (m - 1)) y) as H0. simpl in H0.
  pose proof (days_before_month_mono (S (Z.to_nat (m - 1))) (12 - S (Z.to_nat (m - 1))) y) as H1.
  replace (S (Z.to_nat (m - 1)) + (12 - S (Z.to_nat (m - 1))))%nat with 12%nat in H1 by lia. cbn [days_before_month] in H1 |- *.
  replace (Z.of_nat (S (Z.to_nat (m - 1)))) with m in H1 by lia. lia.
Qed.
Lemma number_of_inj y m d y' m' d' : valid y m d → valid y' m' d' → number_of y m d = number_of y' m' d' → y = y' ∧ m = m' ∧ d = d'.
Proof.
  intros V V' E. pose proof (day_of_year_bound _ _ _ V) as B. pose proof (day_of_year_bound _ _ _ V') as B'. unfold number_of in E.
  assert (y = y') as <-.
  { destruct (Z.lt_trichotomy y y') as [H|[H|H]]; [|done|].
    - pose proof (days_before_mono y y' H) as Hm. rewrite days_before_step in Hm. lia.
    - pose proof (days_before_mono y' y H) as Hm. rewrite days_before_step in Hm. lia. }
  split; [done|]. destruct V as [Hm Hd], V' as [Hm' Hd'].
  assert (∀ a b, 1 ≤ a → a < b → days_before_month (Z.to_nat (a - 1)) y + month_length y a ≤ days_before_month (Z.to_nat (b - 1)) y) as Hmono.
  { intros a b Ha Hab. pose proof (days_before_month_mono (S (Z.to_nat (a - 1))) (Z.to_nat (b - 1) - S (Z.to_nat (a - 1))) y) as H1.
    replace (S (Z.to_nat (a - 1)) + (Z.to_nat (b - 1) - S (Z.to_nat (a - 1))))%nat with (Z.to_nat (b - 1)) in H1 by lia. cbn [days_before_month] in H1.
    replace (Z.of_nat (S (Z.to_nat (a - 1)))) with a in H1 by lia. done. }
  destruct (Z.lt_trichotomy m m') as [H|[H|H]].
  - specialize (Hmono m m' ltac:(lia) H). lia.
  - subst m'. split; [done|]. lia.
  - specialize (Hmono m' m ltac:(lia) H). lia.
Qed.
Lemma gmtime_spec tt : - 22000000000 ≤ tt < 22000000000 →
  ∀ t, t = gmtime tt →
  valid (tm_year t) (tm_mon t) (tm_mday t) ∧ number_of (tm_year t) (tm_mon t) (tm_mday t) = tt / 86400 ∧
  tm_wday t = (tt / 86400 + 4) mod 7 ∧ tm_hour t = tt mod 86400 / 3600 ∧ tm_min t = tt mod 3600 / 60 ∧ tm_sec t = tt mod 60.
Proof.
  intros H t ->. unfold gmtime. cbv zeta.
  assert (-254630 ≤ tt / 86400 < 254630) as Hd by (split; [apply Z.div_le_lower_bound; lia|apply Z.div_lt_upper_bound; lia]).
  pose proof (find_year_spec 700 1970 (tt / 86400) ltac:(lia)) as Hy. destruct (find_year 700 1970 (tt / 86400)) as [y d]. destruct Hy as [Hb Hy].
  pose proof (find_month_spec 12 y 0 d eq_refl) as Hm. rewrite days_before_month_12 in Hm. cbn [days_before_month] in Hm. specialize (Hm ltac:(lia)).
  change (Z.of_nat 0 + 1) with 1 in Hm. destruct (find_month 12 y 1 d) as [m d']. destruct Hm as (H1 & H2 & H3). cbn [tm_year tm_mon tm_mday tm_wday tm_hour tm_min tm_sec].
  split; [split; [done|lia]|]. split; [|split; [done|split; [done|split]]].
  - unfold number_of. change (days_before_year 1970) with 0 in Hy. lia.
  - lia.
  - lia.
Qed.
Lemma seconds_split tt : (((tt / 86400) * 24 + tt mod 86400 / 3600) * 60 + tt mod 3600 / 60) * 60 + tt mod 60 = tt.
Proof. lia. Qed.
Lemma timegm_fields t x : number_of (tm_year t) (tm_mon t) (tm_mday t) = x / 86400 → tm_hour t = x mod 86400 / 3600 → tm_min t = x mod 3600 / 60 → tm_sec t = x mod 60 → timegm t = x.
Proof. intros E Eh Em Es. unfold timegm. unfold number_of in E. rewrite E, Eh, Em, Es. apply seconds_split. Qed.
Lemma timegm_gmtime tt : - 22000000000 ≤ tt < 22000000000 → timegm (gmtime tt) = tt.
Proof. intros H. destruct (gmtime_spec tt H (gmtime tt) eq_refl) as (_ & E & _ & Eh & Em & Es). by apply timegm_fields. Qed.
(** ** Counting days *)
Lemma last_of_month_eq y m : last_of_month y m = month_length y m.
Proof.
  unfold last_of_month, month_length. destruct (Z.eqb_spec m 2) as [->|Hn]; [rewrite bool_decide_true by done|rewrite bool_decide_false by done].
  - destruct (leap y) eqn:E; [rewrite bool_decide_true; [done|by apply leap_spec in E]|]. rewrite bool_decide_false; [done|].
    intros Hl. apply leap_spec in Hl. congruence.
  - destruct (Z.eqb_spec m 4), (Z.eqb_spec m 6), (Z.eqb_spec m 9), (Z.eqb_spec m 11); simpl; try (rewrite bool_decide_true by lia; done). rewrite bool_decide_false by lia. done.
Qed.
Lemma day_after_spec n : let d := day_after n in
  valid (year d) (month d) (day_of_month d) ∧ number_of (year d) (month d) (day_of_month d) = Z.of_nat n ∧ day_of_week d = (Z.of_nat n + 4) mod 7.
Proof.
  induction n as [|n IH]; [cbv zeta; split; [|split; reflexivity]; split; [simpl; lia|vm_compute; split; discriminate]|].
  cbv zeta in *. change (day_after (S n)) with (next_day (day_after n)). destruct (day_after n) as [y m d w]. cbn [year month day_of_month day_of_week] in IH.
  destruct IH as ([Hm Hd] & Hn & Hw). unfold next_day. cbn [year month day_of_month day_of_week]. rewrite last_of_month_eq.
  assert ((if bool_decide (w = 6) then 0 else w + 1) = (Z.of_nat (S n) + 4) mod 7) as Hw'.
  { subst w. case_bool_decide; lia. }
  destruct (bool_decide_reflect (d < month_length y m)) as [Hlt|Hge].
  - cbn [year month day_of_month day_of_week]. split; [split; [done|lia]|]. split; [|done]. unfold number_of in *. lia.
  - assert (d = month_length y m) as -> by lia. pose proof (month_length_bounds y m) as Hml. destruct (bool_decide_reflect (m < 12)) as [Hlt|Hge'].
    + cbn [year month day_of_month day_of_week]. pose proof (month_length_bounds y (m + 1)). split; [split; lia|]. split; [|done]. unfold number_of in *.
      replace (Z.to_nat (m + 1 - 1)) with (S (Z.to_nat (m - 1))) by lia. cbn [days_before_month]. replace (Z.of_nat (S (Z.to_nat (m - 1)))) with m by lia. lia.
    + assert (m = 12) as -> by lia. cbn [year month day_of_month day_of_week]. split; [split; [lia|]; pose proof (month_length_bounds (y + 1) 1); lia|]. split; [|done].
      unfold number_of in *. rewrite days_before_step, <- days_before_month_12. change (Z.to_nat (1 - 1)) with 0%nat. change (Z.to_nat (12 - 1)) with 11%nat in Hn.
      cbn [days_before_month] in *. change (Z.of_nat 12) with 12. lia.
Qed.
Lemma gmtime_day tt : 0 ≤ tt < 22000000000 →
  ∀ t d, t = gmtime tt → d = day_after (Z.to_nat (tt / 86400)) →
  tm_year t = year d ∧ tm_mon t = month d ∧ tm_mday t = day_of_month d ∧ tm_wday t = day_of_week d.
Proof.
  intros H t d Et Ed. destruct (gmtime_spec tt ltac:(lia) t Et) as (V & E & W & _). pose proof (day_after_spec (Z.to_nat (tt / 86400))) as Hs. cbv zeta in Hs.
  rewrite <- Ed in Hs. destruct Hs as (V' & E' & W'). clear Et Ed.
  rewrite Z2Nat.id in E', W' by (apply Z.div_pos; lia).
  destruct (number_of_inj _ _ _ _ _ _ V V') as (H1 & H2 & H3); [congruence|]. split; [done|]. split; [done|]. split; [done|]. congruence.
Qed.
