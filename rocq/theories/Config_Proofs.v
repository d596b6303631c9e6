From Coq Require Import String.
From stdpp Require Import gmap list.
From Coq Require Import NArith ZArith Lia.
From Verif Require Import Dec Date_Model Date_Spec Date_Proofs Date_Proofs2 Date_Props Config_Model Config_Spec.
Local Open Scope list_scope.
Local Open Scope Z_scope.

Lemma strftime_stamp t : strftime (lit ".%Y%m%d-%H%M%S") t =
  lit "." ++ four (tm_year t) ++ two (tm_mon t) ++ two (tm_mday t) ++ lit "-" ++ two (tm_hour t) ++ two (tm_min t) ++ two (tm_sec t).
Proof. reflexivity. Qed.
Lemma historical_name name now : representable now → historical_filename name now = saved_as name now.
Proof.
  intros H. pose proof (second_bounds now H) as Hb. unfold historical_filename, saved_as, stamp, format_date_time. f_equal. rewrite fill_spec by done.
  remember (gmtime (second_of now)) as t eqn:Et. remember (day_after (Z.to_nat (second_of now / 86400))) as d eqn:Ed.
  pose proof (gmtime_ok _ t Hb Et) as (_ & Hmo & Hd & Hw & Hh & Hm & Hs). pose proof (year_bounds _ t Hb Et) as Hy.
  destruct (gmtime_day (second_of now) ltac:(lia) t d Et Ed) as (E1 & E2 & E3 & _).
  destruct (gmtime_spec (second_of now) ltac:(lia) t Et) as (_ & _ & _ & F2 & F3 & F4). clear Et.
  rewrite <- E1, <- E2, <- E3, <- F2, <- F3, <- F4, strftime_stamp, <- !two_decimal, <- !four_decimal by lia. reflexivity.
Qed.

(** ** Lexicographic order *)
Lemma listed_app s t a b : length s = length t → listed_before s t → listed_before (s ++ a) (t ++ b).
Proof.
  intros Hl H. revert Hl. induction H as [c s|c d s t H|c s t H IH]; simpl; intros Hl; [done|by constructor|]. apply listed_equal, IH. lia.
Qed.
Lemma listed_prefix p s t : listed_before s t → listed_before (p ++ s) (p ++ t).
Proof. intros H. induction p as [|c p IH]; [done|]. by constructor. Qed.
Lemma listed_irrefl s : ¬ listed_before s s.
Proof. induction s as [|c s IH]; intros H; inversion H; subst; [lia|by apply IH]. Qed.
Lemma digit_lt x y : x mod 10 < y mod 10 → (digit x < digit y)%N.
Proof. intros H. unfold digit. pose proof (Z.mod_pos_bound x 10). pose proof (Z.mod_pos_bound y 10). lia. Qed.
Lemma digit_eq x y : x mod 10 = y mod 10 → digit x = digit y.
Proof. unfold digit. by intros ->. Qed.
Lemma two_lt x y : 0 ≤ x < 100 → 0 ≤ y < 100 → x < y → listed_before (two x) (two y).
Proof.
  intros Hx Hy H. unfold two. destruct (Z.lt_trichotomy (x / 10) (y / 10)) as [E|[E|E]].
  - apply listed_smaller, digit_lt. rewrite !Z.mod_small by lia. done.
  - rewrite E. apply listed_equal, listed_smaller, digit_lt. lia.
  - exfalso. lia.
Qed.
Lemma four_split x : 0 ≤ x < 10000 → four x = two (x / 100) ++ two (x mod 100).
Proof.
  intros H. unfold four, two. simpl. rewrite Z.div_div by lia. f_equal. f_equal. f_equal; [|f_equal]; apply digit_eq; lia.
Qed.
Lemma four_lt x y : 0 ≤ x < 10000 → 0 ≤ y < 10000 → x < y → listed_before (four x) (four y).
Proof.
  intros Hx Hy H. rewrite !four_split by lia. destruct (Z.lt_trichotomy (x / 100) (y / 100)) as [E|[E|E]].
  - apply listed_app; [done|]. apply two_lt; lia.
  - rewrite E. apply listed_prefix, two_lt; lia.
  - exfalso. lia.
Qed.

(** ** The fields of later times are later *)
Lemma number_of_later y m d y' m' d' : valid y m d → valid y' m' d' → number_of y m d < number_of y' m' d' →
  y < y' ∨ y = y' ∧ (m < m' ∨ m = m' ∧ d < d').
Proof.
  intros V V' H. pose proof (day_of_year_bound _ _ _ V) as B. pose proof (day_of_year_bound _ _ _ V') as B'. unfold number_of in H.
  destruct (Z.lt_trichotomy y y') as [?|[<- |Hy]]; [by left| |].
  2:{ exfalso. pose proof (days_before_mono y' y Hy). rewrite days_before_step in H0. lia. }
  right. split; [done|]. destruct (Z.lt_trichotomy m m') as [?|[<- |Hm]]; [by left|right; split; [done|lia]|].
  exfalso. destruct V as [V1 V2], V' as [V1' V2'].
  assert (Z.to_nat (m - 1) = S (Z.to_nat (m' - 1)) + (Z.to_nat (m - 1 - m')))%nat as E by lia.
  pose proof (days_before_month_mono (S (Z.to_nat (m' - 1))) (Z.to_nat (m - 1 - m')) y) as Hmm. rewrite <- E in Hmm. simpl in Hmm.
  replace (Z.of_nat (S (Z.to_nat (m' - 1)))) with m' in Hmm by lia. lia.
Qed.
Lemma stamp_order a b : 0 ≤ a ≤ 9223372036 → 0 ≤ b ≤ 9223372036 → a < b → listed_before (strftime (lit ".%Y%m%d-%H%M%S") (gmtime a)) (strftime (lit ".%Y%m%d-%H%M%S") (gmtime b)).
Proof.
  intros Ha Hb Hlt. remember (gmtime a) as t eqn:Et. remember (gmtime b) as u eqn:Eu.
  pose proof (gmtime_ok _ t Ha Et) as (_ & Hmo & Hd & _ & Hh & Hm & Hs). pose proof (year_bounds _ t Ha Et) as Hy.
  pose proof (gmtime_ok _ u Hb Eu) as (_ & Hmo' & Hd' & _ & Hh' & Hm' & Hs'). pose proof (year_bounds _ u Hb Eu) as Hy'.
  destruct (gmtime_spec a ltac:(lia) t Et) as (V & N1 & _ & F2 & F3 & F4). destruct (gmtime_spec b ltac:(lia) u Eu) as (V' & N1' & _ & F2' & F3' & F4'). clear Et Eu.
  rewrite !strftime_stamp. simpl. apply listed_equal.
  assert (∀ (x y : Z) p q, 0 ≤ x < 100 → 0 ≤ y < 100 → x < y → listed_before (two x ++ p) (two y ++ q)) as T.
  { intros x y p q ???. apply listed_app; [done|]. by apply two_lt. }
  assert (∀ (x y : Z) p q, 0 ≤ x < 10000 → 0 ≤ y < 10000 → x < y → listed_before (four x ++ p) (four y ++ q)) as FF.
  { intros x y p q ???. apply listed_app; [done|]. by apply four_lt. }
  destruct (Z.lt_trichotomy (a / 86400) (b / 86400)) as [E|[E|E]]; [| |exfalso; lia].
  - destruct (number_of_later _ _ _ _ _ _ V V') as [Hl|[E1 [Hl|[E2 Hl]]]]; [lia| | |].
    + apply (FF _ _ (_ :: _) (_ :: _)); lia.
    + rewrite E1. apply (listed_prefix (four _)). apply T; lia.
    + rewrite E1. apply (listed_prefix (four _)). rewrite E2. apply (listed_prefix (two _)). apply T; lia.
  - destruct (number_of_inj _ _ _ _ _ _ V V') as (E1 & E2 & E3); [lia|]. rewrite E1, E2, E3.
    apply (listed_prefix (four _)), (listed_prefix (two _)), (listed_prefix (two _)), listed_equal.
    assert (a mod 86400 < b mod 86400) as Hr by lia.
    destruct (Z.lt_trichotomy (tm_hour t) (tm_hour u)) as [G|[G|G]]; [apply T; lia| |exfalso; lia].
    rewrite G. apply (listed_prefix (two _)).
    destruct (Z.lt_trichotomy (tm_min t) (tm_min u)) as [G'|[G'|G']]; [apply T; lia| |exfalso; lia].
    rewrite G'. apply (listed_prefix (two _)). apply two_lt; lia.
Qed.

Lemma saved_as_order name now later : representable now → representable later → second_of now < second_of later →
  listed_before (saved_as name now) (saved_as name later).
Proof.
  intros H1 H2 Hlt. rewrite <- !historical_name by done. unfold historical_filename, format_date_time. apply listed_prefix. rewrite !fill_spec by done.
  apply stamp_order; [by apply second_bounds|by apply second_bounds|done].
Qed.
Lemma saved_as_inj name now later : representable now → representable later → saved_as name now = saved_as name later → second_of now = second_of later.
Proof.
  intros H1 H2 E. destruct (Z.lt_trichotomy (second_of now) (second_of later)) as [Hl|[Hl|Hl]]; [|done|].
  - exfalso. pose proof (saved_as_order name now later H1 H2 Hl) as Ho. rewrite E in Ho. by apply listed_irrefl in Ho.
  - exfalso. pose proof (saved_as_order name later now H2 H1 Hl) as Ho. rewrite E in Ho. by apply listed_irrefl in Ho.
Qed.
Lemma saved_as_ne name now : saved_as name now ≠ name.
Proof. unfold saved_as. intros E. apply (f_equal length) in E. rewrite app_length in E. unfold stamp in E. simpl in E. lia. Qed.

(** ** Steps *)
Lemma do_steps_append name l : ∀ fs pre, fs !! name = Some pre → foldl do_step fs (map (Append name) l) = <[name := pre ++ l]> fs.
Proof.
  induction l as [|b l IH]; intros fs pre E; simpl.
  - rewrite app_nil_r. by rewrite insert_id.
  - rewrite E. simpl. rewrite (IH _ (pre ++ [b])) by apply lookup_insert. rewrite insert_insert, <- app_assoc. done.
Qed.
Lemma do_write_steps contents name fs n : foldl do_step fs (take (S n) (write_steps contents name)) = <[name := take n contents]> fs.
Proof.
  simpl. rewrite <- map_take || rewrite firstn_map. rewrite (do_steps_append _ _ _ []) by apply lookup_insert. by rewrite insert_insert.
Qed.
Lemma do_all_write_steps contents name fs : foldl do_step fs (write_steps contents name) = <[name := contents]> fs.
Proof. simpl. rewrite (do_steps_append _ _ _ []) by apply lookup_insert. by rewrite insert_insert. Qed.
