(** * Rounded numbers *)
From Coq Require Import ZArith Reals Lra Lia.
From stdpp Require Import list.
From Verif Require Import Rounding_Model Rounding_Spec.
Local Open Scope Z_scope.

Local Notation ten k := (powerRZ 10 k).
Lemma ten_pos k : (0 < ten k)%R. Proof. apply powerRZ_lt. lra. Qed.
Lemma ten_add a b : ten (a + b) = (ten a * ten b)%R. Proof. apply powerRZ_add. lra. Qed.
Lemma ten_Z k : 0 <= k → ten k = IZR (10 ^ k).
Proof. intros H. rewrite <- (Z2Nat.id k H), <- pow_powerRZ, pow_IZR. done. Qed.
Lemma ten_1 : ten 1 = 10%R. Proof. simpl. lra. Qed.
Lemma ten_m1 a : ten (a - 1) = (ten a / 10)%R.
Proof. unfold Z.sub. rewrite ten_add. simpl. lra. Qed.
Definition unit_of (idx : Z) : option R := if decide (idx < 0) then Some (ten idx) else None.

Lemma reading_zeros acc n : reading acc None (replicate n 48) = (acc * ten (Z.of_nat n))%R.
Proof.
  revert acc. induction n as [|n IH]; intros acc; [simpl; lra|]. cbn [replicate reading]. rewrite decide_False by lia. rewrite IH. rewrite Nat2Z.inj_succ. unfold Z.succ. rewrite ten_add, ten_1. change (48 - 48) with 0. lra.
Qed.
Lemma digits_reading e : 0 <= e → ∀ n acc i idx, 0 <= i < 10 ^ (Z.of_nat n + e) → (10 ^ e | i) →
  reading acc (unit_of idx) ((digits n (10 ^ (Z.of_nat n + e)) i idx).1 ++ replicate (Z.to_nat (digits n (10 ^ (Z.of_nat n + e)) i idx).2) 48) =
  (acc * ten (Z.max idx 0) + IZR i * ten (idx - Z.of_nat n - e))%R.
Proof.
  intros He. induction n as [|n IH]; intros acc i idx B D.
  - change (Z.of_nat 0 + e) with e in B. destruct D as [x ->]. assert (0 < 10 ^ e) as PE by (apply Z.pow_pos_nonneg; lia). assert (x = 0) as -> by nia. cbn [digits fst snd app]. rewrite Z.mul_0_l, Rmult_0_l, Rplus_0_r. unfold unit_of. destruct (decide (idx < 0)) as [N|N].
    + replace (Z.to_nat idx) with 0%nat by lia. rewrite Z.max_r by lia. simpl. lra.
    + rewrite reading_zeros, Z2Nat.id, Z.max_l by lia. done.
  - cbn [digits]. assert (M : 10 ^ (Z.of_nat (S n) + e) / 10 = 10 ^ (Z.of_nat n + e)).
    { rewrite Nat2Z.inj_succ. replace (Z.succ (Z.of_nat n) + e) with (Z.succ (Z.of_nat n + e)) by lia. rewrite Z.pow_succ_r by lia. rewrite Z.mul_comm. by apply Z.div_mul. }
    rewrite M. set (m := 10 ^ (Z.of_nat n + e)) in *. assert (PM : 0 < m) by (apply Z.pow_pos_nonneg; lia).
    assert (BM : i < 10 * m) by (unfold m; rewrite <- Z.pow_succ_r by lia; replace (Z.succ (Z.of_nat n + e)) with (Z.of_nat (S n) + e) by lia; lia).
    set (c := i / m). set (i' := i mod m). assert (EI : i = m * c + i') by (apply Z.div_mod; lia). pose proof (Z.mod_pos_bound i m PM) as BI. fold i' in BI.
    assert (BC : 0 <= c < 10) by (split; [apply Z.div_pos; lia|apply Z.div_lt_upper_bound; lia]). rewrite (Z.mod_small c 10) by lia.
    assert (D' : (10 ^ e | i')).
    { replace i' with (i - m * c) by lia. apply Z.divide_sub_r; [done|]. apply Z.divide_mul_l. unfold m. exists (10 ^ Z.of_nat n). rewrite Z.pow_add_r by lia. done. }
    (* the digit *)
    assert (HD : ∀ l, reading acc (unit_of idx) (((if decide (idx = 0) then [46] else []) ++ [48 + c]) ++ l) =
      reading (if decide (0 < idx)%Z then acc * 10 + IZR c else acc + IZR c * ten (idx - 1))%R (unit_of (idx - 1)) l).
    { intros l. unfold unit_of. destruct (decide (idx = 0)) as [Z0|Z0].
      - subst idx. rewrite (decide_False (P := 0 < 0)) by lia. rewrite (decide_True (P := 0 - 1 < 0)) by lia. rewrite (decide_False (P := (0 < 0))) by lia. cbn [app reading]. rewrite decide_True by done. rewrite decide_False by lia.
        replace (48 + c - 48) with c by lia. change (0 - 1) with (-1). replace (ten (-1)) with (1 / 10)%R by (simpl; lra). done.
      - cbn [app reading]. rewrite decide_False by lia. replace (48 + c - 48) with c by lia. destruct (decide (idx < 0)) as [N|N].
        + rewrite (decide_False (P := 0 < idx)) by lia. rewrite (decide_True (P := idx - 1 < 0)) by lia. by rewrite ten_m1.
        + rewrite (decide_True (P := 0 < idx)) by lia. by rewrite (decide_False (P := idx - 1 < 0)) by lia. }
    assert (VAL : ((if decide (0 < idx)%Z then acc * 10 + IZR c else acc + IZR c * ten (idx - 1)) * ten (Z.max (idx - 1) 0) + IZR i' * ten (idx - 1 - Z.of_nat n - e) =
      acc * ten (Z.max idx 0) + IZR i * ten (idx - Z.of_nat (S n) - e))%R).
    { replace (idx - Z.of_nat (S n) - e) with (idx - 1 - Z.of_nat n - e) by lia. rewrite EI at 1. rewrite plus_IZR, mult_IZR, Rmult_plus_distr_r.
      replace (IZR m * IZR c * ten (idx - 1 - Z.of_nat n - e))%R with (IZR c * ten (idx - 1))%R.
      2:{ unfold m. rewrite <- ten_Z by lia. replace (idx - 1) with ((Z.of_nat n + e) + (idx - 1 - Z.of_nat n - e)) at 1 by lia. rewrite ten_add. lra. }
      destruct (decide (0 < idx)) as [P|P].
      - rewrite !Z.max_l by lia. replace idx with ((idx - 1) + 1) at 3 by lia. rewrite ten_add, ten_1. lra.
      - rewrite !Z.max_r by lia. simpl (ten 0). lra. }
    destruct (decide (idx - 1 <= 0 ∧ i' = 0)) as [[Q1 Q2]|Q].
    + cbn [fst snd]. replace (Z.to_nat (idx - 1)) with 0%nat by lia. rewrite HD. cbn [replicate reading]. rewrite <- VAL, Q2, Z.max_r by lia. simpl (ten 0). lra.
    + specialize (IH (if decide (0 < idx)%Z then acc * 10 + IZR c else acc + IZR c * ten (idx - 1))%R i' (idx - 1)%Z ltac:(done) D').
      fold m in IH. destruct (digits n m i' (idx - 1)) as [o x]. cbn [fst snd] in *. rewrite <- app_assoc, HD, IH. exact VAL.
Qed.
(** The digits are those of the integer, with the point where it belongs. *)
Lemma unsigned_reading n i d : (1 ≤ n)%nat → 0 <= i <= 10 ^ Z.of_nat n → reading 0 None (unsigned n i d) = (IZR i * ten (d - Z.of_nat n))%R.
Proof.
  intros P B. unfold unsigned, start.
  assert (A : ∀ e idx, 0 <= e → 0 <= i < 10 ^ (Z.of_nat n + e) → (10 ^ e | i) →
    reading 0 None (let head := if decide (idx < 0) then [48; 46] ++ replicate (Z.to_nat (- idx)) 48 else if decide (idx = 0) then [48] else [] in
      let '(o, digit_index) := digits n (10 ^ (Z.of_nat n + e)) i idx in head ++ o ++ replicate (Z.to_nat digit_index) 48) = (IZR i * ten (idx - Z.of_nat n - e))%R).
  { intros e idx He Bi D. pose proof (digits_reading e He n 0%R i idx Bi D) as DR. destruct (digits n _ i idx) as [o x]. cbn [fst snd] in DR. cbn zeta.
    rewrite Rmult_0_l, Rplus_0_l in DR. rewrite <- DR. unfold unit_of. destruct (decide (idx < 0)) as [N|N].
    - cbn [app reading]. rewrite decide_False by lia. rewrite decide_True by done. change (48 - 48) with 0.
      assert (Z : ∀ k u l, reading 0 (Some u) (replicate k 48 ++ l) = reading 0 (Some (u * ten (- Z.of_nat k))%R) l).
      { clear. induction k as [|k IH]; intros u l; [simpl; by rewrite Rmult_1_r|]. cbn [replicate app reading]. rewrite decide_False by lia. change (48 - 48) with 0. rewrite Rmult_0_l, Rplus_0_l, IH. do 2 f_equal.
        replace (- Z.of_nat (S k)) with (- Z.of_nat k - 1) by lia. rewrite ten_m1. lra. }
      replace (0 * 10 + 0)%R with 0%R by lra. rewrite Z. do 2 f_equal. rewrite Rmult_1_l. f_equal. lia.
    - destruct (decide (idx = 0)) as [Z0|Z0]; [|done]. cbn [app reading]. rewrite decide_False by lia. change (48 - 48) with 0. replace (0 * 10 + 0)%R with 0%R by lra. done. }
  destruct (decide (10 ^ Z.of_nat n <= i)) as [C|C].
  - assert (i = 10 ^ Z.of_nat n) as E by lia. specialize (A 1 (d + 1)). replace (d - Z.of_nat n) with (d + 1 - Z.of_nat n - 1) by lia. rewrite <- A; [|lia| |].
    + rewrite Z.pow_add_r by lia. done.
    + rewrite Z.pow_add_r by lia. assert (0 < 10 ^ Z.of_nat n) by (apply Z.pow_pos_nonneg; lia). lia.
    + rewrite E. exists (10 ^ (Z.of_nat n - 1)). rewrite <- Z.pow_add_r by lia. f_equal. lia.
  - specialize (A 0 d). rewrite Z.add_0_r, Z.sub_0_r in A. apply A; [lia|lia|]. exists i. simpl. lia.
Qed.

(** ** The number of digits *)
Lemma ten_exp k : ten k = exp (IZR k * ln 10). Proof. rewrite powerRZ_Rpower by lra. done. Qed.
Lemma ceil_spec x : (x <= IZR (ceil x) < x + 1)%R.
Proof. unfold ceil. destruct (base_Int_part (- x)). rewrite opp_IZR. lra. Qed.
Definition slack : R := Rpower 10 (/ 10 ^ 10).
Lemma ln_10 : (1 <= ln 10)%R.
Proof. rewrite <- (ln_exp 1). pose proof exp_le_3. pose proof (exp_pos 1). destruct (Rle_lt_or_eq_dec (exp 1) 10) as [L|L]; [lra| |]; [|lra]. left. apply ln_increasing; lra. Qed.
Lemma slack_big : (1 + / 10 ^ 10 <= slack)%R.
Proof. unfold slack, Rpower. pose proof ln_10. eapply Rle_trans; [|apply exp_ineq1_le]. assert (0 < / 10 ^ 10)%R by (apply Rinv_0_lt_compat; lra). nra. Qed.
Lemma slack_small : (slack <= 2)%R.
Proof.
  unfold slack, Rpower. rewrite <- (exp_ln 2) by lra. pose proof ln_lt_2. assert (ln 10 < 10)%R.
  { rewrite <- (ln_exp 10) at 2. apply ln_increasing; [lra|]. pose proof (exp_ineq1 10 ltac:(lra)). lra. }
  assert (/ 10 ^ 10 * ln 10 <= ln 2)%R as [L|L] by (pose proof ln_10; assert (/ 10 ^ 10 <= / 20)%R by lra; nra); [left; by apply exp_increasing|rewrite L; lra].
Qed.
Lemma dim_spec v : (0 < v)%R → (ten (dim v - 1) < v * slack <= ten (dim v))%R.
Proof.
  intros P. assert (E : (v * slack = exp ((ln v / ln 10 + / 10 ^ 10) * ln 10))%R).
  { rewrite Rmult_plus_distr_r, exp_plus. unfold slack, Rpower. f_equal. pose proof ln_10. replace (ln v / ln 10 * ln 10)%R with (ln v) by (field; lra). by rewrite exp_ln. }
  rewrite E, !ten_exp, minus_IZR. unfold dim. destruct (ceil_spec (ln v / ln 10 + / 10 ^ 10)) as [A B]. pose proof ln_10. split.
  - apply exp_increasing. apply Rmult_lt_compat_r; lra.
  - assert ((ln v / ln 10 + / 10 ^ 10) * ln 10 <= IZR (ceil (ln v / ln 10 + / 10 ^ 10)) * ln 10)%R as [L|L] by (apply Rmult_le_compat_r; lra); [left; by apply exp_increasing|rewrite L; lra].
Qed.
Lemma integerized_spec v n : (0 < v)%R → let y := (v * ten (Z.of_nat n - dim v))%R in
  (y - / 2 < IZR (integerized v n) <= y + / 2)%R ∧ (0 < y < ten (Z.of_nat n))%R ∧ 0 <= integerized v n <= 10 ^ Z.of_nat n.
Proof.
  intros P. cbn zeta. unfold integerized. set (y := (v * ten (Z.of_nat n - dim v))%R). destruct (base_Int_part (y + / 2)) as [A B]. set (i := Int_part (y + / 2)) in *.
  pose proof (dim_spec v P) as [_ D]. pose proof slack_big as S. assert (0 < / 10 ^ 10)%R as T by (apply Rinv_0_lt_compat; lra).
  assert (Y : (0 < y < ten (Z.of_nat n))%R).
  { unfold y. split; [apply Rmult_lt_0_compat; [done|apply ten_pos]|]. replace (Z.of_nat n) with (dim v + (Z.of_nat n - dim v)) at 2 by lia. rewrite ten_add. apply Rmult_lt_compat_r; [apply ten_pos|]. nra. }
  split_and!; [lra|lra|lra|lra|..].
  - assert (-1 < i) by (apply lt_IZR; lra). lia.
  - rewrite ten_Z in Y by lia. assert (i < 10 ^ Z.of_nat n + 1) by (apply lt_IZR; rewrite plus_IZR; lra). lia.
Qed.
Lemma number_unsigned n i d : (1 ≤ n)%nat → number (unsigned n i d) = reading 0 None (unsigned n i d).
Proof.
  intros P. assert (A : ∀ c l, 48 <= c < 58 → number (c :: l) = reading 0 None (c :: l)).
  { intros c l B. assert (c = 48 ∨ c = 49 ∨ c = 50 ∨ c = 51 ∨ c = 52 ∨ c = 53 ∨ c = 54 ∨ c = 55 ∨ c = 56 ∨ c = 57) as C by lia.
    repeat destruct C as [-> | C]; try done. by subst. }
  unfold unsigned. destruct (start n i d) as [m x]. destruct n as [|n]; [lia|]. destruct (digits (S n) m i x) as [o y] eqn:E.
  destruct (decide (x < 0)); [by apply A|]. destruct (decide (x = 0)); [by apply A|]. cbn [digits] in E. rewrite (decide_False (P := x = 0)) in E by done. cbn [app] in E.
  destruct (decide _); [injection E as <- <-|destruct (digits n _ _ _); injection E as <- <-]; (cbn [app]; apply A; pose proof (Z.mod_pos_bound (i / (m / 10)) 10); lia).
Qed.
Lemma rounded_positive v n neg plus : (1 ≤ n)%nat → (/ 10 ^ 16 <= v)%R →
  (Rabs (number (round_positive v n neg plus) - (if neg then - v else v)) <= slack * v * ten (1 - Z.of_nat n) / 2)%R.
Proof.
  intros N V. assert (0 < / 10 ^ 16)%R as T by (apply Rinv_0_lt_compat; lra). unfold round_positive. destruct (Rlt_dec v (/ 10 ^ 16)); [lra|].
  destruct (integerized_spec v n ltac:(lra)) as (I1 & I2 & I3). set (i := integerized v n) in *. set (u := unsigned n i (dim v)).
  assert (E : (Rabs (reading 0 None u - v) <= slack * v * ten (1 - Z.of_nat n) / 2)%R).
  { unfold u. rewrite unsigned_reading by done. pose proof (dim_spec v ltac:(lra)) as [D _]. pose proof (ten_pos (dim v - Z.of_nat n)) as TP. pose proof (ten_pos (1 - Z.of_nat n)) as TQ.
    assert (Y : (v = v * ten (Z.of_nat n - dim v) * ten (dim v - Z.of_nat n))%R).
    { rewrite Rmult_assoc, <- ten_add. replace (Z.of_nat n - dim v + (dim v - Z.of_nat n)) with 0 by lia. simpl. lra. }
    set (y := (v * ten (Z.of_nat n - dim v))%R) in *. replace (IZR i * ten (dim v - Z.of_nat n) - v)%R with ((IZR i - y) * ten (dim v - Z.of_nat n))%R by lra. rewrite Rabs_mult, (Rabs_pos_eq (ten _)) by lra.
    assert (Rabs (IZR i - y) <= / 2)%R as AB by (apply Rabs_le; lra).
    assert (ten (dim v - Z.of_nat n) <= v * slack * ten (1 - Z.of_nat n))%R as Q.
    { replace (dim v - Z.of_nat n) with ((dim v - 1) + (1 - Z.of_nat n)) by lia. rewrite ten_add. apply Rmult_le_compat_r; lra. }
    eapply Rle_trans; [apply Rmult_le_compat_r; [lra|exact AB]|]. lra. }
  destruct neg.
  - change (number ([45] ++ u)) with (- reading 0 None u)%R. replace (- reading 0 None u - - v)%R with (- (reading 0 None u - v))%R by lra. by rewrite Rabs_Ropp.
  - destruct (decide _).
    + exact E.
    + cbn [app]. unfold u in *. by rewrite number_unsigned.
Qed.
(** The text stands for a number that is off by half a unit of the last of the digits asked for, at most: [v] rounded. What is nearer to zero than 1e-16 is 0. *)
Theorem C100_rounded v n plus : (1 ≤ n)%nat →
  ((/ 10 ^ 16 <= Rabs v)%R → (Rabs (number (round v n plus) - v) <= slack * Rabs v * ten (1 - Z.of_nat n) / 2)%R) ∧
  ((Rabs v < / 10 ^ 16)%R → round v n plus = [48]).
Proof.
  intros N. assert (0 < / 10 ^ 16)%R as T by (apply Rinv_0_lt_compat; lra). split; intros V; unfold round; destruct (Rlt_dec v 0) as [L|L].
  - rewrite (Rabs_left v) in V |- * by done. pose proof (rounded_positive (- v) n true plus N V) as K. cbv iota in K. by rewrite Ropp_involutive in K.
  - rewrite (Rabs_pos_eq v) in V |- * by lra. exact (rounded_positive v n false plus N V).
  - rewrite Rabs_left in V by done. unfold round_positive. destruct (Rlt_dec _ _); [done|lra].
  - rewrite Rabs_pos_eq in V by lra. unfold round_positive. destruct (Rlt_dec _ _); [done|lra].
Qed.
(** A negative number is written as its absolute value is, with a minus sign. *)
Theorem C100_negative v n plus : (v <= - / 10 ^ 16)%R → round v n plus = 45 :: round (- v) n false.
Proof.
  intros V. assert (0 < / 10 ^ 16)%R as T by (apply Rinv_0_lt_compat; lra). unfold round. destruct (Rlt_dec v 0); [|lra]. destruct (Rlt_dec (- v) 0); [lra|]. unfold round_positive.
  destruct (Rlt_dec _ _); [lra|]. destruct (decide _) as [[_ ?]|]; done.
Qed.
(** There are no zeros in front, but for numbers just below a power of ten. *)
Theorem C100_no_leading_zeros v n : (1 ≤ n)%nat → (0 < v)%R → (∀ k, v < ten k → v * slack <= ten k)%R → no_leading_zero (round v n false).
Proof.
  intros N P H. unfold round. destruct (Rlt_dec v 0); [lra|]. unfold round_positive. destruct (Rlt_dec _ _); [by intros c rest ?|].
  rewrite decide_False by (by intros [_ ?]). cbn [app]. pose proof (dim_spec v P) as [D _]. destruct (integerized_spec v n P) as (I1 & I2 & I3). set (i := integerized v n) in *. set (y := (v * ten (Z.of_nat n - dim v))%R) in *.
  assert (LV : (ten (dim v - 1) <= v)%R). { destruct (Rle_lt_dec (ten (dim v - 1)) v) as [|L]; [done|]. specialize (H _ L). lra. }
  assert (LI : 10 ^ (Z.of_nat n - 1) <= i).
  { assert (ten (Z.of_nat n - 1) <= y)%R as Y.
    { unfold y. replace (Z.of_nat n - 1) with ((dim v - 1) + (Z.of_nat n - dim v)) by lia. rewrite ten_add. apply Rmult_le_compat_r; [left; apply ten_pos|done]. }
    rewrite ten_Z in Y by lia. assert (10 ^ (Z.of_nat n - 1) - 1 < i) by (apply lt_IZR; rewrite minus_IZR; lra). lia. }
  clear -N LI I3. unfold unsigned. destruct (start n i (dim v)) as [m x] eqn:S. destruct n as [|n]; [lia|].
  assert (FD : (i / (m / 10)) mod 10 ≠ 0).
  { rewrite Nat2Z.inj_succ in *. replace (Z.succ (Z.of_nat n) - 1) with (Z.of_nat n) in LI by lia. rewrite Z.pow_succ_r in I3 by lia.
    assert (0 < 10 ^ Z.of_nat n) by (apply Z.pow_pos_nonneg; lia). unfold start in S. rewrite Nat2Z.inj_succ, Z.pow_succ_r in S by lia. destruct (decide _) as [C|C]; injection S as <- <-.
    - assert (i = 10 * 10 ^ Z.of_nat n) as -> by lia. rewrite Z.div_mul by lia. rewrite Z.div_same by lia. done.
    - rewrite (Z.mul_comm 10), Z.div_mul by lia. assert (1 <= i / 10 ^ Z.of_nat n < 10) by (split; [apply Z.div_le_lower_bound; lia|apply Z.div_lt_upper_bound; lia]). rewrite Z.mod_small by lia. lia. }
  destruct (digits (Datatypes.S n) m i x) as [o z] eqn:E. cbn [digits] in E.
  destruct (decide (x < 0)).
  - intros c rest. cbn [app]. by intros [= <- _].
  - destruct (decide (x = 0)) as [X|X].
    + intros c rest. destruct (decide _); [injection E as <- <-|destruct (digits n _ _ _); injection E as <- <-]; cbn [app]; by intros [= <- _].
    + intros c rest. destruct (decide _); [injection E as <- <-|destruct (digits n _ _ _); injection E as <- <-]; cbn [app]; intros [= K _]; lia.
Qed.

(** 100 - 1e-10 with 15 digits is "099.9999999999": the allowance of 1e-10 (rounding.h 52) takes the number to have three digits before the point, and they do not round
    up to four. *)
Theorem C100_no_leading_zeros_refuted : ¬ (∀ v n, (1 ≤ n ≤ 15)%nat → (1 <= v)%R → no_leading_zero (round v n false)).
Proof.
  intros H. set (v := (100 - / 10 ^ 10)%R). assert (T : (0 < / 10 ^ 10 <= 1)%R) by lra. specialize (H v 15%nat ltac:(lia) ltac:(unfold v; lra)).
  assert (D : dim v = 3).
  { pose proof (dim_spec v ltac:(unfold v; lra)) as [D1 D2]. pose proof slack_big as S.
    assert (E : ∀ a b, (ten a < ten b)%R → a < b).
    { intros a b L. destruct (Z.lt_ge_cases a b) as [|G]; [done|exfalso]. replace a with (b + (a - b)) in L by lia. rewrite ten_add in L. pose proof (ten_pos b).
      assert (1 <= ten (a - b))%R by (rewrite ten_Z by lia; apply (IZR_le 1); assert (0 < 10 ^ (a - b)) by (apply Z.pow_pos_nonneg; lia); lia). nra. }
    assert (2 < dim v); [|assert (dim v - 1 < 3); [|lia]]; apply E.
    - eapply Rlt_le_trans; [|exact D2]. replace (ten 2) with 100%R by (simpl; lra). unfold v. nra.
    - eapply Rlt_le_trans; [exact D1|]. replace (ten 3) with 1000%R by (simpl; lra). pose proof slack_small. unfold v. nra. }
  assert (I : integerized v 15 = 99999999999900).
  { pose proof (integerized_spec v 15 ltac:(unfold v; lra)) as (I1 & _ & _). rewrite D in I1. replace (v * ten (Z.of_nat 15 - 3))%R with 99999999999900%R in I1 by (unfold v; change (Z.of_nat 15 - 3) with 12; simpl; lra).
    assert (99999999999900 - 1 < integerized v 15 < 99999999999900 + 1); [|lia]. split; apply lt_IZR; rewrite ?minus_IZR, ?plus_IZR; lra. }
  unfold round in H. destruct (Rlt_dec v 0) as [L|_]; [unfold v in L; lra|]. unfold round_positive in H. destruct (Rlt_dec _ _) as [L|_]; [unfold v in L; lra|].
  rewrite decide_False in H by (by intros [_ ?]). rewrite I, D in H. vm_compute in H. specialize (H _ _ eq_refl). discriminate.
Qed.

(** What is printed of some integers and numbers of digits before the point: 0.0012, 1.5, 10, 12000, and 0.99999 rounded up to 1 *)
Example ex_unsigned : unsigned 2 12 (-2) = [48; 46; 48; 48; 49; 50] ∧ unsigned 5 15000 1 = [49; 46; 53] ∧ unsigned 3 100 2 = [49; 48] ∧ unsigned 2 12 5 = [49; 50; 48; 48; 48] ∧ unsigned 3 1000 0 = [49].
Proof. split_and!; vm_compute; reflexivity. Qed.
(** 12345 is not just below a power of ten. *)
Example ex_hypotheses : (1 ≤ 2)%nat ∧ (0 < 12345)%R ∧ (/ 10 ^ 16 <= Rabs 12345)%R ∧ ∀ k, (12345 < ten k → 12345 * slack <= ten k)%R.
Proof.
  split_and!; [lia|lra|rewrite Rabs_pos_eq; lra|]. intros k L. pose proof slack_small. pose proof slack_big.
  destruct (Z.lt_ge_cases k 5) as [K|K].
  - exfalso. replace 4 with (k + (4 - k)) in L by lia. assert (ten 4 = ten k * ten (4 - k))%R as E by (rewrite <- ten_add; f_equal; lia). replace (ten 4) with 10000%R in E by (simpl; lra).
    assert (1 <= ten (4 - k))%R by (rewrite ten_Z by lia; apply (IZR_le 1); assert (0 < 10 ^ (4 - k)) by (apply Z.pow_pos_nonneg; lia); lia). pose proof (ten_pos k). nra.
  - assert (ten k = ten 5 * ten (k - 5))%R as E by (rewrite <- ten_add; f_equal; lia). replace (ten 5) with 100000%R in E by (simpl; lra).
    assert (1 <= ten (k - 5))%R by (rewrite ten_Z by lia; apply (IZR_le 1); assert (0 < 10 ^ (k - 5)) by (apply Z.pow_pos_nonneg; lia); lia). nra.
Qed.

Print Assumptions C100_rounded.
Print Assumptions C100_negative.
Print Assumptions C100_no_leading_zeros.
Print Assumptions C100_no_leading_zeros_refuted.
