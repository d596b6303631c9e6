(** * The digits of rounded numbers *)
From Coq Require Import ZArith Reals Lra Lia.
From stdpp Require Import list.
From Verif Require Import Rounding_Model Rounding_Spec Rounding_Props.
Local Open Scope Z_scope.
Local Notation ten k := (powerRZ 10 k).

(** Characters other than zeros, the point and the sign *)
Definition significant (l : list Z) : list Z := filter (λ c, c ≠ 48 ∧ c ≠ 46 ∧ c ≠ 45 ∧ c ≠ 43) l.
Lemma significant_app l l' : significant (l ++ l') = significant l ++ significant l'.
Proof. apply filter_app. Qed.
Lemma significant_zeros n : significant (replicate n 48) = [].
Proof. induction n as [|n IH]; [done|]. unfold significant in *. cbn [replicate]. rewrite filter_cons_False by (intros [? ?]; lia). done. Qed.
Lemma significant_out idx (c : Z) : (length (significant ((if decide (idx = 0%Z) then [46%Z] else []) ++ [(48 + c)%Z])) <= 1)%nat.
Proof.
  rewrite significant_app. assert (E : significant (if decide (idx = 0) then [46] else []) = []) by (destruct (decide _); done). rewrite E.
  unfold significant. etransitivity; [apply filter_length|done].
Qed.
Lemma digits_significant n : ∀ m i idx, (length (significant (digits n m i idx).1) <= n)%nat.
Proof.
  induction n as [|n IH]; intros m i idx; [simpl; lia|]. cbn [digits]. pose proof (significant_out idx ((i / (m / 10)) mod 10)) as O. destruct (decide (idx - 1 <= 0 ∧ _)).
  - cbn [fst]. lia.
  - specialize (IH (m / 10) (i mod (m / 10)) (idx - 1)). destruct (digits n _ _ _) as [o x]. cbn [fst] in *. rewrite significant_app, app_length. lia.
Qed.
Lemma unsigned_significant n i d : (length (significant (unsigned n i d)) <= n)%nat.
Proof.
  unfold unsigned. destruct (start n i d) as [m x]. pose proof (digits_significant n m i x) as D. destruct (digits n m i x) as [o y]. cbn [fst] in D.
  rewrite !significant_app, significant_zeros, !app_length. destruct (decide _); [rewrite significant_app, significant_zeros; simpl; lia|]. destruct (decide _); simpl; lia.
Qed.
(** There are at most as many digits, from the first to the last that is not zero, as were asked for; the rest is zeros. *)
Theorem C100_at_most_so_many_digits v n plus : (length (significant (round v n plus)) <= n)%nat.
Proof.
  assert (A : ∀ v neg, (length (significant (round_positive v n neg plus)) <= n)%nat).
  { intros w neg. unfold round_positive. destruct (Rlt_dec _ _); [simpl; lia|]. rewrite significant_app, app_length. pose proof (unsigned_significant n (integerized w n) (dim w)).
    destruct neg; [simpl; lia|]. destruct (decide _); simpl; lia. }
  unfold round. destruct (Rlt_dec _ _); apply A.
Qed.

Lemma digits_end e : 0 <= e → ∀ n i idx, 0 <= i < 10 ^ (Z.of_nat n + e) → (10 ^ e | i) → (idx <= 0 → 0 < i) →
  let '(o, x) := digits n (10 ^ (Z.of_nat n + e)) i idx in
  x <= idx ∧ (idx <= 0 ∨ 46 ∈ o → ∃ o' c, o = o' ++ [48 + c] ∧ 1 <= c <= 9) ∧ (0 < x → 46 ∉ o).
Proof.
  intros He. induction n as [|n IH]; intros i idx B D P.
  - change (Z.of_nat 0 + e) with e in *. cbn [digits]. assert (0 < 10 ^ e) as PE by (apply Z.pow_pos_nonneg; lia). split_and!; [lia| |by intros _ ?%elem_of_nil].
    intros [L|L%elem_of_nil]; [|done]. specialize (P L). destruct D as [x ->]. exfalso. assert (x = 0) as X0 by nia. rewrite X0 in P. lia.
  - cbn [digits]. assert (M : 10 ^ (Z.of_nat (S n) + e) / 10 = 10 ^ (Z.of_nat n + e)).
    { rewrite Nat2Z.inj_succ. replace (Z.succ (Z.of_nat n) + e) with (Z.succ (Z.of_nat n + e)) by lia. rewrite Z.pow_succ_r by lia. rewrite Z.mul_comm. by apply Z.div_mul. }
    rewrite M. set (m := 10 ^ (Z.of_nat n + e)) in *. assert (PM : 0 < m) by (apply Z.pow_pos_nonneg; lia).
    assert (BM : i < 10 * m) by (unfold m; rewrite <- Z.pow_succ_r by lia; replace (Z.succ (Z.of_nat n + e)) with (Z.of_nat (S n) + e) by lia; lia).
    set (c := i / m). set (i' := i mod m). assert (EI : i = m * c + i') by (apply Z.div_mod; lia). pose proof (Z.mod_pos_bound i m PM) as BI. fold i' in BI.
    assert (BC : 0 <= c < 10) by (split; [apply Z.div_pos; lia|apply Z.div_lt_upper_bound; lia]). rewrite (Z.mod_small c 10) by lia.
    assert (D' : (10 ^ e | i')).
    { replace i' with (i - m * c) by lia. apply Z.divide_sub_r; [done|]. apply Z.divide_mul_l. unfold m. exists (10 ^ Z.of_nat n). rewrite Z.pow_add_r by lia. done. }
    assert (DOT : 46 ∈ (if decide (idx = 0) then [46] else []) ++ [48 + c] → idx = 0).
    { destruct (decide (idx = 0)) as [->|]; [done|]. intros K. cbn [app] in K. apply elem_of_list_singleton in K. lia. }
    destruct (decide (idx - 1 <= 0 ∧ i' = 0)) as [[Q1 Q2]|Q].
    + split_and!; [lia| |lia]. intros L. assert (idx <= 0) as L' by (destruct L as [|L%DOT]; lia). exists (if decide (idx = 0) then [46] else []), c. split; [done|]. specialize (P L'). assert (c ≠ 0) by (intros C0; rewrite C0, Q2 in EI; lia). lia.
    + specialize (IH i' (idx - 1) ltac:(done) D' ltac:(lia)). fold m in IH. destruct (digits n m i' (idx - 1)) as [o x]. destruct IH as (I1 & I2 & I3). split_and!; [lia| |].
      * intros L. destruct I2 as (o' & c' & -> & C').
        { destruct L as [L|L]; [left; lia|]. apply elem_of_app in L as [L%DOT|L]; [left; lia|by right]. }
        eexists (_ ++ o'), c'. by rewrite app_assoc.
      * intros X [L%DOT|L]%elem_of_app; [lia|by apply I3].
Qed.
(** There are no zeros at the end after a point. *)
Theorem C100_no_trailing_zeros v n plus l : (1 ≤ n)%nat → round v n plus = l ++ [48] → 46 ∉ l.
Proof.
  intros N. assert (U : ∀ i d l, 0 < i <= 10 ^ Z.of_nat n → unsigned n i d = l ++ [48] → 46 ∉ l).
  { intros i d k B E K. assert (W : ∃ e idx, 0 <= e ∧ start n i d = (10 ^ (Z.of_nat n + e), idx) ∧ i < 10 ^ (Z.of_nat n + e) ∧ (10 ^ e | i)).
    { unfold start. destruct (decide _) as [C|C].
      - assert (i = 10 ^ Z.of_nat n) as -> by lia. exists 1, (d + 1). rewrite Z.pow_add_r by lia. assert (0 < 10 ^ Z.of_nat n) by (apply Z.pow_pos_nonneg; lia). split_and!; [lia|done|lia|].
        exists (10 ^ (Z.of_nat n - 1)). rewrite <- Z.pow_add_r by lia. f_equal. lia.
      - exists 0, d. rewrite Z.add_0_r. split_and!; [lia|done|lia|]. exists i. simpl. lia. }
    destruct W as (e & idx & He & S & Bi & D). unfold unsigned in E. rewrite S in E. pose proof (digits_end e He n i idx ltac:(lia) D ltac:(lia)) as DE.
    destruct (digits n _ i idx) as [o x]. destruct DE as (D1 & D2 & D3).
    assert (HD : 46 ∈ k ++ [48]) by (apply elem_of_app; by left). rewrite <- E in HD.
    assert (Z : ∀ j, 46 ∉ replicate j 48) by (intros j ?%elem_of_replicate_inv; done).
    destruct (decide (0 < x)) as [X|X].
    - rewrite decide_False in HD by lia. rewrite decide_False in HD by lia. cbn [app] in HD. apply elem_of_app in HD as [HD|HD]; [by apply D3|by apply Z in HD].
    - replace (Z.to_nat x) with 0%nat in * by lia. cbn [replicate] in *. rewrite app_nil_r in *.
      destruct D2 as (o' & c & -> & C).
      { destruct (decide (idx < 0)); [left; lia|]. destruct (decide (idx = 0)); [left; lia|]. by right. }
      rewrite app_assoc in E. apply app_inj_tail in E as [_ E]. lia. }
  assert (A : ∀ v neg l, (0 < v)%R → round_positive v n neg plus = l ++ [48] → 46 ∉ l).
  { intros w neg k P E K. unfold round_positive in E. destruct (Rlt_dec _ _).
    - destruct k as [|a [|b k]]; [by apply elem_of_nil in K|done|done].
    - destruct (integerized_spec w n P) as (I1 & I2 & I3). pose proof (dim_spec w P) as [D _].
      assert (IP : 0 < integerized w n).
      { apply lt_IZR. assert (1 < w * ten (Z.of_nat n - dim w) * slack)%R as Y; [|pose proof slack_small; nra].
        replace (w * ten (Z.of_nat n - dim w) * slack)%R with (w * slack * ten (Z.of_nat n - dim w))%R by lra. eapply Rle_lt_trans; [|apply Rmult_lt_compat_r; [apply ten_pos|exact D]].
        rewrite <- ten_add. replace (dim w - 1 + (Z.of_nat n - dim w)) with (Z.of_nat n - 1) by lia. rewrite ten_Z by lia. apply (IZR_le 1). assert (0 < 10 ^ (Z.of_nat n - 1)) by (apply Z.pow_pos_nonneg; lia). lia. }
      set (u := unsigned n (integerized w n) (dim w)) in *.
      assert (G : ∀ s, (s = [] ∨ ∃ c, s = [c] ∧ c ≠ 46 ∧ c ≠ 48) → s ++ u = k ++ [48] → False).
      { intros s [->|(c & -> & C1 & C2)] F; [by apply (U (integerized w n) (dim w) k ltac:(lia) F)|]. destruct k as [|b k]; [by apply elem_of_nil in K|]. injection F as E1 F. apply elem_of_cons in K as [K|K]; [congruence|]. by apply (U (integerized w n) (dim w) k ltac:(lia) F). }
      eapply G; [|exact E]. destruct neg; [right; by exists 45|]. destruct (decide _); [right; by exists 43|by left]. }
  intros E K. unfold round in E. destruct (Rlt_dec v 0); [eapply (A (- v)%R); [lra|exact E|exact K]|].
  destruct (Rlt_dec 0 v); [by eapply (A v)|]. unfold round_positive in E. destruct (Rlt_dec _ _) as [L|L]; [destruct l as [|a [|b l]]; [by apply elem_of_nil in K|done|done]|].
  apply L. lra.
Qed.
(** With [plus_sign], numbers above zero have a plus sign; without, all are as they were. *)
Theorem C100_plus_sign v n : (/ 10 ^ 16 <= v)%R → (1 ≤ n)%nat → round v n true = 43 :: round v n false.
Proof.
  intros V N. assert (0 < / 10 ^ 16)%R as T by (apply Rinv_0_lt_compat; lra). assert (P : (0 < v)%R) by lra. unfold round. destruct (Rlt_dec v 0); [lra|]. unfold round_positive. destruct (Rlt_dec _ _); [lra|].
  destruct (integerized_spec v n P) as (I1 & I2 & I3). pose proof (dim_spec v P) as [D _].
  assert (IP : 0 < integerized v n).
  { apply lt_IZR. assert (1 < v * ten (Z.of_nat n - dim v) * slack)%R as Y; [|pose proof slack_small; nra].
    replace (v * ten (Z.of_nat n - dim v) * slack)%R with (v * slack * ten (Z.of_nat n - dim v))%R by lra. eapply Rle_lt_trans; [|apply Rmult_lt_compat_r; [apply ten_pos|exact D]].
    rewrite <- ten_add. replace (dim v - 1 + (Z.of_nat n - dim v)) with (Z.of_nat n - 1) by lia. rewrite ten_Z by lia. apply (IZR_le 1). assert (0 < 10 ^ (Z.of_nat n - 1)) by (apply Z.pow_pos_nonneg; lia). lia. }
  rewrite decide_True by done. rewrite decide_False by (by intros [_ ?]). done.
Qed.
Example ex_digits : significant (unsigned 3 1234 0) = [49; 50; 51] ∧ ¬ (46 ∈ [49; 50; 48; 48]) ∧ unsigned 2 12 5 = [49; 50; 48; 48] ++ [48].
Proof. split_and!; [vm_compute; reflexivity|rewrite !elem_of_cons, elem_of_nil; lia|vm_compute; reflexivity]. Qed.

Print Assumptions C100_at_most_so_many_digits.
Print Assumptions C100_no_trailing_zeros.
Print Assumptions C100_plus_sign.
