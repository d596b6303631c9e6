(** Property C52 (CRC32, bricks/util/crc32.h). *)
From Coq Require Import String.
From Verif Require Import Base CRC32_Model.
Local Open Scope N_scope.

(** ** Specification: the reflected CRC-32 defined bit by bit.
    A register of 32 bits starts as all ones.  The message bits are taken byte by byte, least
    significant bit first; for each, if it differs from the register's lowest bit, the register is
    shifted right and xor-ed with the polynomial 0xEDB88320, otherwise just shifted.  The result is the
    complement of the register. *)
Definition POLY : N := 3988292384.  (* 0xEDB88320 *)
Definition bit_step (reg : N) (bit : bool) : N :=
  if xorb (N.odd reg) bit then N.lxor (N.shiftr reg 1) POLY else N.shiftr reg 1.
Definition bits_of_byte (b : N) : list bool := map (fun i => N.testbit b i) [0; 1; 2; 3; 4; 5; 6; 7].
Definition message_bits (s : bytes) : list bool := flat_map bits_of_byte s.
Definition crc32_spec (s : bytes) : N := N.lxor (fold_left bit_step (message_bits s) (2 ^ 32 - 1)) (2 ^ 32 - 1).

(** ** Proof. *)
Definition shift1 (c : N) : N := bit_step c false.
Definition shift8 (c : N) : N := shift1 (shift1 (shift1 (shift1 (shift1 (shift1 (shift1 (shift1 c))))))).

Lemma odd_lxor x y : N.odd (N.lxor x y) = xorb (N.odd x) (N.odd y).
Proof. rewrite <- !N.bit0_odd. apply N.lxor_spec. Qed.

Lemma shift1_lxor x y : shift1 (N.lxor x y) = N.lxor (shift1 x) (shift1 y).
Proof.
  unfold shift1, bit_step. rewrite odd_lxor, N.shiftr_lxor, !xorb_false_r.
  apply N.bits_inj. intros n.
  destruct (N.odd x), (N.odd y); cbn [xorb]; rewrite ?N.lxor_spec;
    destruct (N.testbit (N.shiftr x 1) n), (N.testbit (N.shiftr y 1) n), (N.testbit POLY n); reflexivity.
Qed.
Lemma shift8_lxor x y : shift8 (N.lxor x y) = N.lxor (shift8 x) (shift8 y).
Proof. unfold shift8. now rewrite !shift1_lxor. Qed.

Lemma shift1_even x : shift1 (2 * x) = x.
Proof.
  unfold shift1, bit_step. rewrite N.odd_mul. cbn [N.odd xorb andb]. rewrite <- N.div2_spec. apply N.div2_double.
Qed.
Lemma shift8_high x : shift8 (N.shiftl x 8) = x.
Proof.
  replace (N.shiftl x 8) with (2 * (2 * (2 * (2 * (2 * (2 * (2 * (2 * x)))))))).
  - unfold shift8. now rewrite !shift1_even.
  - rewrite N.shiftl_mul_pow2. change (2 ^ 8) with 256. lia.
Qed.

Lemma table_ok i : (i < 256)%N -> nth (N.to_nat i) crc32_table 0 = shift8 i.
Proof.
  intros H.
  assert (Hall : forallb (fun n => N.eqb (nth n crc32_table 0) (shift8 (N.of_nat n))) (seq 0 256) = true) by (vm_compute; reflexivity).
  rewrite forallb_forall in Hall. specialize (Hall (N.to_nat i)).
  rewrite in_seq in Hall. apply N.eqb_eq in Hall; [|lia]. now rewrite N2Nat.id in Hall.
Qed.

Lemma low_high x : x = N.lxor (N.land x 255) (N.shiftl (N.shiftr x 8) 8).
Proof.
  apply N.bits_inj. intros n. rewrite N.lxor_spec, N.land_spec. change 255 with (N.ones 8).
  destruct (N.lt_ge_cases n 8) as [H|H].
  - rewrite N.ones_spec_low, N.shiftl_spec_low by assumption. now rewrite andb_true_r, xorb_false_r.
  - rewrite N.ones_spec_high, N.shiftl_spec_high', N.shiftr_spec', N.sub_add by assumption.
    now rewrite andb_false_r, xorb_false_l.
Qed.

Lemma crc_step_shift8 c b : (b < 256)%N -> crc_step c b = shift8 (N.lxor c b).
Proof.
  intros Hb. unfold crc_step. rewrite table_ok.
  2:{ change 255 with (N.ones 8). rewrite N.land_ones. apply N.mod_lt. discriminate. }
  rewrite (low_high (N.lxor c b)) at 2. rewrite shift8_lxor, shift8_high. f_equal.
  rewrite N.shiftr_lxor. replace (N.shiftr b 8) with 0; [now rewrite N.lxor_0_r|].
  symmetry. rewrite N.shiftr_div_pow2. apply N.div_small. exact Hb.
Qed.

Lemma bit_step_xor c bit : bit_step c bit = shift1 (N.lxor c (N.b2n bit)).
Proof.
  unfold shift1, bit_step. rewrite odd_lxor, N.shiftr_lxor, xorb_false_r.
  replace (N.odd (N.b2n bit)) with bit by (now destruct bit).
  replace (N.shiftr (N.b2n bit) 1) with 0 by (now destruct bit). now rewrite N.lxor_0_r.
Qed.

Lemma byte_fold c b : (b < 256)%N -> fold_left bit_step (bits_of_byte b) c = shift8 (N.lxor c b).
Proof.
  intros Hb.
  assert (H0 : fold_left bit_step (bits_of_byte b) 0 = shift8 b).
  { assert (Hall : forallb (fun n => N.eqb (fold_left bit_step (bits_of_byte (N.of_nat n)) 0) (shift8 (N.of_nat n))) (seq 0 256) = true)
      by (vm_compute; reflexivity).
    rewrite forallb_forall in Hall. specialize (Hall (N.to_nat b)). rewrite in_seq in Hall.
    apply N.eqb_eq in Hall; [|lia]. now rewrite N2Nat.id in Hall. }
  rewrite shift8_lxor, <- H0. unfold bits_of_byte, shift8. cbn [map fold_left].
  generalize (N.testbit b 0), (N.testbit b 1), (N.testbit b 2), (N.testbit b 3), (N.testbit b 4), (N.testbit b 5), (N.testbit b 6), (N.testbit b 7).
  intros. rewrite !bit_step_xor, !shift1_lxor, !N.lxor_assoc. reflexivity.
Qed.

Lemma loop_spec s : bytes_ok s -> forall c, fold_left crc_step s c = fold_left bit_step (message_bits s) c.
Proof.
  induction 1 as [|b s Hb _ IH]; intros c; [reflexivity|].
  cbn [fold_left]. unfold message_bits in *. cbn [flat_map]. rewrite fold_left_app, byte_fold by exact Hb.
  rewrite crc_step_shift8 by exact Hb. apply IH.
Qed.

(** C52: the table-driven function is the bitwise CRC-32, for every byte string. *)
Theorem C52_crc32_is_the_bitwise_crc :
  forall s, bytes_ok s -> crc32_str s = crc32_spec s.
Proof.
  intros s H. unfold crc32_str, crc32, crc32_spec, all_ones. rewrite N.lxor_0_l. now rewrite (loop_spec s H).
Qed.
Print Assumptions C52_crc32_is_the_bitwise_crc.

(** C52: it can be computed piecewise. *)
Theorem C52_incremental :
  forall (c : N) (a b : bytes), crc32 (crc32 c a) b = crc32 c (a ++ b).
Proof.
  intros c a b. unfold crc32. rewrite N.lxor_assoc, N.lxor_nilpotent, N.lxor_0_r. now rewrite fold_left_app.
Qed.
Print Assumptions C52_incremental.

(** The result is a 32-bit value, so nothing is lost in a [uint32_t]. *)
Theorem C52_result_fits_uint32 :
  forall s, bytes_ok s -> (crc32_str s < 2 ^ 32)%N.
Proof.
  assert (Hlx : forall x y, (x < 2 ^ 32)%N -> (y < 2 ^ 32)%N -> (N.lxor x y < 2 ^ 32)%N).
  { intros x y Hx Hy. destruct (N.eq_0_gt_0_cases (N.lxor x y)) as [->|Hpos]; [reflexivity|].
    apply N.log2_lt_pow2; [exact Hpos|]. eapply N.le_lt_trans; [apply N.log2_lxor|].
    destruct (N.eq_0_gt_0_cases x) as [->|Hx0]; destruct (N.eq_0_gt_0_cases y) as [->|Hy0]; try (cbn; lia).
    - apply N.log2_lt_pow2 in Hy; [|exact Hy0]. cbn [N.log2]. lia.
    - apply N.log2_lt_pow2 in Hx; [|exact Hx0]. cbn [N.log2]. lia.
    - apply N.log2_lt_pow2 in Hx, Hy; auto. lia. }
  intros s H. rewrite C52_crc32_is_the_bitwise_crc by exact H. unfold crc32_spec.
  apply Hlx; [|reflexivity]. clear H.
  assert (Hgen : forall l c, (c < 2 ^ 32)%N -> (fold_left bit_step l c < 2 ^ 32)%N).
  { induction l as [|x l IH]; intros c Hc; [exact Hc|]. cbn [fold_left]. apply IH. unfold bit_step.
    assert (Hs : (N.shiftr c 1 < 2 ^ 32)%N).
    { rewrite N.shiftr_div_pow2. eapply N.le_lt_trans; [|exact Hc]. apply N.div_le_upper_bound; [discriminate|]. change (2 ^ 1)%N with 2%N. lia. }
    destruct (xorb _ _); [apply Hlx; [exact Hs|reflexivity]|exact Hs]. }
  apply Hgen. reflexivity.
Qed.
Print Assumptions C52_result_fits_uint32.

(** The standard check value. *)
Example C52_demo : crc32_str (bs "123456789") = 3421780262 /\ bytes_ok (bs "123456789") /\
  crc32 (crc32 0 (bs "1234")) (bs "56789") = 3421780262.  (* 0xCBF43926 *)
Proof. split; [vm_compute; reflexivity|split; [repeat constructor|vm_compute; reflexivity]]. Qed.
