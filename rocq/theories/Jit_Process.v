(** A process that meets the hypotheses of the theorems of C80: IEEE doubles (Flocq's binary64), the code, the vectors and the stack
    each somewhere in memory.  Used for examples, and for the counterexample. *)
From Flocq Require Import IEEE754.BinarySingleNaN IEEE754.Binary IEEE754.Bits.
From Coq Require Import List ZArith Bool Lia.
Import ListNotations.
From Verif Require Import Fncas_Model Fncas_Spec X64_Spec Jit_Model Jit_Spec Jit_Proofs.
Open Scope Z_scope.

(** *** IEEE doubles *)
Definition of_integer (z : Z) : binary64 := binary_normalize 53 1024 (eq_refl _) (eq_refl _) mode_NE z 0 false.
Definition compares (ok : comparison -> bool) (u v : binary64) : bool :=
  match b64_compare u v with Some c => ok c | None => false end.
(** SIMPL: of the functions of <cmath> only the square root is here; the others are the identity (not used below). *)
Definition ieee_math (f : mfun) (u : binary64) : binary64 := match f with Fncas_Model.sqrt => b64_sqrt mode_NE u | _ => u end.
Definition ieee : arith :=
  Arith binary64 (b64_plus mode_NE) (b64_minus mode_NE) (b64_mult mode_NE) (b64_div mode_NE) b64_opp ieee_math
    (compares (fun c => match c with Eq => true | _ => false end)) (compares (fun c => match c with Gt => false | _ => true end))
    (compares (fun c => match c with Lt => true | _ => false end))
    (of_integer 0) (of_integer 1) (of_integer 2) (of_integer 4) (b64_div mode_NE (of_integer 1) (of_integer 2)) (of_integer (-1)).

Definition sse_ieee (o : sse_op) (u v : Z) : Z :=
  let f := match o with ADDSD => b64_plus | SUBSD => b64_minus | MULSD => b64_mult | DIVSD => b64_div end in
  bits_of_b64 (f mode_NE (b64_of_bits u) (b64_of_bits v)).
Definition function_ieee (f : mfun) (u : Z) : Z := bits_of_b64 (apply_function ieee f (b64_of_bits u)).

(** *** The process *)
Definition at_code := 2 ^ 40. Definition at_x := 2 ^ 41. Definition at_heap := 2 ^ 42. Definition at_functions := 2 ^ 43.
Definition stack_bottom := 2 ^ 44. Definition stack_top := 2 ^ 44 + 4096 + 8. Definition return_address := 2 ^ 45.
Definition function_address (j : Z) : Z := 2 ^ 46 + 16 * j.
Definition standard_places : places := Places at_code at_x at_heap at_functions stack_top.
Definition within (b n a : Z) : bool := (b <=? a) && (a <? b + n).

(** The process for a code of [n] bytes, [d] variables and a heap of [h] doubles; [g] is what its functions leave behind. *)
Definition process (n d h g : Z) : machine :=
  let on_stack := within stack_bottom (stack_top + 8 - stack_bottom) in
  Machine
    (fun a => within at_x (8 * d) a || within at_heap (8 * h) a || within at_functions 96 a || on_stack a)
    (fun a => within at_heap (8 * h) a || on_stack a)
    (within at_code n)
    sse_ieee
    (fun a => match find (fun f => a =? function_address (function_index f)) all_functions with
              | Some f => Some (function_ieee f) | None => None end)
    stack_bottom (fun _ _ => g) (fun _ _ => g) (fun _ _ => g).

Lemma bits_ok c : 0 <= bits_of_b64 c < 2 ^ 64.
Proof. exact (bits_of_binary_float_range 52 11 eq_refl eq_refl c). Qed.
Lemma value_ok c : b64_of_bits (bits_of_b64 c) = c.
Proof. apply (binary_float_of_bits_of_binary_float 52 11). Qed.
Definition ieee_words (n d h g : Z) : words ieee (process n d h g).
Proof.
  refine (@Words ieee (process n d h g) bits_of_b64 b64_of_bits function_ieee bits_ok value_ok _ _ _ _ _ _ _);
    intros; try apply bits_ok; apply value_ok.
Defined.

Definition byte_of (v i : Z) : Z := (v / 2 ^ (8 * i)) mod 256.
Definition start_memory (code : list Z) (x : list binary64) (a : Z) : Z :=
  if within at_code (Z.of_nat (length code)) a then nth (Z.to_nat (a - at_code)) code 0
  else if within at_x (8 * Z.of_nat (length x)) a
  then byte_of (bits_of_b64 (nth (Z.to_nat ((a - at_x) / 8)) x (of_integer 0))) ((a - at_x) mod 8)
  else if within at_functions 96 a then byte_of (function_address ((a - at_functions) / 8)) ((a - at_functions) mod 8)
  else if within stack_top 8 a then byte_of return_address (a - stack_top)
  else 0.
(** Right after the call. *)
Definition start (code : list Z) (x : list binary64) : state :=
  State at_code
    (fun r => if Nat.eqb r rdi then at_x - 128 else if Nat.eqb r rsi then at_heap - 128 else if Nat.eqb r rdx then at_functions - 8
              else if Nat.eqb r rsp then stack_top else 77)
    (fun _ => 0) (start_memory code x) 0.

Lemma within_true b n a : b <= a < b + n -> within b n a = true.
Proof. intros H. apply andb_true_iff. split; [apply Z.leb_le|apply Z.ltb_lt]; lia. Qed.
Lemma within_false b n a : ~ b <= a < b + n -> within b n a = false.
Proof. intros H. destruct (within b n a) eqn:E; [|reflexivity]. apply andb_true_iff in E as [E1 E2]. apply Z.leb_le in E1. apply Z.ltb_lt in E2. lia. Qed.
Lemma load_bytes m a v : 0 <= v < 2 ^ 64 -> (forall i, 0 <= i < 8 -> m (a + i) = byte_of v i) -> load64 m a = v.
Proof.
  intros R H. unfold load64. rewrite (little_shift 8 m v a); [change (256 ^ Z.of_nat 8) with (2 ^ 64); now apply Z.mod_small|].
  intros i Hi. apply H. lia.
Qed.

Ltac places := unfold at_code, at_x, at_heap, at_functions, stack_bottom, stack_top in *.
Lemma div8 v i : 0 <= i < 8 -> (8 * v + i) / 8 = v.
Proof. intros H. symmetry. apply (Z.div_unique _ 8 v i); lia. Qed.
Lemma mod8 v i : 0 <= i < 8 -> (8 * v + i) mod 8 = i.
Proof. intros H. symmetry. apply (Z.mod_unique _ 8 v i); lia. Qed.

Lemma start_ok prog (x : list binary64) g :
  Z.of_nat (length (bytes prog)) <= 2 ^ 32 -> 8 * Z.of_nat (length x) <= 2 ^ 32 -> 8 * Z.of_nat (heap_size prog) <= 2 ^ 32 ->
  called_with (ieee_words (Z.of_nat (length (bytes prog))) (Z.of_nat (length x)) (Z.of_nat (heap_size prog)) g)
    prog x standard_places (start (bytes prog) x).
Proof.
  intros Lc Lx Lh. constructor; cbn [p_code p_x p_heap p_functions p_stack standard_places start rip gpr mem stack_lo process readable writable executable external].
  - reflexivity.
  - reflexivity.
  - reflexivity.
  - reflexivity.
  - intros r. repeat match goal with |- context [if ?b then _ else _] => destruct b end; vm_compute; split; congruence.
  - intros k b Hk. assert (k < length (bytes prog))%nat by (apply nth_error_Some; congruence). split.
    + unfold start_memory. rewrite within_true by lia. rewrite Z.add_simpl_l, Nat2Z.id. now apply nth_error_nth.
    + apply within_true. lia.
  - intros v y Hv. change (@nth_error binary64 x v = Some y) in Hv. assert (v < length x)%nat by (apply nth_error_Some; congruence). split.
    + cbn [value ieee_words]. rewrite (load_bytes _ _ (bits_of_b64 y)); [apply value_ok|apply bits_ok|]. intros i Hi. unfold start_memory.
      rewrite within_false by (places; lia). rewrite within_true by lia.
      replace (at_x + 8 * Z.of_nat v + i - at_x) with (8 * Z.of_nat v + i) by lia. rewrite div8, mod8, Nat2Z.id by lia.
      now rewrite (nth_error_nth _ _ _ Hv).
    + apply eight_true. intros b Hb. rewrite within_true by lia. reflexivity.
  - intros a Ha. unfold inside in Ha. rewrite (within_true at_heap) by lia. split; [now rewrite orb_true_r|reflexivity].
  - intros f. assert (Hf : 0 <= function_index f < 12) by (destruct f; cbn; lia). split.
    + rewrite (load_bytes _ _ (function_address (function_index f))).
      * destruct f; reflexivity.
      * unfold function_address. lia.
      * intros i Hi. unfold start_memory. rewrite within_false by (places; lia). rewrite within_false by (places; lia). rewrite within_true by lia.
        replace (at_functions + 8 * function_index f + i - at_functions) with (8 * function_index f + i) by lia. now rewrite div8, mod8 by lia.
    + apply eight_true. intros b Hb. rewrite (within_true at_functions) by lia. now rewrite !orb_true_r.
  - places. lia.
  - intros a Ha. rewrite (within_true stack_bottom) by lia. now rewrite !orb_true_r.
  - change (@length (Fncas_Model.num ieee) x) with (@length binary64 x). places. lia.
  - intros a. change (@length (Fncas_Model.num ieee) x) with (@length binary64 x). unfold inside. places. lia.
Qed.
