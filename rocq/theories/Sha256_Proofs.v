(** Proofs about SHA-256. *)
From stdpp Require Import list numbers.
From Coq Require Import NArith Lia.
From Verif Require Import Sha256_Model Sha256_Spec.

(** ** Words *)
Lemma add32_word_sum x y : x ⊕ y = word_sum [x; y].
Proof. unfold add32, m32, word_sum. simpl. f_equal. lia. Qed.
Lemma word_sum_cons x l : word_sum (x :: l) = x ⊕ word_sum l.
Proof. unfold word_sum, add32, m32. cbn [foldr]. by rewrite N.add_mod_idemp_r. Qed.
Lemma add32_assoc x y z : x ⊕ (y ⊕ z) = x ⊕ y ⊕ z.
Proof. unfold add32, m32. rewrite N.add_mod_idemp_r, N.add_mod_idemp_l by done. f_equal. lia. Qed.
Lemma add32_comm x y : x ⊕ y = y ⊕ x.
Proof. unfold add32. f_equal. lia. Qed.
Lemma add32_0_r_sum x y : x ⊕ (y ⊕ 0%N) = x ⊕ y.
Proof. rewrite add32_assoc. unfold add32, m32. rewrite N.add_0_r, N.mod_mod by done. done. Qed.
Lemma word_sum_2 x y : word_sum [x; y] = x ⊕ y.
Proof. by rewrite add32_word_sum. Qed.

Lemma rotate_ROTR a c : rotate a c = ROTR c a. Proof. done. Qed.
Lemma xor3_eq x y z : xor3 x y z = N.lxor (N.lxor x y) z.
Proof. unfold xor3. by rewrite N.lxor_assoc. Qed.
Lemma not32_ldiff x : (x < 2 ^ 32)%N → not32 x = N.ldiff (2 ^ 32 - 1) x.
Proof.
  intros Hx. unfold not32. change (2 ^ 32 - 1)%N with (N.ones 32). apply N.bits_inj. intros i.
  rewrite N.lxor_spec, N.ldiff_spec. destruct (N.lt_ge_cases i 32) as [Hi|Hi].
  - rewrite N.ones_spec_low by done. by destruct (N.testbit x i).
  - rewrite N.ones_spec_high by done. rewrite <- (N.mod_small x (2 ^ 32)) by done. by rewrite N.mod_pow2_bits_high.
Qed.
Lemma f1_spec e f g : (e < 2 ^ 32)%N → f1 e f g = Sigma1 e ⊕ Ch e f g.
Proof. intros He. unfold f1, Sigma1, Ch. by rewrite xor3_eq, not32_ldiff. Qed.
Lemma f2_spec a b c : f2 a b c = Sigma0 a ⊕ Maj a b c.
Proof.
  unfold f2, Sigma0, Maj. rewrite !xor3_eq. f_equal. apply N.bits_inj. intros i.
  rewrite N.lor_spec, !N.lxor_spec, !N.land_spec, N.lor_spec. by destruct (N.testbit a i), (N.testbit b i), (N.testbit c i).
Qed.
Lemma add32_lt x y : (x ⊕ y < 2 ^ 32)%N.
Proof. apply N.mod_lt. done. Qed.

Definition lt32 (v : vars) : Prop :=
  let '(a, b, c, d, e, f, g, h) := v in
  (a < 2 ^ 32 ∧ b < 2 ^ 32 ∧ c < 2 ^ 32 ∧ d < 2 ^ 32 ∧ e < 2 ^ 32 ∧ f < 2 ^ 32 ∧ g < 2 ^ 32 ∧ h < 2 ^ 32)%N.

Lemma K_constants : K = constants. Proof. vm_compute. reflexivity. Qed.
Lemma H0_reset b : H0 = hash (reset b). Proof. vm_compute. reflexivity. Qed.

(** One step, with the functions of the code. *)
Definition code_step (W : list N) (v : vars) (t : nat) : vars :=
  let '(a, b, c, d, e, f, g, h) := v in
  let x := h ⊕ f1 e f g ⊕ nth t constants 0%N ⊕ nth t W 0%N in
  (x ⊕ f2 a b c, a, b, c, d ⊕ x, e, f, g).
Lemma step_code W v t : lt32 v → step W v t = code_step W v t ∧ lt32 (code_step W v t).
Proof.
  destruct v as [[[[[[[a b] c] d] e] f] g] h]. intros (Ha & Hb & Hc & Hd & He & Hf & Hg & Hh).
  split; [|repeat split; auto using add32_lt].
  unfold step, code_step. rewrite K_constants, f1_spec, f2_spec by done.
  rewrite !word_sum_cons. change (word_sum []) with 0%N. rewrite !add32_0_r_sum.
  rewrite !add32_assoc. reflexivity.
Qed.
Lemma steps_code W ts : ∀ v, lt32 v → fold_left (step W) ts v = fold_left (code_step W) ts v ∧ lt32 (fold_left (code_step W) ts v).
Proof.
  induction ts as [|t ts IH]; intros v Hv; [done|]. cbn [fold_left]. destruct (step_code W v t Hv) as [-> Hv']. by apply IH.
Qed.

Lemma eight_lines_steps W r v : eight_lines W r v = fold_left (code_step W) (map (λ j, 8 * r + j) (seq 0 8)) v.
Proof.
  destruct v as [[[[[[[a b] c] d] e] f] g] h]. unfold eight_lines. cbn [seq map fold_left code_step]. reflexivity.
Qed.

(** ** The words *)
Definition prefix_of_length (n : nat) (words W : list N) : Prop := n ≤ length words ∧ ∃ l, W = words ++ l.
Lemma eight_lines_prefix words W r v : prefix_of_length (8 * r + 8) words W → eight_lines words r v = eight_lines W r v.
Proof.
  intros [Hlen [l ->]]. rewrite !eight_lines_steps.
  assert (∀ js u, (∀ j, j ∈ js → j < 8) → fold_left (code_step words) (map (λ j, 8 * r + j) js) u = fold_left (code_step (words ++ l)) (map (λ j, 8 * r + j) js) u) as H.
  { induction js as [|j js IH]; intros u Hj; [done|]. cbn [map fold_left].
    assert (code_step words u (8 * r + j) = code_step (words ++ l) u (8 * r + j)) as ->.
    { unfold code_step. rewrite (app_nth1 words l) by (pose proof (Hj j (elem_of_list_here _ _)); lia). done. }
    apply IH. intros j' Hj'. apply Hj. by right. }
  apply H. intros j Hj. apply elem_of_list_In, in_seq in Hj. lia.
Qed.
Lemma iter_S {A} n (f : A → A) x : Nat.iter (S n) f x = f (Nat.iter n f x). Proof. done. Qed.
Lemma extend_by_one_next words : 16 ≤ length words → extend_by_one words = words ++ [next_word words].
Proof.
  intros H. unfold extend_by_one, next_word. do 2 f_equal. rewrite !word_sum_cons. change (word_sum []) with 0%N. rewrite add32_0_r_sum.
  unfold sigma0, sigma1. rewrite !xor3_eq. rewrite <- !rotate_ROTR. unfold SHR. 
  set (x2 := nth (length words - 2) words 0%N). set (x7 := nth (length words - 7) words 0%N).
  set (x15 := nth (length words - 15) words 0%N). set (x16 := nth (length words - 16) words 0%N).
  generalize (N.lxor (N.lxor (rotate x2 17) (rotate x2 19)) (N.shiftr x2 10)) as p, (N.lxor (N.lxor (rotate x15 7) (rotate x15 18)) (N.shiftr x15 3)) as q.
  intros p q. rewrite (add32_comm _ p), (add32_comm _ x7), (add32_comm x16 q). reflexivity.
Qed.
Lemma iter_next_length n words : length (Nat.iter n (λ W, W ++ [next_word W]) words) = n + length words.
Proof. induction n as [|n IH]; [done|]. rewrite iter_S. rewrite app_length, IH. simpl. lia. Qed.
Lemma iter_extend n words : 16 ≤ length words → Nat.iter n extend_by_one words = Nat.iter n (λ W, W ++ [next_word W]) words.
Proof.
  intros H. induction n as [|n IH]; [done|]. rewrite iter_S. rewrite IH. apply extend_by_one_next. rewrite iter_next_length. lia.
Qed.
Lemma iter_next_prefix n words : ∃ l, Nat.iter n (λ W, W ++ [next_word W]) words = words ++ l.
Proof.
  induction n as [|n [l IH]]; [exists []; by rewrite app_nil_r|]. rewrite iter_S. rewrite IH. eexists. by rewrite <- app_assoc.
Qed.
Definition expanded (k : nat) (words : list N) : list N := Nat.iter (8 * k) (λ W, W ++ [next_word W]) words.
Lemma expanded_0 words : expanded 0 words = words. Proof. done. Qed.
Lemma extend_expanded k words : 16 ≤ length words → extend (expanded k words) = expanded (S k) words.
Proof.
  intros H. unfold extend, expanded. rewrite iter_extend by (rewrite iter_next_length; lia).
  replace (8 * S k) with (8 + 8 * k) by lia. by rewrite Nat.iter_add.
Qed.

Definition is_word (x : N) : Prop := (x < 2 ^ 32)%N.
Lemma sums_lt a b c d e f g h a' b' c' d' e' f' g' h' :
  Forall is_word [a ⊕ a'; b ⊕ b'; c ⊕ c'; d ⊕ d'; e ⊕ e'; f ⊕ f'; g ⊕ g'; h ⊕ h'].
Proof. repeat (apply List.Forall_cons; [exact (add32_lt _ _)|]). apply List.Forall_nil. Qed.
Definition words_of (data : list N) : list N := map swap (load_words data).
Lemma process_block_compress H data : length (words_of data) = 16 → length H = 8 → Forall is_word H →
  process_block H data = compress H (words_of data) ∧ length (process_block H data) = 8 ∧ Forall is_word (process_block H data).
Proof.
  intros Hw HH Hlt. do 9 (destruct H as [|? H]; try discriminate HH). rename n into a, n0 into b, n1 into c, n2 into d, n3 into e, n4 into f, n5 into g, n6 into h.
  unfold process_block. fold (words_of data). set (M := words_of data) in *. cbn zeta.
  assert (∀ k v, k ≤ 6 → eight_lines (expanded k M) (S k) v = eight_lines (schedule M) (S k) v) as Hpre.
  { intros k v Hk. apply eight_lines_prefix. split.
    - unfold expanded. rewrite iter_next_length. lia.
    - unfold schedule, expanded. replace 48 with ((48 - 8 * k) + 8 * k) by lia. rewrite Nat.iter_add. apply iter_next_prefix. }
  assert (extend M = expanded 1 M) as E1. { rewrite <- (expanded_0 M) at 1. apply extend_expanded. lia. }
  assert (∀ v r, r ≤ 1 → eight_lines M r v = eight_lines (schedule M) r v) as Hpre0.
  { intros v r Hr. apply eight_lines_prefix. split; [lia|]. apply iter_next_prefix. }
  rewrite E1, !extend_expanded by lia. rewrite (Hpre 1), (Hpre 2), (Hpre 3), (Hpre 4), (Hpre 5), (Hpre 6), !Hpre0 by lia. clear Hpre E1 Hpre0.
  unfold compress. fold M.
  destruct (steps_code (schedule M) (seq 0 64) (a, b, c, d, e, f, g, h)) as [-> Hlt'].
  { repeat match goal with H : Forall _ (_ :: _) |- _ => apply Forall_cons_1 in H as [? H] end. repeat split; assumption. }
  change (seq 0 64) with (map (λ j, 8 * 0 + j) (seq 0 8) ++ map (λ j, 8 * 1 + j) (seq 0 8) ++ map (λ j, 8 * 2 + j) (seq 0 8) ++ map (λ j, 8 * 3 + j) (seq 0 8) ++
    map (λ j, 8 * 4 + j) (seq 0 8) ++ map (λ j, 8 * 5 + j) (seq 0 8) ++ map (λ j, 8 * 6 + j) (seq 0 8) ++ map (λ j, 8 * 7 + j) (seq 0 8)).
  rewrite !fold_left_app, <- !eight_lines_steps.
  match goal with |- context [eight_lines (schedule M) 7 ?x] => destruct (eight_lines (schedule M) 7 x) as [[[[[[[a' b'] c'] d'] e'] f'] g'] h'] end.
  rewrite !word_sum_2. clear Hlt'. split; [|split; [reflexivity|]].
  2: { exact (sums_lt _ _ _ _ _ _ _ _ _ _ _ _ _ _ _ _). }
  rewrite (add32_comm a), (add32_comm b), (add32_comm c), (add32_comm d), (add32_comm e), (add32_comm f), (add32_comm g), (add32_comm h). reflexivity.
Qed.
