(** Proofs about TypeIDs. *)
From stdpp Require Import list strings numbers sets.
From Coq Require Import NArith Lia.
From Verif Require Import Reflection_Model Reflection_Spec.
From Verif Require CRC32_Model.
Local Open Scope nat_scope.
Local Opaque N.pow CRC32_Model.crc32_str range.

(** ** Nested induction *)
Lemma ctype_ind' (Q : ctype → Prop) :
  (∀ p, Q (TPrim p)) → (∀ e, Q (TEnum e)) → (∀ t n, Q t → Q (TArray t n)) → (∀ t, Q t → Q (TVector t)) →
  (∀ k v, Q k → Q v → Q (TMap k v)) → (∀ k v, Q k → Q v → Q (TUnorderedMap k v)) → (∀ t, Q t → Q (TSet t)) → (∀ t, Q t → Q (TUnorderedSet t)) →
  (∀ k v, Q k → Q v → Q (TPair k v)) → (∀ t, Q t → Q (TOptional t)) → (∀ n l, Forall Q l → Q (TVariant n l)) → (∀ s, Q (TStruct s)) → ∀ t, Q t.
Proof.
  intros H1 H2 H3 H4 H5 H6 H7 H8 H9 H10 H11 H12. fix IH 1. intros [p|e|t n|t|k v|k v|t|t|k v|t|n l|s].
  - apply H1. - apply H2. - apply H3, IH. - apply H4, IH. - apply H5; apply IH. - apply H6; apply IH. - apply H7, IH. - apply H8, IH.
  - apply H9; apply IH. - apply H10, IH. - apply H11. induction l as [|x l IHl]; constructor; [apply IH|exact IHl]. - apply H12.
Qed.

(** ** Bounds *)
Lemma range_val : range = 10000000000000000%N. Proof. reflexivity. Qed.
Lemma range_lt x : (x mod range < range)%N.
Proof. apply N.mod_lt. rewrite range_val. done. Qed.
Lemma lxor_lt_pow2 n a b : (a < 2 ^ n → b < 2 ^ n → N.lxor a b < 2 ^ n)%N.
Proof.
  intros Ha Hb. assert (N.lxor a b = N.lxor a b mod 2 ^ n)%N as ->; [|by apply N.mod_lt, N.pow_nonzero].
  apply N.bits_inj. intros i. destruct (N.lt_ge_cases i n).
  - by rewrite N.mod_pow2_bits_low.
  - rewrite N.mod_pow2_bits_high, N.lxor_spec by done. rewrite <- (N.mod_small a (2 ^ n)), <- (N.mod_small b (2 ^ n)) by done.
    rewrite !N.mod_pow2_bits_high by done. done.
Qed.
Lemma crc_bound s : (CRC32_Model.crc32_str s < 2 ^ 32)%N.
Proof.
  Local Transparent CRC32_Model.crc32_str.
  unfold CRC32_Model.crc32_str, CRC32_Model.crc32. apply lxor_lt_pow2; [|done].
  assert (N.lxor 0 CRC32_Model.all_ones < 2 ^ 32)%N as H0 by done. revert H0. generalize (N.lxor 0 CRC32_Model.all_ones).
  induction s as [|b s IH]; intros c Hc; [done|]. cbn [fold_left]. apply IH. unfold CRC32_Model.crc_step. apply lxor_lt_pow2.
  - assert (Forall (λ x, x < 2 ^ 32)%N CRC32_Model.crc32_table) as H.
    { apply Forall_forall. intros x Hx.
      assert (forallb (λ x, N.ltb x (2 ^ 32)) CRC32_Model.crc32_table = true) as Hf by (vm_compute; reflexivity).
      rewrite forallb_forall in Hf. apply N.ltb_lt, Hf. by apply elem_of_list_In. }
    destruct (nth_in_or_default (N.to_nat (N.land (N.lxor c b) 255)) CRC32_Model.crc32_table 0%N) as [Hin| ->]; [|done].
    rewrite List.Forall_forall in H. by apply H.
  - rewrite N.shiftr_div_pow2. eapply N.le_lt_trans; [apply N.div_le_upper_bound; [done|]|exact Hc]. change (2 ^ 8)%N with 256%N. lia.
Qed.
Local Opaque CRC32_Model.crc32_str.
Lemma rol64_small n : (n < 2 ^ 50)%N → rol64 n 7 = (n * 128)%N.
Proof.
  intros Hn. unfold rol64. change (N.land 7 63) with 7%N. change (N.land (64 - 7) 63) with 57%N. cbv zeta.
  rewrite N.shiftr_div_pow2, N.div_small, N.lor_0_r.
  - rewrite N.shiftl_mul_pow2. change (2 ^ 7)%N with 128%N. unfold m64. apply N.mod_small.
    change (2 ^ 50)%N with 1125899906842624%N in Hn. change (2 ^ 64)%N with 18446744073709551616%N. lia.
  - eapply N.lt_trans; [exact Hn|]. done.
Qed.
Lemma calculate_lt P t ids : (∀ e n, t = TArray e n → (n < 2 ^ 50)%N) → (calculate P t ids < uninitialized)%N.
Proof.
  intros Ha. assert (uninitialized = 18446744073709551615%N) as -> by reflexivity.
  assert (∀ p x, (p ≤ 999)%N → (x < range)%N → (base p + x < 18446744073709551615)%N) as H.
  { intros p x Hp Hx. unfold base. rewrite range_val in *. lia. }
  destruct t as [p|e|t n|t|k v|k v|t|t|k v|t|o l|s]; cbn [calculate]; cbv zeta; try (apply H; [done|apply range_lt]).
  - apply H; [done|]. rewrite range_val. by destruct p.
  - apply H; [done|]. eapply N.lt_le_trans; [apply crc_bound|]. rewrite range_val. done.
  - rewrite rol64_small by (by eapply Ha). unfold m64. pose proof (range_lt (rol64 (nth 0 ids uninitialized) 3)) as Hr. specialize (Ha _ _ eq_refl).
    rewrite range_val in Hr. unfold base. rewrite range_val. change (2 ^ 50)%N with 1125899906842624%N in Ha. change (2 ^ 64)%N with 18446744073709551616%N.
    rewrite N.mod_small; lia.
  - destruct (match s_super (structs P s) with Some _ => _ | None => _ end) as [sup ids']. destruct (match s_inner (structs P s) with Some _ => _ | None => _ end) as [nm ids''].
    apply H; [done|apply range_lt].
Qed.
Lemma calculate_bound P t ids : (∀ e n, t = TArray e n → (n < 2 ^ 50)%N) → calculate P t ids ≠ uninitialized.
Proof. intros H. by apply N.lt_neq, calculate_lt. Qed.
Lemma placeholder_bound P t : (base 999 + CRC32_Model.crc32_str (type_name P t) mod range)%N ≠ uninitialized.
Proof. assert (uninitialized = 18446744073709551615%N) as -> by reflexivity. pose proof (range_lt (CRC32_Model.crc32_str (type_name P t))) as H. unfold base. rewrite range_val in *. lia. Qed.

(** ** Lookups *)
Lemma find_cons_eq {K V} `{EqDecision K} (k : K) (v : V) m : find k ((k, v) :: m) = Some v.
Proof. simpl. by rewrite decide_True. Qed.
Lemma find_cons_ne {K V} `{EqDecision K} (k k' : K) (v : V) m : k ≠ k' → find k ((k', v) :: m) = find k m.
Proof. intros H. simpl. by rewrite decide_False. Qed.

(** ** The traversal is defined and does not depend on the fuel *)
Definition valid (c : cache) : Prop := ∀ t v, find t c = Some v → v ≠ uninitialized.
Definition missing (U : list ctype) (c : cache) : nat := length (filter (λ t, find t c = None) U).
Lemma missing_mono U c c' : (∀ t, find t c ≠ None → find t c' ≠ None) → missing U c' ≤ missing U c.
Proof.
  intros H. unfold missing. induction U as [|t U IH]; [done|]. rewrite !filter_cons.
  destruct (decide (find t c = None)), (decide (find t c' = None)); simpl; try lia. exfalso. by apply (H t).
Qed.
Lemma missing_less U c t v : t ∈ U → find t c = None → missing U ((t, v) :: c) < missing U c.
Proof.
  intros Hin Ht. unfold missing. induction U as [|u U IH]; [inversion Hin|]. rewrite !filter_cons.
  pose proof (missing_mono U c ((t, v) :: c)) as Hm. unfold missing in Hm.
  assert (∀ t0, find t0 c ≠ None → find t0 ((t, v) :: c) ≠ None) as Hx by (intros t0 H0; simpl; by case_decide). specialize (Hm Hx).
  destruct (decide (u = t)) as [->|Hne].
  - rewrite decide_False by (by rewrite find_cons_eq). rewrite decide_True by done. simpl in *. lia.
  - rewrite (find_cons_ne u t) by done. apply elem_of_cons in Hin as [Hin|Hin]; [by symmetry in Hin|]. specialize (IH Hin).
    destruct (decide (find u c = None)); simpl; simpl in IH; lia.
Qed.

Lemma visit_spec {S A R} (f : S → A → option (S * R)) (I : S → Prop) (le : S → S → Prop) (Q : A → R → S → Prop) l :
  (∀ s, le s s) → (∀ s s' s'', le s s' → le s' s'' → le s s'') → (∀ x r s s', Q x r s → le s s' → Q x r s') →
  (∀ s x, I s → x ∈ l → ∃ s' r, f s x = Some (s', r) ∧ I s' ∧ le s s' ∧ Q x r s') →
  ∀ s, I s → ∃ s' rs, visit f s l = Some (s', rs) ∧ I s' ∧ le s s' ∧ Forall2 (λ x r, Q x r s') l rs.
Proof.
  intros Hrefl Htrans HQ. induction l as [|x l IH]; intros Hf s HI.
  - exists s, []. simpl. repeat split; auto.
  - destruct (Hf s x HI ltac:(set_solver)) as (s1 & r & E1 & HI1 & L1 & Q1).
    destruct (IH (λ s x Hs Hx, Hf s x Hs (elem_of_list_further _ _ _ Hx)) s1 HI1) as (s2 & rs & E2 & HI2 & L2 & Q2).
    exists s2, (r :: rs). simpl. rewrite E1. simpl. rewrite E2. simpl. repeat split; eauto.
Qed.
Lemma visit_ext {S A R} (f g : S → A → option (S * R)) l : (∀ s x, x ∈ l → f s x = g s x) → ∀ s, visit f s l = visit g s l.
Proof.
  induction l as [|x l IH]; intros H s; [done|]. simpl. rewrite H by set_solver. destruct (g s x) as [[s' r]|]; simpl; [|done].
  rewrite IH; [done|]. intros. apply H. set_solver.
Qed.
Lemma visit_refs_spec {S R} rtl (f : S → ctype → option (S * R)) (I : S → Prop) (le : S → S → Prop) (Q : ctype → R → S → Prop) P t :
  (∀ s, le s s) → (∀ s s' s'', le s s' → le s' s'' → le s s'') → (∀ x r s s', Q x r s → le s s' → Q x r s') →
  (∀ s x, I s → x ∈ refs P t → ∃ s' r, f s x = Some (s', r) ∧ I s' ∧ le s s' ∧ Q x r s') →
  ∀ s, I s → ∃ s' rs, visit_refs rtl f s P t = Some (s', rs) ∧ I s' ∧ le s s' ∧ Forall2 (λ x r, Q x r s') (refs P t) rs.
Proof.
  intros Hrefl Htrans HQ Hf s HI. unfold visit_refs. destruct (rtl && by_arguments t).
  - destruct (visit_spec f I le Q (rev (refs P t)) Hrefl Htrans HQ) with (s := s) as (s' & rs & E & H1 & H2 & H3); [|done|].
    { intros s0 x Hs Hx. apply Hf; [done|]. rewrite elem_of_list_In in *. by apply in_rev. }
    rewrite E. exists s', (rev rs). simpl. split; [done|]. split; [done|]. split; [done|].
    rewrite !rev_alt in *. rewrite <- (reverse_involutive (refs P t)). unfold reverse at 1. 
    apply Forall2_reverse in H3. unfold reverse in *. done.
  - by apply visit_spec with (I := I).
Qed.
