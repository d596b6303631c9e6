(** Properties C20, C21 and C22. *)
From stdpp Require Import list sorting.
From Verif Require Import Owned_Model Owned_Spec Owned_Proofs.

Section Props.
  Context {C : Type}.
  Implicit Types s : state C.
  Notation keys l := (map fst l).

  (** ** C20 *)
  (** The destructor of the owner does not return while a handle refers to the instance. *)
  Theorem C20_owner_waits : ∀ s h i, reachable s → refers s h i → dtor (insts s i) ≠ Destroyed.
  Proof. intros s h i H%reachable_inv. by apply refers_not_destroyed. Qed.

  (** What may change the instance to which handle [h] refers. *)
  Definition may_change (a : action C) (h : nat) : Prop :=
    match a with
    | MakeOwned h' | Release h' | ReleaseNotify h' | Destroy h' | Borrow h' _ _ => h = h'
    | MoveOwned h' g | MoveConstruct h' g _ | MoveAssign h' g _ => h = h' ∨ h = g
    | Continue _ | SpuriousWake _ => False
    end.
  (** A handle refers to its instance until it is itself released, moved from, or moved to. *)
  Theorem C20_reference_kept : ∀ s a s' h i, exec s a = Some s' → ¬ may_change a h → refers s h i → refers s' h i.
  Proof.
    intros s a s' h i H Hn R. unfold refers in *. destruct a as [h'|h' g|h' g cb|h' g cb|h' g cb|h'|h'|h'|j|j]; cbn [exec may_change] in *.
    - destruct (is_null _); [|done]. injection H as <-. cbn. by rewrite upd_ne.
    - destruct (container (handles s g)); [|done]. destruct (is_null _); [|done]. injection H as <-. cbn. by rewrite !upd_ne by naive_solver.
    - destruct (p_actual_instance (handles s g)); [|done]. destruct (is_null _); [|done]. injection H as <-. cbn. by rewrite upd_ne.
    - destruct (p_actual_instance (handles s g)); [|done]. destruct (is_null _); [|done]. injection H as <-. cbn. by rewrite !upd_ne by naive_solver.
    - destruct (p_actual_instance (handles s g)); [|done]. destruct (container _); [done|]. destruct (releasing _); [done|]. injection H as <-. cbn. by rewrite !upd_ne by naive_solver.
    - destruct (p_actual_instance (handles s h')); [|done]. destruct (container _); [done|]. cbv zeta in H. destruct (decide _); injection H as <-; cbn; by rewrite upd_ne.
    - destruct (releasing (handles s h')) as [[j b]|]; [|done]. injection H as <-. cbn. by rewrite upd_ne.
    - destruct (container (handles s h')); [|done]. injection H as <-. cbn. by rewrite upd_ne.
    - cbv zeta in H. destruct (dtor (insts s j)) as [| |[|]| | |]; try done; by injection H as <-.
    - cbv zeta in H. destruct (dtor (insts s j)); try done; by injection H as <-.
  Qed.

  (** A handle is valid exactly if it refers to an instance whose destruction has not begun; once it has, it is so for ever. *)
  Theorem C20_validity : ∀ s h, reachable s → is_valid s h = true ↔ ∃ i, refers s h i ∧ dtor (insts s i) = Alive.
  Proof.
    intros s h H%reachable_inv. unfold is_valid, refers. destruct (p_actual_instance (handles s h)) as [i|]; [|split; [done|by intros (? & ? & _)]].
    pose proof (i_flag s H i) as F. destruct (destructing (insts s i)) eqn:E; split; cbn.
    - done.
    - intros (j & [= <-] & Ha). by destruct F as [F _]; specialize (F eq_refl).
    - intros _. exists i. split; [done|]. destruct (dtor (insts s i)) eqn:Ed; try done; exfalso; assert (false = true) by (apply F; done); done.
    - done.
  Qed.
  Lemma destruct_forever_step s a s' i : inv s → i < next s → dtor (insts s i) ≠ Alive → exec s a = Some s' → i < next s' ∧ dtor (insts s' i) ≠ Alive.
  Proof.
    intros I Hi Hd H.
    assert (∀ j x, (j = i → dtor x ≠ Alive) → dtor (upd (insts s) j x i) ≠ Alive) as U. { intros j x Hx. unfold upd. case_decide; [by apply Hx|done]. }
    destruct a as [h'|h' g|h' g cb|h' g cb|h' g cb|h'|h'|h'|j|j]; cbn [exec] in H.
    - destruct (is_null _); [|done]. injection H as <-. cbn [insts next]. split; [lia|]. apply U. lia.
    - destruct (container (handles s g)); [|done]. destruct (is_null _); [|done]. by injection H as <-.
    - destruct (p_actual_instance (handles s g)); [|done]. destruct (is_null _); [|done]. injection H as <-. cbn [insts next]. split; [done|]. apply U. by intros ->.
    - destruct (p_actual_instance (handles s g)); [|done]. destruct (is_null _); [|done]. injection H as <-. cbn [insts next move_from]. split; [done|]. apply U. by intros ->.
    - destruct (p_actual_instance (handles s g)); [|done]. destruct (container _); [done|]. destruct (releasing _); [done|]. injection H as <-. cbn [insts next move_from]. split; [done|]. apply U. by intros ->.
    - destruct (p_actual_instance (handles s h')); [|done]. destruct (container _); [done|]. cbv zeta in H. destruct (decide _); injection H as <-; cbn [insts next]; split; try done. apply U. by intros ->.
    - destruct (releasing (handles s h')) as [[j b]|]; [|done]. injection H as <-. cbn [insts next]. split; [done|]. destruct b; [|done]. apply U. intros ->. cbn. by destruct (dtor (insts s i)).
    - destruct (container (handles s h')) as [j|]; [|done]. injection H as <-. cbn [insts next]. split; [done|]. apply U. done.
    - cbv zeta in H. destruct (dtor (insts s j)) as [| |[|]| | |] eqn:E; try done; injection H as <-; cbn [insts next]; (split; [done|]); apply U; intros ->; cbn; try done; by destruct (decide _).
    - cbv zeta in H. destruct (dtor (insts s j)) eqn:E; try done; injection H as <-; cbn [insts next]; (split; [done|]); by apply U.
  Qed.
  Lemma continuation_inv s s' : inv s → reachable_from anything s s' → inv s'.
  Proof. intros I H. induction H; [done|]. by eapply inv_step. Qed.
  Theorem C20_invalid_after_destruction_began : ∀ s s' h h' i s1,
    reachable s → container (handles s h) = Some i → exec s (Destroy h) = Some s1 → reachable_from anything s1 s' → refers s' h' i → is_valid s' h' = false.
  Proof.
    intros s s' h h' i s1 H Hc H1 H2 R. pose proof (reachable_inv _ _ H) as I. pose proof (inv_step _ _ _ I H1) as I1.
    assert (i < next s1 ∧ dtor (insts s1 i) ≠ Alive) as [A B]. { destruct (i_owner s I h i Hc) as (A & _). cbn [exec] in H1. rewrite Hc in H1. injection H1 as <-. cbn. by rewrite upd_eq. }
    assert (inv s' ∧ i < next s' ∧ dtor (insts s' i) ≠ Alive) as (I' & _ & B').
    { clear R. induction H2 as [|s2 a s3 H2 IH _ H3]; [done|]. destruct IH as (I2 & A2 & B2). destruct (destruct_forever_step s2 a s3 i I2 A2 B2 H3). split_and!; try done. by eapply inv_step. }
    unfold is_valid. rewrite R. apply (i_flag s' I' i) in B'. by rewrite B'.
  Qed.

  (** The steps which read or write the memory of instance [i]. *)
  Definition touches s (a : action C) (i : nat) : Prop :=
    match a with
    | Borrow _ g _ | MoveConstruct _ g _ | MoveAssign _ g _ => refers s g i
    | Release h => refers s h i ∧ key (handles s h) ≠ 0
    | ReleaseNotify h => releasing (handles s h) = Some (i, true)
    | Destroy h => container (handles s h) = Some i
    | Continue j | SpuriousWake j => i = j
    | MakeOwned _ | MoveOwned _ _ => False
    end.
  (** After its destruction an instance is touched only by the notification at the end of a release. *)
  Theorem C20_no_use_after_destruction_partial : ∀ s a s' i, reachable s → dtor (insts s i) = Destroyed → exec s a = Some s' → touches s a i → ∃ h, a = ReleaseNotify h.
  Proof.
    intros s a s' i H Hd Hs T. pose proof (reachable_inv _ _ H) as I. assert (∀ h, ¬ refers s h i) as N by (intros h R; by apply (C20_owner_waits s h i H R)).
    destruct a as [h'|h' g|h' g cb|h' g cb|h' g cb|h'|h'|h'|j|j]; cbn [touches] in T; try done.
    - by apply N in T.
    - by apply N in T.
    - by apply N in T.
    - destruct T as [T _]. by apply N in T.
    - by exists h'.
    - destruct (i_owner s I h' i T) as (_ & E & _). congruence.
    - subst j. cbn [exec] in Hs. by rewrite Hd in Hs.
    - subst j. cbn [exec] in Hs. by rewrite Hd in Hs.
  Qed.

  (** ** C21 *)
  Definition all_accounted s : Prop := ∀ i k, k ∈ keys (borrowers (insts s i)) → k ≠ 0 ∧ ∃ h, borrower s h i ∧ key (handles s h) = k.
  Lemma accounted_move s h g i cb : inv s → all_accounted s → borrower s g i → p_actual_instance (handles s h) = None → container (handles s h) = None → releasing (handles s h) = None →
    all_accounted (move_from s h g i cb).
  Proof.
    intros I A [G1 G2] Hp Hc Hr j k. unfold refers in G1. assert (h ≠ g) as Hne by (intros ->; congruence). unfold move_from. cbn [insts handles].
    assert (∀ q, q ∈ keys (borrowers (upd (insts s) i (with_borrowers (insts s i) (put (key (handles s g)) cb (borrowers (insts s i))) (total (insts s i))) j)) ↔ q ∈ keys (borrowers (insts s j))) as E.
    { intros q. unfold upd. case_decide; [subst|done]. cbn. rewrite put_keys. split; [|by right]. intros [->|?]; [|done]. by apply (i_registered s I). }
    rewrite E. intros Hk. destruct (A j k Hk) as (Hk0 & h' & [B1 B2] & B3). split; [done|]. unfold refers in B1.
    destruct (decide (h' = g)) as [->|Hn].
    - exists h. rewrite G1 in B1. injection B1 as <-. unfold borrower, refers. cbn. rewrite upd_ne by done. rewrite upd_eq. done.
    - exists h'. assert (h' ≠ h) by (intros ->; congruence). unfold borrower, refers. cbn. by rewrite !upd_ne.
  Qed.
  Lemma accounted_step s a s' : inv s → all_accounted s → careful s a → exec s a = Some s' → all_accounted s'.
  Proof.
    intros I A Hc H. destruct a as [h|h g|h g cb|h g cb|h g cb|h|h|h|i|i]; cbn [exec] in H; cbn [careful] in Hc.
    - destruct (is_null _) eqn:En; [|done]. apply is_null_spec in En as (N1 & N2 & N3). injection H as <-. intros j k. cbn [insts handles]. destruct (decide (j = next s)) as [->|Hj]; [rewrite upd_eq; by intros ?%elem_of_nil|].
      rewrite upd_ne by done. intros Hk. destruct (A j k Hk) as (Hk0 & h' & [B1 B2] & B3). split; [done|]. exists h'. unfold refers in B1. assert (h' ≠ h) by (intros ->; congruence). unfold borrower, refers. cbn. by rewrite upd_ne.
    - destruct (container (handles s g)) as [n|] eqn:Eg; [|done]. destruct (is_null _) eqn:En; [|done]. apply is_null_spec in En as (N1 & N2 & N3). injection H as <-. intros j k Hk. cbn [insts handles] in *.
      destruct (A j k Hk) as (Hk0 & h' & [B1 B2] & B3). split; [done|]. exists h'. unfold refers in B1. assert (h' ≠ h) by (intros ->; congruence). assert (h' ≠ g) by (intros ->; congruence). unfold borrower, refers. cbn. by rewrite !upd_ne.
    - destruct (p_actual_instance (handles s g)) as [i|] eqn:Eg; [|done]. destruct (is_null _) eqn:En; [|done]. apply is_null_spec in En as (N1 & N2 & N3). cbv zeta in H. injection H as <-. intros j k. cbn [insts handles].
      assert (k ∈ keys (borrowers (insts s j)) → k ≠ 0 ∧ ∃ h', h' ≠ h ∧ borrower s h' j ∧ key (handles s h') = k) as A'.
      { intros Hk. destruct (A j k Hk) as (Hk0 & h' & [B1 B2] & B3). split; [done|]. exists h'. split; [|done]. unfold refers in B1. intros ->; congruence. }
      destruct (decide (j = i)) as [->|Hj]; [rewrite upd_eq; cbn [with_borrowers borrowers]; rewrite put_keys; intros [->|Hk]|rewrite upd_ne by done; intros Hk].
      + split; [done|]. exists h. unfold borrower, refers. cbn. by rewrite upd_eq.
      + destruct (A' Hk) as (? & h' & ? & B & ?). split; [done|]. exists h'. unfold borrower, refers in *. cbn. by rewrite upd_ne.
      + destruct (A' Hk) as (? & h' & ? & B & ?). split; [done|]. exists h'. unfold borrower, refers in *. cbn. by rewrite upd_ne.
    - destruct (p_actual_instance (handles s g)) as [i|] eqn:Eg; [|done]. destruct (is_null _) eqn:En; [|done]. apply is_null_spec in En as (N1 & N2 & N3). injection H as <-. by apply accounted_move.
    - destruct (p_actual_instance (handles s g)) as [i|] eqn:Eg; [|done]. destruct (container (handles s h)) eqn:E1; [done|]. destruct (releasing (handles s h)) eqn:E2; [done|]. injection H as <-. destruct Hc. by apply accounted_move.
    - destruct (p_actual_instance (handles s h)) as [i|] eqn:Eh; [|done]. destruct (container (handles s h)) eqn:Ec; [done|]. cbv zeta in H.
      assert (∀ j k, k ∈ keys (borrowers (insts s j)) → (j, k) ≠ (i, key (handles s h)) → k ≠ 0 ∧ ∃ h', h' ≠ h ∧ borrower s h' j ∧ key (handles s h') = k) as A'.
      { intros j k Hk Hjk. destruct (A j k Hk) as (Hk0 & h' & [B1 B2] & B3). split; [done|]. exists h'. split; [|done]. unfold refers in B1. intros ->. apply Hjk. congruence. }
      destruct (decide (key (handles s h) = 0)) as [Hk|Hk]; injection H as <-; intros j k; cbn [insts handles].
      + intros Hj. destruct (A' j k Hj) as (? & h' & ? & B & ?). { destruct (A j k Hj) as (? & _). congruence. } split; [done|]. exists h'. unfold borrower, refers in *. cbn. by rewrite upd_ne.
      + intros Hj. assert (k ∈ keys (borrowers (insts s j)) ∧ (j, k) ≠ (i, key (handles s h))) as [Hj1 Hj2].
        { destruct (decide (j = i)) as [->|Hn]; [rewrite upd_eq in Hj; cbn in Hj; apply del_keys in Hj as [? ?]; split; [done|congruence]|rewrite upd_ne in Hj by done; split; [done|congruence]]. }
        destruct (A' j k Hj1 Hj2) as (? & h' & ? & B & ?). split; [done|]. exists h'. unfold borrower, refers in *. cbn. by rewrite upd_ne.
    - destruct (releasing (handles s h)) as [[i b]|] eqn:Er; [|done]. cbv zeta in H. injection H as <-. intros j k. cbn [insts handles]. intros Hk.
      assert (k ∈ keys (borrowers (insts s j))) as Hk'. { destruct b; [|done]. unfold upd in Hk. case_decide; [subst; done|done]. }
      destruct (A j k Hk') as (Hk0 & h' & [B1 B2] & B3). split; [done|]. exists h'. unfold refers in B1. destruct (i_releasing s I h i b Er) as (_ & _ & E). assert (h' ≠ h) by (intros ->; congruence). unfold borrower, refers. cbn. by rewrite upd_ne.
    - destruct (container (handles s h)) as [i|] eqn:Ec; [|done]. cbv zeta in H. injection H as <-. intros j k. cbn [insts handles]. intros Hk.
      assert (k ∈ keys (borrowers (insts s j))) as Hk'. { unfold upd in Hk. case_decide; [subst; done|done]. }
      destruct (A j k Hk') as (Hk0 & h' & [B1 B2] & B3). split; [done|]. exists h'. assert (h' ≠ h) by (intros ->; congruence). unfold borrower, refers. cbn. by rewrite upd_ne.
    - cbv zeta in H. assert (handles s' = handles s ∧ ∀ j, borrowers (insts s' j) = borrowers (insts s j)) as [E1 E2].
      { destruct (dtor (insts s i)) as [| |[|]| | |]; try done; injection H as <-; (split; [done|]); intros j; cbn; unfold upd; case_decide; subst; done. }
      intros j k. rewrite E2. unfold borrower, refers. rewrite E1. apply A.
    - cbv zeta in H. assert (handles s' = handles s ∧ ∀ j, borrowers (insts s' j) = borrowers (insts s j)) as [E1 E2].
      { destruct (dtor (insts s i)); try done; injection H as <-; (split; [done|]); intros j; cbn; unfold upd; case_decide; subst; done. }
      intros j k. rewrite E2. unfold borrower, refers. rewrite E1. apply A.
  Qed.
  Lemma careful_accounted s : reachable_from careful initial s → all_accounted s.
  Proof. intros H. induction H as [|s1 a s2 H IH Hc Hs]; [by intros i k ?%elem_of_nil|]. eapply accounted_step; try done. by eapply reachable_inv. Qed.
  Lemma choose_handles (f : nat → nat) (P : nat → Prop) (l : list nat) : NoDup l → (∀ k, k ∈ l → ∃ h, P h ∧ f h = k) →
    ∃ l', NoDup l' ∧ length l' = length l ∧ ∀ h, h ∈ l' → P h ∧ f h ∈ l.
  Proof.
    induction 1 as [|k l Hk Hl IH]; intros H. { exists []. split_and!; try done; [constructor|by intros h ?%elem_of_nil]. }
    destruct IH as (l' & N & L & Hl'). { intros. apply H. by right. } destruct (H k) as (h & Ph & Fh); [by left|].
    exists (h :: l'). split_and!.
    - constructor; [|done]. intros E. apply Hl' in E as [_ E]. by rewrite Fh in E.
    - simpl. by rewrite L.
    - intros h' [->|E]%elem_of_cons; [rewrite Fh; split; [done|by left]|]. apply Hl' in E as [? ?]. split; [done|by right].
  Qed.
  (** The number of active borrowers is the number of handles which refer to the instance, other than the owner. *)
  Theorem C21_number_of_borrowers_partial : ∀ s i, reachable_from careful initial s →
    ∃ l, NoDup l ∧ (∀ h, h ∈ l ↔ borrower s h i) ∧ number_of_active_borrowers s i = length l.
  Proof.
    intros s i H. pose proof (reachable_inv _ _ H) as I. pose proof (careful_accounted s H) as A.
    pose proof (sorted_nodup _ (i_sorted s I i)) as N.
    destruct (choose_handles (λ h, key (handles s h)) (λ h, borrower s h i) (keys (borrowers (insts s i))) N) as (l & L1 & L2 & L3). { intros k Hk. by destruct (A i k Hk) as (_ & ? & ? & ?); eauto. }
    assert (number_of_active_borrowers s i = length l) as Hn. { unfold number_of_active_borrowers. by rewrite L2, map_length. }
    exists l. split_and!; try done. intros h. split; [by intros [? _]%L3|]. intros B.
    (* the keys of [l] are all the keys, so one of [l] has the key of [h] *)
    assert (keys (borrowers (insts s i)) ⊆ map (λ h, key (handles s h)) l) as Hsub.
    { assert (submseteq (map (λ h, key (handles s h)) l) (keys (borrowers (insts s i)))) as Hs.
      { apply NoDup_submseteq; [|intros k Hk; apply elem_of_list_fmap in Hk as (h' & -> & Hh'); by apply L3].
        apply NoDup_fmap_2_strong; [|done]. intros x y Hx Hy E. apply L3 in Hx as [Bx Kx], Hy as [By Ky]. apply (i_distinct s I x y i Bx By E). by destruct (A i _ Kx). }
      apply submseteq_Permutation_length_eq in Hs; [|rewrite map_length; unfold number_of_active_borrowers in Hn; rewrite map_length; lia]. intros k Hk. first [by rewrite Hs|by rewrite <- Hs]. }
    pose proof (i_registered s I h i B) as K. apply Hsub in K. apply elem_of_list_fmap in K as (h' & E & Hh'). destruct (L3 h' Hh') as [B' K']. 
    assert (h = h') as ->; [|done]. apply (i_distinct s I h h' i); try done. rewrite E. by destruct (A i _ K').
  Qed.
  (** With no borrower left the number is zero. *)
  Theorem C21_all_released_partial : ∀ s i, reachable_from careful initial s → (∀ h, ¬ borrower s h i) → number_of_active_borrowers s i = 0.
  Proof. intros s i H Hn. destruct (C21_number_of_borrowers_partial s i H) as (l & _ & L2 & ->). destruct l as [|h l]; [done|]. destruct (Hn h). apply L2. by left. Qed.

  Lemma run_reachable run acts (ok : state C → action C → Prop) : execution run acts → (∀ n a, acts n = Some a → ok (run n) a) → ∀ n, reachable_from ok initial (run n).
  Proof.
    intros [S0 F] Hok n. induction n as [|n IH]; [rewrite S0; constructor|]. specialize (F n). destruct (acts n) as [a|] eqn:E.
    - eapply there; [done| |done]. by apply Hok.
    - by rewrite F.
  Qed.
  Definition active (d : destructor C) : Prop := match d with Flagged | Calling _ | Woken => True | _ => False end.
  Definition after (x : inst C) : destructor C := match dtor x with Flagged => Calling (borrowers x) | Calling (_ :: r) => Calling r | _ => Destroyed end.
  Lemma dtor_stays s a s' i : inv s → i < next s → exec s a = Some s' → active (dtor (insts s i)) → a ≠ Continue i → dtor (insts s' i) = dtor (insts s i).
  Proof.
    intros I Hi H Ha Hn.
    assert (∀ j x, (j = i → dtor x = dtor (insts s i)) → dtor (upd (insts s) j x i) = dtor (insts s i)) as U. { intros j x Hx. unfold upd. case_decide; [subst; by apply Hx|done]. }
    destruct a as [h'|h' g|h' g cb|h' g cb|h' g cb|h'|h'|h'|j|j]; cbn [exec] in H.
    - destruct (is_null _); [|done]. injection H as <-. cbn [insts]. apply U. lia.
    - destruct (container (handles s g)); [|done]. destruct (is_null _); [|done]. by injection H as <-.
    - destruct (p_actual_instance (handles s g)); [|done]. destruct (is_null _); [|done]. injection H as <-. cbn [insts]. apply U. by intros ->.
    - destruct (p_actual_instance (handles s g)); [|done]. destruct (is_null _); [|done]. injection H as <-. cbn [insts move_from]. apply U. by intros ->.
    - destruct (p_actual_instance (handles s g)); [|done]. destruct (container _); [done|]. destruct (releasing _); [done|]. injection H as <-. cbn [insts move_from]. apply U. by intros ->.
    - destruct (p_actual_instance (handles s h')); [|done]. destruct (container _); [done|]. cbv zeta in H. destruct (decide _); injection H as <-; cbn [insts]; try done. apply U. by intros ->.
    - destruct (releasing (handles s h')) as [[j b]|]; [|done]. injection H as <-. cbn [insts]. destruct b; [|done]. apply U. intros ->. cbn. by destruct (dtor (insts s i)).
    - destruct (container (handles s h')) as [j|] eqn:E; [|done]. injection H as <-. cbn [insts]. apply U. intros ->. destruct (i_owner s I h' i E) as (_ & E' & _). by rewrite E' in Ha.
    - assert (j ≠ i) as Hj by congruence. cbv zeta in H. destruct (dtor (insts s j)) as [| |[|]| | |] eqn:E; try done; injection H as <-; cbn [insts]; by apply U.
    - cbv zeta in H. destruct (decide (j = i)) as [->|Hj]; [by destruct (dtor (insts s i))|]. destruct (dtor (insts s j)) eqn:E; try done; injection H as <-; cbn [insts]; by apply U.
  Qed.
  Lemma action_continue (a : action C) i : a = Continue i ∨ a ≠ Continue i.
  Proof. destruct a as [| | | | | | | |j|]; try (right; done). destruct (decide (j = i)) as [->|]; [by left|right; congruence]. Qed.
  Lemma borrowers_none s i : reachable_from careful initial s → (∀ h, ¬ borrower s h i) → borrowers (insts s i) = [].
  Proof. intros H Hn. pose proof (C21_all_released_partial s i H Hn) as E. unfold number_of_active_borrowers in E. by destruct (borrowers (insts s i)). Qed.
  Lemma next_grows s a s' : exec s a = Some s' → next s ≤ next s'.
  Proof.
    intros H. destruct a as [h'|h' g|h' g cb|h' g cb|h' g cb|h'|h'|h'|j|j]; cbn [exec] in H.
    - destruct (is_null _); [|done]. injection H as <-. cbn. lia.
    - destruct (container (handles s g)); [|done]. destruct (is_null _); [|done]. by injection H as <-.
    - destruct (p_actual_instance (handles s g)); [|done]. destruct (is_null _); [|done]. by injection H as <-.
    - destruct (p_actual_instance (handles s g)); [|done]. destruct (is_null _); [|done]. by injection H as <-.
    - destruct (p_actual_instance (handles s g)); [|done]. destruct (container _); [done|]. destruct (releasing _); [done|]. by injection H as <-.
    - destruct (p_actual_instance (handles s h')); [|done]. destruct (container _); [done|]. cbv zeta in H. destruct (decide _); by injection H as <-.
    - destruct (releasing (handles s h')) as [[j b]|]; [|done]. by injection H as <-.
    - destruct (container (handles s h')) as [j|]; [|done]. by injection H as <-.
    - cbv zeta in H. destruct (dtor (insts s j)) as [| |[|]| | |] eqn:E; try done; by injection H as <-.
    - cbv zeta in H. destruct (dtor (insts s j)) eqn:E; try done; by injection H as <-.
  Qed.
  Section Liveness.
    Context (run : nat → state C) (acts : nat → option (action C)) (i : nat).
    Context (HE : execution run acts) (HF : fair run acts) (Hcare : ∀ n a, acts n = Some a → careful (run n) a).
    Lemma run_careful n : reachable_from careful initial (run n).
    Proof. by eapply run_reachable. Qed.
    Lemma run_inv n : inv (run n).
    Proof. eapply reachable_inv, run_careful. Qed.
    Lemma run_next n : i < next (run n) → i < next (run (S n)).
    Proof. intros H. destruct HE as [_ F]. specialize (F n). destruct (acts n) as [a|]; [apply next_grows in F; lia|by rewrite F]. Qed.
    Lemma continue_after n : (∀ h, ¬ borrower (run n) h i) → active (dtor (insts (run n) i)) → acts n = Some (Continue i) → dtor (insts (run (S n)) i) = after (insts (run n) i).
    Proof.
      intros Hn Ha E. destruct HE as [_ F]. specialize (F n). rewrite E in F. cbn [exec] in F. cbv zeta in F. unfold after.
      pose proof (borrowers_none _ i (run_careful n) Hn) as Hb.
      destruct (dtor (insts (run n) i)) as [| |[|]| | |] eqn:Ed; try done; injection F as <-; cbn [insts]; rewrite upd_eq; cbn; try done; by rewrite Hb.
    Qed.
    Lemma advance n : i < next (run n) → (∀ m h, n ≤ m → ¬ borrower (run m) h i) → active (dtor (insts (run n) i)) →
      ∃ m, n ≤ m ∧ i < next (run m) ∧ (dtor (insts (run m) i) = after (insts (run n) i)).
    Proof.
      intros Hi Hn Ha. destruct HF as [Hf _]. destruct (Hf n i) as (m & Hm & Hd). 1-3: by destruct (dtor (insts (run n) i)). clear Hf.
      remember (m - n) as k eqn:Ek. revert n Hi Hn Ha Hm Ek. induction k as [|k IH]; intros n Hi Hn Ha Hm Ek.
      - assert (m = n) as -> by lia. exists (S n). split_and!; [lia|by apply run_next|]. apply continue_after; try done. by intros h; apply Hn.
      - assert ((dtor (insts (run (S n)) i) = dtor (insts (run n) i) ∧ after (insts (run (S n)) i) = after (insts (run n) i)) ∨ dtor (insts (run (S n)) i) = after (insts (run n) i)) as [[E E']|E].
        { pose proof HE as [_ F]. specialize (F n). destruct (acts n) as [a|] eqn:Ea; [|left; by rewrite F].
          destruct (action_continue a i) as [->|Hne]. { right. apply continue_after; try done. by intros h; apply Hn. }
          left. assert (dtor (insts (run (S n)) i) = dtor (insts (run n) i)) as E by (eapply dtor_stays; eauto using run_inv). split; [done|]. unfold after. rewrite E.
          rewrite (borrowers_none _ i (run_careful n)) by (intros h; by apply Hn). rewrite (borrowers_none _ i (run_careful (S n))) by (intros h; apply Hn; lia). done. }
        + destruct (IH (S n)) as (m' & ? & ? & Hm'); [by apply run_next|intros; apply Hn; lia|by rewrite E|lia|lia|]. exists m'. split_and!; [lia|done|]. by rewrite Hm', E'.
        + exists (S n). split_and!; [lia|by apply run_next|done].
    Qed.
    Lemma sleeping_wakes n : i < next (run n) → (∀ m h, n ≤ m → ¬ borrower (run m) h i) → dtor (insts (run n) i) = Sleeping → ∃ m, n ≤ m ∧ i < next (run m) ∧ dtor (insts (run m) i) = Woken.
    Proof.
      intros Hi Hn Hs. destruct (i_sleep _ (run_inv n) i Hs) as [Hb|[h Hh]]. { destruct Hb. apply borrowers_none; [apply run_careful|]. intros h. by apply Hn. }
      destruct HF as [_ Hf]. destruct (Hf n h) as (m & Hm & Hd). { by rewrite Hh. } clear Hf.
      remember (m - n) as k eqn:Ek. revert n Hi Hn Hs Hm Ek Hh. induction k as [|k IH]; intros n Hi Hn Hs Hm Ek Hh.
      - assert (m = n) as -> by lia. exists (S n). split_and!; [lia|by apply run_next|]. destruct HE as [_ F]. specialize (F n). rewrite Hd in F. cbn [exec] in F. rewrite Hh in F. injection F as <-. cbn [insts]. rewrite upd_eq. cbn. by rewrite Hs.
      - assert (dtor (insts (run (S n)) i) = Woken ∨ dtor (insts (run (S n)) i) = Sleeping ∧ releasing (handles (run (S n)) h) = Some (i, true)) as [E|[E E']].
        { pose proof HE as [_ F]. specialize (F n). destruct (acts n) as [a|] eqn:Ea; [|right; by rewrite F]. pose proof (run_inv n) as I. clear IH Hd Ek Hcare.
          assert (∀ h, ¬ borrower (run n) h i) as Hn0 by (intros; by apply Hn). clear Hn.
          generalize dependent (run (S n)). intros s' F. set (s := run n) in *.
          destruct (i_releasing s I h i true Hh) as (_ & Hh2 & Hh3).
          assert (∀ h', is_null (handles s h') = true → h ≠ h') as Hnull. { intros h' En ->. apply is_null_spec in En as (_ & _ & N3). congruence. }
          assert (∀ g j, p_actual_instance (handles s g) = Some j → h ≠ g) as Hp by (intros g j Eg ->; congruence).
          assert (∀ j x, (j = i → dtor x = Sleeping) → dtor (upd (insts s) j x i) = Sleeping) as U. { intros j x Hx. unfold upd. case_decide; [subst; by apply Hx|done]. }
          destruct a as [h'|h' g|h' g cb|h' g cb|h' g cb|h'|h'|h'|j|j]; cbn [exec] in F.
          - destruct (is_null _) eqn:En; [|done]. injection F as <-. right. cbn [insts handles]. split; [apply U; lia|]. rewrite upd_ne; [done|by apply Hnull].
          - destruct (container (handles s g)) as [j|] eqn:Eg; [|done]. destruct (is_null _) eqn:En; [|done]. injection F as <-. right. cbn [insts handles]. split; [done|]. rewrite !upd_ne; [done|intros ->; congruence|by apply Hnull].
          - destruct (p_actual_instance (handles s g)) as [j|] eqn:Eg; [|done]. destruct (is_null _) eqn:En; [|done]. injection F as <-. right. cbn [insts handles]. split; [apply U; by intros ->|]. rewrite upd_ne; [done|by apply Hnull].
          - destruct (p_actual_instance (handles s g)) as [j|] eqn:Eg; [|done]. destruct (is_null _) eqn:En; [|done]. injection F as <-. right. cbn [insts handles move_from]. split; [apply U; by intros ->|].
            rewrite !upd_ne; [done|by apply Hnull|by eapply Hp].
          - destruct (p_actual_instance (handles s g)) as [j|] eqn:Eg; [|done]. destruct (container _) eqn:E1; [done|]. destruct (releasing (handles s h')) eqn:E2; [done|]. injection F as <-. right. cbn [insts handles move_from]. split; [apply U; by intros ->|].
            rewrite !upd_ne; [done|intros ->; congruence|by eapply Hp].
          - destruct (p_actual_instance (handles s h')) as [j|] eqn:Eg; [|done]. destruct (container _) eqn:E1; [done|]. cbv zeta in F. right. destruct (decide _); injection F as <-; cbn [insts handles].
            + split; [done|]. rewrite upd_ne; [done|by eapply Hp].
            + split; [apply U; by intros ->|]. rewrite upd_ne; [done|by eapply Hp].
          - destruct (releasing (handles s h')) as [[j b]|] eqn:Er; [|done]. injection F as <-. cbn [insts handles]. destruct (decide (h = h')) as [->|Hne].
            + left. rewrite Hh in Er. injection Er as <- <-. rewrite upd_eq. cbn. by rewrite Hs.
            + rewrite upd_ne by done. destruct b; [|by right]. destruct (decide (i = j)) as [->|Hij]; [left; rewrite upd_eq; cbn; by rewrite Hs|right; by rewrite upd_ne].
          - destruct (container (handles s h')) as [j|] eqn:Eg; [|done]. injection F as <-. right. cbn [insts handles]. destruct (i_owner s I h' j Eg) as (_ & A2 & _). split; [apply U; intros ->; congruence|]. rewrite upd_ne; [done|]. intros ->. congruence.
          - cbv zeta in F. right. destruct (decide (j = i)) as [->|Hj]; [by rewrite Hs in F|]. destruct (dtor (insts s j)) as [| |[|]| | |]; try done; injection F as <-; cbn [insts handles]; (split; [by apply U|done]).
          - cbv zeta in F. destruct (decide (j = i)) as [->|Hj]; [rewrite Hs in F; injection F as <-; left; cbn [insts]; by rewrite upd_eq|]. right. destruct (dtor (insts s j)); try done; injection F as <-; cbn [insts handles]; (split; [by apply U|done]). }
        + exists (S n). split_and!; [lia|by apply run_next|done].
        + destruct (IH (S n)) as (m' & ? & ?); [by apply run_next|intros; apply Hn; lia|done|lia|lia|done|]. exists m'. split; [lia|done].
    Qed.
    Lemma calling_finishes r : ∀ n, i < next (run n) → (∀ m h, n ≤ m → ¬ borrower (run m) h i) → dtor (insts (run n) i) = Calling r → ∃ m, n ≤ m ∧ dtor (insts (run m) i) = Destroyed.
    Proof.
      induction r as [|f r IH]; intros n Hi Hn E.
      - destruct (advance n Hi Hn) as (m & ? & ? & Em); [by rewrite E|]. unfold after in Em. rewrite E in Em. by exists m.
      - destruct (advance n Hi Hn) as (m & ? & ? & Em); [by rewrite E|]. unfold after in Em. rewrite E in Em. destruct (IH m) as (m' & ? & ?); [done|intros; apply Hn; lia|done|]. exists m'. split; [lia|done].
    Qed.
    (** Once destruction has begun and all the borrowers are gone, the owner's destructor completes. *)
    Lemma finishes n : i < next (run n) → (∀ m h, n ≤ m → ¬ borrower (run m) h i) → dtor (insts (run n) i) ≠ Alive → ∃ m, n ≤ m ∧ dtor (insts (run m) i) = Destroyed.
    Proof.
      intros Hi Hn Hd.
      assert (∀ n, i < next (run n) → (∀ m h, n ≤ m → ¬ borrower (run m) h i) → dtor (insts (run n) i) = Woken → ∃ m, n ≤ m ∧ dtor (insts (run m) i) = Destroyed) as W.
      { intros k Hk1 Hk2 E. destruct (advance k Hk1 Hk2) as (m & ? & ? & Em); [by rewrite E|]. unfold after in Em. rewrite E in Em. by exists m. }
      destruct (dtor (insts (run n) i)) eqn:E; try done.
      - destruct (advance n Hi Hn) as (m & ? & ? & Em); [by rewrite E|]. unfold after in Em. rewrite E in Em. destruct (calling_finishes (borrowers (insts (run n) i)) m) as (m' & ? & ?); [done|intros; apply Hn; lia|done|]. exists m'. split; [lia|done].
      - by eapply calling_finishes.
      - destruct (sleeping_wakes n Hi Hn E) as (m & ? & ? & Em). destruct (W m) as (m' & ? & ?); [done|intros; apply Hn; lia|done|]. exists m'. split; [lia|done].
      - by apply W.
      - by exists n.
    Qed.
  End Liveness.
  Lemma not_alive_stays s a s' i : inv s → i < next s → exec s a = Some s' → dtor (insts s i) ≠ Alive → dtor (insts s' i) ≠ Alive.
  Proof.
    intros I Hi H Ha.
    assert (∀ j x, (j = i → dtor x ≠ Alive) → dtor (upd (insts s) j x i) ≠ Alive) as U. { intros j x Hx. unfold upd. case_decide; [subst; by apply Hx|done]. }
    destruct a as [h'|h' g|h' g cb|h' g cb|h' g cb|h'|h'|h'|j|j]; cbn [exec] in H.
    - destruct (is_null _); [|done]. injection H as <-. cbn [insts]. apply U. lia.
    - destruct (container (handles s g)); [|done]. destruct (is_null _); [|done]. by injection H as <-.
    - destruct (p_actual_instance (handles s g)) as [j|]; [|done]. destruct (is_null _); [|done]. injection H as <-. cbn [insts]. apply U. by intros ->.
    - destruct (p_actual_instance (handles s g)) as [j|]; [|done]. destruct (is_null _); [|done]. injection H as <-. cbn [insts move_from]. apply U. by intros ->.
    - destruct (p_actual_instance (handles s g)) as [j|]; [|done]. destruct (container _); [done|]. destruct (releasing (handles s h')); [done|]. injection H as <-. cbn [insts move_from]. apply U. by intros ->.
    - destruct (p_actual_instance (handles s h')) as [j|]; [|done]. destruct (container _); [done|]. cbv zeta in H. destruct (decide _); injection H as <-; cbn [insts]; [done|]. apply U. by intros ->.
    - destruct (releasing (handles s h')) as [[j b]|]; [|done]. injection H as <-. cbn [insts]. destruct b; [|done]. apply U. intros ->. cbn. by destruct (dtor (insts s i)).
    - destruct (container (handles s h')) as [j|]; [|done]. injection H as <-. cbn [insts]. by apply U.
    - cbv zeta in H. destruct (dtor (insts s j)) as [| |[|]| | |] eqn:E; try done; injection H as <-; cbn [insts]; apply U; intros; cbn; try done; by destruct (borrowers (insts s j)).
    - cbv zeta in H. destruct (dtor (insts s j)) eqn:E; try done; injection H as <-; cbn [insts]; by apply U.
  Qed.
  (** An owner is destroyed at some time; the borrowers, those of that time and those made of them later, go away in any
      order and at any time; then the destructor ends. *)
  Theorem C21_destructor_finishes_partial : ∀ (run : nat → state C) (acts : nat → option (action C)) (n k i h : nat),
    execution run acts → fair run acts → (∀ m a, acts m = Some a → careful (run m) a) →
    container (handles (run n) h) = Some i → acts n = Some (Destroy h) →
    (∀ m h', k ≤ m → ¬ borrower (run m) h' i) → ∃ m, n < m ∧ dtor (insts (run m) i) = Destroyed.
  Proof.
    intros run acts n k i h HE HF Hc Ho Hd Hn. pose proof (run_inv run acts HE Hc n) as I. destruct (i_owner _ I h i Ho) as (Hi & _).
    assert (∀ d, i < next (run (d + S n)) ∧ dtor (insts (run (d + S n)) i) ≠ Alive) as Hlater.
    { induction d as [|d [IH1 IH2]]; simpl.
      - split; [by apply (run_next run acts i HE)|]. destruct HE as [_ F]. specialize (F n). rewrite Hd in F. cbn [exec] in F. rewrite Ho in F. injection F as <-. cbn [insts]. by rewrite upd_eq.
      - split; [by apply (run_next run acts i HE)|]. pose proof HE as [_ F]. specialize (F (d + S n)). destruct (acts (d + S n)) as [a|]; [|by rewrite F].
        eapply not_alive_stays; [by eapply run_inv|exact IH1|exact F|done]. }
    destruct (Hlater k) as [H1 H2].
    destruct (finishes run acts i HE HF Hc (k + S n) H1) as (m & ? & ?); [|done|exists m; split; [lia|done]].
    intros m h' Hm. apply Hn. lia.
  Qed.

  (** A registration which no handle will cancel. *)
  Definition leaked s i k : Prop := i < next s ∧ k ∈ keys (borrowers (insts s i)) ∧ (k = 0 ∨ ∀ h, borrower s h i → key (handles s h) ≠ k).
  Lemma leaked_move s h g j cb i k : inv s → refers s g j → leaked s i k → leaked (move_from s h g j cb) i k.
  Proof.
    intros I R (Hi & Hk & HL). split_and!; [done| |].
    - unfold move_from. cbn [insts]. unfold upd. case_decide; [subst; cbn; rewrite put_keys; by right|done].
    - destruct HL as [->|HL]; [by left|]. destruct (decide (k = 0)) as [->|Hk0]; [by left|right]. intros h'. unfold borrower, refers, move_from. cbn [handles].
      destruct (decide (h' = g)) as [->|Hg]; [rewrite upd_eq; cbn; by intros [? _]|]. rewrite (upd_ne _ g) by done. destruct (decide (h' = h)) as [->|Hh]; [rewrite upd_eq; cbn|rewrite upd_ne by done; apply HL].
      intros [[= ->] _]. destruct (container (handles s g)) as [n|] eqn:Ec; [destruct (i_owner s I g n Ec) as (_ & _ & _ & -> & _); done|]. by apply HL.
  Qed.
  Lemma leaked_step s a s' i k : inv s → leaked s i k → exec s a = Some s' → leaked s' i k.
  Proof.
    intros I L H. pose proof L as (Hi & Hk & HL).
    destruct a as [h|h g|h g cb|h g cb|h g cb|h|h|h|j|j]; cbn [exec] in H.
    - destruct (is_null _); [|done]. injection H as <-. unfold leaked, borrower, refers. cbn [insts handles next]. rewrite (upd_ne (insts s)) by lia. split_and!; [lia|done|]. destruct HL as [->|HL]; [by left|right]. intros h'.
      destruct (decide (h' = h)) as [->|Hn]; [rewrite upd_eq; cbn; by intros [_ ?]|rewrite upd_ne by done; apply HL].
    - destruct (container (handles s g)) as [j|]; [|done]. destruct (is_null _); [|done]. injection H as <-. unfold leaked, borrower, refers. cbn [insts handles next]. split_and!; [lia|done|]. destruct HL as [->|HL]; [by left|right]. intros h'.
      destruct (decide (h' = h)) as [->|Hn]; [rewrite upd_eq; cbn; by intros [_ ?]|rewrite upd_ne by done]. destruct (decide (h' = g)) as [->|Hn']; [rewrite upd_eq; cbn; by intros [? _]|rewrite upd_ne by done; apply HL].
    - destruct (p_actual_instance (handles s g)) as [j|]; [|done]. destruct (is_null _); [|done]. cbv zeta in H. injection H as <-. unfold leaked, borrower, refers. cbn [insts handles next].
      pose proof (i_total s I i k Hk) as Ht. split_and!; [lia| |].
      + unfold upd. case_decide; [subst; cbn; rewrite put_keys; by right|done].
      + destruct HL as [->|HL]; [by left|right]. intros h'. destruct (decide (h' = h)) as [->|Hn]; [rewrite upd_eq; cbn; intros [[= ->] _]; lia|rewrite upd_ne by done; apply HL].
    - destruct (p_actual_instance (handles s g)) as [j|] eqn:Eg; [|done]. destruct (is_null _); [|done]. injection H as <-. by apply leaked_move.
    - destruct (p_actual_instance (handles s g)) as [j|] eqn:Eg; [|done]. destruct (container _); [done|]. destruct (releasing _); [done|]. injection H as <-. by apply leaked_move.
    - destruct (p_actual_instance (handles s h)) as [j|] eqn:Eh; [|done]. destruct (container (handles s h)) eqn:Ec; [done|]. cbv zeta in H.
      assert (∀ hs, (∀ h', hs h' = handles s h' ∨ p_actual_instance (hs h') = None) → k = 0 ∨ ∀ h', (p_actual_instance (hs h') = Some i ∧ container (hs h') = None) → key (hs h') ≠ k) as K.
      { intros hs Hhs. destruct HL as [->|HL]; [by left|right]. intros h' B. destruct (Hhs h') as [E|E]; [rewrite E in *; by apply HL|]. destruct B as [B _]. congruence. }
      destruct (decide _) as [H0|H0]; injection H as <-; unfold leaked, borrower, refers; cbn [insts handles next].
      + split_and!; [done|done|]. apply K. intros h'. unfold upd. case_decide; [by right|by left].
      + split_and!; [done| |apply K; intros h'; unfold upd; case_decide; [by right|by left]]. unfold upd. case_decide; [subst; cbn|done]. apply del_keys. split; [|done].
        destruct HL as [->|HL]; [done|]. intros E. by apply (HL h).
    - destruct (releasing (handles s h)) as [[j b]|] eqn:Er; [|done]. cbv zeta in H. injection H as <-. unfold leaked, borrower, refers. cbn [insts handles next]. split_and!; [done| |].
      + destruct b; [|done]. unfold upd. case_decide; [subst; done|done].
      + destruct HL as [->|HL]; [by left|right]. intros h'. destruct (decide (h' = h)) as [->|Hn]; [rewrite upd_eq; cbn; by intros [? _]|rewrite upd_ne by done; apply HL].
    - destruct (container (handles s h)) as [j|] eqn:Ec; [|done]. cbv zeta in H. injection H as <-. unfold leaked, borrower, refers. cbn [insts handles next]. split_and!; [done| |].
      + unfold upd. case_decide; [subst; done|done].
      + destruct HL as [->|HL]; [by left|right]. intros h'. destruct (decide (h' = h)) as [->|Hn]; [rewrite upd_eq; cbn; by intros [? _]|rewrite upd_ne by done; apply HL].
    - cbv zeta in H. assert (handles s' = handles s ∧ next s' = next s ∧ ∀ n, borrowers (insts s' n) = borrowers (insts s n)) as (E1 & E2 & E3).
      { destruct (dtor (insts s j)) as [| |[|]| | |]; try done; injection H as <-; split_and!; try done; intros n; cbn; unfold upd; case_decide; subst; done. }
      unfold leaked, borrower, refers. rewrite E1, E2, E3. done.
    - cbv zeta in H. assert (handles s' = handles s ∧ next s' = next s ∧ ∀ n, borrowers (insts s' n) = borrowers (insts s n)) as (E1 & E2 & E3).
      { destruct (dtor (insts s j)); try done; injection H as <-; split_and!; try done; intros n; cbn; unfold upd; case_decide; subst; done. }
      unfold leaked, borrower, refers. rewrite E1, E2, E3. done.
  Qed.
  Lemma leaked_forever s s' i k : inv s → leaked s i k → reachable_from anything s s' → dtor (insts s' i) ≠ Destroyed.
  Proof.
    intros I L H. assert (inv s' ∧ leaked s' i k) as [I' (_ & L' & _)].
    { induction H as [|s1 a s2 H [I1 L1] _ Hs]; [done|]. split; [by eapply inv_step|by eapply leaked_step]. }
    intros E. rewrite (i_gone s' I' i E) in L'. by apply elem_of_nil in L'.
  Qed.
  (** Move assignment to a borrower which still refers to an instance: the owner of that instance will never finish, whatever is done later.
      This includes h = std::move(h). *)
  Theorem C21_move_assignment_refuted : ∀ s s' s'' h g cb i, reachable s → borrower s h i → exec s (MoveAssign h g cb) = Some s' → reachable_from anything s' s'' → dtor (insts s'' i) ≠ Destroyed.
  Proof.
    intros s s' s'' h g cb i H B E. pose proof (reachable_inv _ _ H) as I. pose proof (inv_step _ _ _ I E) as I'.
    apply (leaked_forever s' s'' i (key (handles s h)) I'). cbn [exec] in E.
    destruct (p_actual_instance (handles s g)) as [j|] eqn:Eg; [|done]. destruct (container (handles s h)) eqn:Ec; [done|]. destruct (releasing _); [done|]. injection E as <-.
    destruct (i_refers s I h i (proj1 B)) as [Hi _]. split_and!; [done| |].
    - cbn [insts move_from]. pose proof (i_registered s I h i B) as R. unfold upd. case_decide; [subst; cbn; rewrite put_keys; by right|done].
    - destruct (decide (key (handles s h) = 0)) as [->|Hk0]; [by left|right]. intros h'. unfold borrower, refers, move_from. cbn [handles].
      destruct (decide (h' = g)) as [->|Hg]; [rewrite upd_eq; cbn; by intros [? _]|]. rewrite (upd_ne _ g) by done. destruct (decide (h' = h)) as [->|Hh]; [rewrite upd_eq; cbn|rewrite upd_ne by done].
      + intros [[= ->] _] Ek. destruct (container (handles s g)) as [n|] eqn:Ecg; [destruct (i_owner s I g n Ecg) as (_ & _ & _ & K & _); congruence|].
        apply Hg. by apply (i_distinct s I h g i).
      + intros B' Ek. apply Hh. apply (i_distinct s I h' h i); try done. congruence.
  Qed.
  (** So does making a borrower from an rvalue of the owner. *)
  Theorem C21_borrow_from_owned_rvalue_refuted : ∀ s s' s'' h g cb i, reachable s → container (handles s g) = Some i → exec s (MoveConstruct h g cb) = Some s' → reachable_from anything s' s'' →
    dtor (insts s'' i) ≠ Destroyed.
  Proof.
    intros s s' s'' h g cb i H Ec E. pose proof (reachable_inv _ _ H) as I. pose proof (inv_step _ _ _ I E) as I'. apply (leaked_forever s' s'' i 0 I'). cbn [exec] in E.
    destruct (i_owner s I g i Ec) as (A1 & A2 & A3 & A4 & A5). destruct (p_actual_instance (handles s g)) as [j|] eqn:Eg; [|done]. destruct A3 as [?|[= ->]]; [done|].
    destruct (is_null _); [|done]. injection E as <-. split_and!; [done| |by left]. cbn [insts move_from]. rewrite upd_eq. cbn. rewrite A4. apply put_keys. by left.
  Qed.

  (** ** C22 *)
  Definition pending (d : destructor C) : list (nat * C) := match d with Calling r => r | _ => [] end.
  Definition not_collected (d : destructor C) : Prop := d = Alive ∨ d = Flagged.
  Lemma callbacks_step s a s' i : inv s → i < next s → ¬ not_collected (dtor (insts s i)) → exec s a = Some s' →
    i < next s' ∧ ¬ not_collected (dtor (insts s' i)) ∧ called (insts s' i) ++ pending (dtor (insts s' i)) = called (insts s i) ++ pending (dtor (insts s i)).
  Proof.
    intros I Hi Hd H. set (Q := λ x, ¬ not_collected (dtor x) ∧ called x ++ pending (dtor x) = called (insts s i) ++ pending (dtor (insts s i))).
    assert (∀ j x, (j = i → Q x) → Q (upd (insts s) j x i)) as U. { intros j x Hx. unfold upd. case_decide; [by apply Hx|done]. }
    assert (Q (insts s i)) as Q0 by done.
    destruct a as [h'|h' g|h' g cb|h' g cb|h' g cb|h'|h'|h'|j|j]; cbn [exec] in H.
    - destruct (is_null _); [|done]. injection H as <-. cbn [insts next]. split; [lia|]. apply U. lia.
    - destruct (container (handles s g)); [|done]. destruct (is_null _); [|done]. by injection H as <-.
    - destruct (p_actual_instance (handles s g)); [|done]. destruct (is_null _); [|done]. injection H as <-. cbn [insts next]. split; [done|]. apply U. by intros ->.
    - destruct (p_actual_instance (handles s g)); [|done]. destruct (is_null _); [|done]. injection H as <-. cbn [insts next move_from]. split; [done|]. apply U. by intros ->.
    - destruct (p_actual_instance (handles s g)); [|done]. destruct (container _); [done|]. destruct (releasing _); [done|]. injection H as <-. cbn [insts next move_from]. split; [done|]. apply U. by intros ->.
    - destruct (p_actual_instance (handles s h')); [|done]. destruct (container _); [done|]. cbv zeta in H. destruct (decide _); injection H as <-; cbn [insts next]; split; try done. apply U. by intros ->.
    - destruct (releasing (handles s h')) as [[j b]|]; [|done]. injection H as <-. cbn [insts next]. split; [done|]. destruct b; [|done]. apply U. intros ->. unfold Q in *. cbn. destruct (dtor (insts s i)); try done.
      split; [by intros [?|?]|done].
    - destruct (container (handles s h')) as [j|] eqn:Ec; [|done]. injection H as <-. cbn [insts next]. split; [done|]. apply U. intros ->. destruct (i_owner s I h' i Ec) as (_ & E & _). destruct Hd. by left.
    - cbv zeta in H. split; [destruct (dtor (insts s j)) as [| |[|]| | |]; try done; by injection H as <-|]. fold (Q (insts s' i)). destruct (decide (j = i)) as [->|Hj].
      + unfold Q in *. destruct (dtor (insts s i)) as [| |[|f r]| | |] eqn:E; try done; injection H as <-; cbn [insts]; rewrite upd_eq; cbn.
        * destruct Hd. by right.
        * destruct (decide _); (split; [by intros [?|?]|done]).
        * split; [by intros [?|?]|]. by rewrite <- (assoc_L (++)).
        * destruct (decide _); (split; [by intros [?|?]|done]).
      + destruct (dtor (insts s j)) as [| |[|]| | |] eqn:E; try done; injection H as <-; cbn [insts]; by apply U.
    - cbv zeta in H. destruct (dtor (insts s j)) eqn:E; try done; injection H as <-; cbn [insts next]; (split; [done|]); apply U. intros ->. unfold Q in *. cbn. rewrite E in *. split; [by intros [?|?]|done].
  Qed.
  Definition clean s : Prop := ∀ i, not_collected (dtor (insts s i)) → called (insts s i) = [].
  Lemma clean_step s a s' : inv s → clean s → exec s a = Some s' → clean s'.
  Proof.
    intros I Hc H i. set (Q := λ x : inst C, not_collected (dtor x) → called x = []). fold (Q (insts s' i)). assert (Q (insts s i)) as Q0 by exact (Hc i).
    assert (∀ j x, (j = i → Q x) → Q (upd (insts s) j x i)) as U. { intros j x Hx. unfold upd. case_decide; [by apply Hx|done]. }
    destruct a as [h'|h' g|h' g cb|h' g cb|h' g cb|h'|h'|h'|j|j]; cbn [exec] in H.
    - destruct (is_null _); [|done]. injection H as <-. cbn [insts]. apply U. done.
    - destruct (container (handles s g)); [|done]. destruct (is_null _); [|done]. by injection H as <-.
    - destruct (p_actual_instance (handles s g)); [|done]. destruct (is_null _); [|done]. injection H as <-. cbn [insts]. apply U. by intros ->.
    - destruct (p_actual_instance (handles s g)); [|done]. destruct (is_null _); [|done]. injection H as <-. cbn [insts move_from]. apply U. by intros ->.
    - destruct (p_actual_instance (handles s g)); [|done]. destruct (container _); [done|]. destruct (releasing _); [done|]. injection H as <-. cbn [insts move_from]. apply U. by intros ->.
    - destruct (p_actual_instance (handles s h')); [|done]. destruct (container _); [done|]. cbv zeta in H. destruct (decide _); injection H as <-; cbn [insts]; try done. apply U. by intros ->.
    - destruct (releasing (handles s h')) as [[j b]|]; [|done]. injection H as <-. cbn [insts]. destruct b; [|done]. apply U. intros ->. unfold Q in *. cbn. destruct (dtor (insts s i)); try done. by intros [?|?].
    - destruct (container (handles s h')) as [j|] eqn:Ec; [|done]. injection H as <-. cbn [insts]. apply U. intros ->. unfold Q in *. cbn. intros _. apply Q0. left. by destruct (i_owner s I h' i Ec) as (_ & E & _).
    - cbv zeta in H. destruct (dtor (insts s j)) as [| |[|f r]| | |] eqn:E; try done; injection H as <-; cbn [insts]; apply U; intros ->; unfold Q; cbn; try destruct (decide _); by intros [?|?].
    - cbv zeta in H. destruct (dtor (insts s j)) eqn:E; try done; injection H as <-; cbn [insts]; apply U; intros ->; unfold Q; cbn; by intros [?|?].
  Qed.
  Lemma reachable_clean s : reachable s → clean s.
  Proof. intros H. induction H as [|s1 a s2 H IH _ Hs]; [done|]. eapply clean_step; [by eapply reachable_inv|done|done]. Qed.

  (** The callbacks called are those registered at the moment when the destructor takes the list, each once and in the order of registration. *)
  Theorem C22_called_are_those_registered_partial : ∀ s s1 s' i, reachable s → i < next s → dtor (insts s i) = Flagged → exec s (Continue i) = Some s1 → reachable_from anything s1 s' →
    NoDup (keys (borrowers (insts s i))) ∧
    match dtor (insts s' i) with
    | Sleeping | Woken | Destroyed => called (insts s' i) = borrowers (insts s i)
    | Calling rest => called (insts s' i) ++ rest = borrowers (insts s i)
    | Alive | Flagged => False
    end.
  Proof.
    intros s s1 s' i H Hi Hd H1 H2. pose proof (reachable_inv _ _ H) as I. split; [by apply sorted_nodup, i_sorted|].
    pose proof (inv_step _ _ _ I H1) as I1. pose proof (reachable_clean s H i ltac:(by right)) as Hc.
    assert (i < next s1 ∧ ¬ not_collected (dtor (insts s1 i)) ∧ called (insts s1 i) ++ pending (dtor (insts s1 i)) = borrowers (insts s i)) as P1.
    { cbn [exec] in H1. rewrite Hd in H1. injection H1 as <-. cbn [insts next]. rewrite upd_eq. cbn. rewrite Hc. split_and!; try done. by intros [?|?]. }
    assert (inv s' ∧ i < next s' ∧ ¬ not_collected (dtor (insts s' i)) ∧ called (insts s' i) ++ pending (dtor (insts s' i)) = borrowers (insts s i)) as (_ & _ & P2 & P3).
    { induction H2 as [|s2 a s3 H2 (I2 & P2 & P3 & P4) _ Hs]; [done|]. destruct (callbacks_step s2 a s3 i I2 P2 P3 Hs) as (Q1 & Q2 & Q3). split_and!; try done; [by eapply inv_step|by rewrite Q3]. }
    destruct (dtor (insts s' i)); cbn in P3; rewrite ?app_nil_r in P3; try done; apply P2; [by left|by right].
  Qed.
  (** If nobody borrows, moves or releases while the destructor runs up to its wait, these are the callbacks of all the live borrowers. *)
  Theorem C22_undisturbed_partial : ∀ s s1 s' i h, reachable s → container (handles s h) = Some i → exec s (Destroy h) = Some s1 →
    reachable_from (λ s a, ∀ s', exec s a = Some s' → borrowers (insts s' i) = borrowers (insts s i)) s1 s' → dtor (insts s' i) = Sleeping ∨ dtor (insts s' i) = Destroyed →
    called (insts s' i) = borrowers (insts s' i) ∧ NoDup (keys (called (insts s' i))) ∧ ∀ b, borrower s' b i → key (handles s' b) ∈ keys (called (insts s' i)).
  Proof.
    intros s s1 s' i h H Hc H1 H2 Hd. pose proof (reachable_inv _ _ H) as I. pose proof (inv_step _ _ _ I H1) as I1. destruct (i_owner s I h i Hc) as (A1 & A2 & _).
    assert (i < next s1 ∧ borrowers (insts s1 i) = borrowers (insts s i) ∧ dtor (insts s1 i) = Flagged ∧ called (insts s1 i) = []) as (P1 & P2 & P3 & P4).
    { pose proof (reachable_clean s H i ltac:(by left)) as E. cbn [exec] in H1. rewrite Hc in H1. injection H1 as <-. cbn [insts next]. rewrite upd_eq. done. }
    assert (inv s' ∧ i < next s' ∧ borrowers (insts s' i) = borrowers (insts s i) ∧ ((dtor (insts s' i) = Flagged ∧ called (insts s' i) = []) ∨
       (¬ not_collected (dtor (insts s' i)) ∧ called (insts s' i) ++ pending (dtor (insts s' i)) = borrowers (insts s i)))) as (I' & _ & B' & Q).
    { clear Hd. induction H2 as [|s2 a s3 H2 (I2 & Q1 & Q2 & Q3) Hok Hs]; [split_and!; try done; by left|]. split_and!; [by eapply inv_step|apply next_grows in Hs; lia|by rewrite (Hok _ Hs)|].
      destruct Q3 as [[E1 E2]|[E1 E2]].
      - destruct (action_continue a i) as [->|Hne].
        + right. cbn [exec] in Hs. rewrite E1 in Hs. injection Hs as <-. cbn [insts]. rewrite upd_eq. cbn. rewrite E2. split; [by intros [?|?]|done].
        + left. assert (dtor (insts s3 i) = dtor (insts s2 i)) as E3 by (eapply dtor_stays; eauto; by rewrite E1). split; [by rewrite E3|].
          assert (clean s3) as K. { eapply clean_step; [exact I2| |exact Hs]. clear -H H1 H2. apply reachable_clean. assert (reachable s1) as R1 by (by eapply there). clear H H1. induction H2; [done|by eapply there]. }
          apply K. right. by rewrite E3.
      - right. destruct (callbacks_step s2 a s3 i I2 Q1 E1 Hs) as (_ & Q2' & Q3'). split; [done|]. by rewrite Q3'. }
    assert (called (insts s' i) = borrowers (insts s' i)) as E. { rewrite B'. destruct Q as [[E1 _]|[_ E2]]; [rewrite E1 in Hd; by destruct Hd|]. destruct Hd as [Hd|Hd]; rewrite Hd in E2; cbn in E2; by rewrite app_nil_r in E2. }
    rewrite E. split_and!; [done|by apply sorted_nodup, i_sorted|]. intros b. by apply i_registered.
  Qed.
End Props.

(** ** Executions showing what fails, and examples *)
Inductive steps {C} (ok : state C → action C → Prop) : state C → list (action C) → state C → Prop :=
| steps_nil s : steps ok s [] s
| steps_cons s a s' l s'' : ok s a → exec s a = Some s' → steps ok s' l s'' → steps ok s (a :: l) s''.
Lemma steps_reachable {C} ok (s0 s : state C) l s' : reachable_from ok s0 s → steps ok s l s' → reachable_from ok s0 s'.
Proof. intros H R. induction R; [done|]. apply IHR. by eapply there. Qed.
Ltac run := repeat (eapply steps_cons; [try exact I; try (cbn; done)|cbn; reflexivity|]); apply steps_nil.

(** The last borrower leaves the locked section; the destructor finds no borrowers and returns; the borrower then notifies a destroyed condition variable
    (owned_borrowed.h 121-134). *)
Theorem C20_use_after_destruction_refuted : ∃ s : state nat, reachable_from careful initial s ∧ dtor (insts s 0) = Destroyed ∧ touches s (ReleaseNotify 1) 0 ∧ is_Some (exec s (ReleaseNotify 1)).
Proof.
  assert (∃ s : state nat, steps careful initial [MakeOwned 0; Borrow 1 0 7; Destroy 0; Continue 0; Continue 0; Release 1; Continue 0] s ∧
    dtor (insts s 0) = Destroyed ∧ touches s (ReleaseNotify 1) 0 ∧ is_Some (exec s (ReleaseNotify 1))) as (s & R & H).
  { eexists. split; [run|]. cbn. split_and!; [done|done|by eexists]. }
  exists s. split; [|done]. eapply steps_reachable; [constructor|done].
Qed.
(** The callback of a borrower is called after that borrower has been released: it was in the list already taken. *)
Theorem C22_called_after_release_refuted : ∃ (s s1 s2 : state nat), reachable_from careful initial s ∧ (∃ h, borrower s h 0 ∧ (key (handles s h), 7) ∈ borrowers (insts s 0)) ∧
  reachable_from careful s s1 ∧ handles s1 1 = null ∧ borrowers (insts s1 0) = [] ∧ called (insts s1 0) = [] ∧ exec s1 (Continue 0) = Some s2 ∧ called (insts s2 0) = [(1, 7)].
Proof.
  assert (∃ s s1 s2 : state nat, steps careful initial [MakeOwned 0; Borrow 1 0 7] s ∧ borrower s 1 0 ∧ (key (handles s 1), 7) ∈ borrowers (insts s 0) ∧
    steps careful s [Destroy 0; Continue 0; Release 1; ReleaseNotify 1] s1 ∧ handles s1 1 = null ∧ borrowers (insts s1 0) = [] ∧ called (insts s1 0) = [] ∧ exec s1 (Continue 0) = Some s2 ∧ called (insts s2 0) = [(1, 7)])
    as (s & s1 & s2 & R & B & K & R1 & H).
  { eexists _, _, _. split; [run|]. split; [done|]. split; [cbn; by left|]. split; [run|]. cbn. split_and!; try done. }
  exists s, s1, s2. split; [eapply steps_reachable; [constructor|done]|]. split; [by exists 1|]. split; [eapply steps_reachable; [constructor|done]|done].
Qed.
(** A borrower made from another borrower, after the list was taken: its callback is never called, and the owner waits for it. *)
Theorem C22_not_called_refuted : ∃ s : state nat, reachable_from careful initial s ∧ dtor (insts s 0) = Sleeping ∧ borrower s 2 0 ∧ (key (handles s 2), 8) ∈ borrowers (insts s 0) ∧ called (insts s 0) = [(1, 7)].
Proof.
  assert (∃ s : state nat, steps careful initial [MakeOwned 0; Borrow 1 0 7; Destroy 0; Continue 0; Borrow 2 1 8; Continue 0; Continue 0] s ∧
    dtor (insts s 0) = Sleeping ∧ borrower s 2 0 ∧ (key (handles s 2), 8) ∈ borrowers (insts s 0) ∧ called (insts s 0) = [(1, 7)]) as (s & R & H).
  { eexists. split; [run|]. cbn. split_and!; try done. right. by left. }
  exists s. split; [|done]. eapply steps_reachable; [constructor|done].
Qed.
(** Two borrowers, one moved; both released while the owner waits; the destructor finishes, having called both callbacks. *)
Fixpoint exec_all {C} (s : state C) (l : list (action C)) : option (state C) := match l with [] => Some s | a :: l => match exec s a with Some s => exec_all s l | None => None end end.
Example C21_ex : option_map (λ s, (dtor (insts s 0), called (insts s 0), number_of_active_borrowers s 0, is_valid s 1))
  (exec_all initial [MakeOwned 0; Borrow 1 0 7; Borrow 2 1 8; MoveConstruct 3 2 9; Destroy 0; Continue 0; Continue 0; Continue 0; Continue 0; Release 3; ReleaseNotify 3; Release 1; ReleaseNotify 1; Continue 0])
  = Some (Destroyed, [(1, 7); (2, 9)], 0, false).
Proof. reflexivity. Qed.
(** A run which meets the hypotheses of C21_destructor_finishes_partial: the borrowers of C21_ex go away after the owner's
    destructor has gone to sleep. *)
Definition ex_acts : list (action nat) := [MakeOwned 0; Borrow 1 0 7; Borrow 2 1 8; Destroy 0; Continue 0; Continue 0; Continue 0; Continue 0; Release 2; Release 1; ReleaseNotify 1; ReleaseNotify 2; Continue 0].
Definition ex_run (n : nat) : state nat := default initial (exec_all initial (take n ex_acts)).
Example C21_destructor_finishes_ex :
  execution ex_run (λ n, ex_acts !! n) ∧ fair ex_run (λ n, ex_acts !! n) ∧ (∀ m a, ex_acts !! m = Some a → careful (ex_run m) a) ∧
  container (handles (ex_run 3) 0) = Some 0 ∧ ex_acts !! 3 = Some (Destroy 0) ∧ (∀ m h', 10 ≤ m → ¬ borrower (ex_run m) h' 0) ∧
  borrower (ex_run 8) 1 0 ∧ dtor (insts (ex_run 8) 0) = Sleeping.
Proof.
  assert (∀ n, 13 ≤ n → ex_run n = ex_run 13) as Hend. { intros n Hn. unfold ex_run. by rewrite !(take_ge ex_acts) by (simpl; lia). }
  assert (∀ (l l' : list (action nat)) s, exec_all s (l ++ l') = match exec_all s l with Some s' => exec_all s' l' | None => None end) as Happ.
  { induction l as [|a l IH]; intros l' s; simpl; [done|]. destruct (exec s a); [apply IH|done]. }
  assert (∀ n, exec_all initial (take n ex_acts) = Some (ex_run n)) as Hrun.
  { intros n. unfold ex_run. destruct (exec_all initial (take n ex_acts)) eqn:E; [done|]. exfalso.
    assert ((if exec_all initial ex_acts then true else false) = true) as H by (vm_compute; reflexivity).
    rewrite <- (take_drop n ex_acts), Happ, E in H. done. }
  split_and!.
  - split; [done|]. intros n. destruct (ex_acts !! n) as [a|] eqn:Ea.
    + pose proof (Hrun (S n)) as H. rewrite (take_S_r _ _ _ Ea), Happ, Hrun in H. simpl in H. by destruct (exec (ex_run n) a).
    + apply lookup_ge_None_1 in Ea. simpl in Ea. by rewrite (Hend (S n)), (Hend n) by lia.
  - split.
    + intros n i. assert (n ≤ 13 ∨ 13 < n) as [Hn|Hn] by lia.
      * destruct i as [|i]. 2:{ intros H. exfalso. apply H. clear H. do 14 (destruct n as [|n]; [vm_compute; reflexivity|]). lia. }
        intros H1 H2 H3. assert (n < 4 ∨ 4 ≤ n ≤ 7 ∨ 7 < n ≤ 12 ∨ n = 13) as [H|[H|[H| ->]]] by lia.
        -- exfalso. apply H1. clear -H. do 4 (destruct n as [|n]; [vm_compute; reflexivity|]). lia.
        -- exists 7. split; [lia|done].
        -- exists 12. split; [lia|done].
        -- exfalso. by apply H3.
      * rewrite Hend by lia. intros H1 H2 H3. exfalso. destruct i; [by apply H3|by apply H1].
    + intros n h H. assert (n ≤ 13 ∨ 13 < n) as [Hn|Hn] by lia; [|rewrite Hend in H by lia; exfalso; apply H; by do 4 (destruct h as [|h]; [vm_compute; reflexivity|])].
      destruct h as [|[|[|h]]].
      * exfalso. apply H. clear -Hn. do 14 (destruct n as [|n]; [vm_compute; reflexivity|]). lia.
      * assert (n ≤ 10 ∨ 10 < n) as [Hk|Hk] by lia; [exists 10; split; [lia|done]|]. exfalso. apply H. clear -Hn Hk. do 11 (destruct n as [|n]; [lia|]). do 3 (destruct n as [|n]; [vm_compute; reflexivity|]). lia.
      * assert (n ≤ 11 ∨ 11 < n) as [Hk|Hk] by lia; [exists 11; split; [lia|done]|]. exfalso. apply H. clear -Hn Hk. do 12 (destruct n as [|n]; [lia|]). do 2 (destruct n as [|n]; [vm_compute; reflexivity|]). lia.
      * exfalso. apply H. clear -Hn. do 14 (destruct n as [|n]; [vm_compute; reflexivity|]). lia.
  - intros m a H. assert (m < 13) as Hm by (by apply lookup_lt_Some in H). do 13 (destruct m as [|m]; [injection H as <-; exact Logic.I|]). lia.
  - vm_compute. reflexivity.
  - done.
  - intros m h' Hm [H _]. revert H. assert (m ≤ 13 ∨ 13 < m) as [Hk|Hk] by lia; [|rewrite Hend by lia; do 4 (destruct h' as [|h']; [vm_compute; discriminate|]); vm_compute; discriminate].
    do 10 (destruct m as [|m]; [lia|]). do 4 (destruct m as [|m]; [do 4 (destruct h' as [|h']; [vm_compute; discriminate|]); vm_compute; discriminate|]). lia.
  - vm_compute. split; reflexivity.
  - vm_compute. done.
Qed.
(** The hypotheses of the refutation of move assignment are met. *)
Example C21_move_assignment_ex : option_map (λ s, (p_actual_instance (handles s 1), container (handles s 1), number_of_active_borrowers s 0)) (exec_all (C := nat) initial [MakeOwned 0; Borrow 1 0 7; Borrow 2 0 8; MoveAssign 1 2 9])
  = Some (Some 0, None, 2).
Proof. reflexivity. Qed.

Print Assumptions C20_owner_waits.
Print Assumptions C20_reference_kept.
Print Assumptions C20_validity.
Print Assumptions C20_invalid_after_destruction_began.
Print Assumptions C20_no_use_after_destruction_partial.
Print Assumptions C20_use_after_destruction_refuted.
Print Assumptions C21_number_of_borrowers_partial.
Print Assumptions C21_all_released_partial.
Print Assumptions C21_destructor_finishes_partial.
Print Assumptions C21_move_assignment_refuted.
Print Assumptions C21_borrow_from_owned_rvalue_refuted.
Print Assumptions C22_called_are_those_registered_partial.
Print Assumptions C22_undisturbed_partial.
Print Assumptions C22_called_after_release_refuted.
Print Assumptions C22_not_called_refuted.
