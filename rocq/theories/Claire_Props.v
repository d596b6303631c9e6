(** * C93: Claire's keepalives *)
From stdpp Require Import gmap list.
From Verif Require Import Claire_Model Claire_Spec Claire_Proofs Claire_Proofs2 Claire_Proofs3.

(** ** What ForceSendKeepalive and SetKarlLocator wait for *)
Lemma stage_run (P : attempt → Prop) k n tr s s' : inv s → no_call n tr → (∀ e, P e) ∨ no_relocation tr →
  run tr s = Some s' → k ≤ length (log s) → stage P k n s → stage P k n s'.
Proof.
  intros I N L R K S.
  assert (Q : inv s' ∧ k ≤ length (log s') ∧ stage P k n s').
  { eapply (run_ind (λ s, inv s ∧ k ≤ length (log s) ∧ stage P k n s)); [exact R|done|]. intros a u u' A X (I1 & K1 & S1).
    split; [by eapply step_inv|]. eapply (stage_step P k n a u u'); eauto. split.
    - intros c ->. by apply (N c).
    - destruct L as [L|L]; [by left|right]. intros m l w ->. by apply (L m l w). }
  apply Q.
Qed.
Ltac cases K :=
  repeat match type of K with context [decide ?P] => destruct (decide P) | context [if ?b then _ else _] => destruct b eqn:? | context [match ?m with Some _ => None | None => _ end] => destruct m eqn:? end; simpl in K; try discriminate K;
  try (match type of K with context [if ?b then _ else _] => destruct b eqn:? end);
  injection K as <-.
Lemma log_step a s s' : step a s = Some s' → log s' = log s ∨ ∃ w, log s' = log s ++ [Attempt (time s) (karl s) w].
Proof.
  intros K. unfold step in K. destruct (exited s); [done|]. destruct a as [m c|m ok|r| | |t| |].
  - cases K; auto.
  - unfold user, lock_km, lock_rm, free_km in K. destruct (users s !! m) as [p|] eqn:U; [|done]. 
    destruct p; try discriminate K; cases K; simpl; rewrite ?notify_log; eauto.
  - unfold keeper, lock_km in K. destruct (kp s) eqn:Q; try discriminate K; cases K; simpl; eauto.
  - destruct (kp s) eqn:Q; try discriminate K; cases K; auto.
  - destruct (kp s) eqn:Q; try discriminate K; cases K; auto.
  - cases K; auto.
  - cases K; auto.
  - unfold destructor, lock_rm, free_km in K. destruct (dp s); try discriminate K; cases K; simpl; rewrite ?notify_log; auto.
Qed.
Lemma log_run tr s s' : run tr s = Some s' → ∃ new, log s' = log s ++ new.
Proof.
  intros R. eapply (run_ind (λ u, ∃ new, log u = log s ++ new)); [exact R|exists []; by rewrite app_nil_r|]. intros a u u' _ X (new & E).
  destruct (log_step _ _ _ X) as [Y|(w & Y)]; rewrite Y, E; [by exists new|]. rewrite <- app_assoc. by eexists.
Qed.
Lemma there_is_log (P : attempt → Prop) s s' tr : run tr s = Some s' → there_is P (length (log s)) s' → ∃ new e, log s' = log s ++ new ∧ e ∈ new ∧ P e.
Proof.
  intros R (e & I & H). destruct (log_run _ _ _ R) as (new & E). exists new, e. rewrite E, drop_app in I. auto.
Qed.

(** ForceSendKeepalive(Wait) returns only after a keepalive that began after the call. *)
Theorem C93_wait_means_sent s0 n s1 tr s2 : reach s0 →
  step (Call n (Force true)) s0 = Some s1 → run tr s1 = Some s2 → no_call n tr → users s2 !! n = Some CReturned →
  ∃ new, log s2 = log s0 ++ new ∧ new ≠ [].
Proof.
  intros I%reach_inv S R N U.
  assert (L : log s1 = log s0 ∧ users s1 !! n = Some (FLock true)).
  { unfold step in S. destruct (exited s0); [done|]. destruct (idle _); [|done]. injection S as <-. simpl. by rewrite lookup_insert. }
  destruct L as (L1 & L2).
  assert (X : stage (λ _, True) (length (log s1)) n s2).
  { eapply stage_run; [by eapply step_inv|exact N|by left|exact R|done|]. unfold stage. rewrite L2. by left. }
  unfold stage in X. rewrite U in X. destruct (there_is_log _ _ _ _ R X) as (new & e & E & J & _). exists new. rewrite E, L1. split; [done|].
  intros ->. by apply elem_of_nil in J.
Qed.
(** SetKarlLocator(l, Wait) returns only after a keepalive that began after the call and was sent to [l]; unless somebody else changes the
    locator too. *)
Theorem C93_relocation_means_sent s0 n l s1 tr s2 : reach s0 → no_relocation_pending s0 →
  step (Call n (SetKarl l true)) s0 = Some s1 → run tr s1 = Some s2 → no_call n tr → no_relocation tr → users s2 !! n = Some CReturned →
  ∃ new e, log s2 = log s0 ++ new ∧ e ∈ new ∧ a_karl e = l.
Proof.
  intros I%reach_inv NP S R N NR U.
  assert (L : log s1 = log s0 ∧ users s1 !! n = Some (SLock l true) ∧ ∀ m l' w, m ≠ n → users s1 !! m ≠ Some (SLock l' w)).
  { unfold step in S. destruct (exited s0); [done|]. destruct (idle _); [|done]. injection S as <-. simpl. rewrite lookup_insert. split_and!; auto.
    intros m l' w M. rewrite lookup_insert_ne by done. apply NP. }
  destruct L as (L1 & L2 & L3). set (P e := a_karl e = l). set (k := length (log s1)).
  (* up to the change of the locator *)
  assert (X : k ≤ length (log s2) ∧ inv s2 ∧ (users s2 !! n = Some (SLock l true) ∧ (∀ m l' w, m ≠ n → users s2 !! m ≠ Some (SLock l' w)) ∨ stage P k n s2)).
  { assert (I1 : inv s1) by (by eapply step_inv). clear S U.
    eapply (run_ind (λ u, k ≤ length (log u) ∧ inv u ∧ (users u !! n = Some (SLock l true) ∧ (∀ m l' w, m ≠ n → users u !! m ≠ Some (SLock l' w)) ∨ stage P k n u)));
      [exact R|split_and!; auto|].
    intros a u u' A X (K & IU & [(Q1 & Q2)|Q]).
    2: { split_and!; [|by eapply step_inv|right]; eapply (stage_step P k n a u u'); eauto; split; try (intros c ->; by apply (N c)); right; intros m l' w ->; by apply (NR m l' w). }
    assert (K' : k ≤ length (log u')) by (destruct (log_step _ _ _ X) as [Y|(w & Y)]; rewrite Y, ?app_length; lia).
    split; [done|]. split; [by eapply step_inv|]. pose proof X as X0.
    unfold step in X. destruct (exited u); [done|].
    assert (SAME : users u' = users u → users u' !! n = Some (SLock l true) ∧ (∀ m l' w, m ≠ n → users u' !! m ≠ Some (SLock l' w))) by (intros ->; auto).
    destruct a as [m c|m ok|r| | |t| |].
    - destruct (decide (m = n)) as [->|M]; [by destruct (N c)|]. left. cases X. simpl. rewrite lookup_insert_ne by done. split; [done|].
      intros m' l' w M'. destruct (decide (m = m')) as [->|]; [rewrite lookup_insert|rewrite lookup_insert_ne by done; auto].
      intros [= E]. destruct c; try done. by destruct (NR m' l0 wait).
    - destruct (decide (m = n)) as [->|M].
      + right. unfold user in X. rewrite Q1 in X. unfold free_km in X. destruct (km u); [done|]. simpl in X. injection X as <-.
        unfold stage. simpl. rewrite lookup_insert. right. split; [done|]. intros m l' w. simpl. destruct (decide (n = m)) as [->|M]; [by rewrite lookup_insert|].
        rewrite lookup_insert_ne by done. auto.
      + left. unfold user, lock_km, lock_rm, free_km in X. destruct (users u !! m) as [p|] eqn:U; [|done].
        destruct p; try discriminate X; cases X; simpl; rewrite ?notify_users, ?lookup_insert_ne by done; (split; [done|]); auto;
        intros m' l' w' M'; (destruct (decide (m = m')) as [->|]; [rewrite lookup_insert|rewrite lookup_insert_ne by done; auto]); try done; by destruct wait.
    - left. apply SAME. unfold keeper, lock_km in X. destruct (kp u) eqn:Q; try discriminate X; cases X; done.
    - left. apply SAME. destruct (kp u) eqn:Q; try discriminate X; cases X; done.
    - left. apply SAME. destruct (kp u) eqn:Q; try discriminate X; cases X; done.
    - left. apply SAME. cases X; done.
    - left. apply SAME. cases X; done.
    - left. apply SAME. unfold destructor, lock_rm, free_km in X. destruct (dp u); try discriminate X; cases X; simpl; rewrite ?notify_users; done. }
  destruct X as (_ & _ & [(X & _)|X]); [congruence|]. unfold stage in X. rewrite U in X.
  destruct (there_is_log P _ _ _ R X) as (new & e & E & J & H). exists new, e. rewrite E, L1. auto.
Qed.

Print Assumptions C93_wait_means_sent.
Print Assumptions C93_relocation_means_sent.
