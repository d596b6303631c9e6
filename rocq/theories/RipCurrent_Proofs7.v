(** * Proofs about RipCurrent: the outcome only depends on the diagram *)
From stdpp Require Import list sets.
From Coq Require Import ZArith Lia.
From Verif Require Import MMQ_Model RipCurrent_Model RipCurrent_Spec RipCurrent_Proofs RipCurrent_Proofs2 RipCurrent_Proofs3
  RipCurrent_Proofs4 RipCurrent_Proofs6.

Lemma exits_inhabited f : ∃ x, x ∈ exits f.
Proof. induction f as [b|q a IHa b IHb|a IHa b IHb]; simpl; [exists b; set_solver|done|destruct IHa as [x ?]; exists x; set_solver]. Qed.
Lemma entries_inhabited f : ∃ x, x ∈ entries f.
Proof. induction f as [b|q a IHa b IHb|a IHa b IHb]; simpl; [exists b; set_solver|done|destruct IHa as [x ?]; exists x; set_solver]. Qed.
Lemma served_fed f q y : served f q y → ∃ x, feeds f x q.
Proof.
  induction f as [b|p a IHa b IHb|a IHa b IHb]; simpl; [done| |].
  - intros [[-> _]|[S|S]]; [destruct (exits_inhabited a) as [x ?]; eauto|destruct (IHa S); eauto|destruct (IHb S); eauto].
  - intros [S|S]; [destruct (IHa S); eauto|destruct (IHb S); eauto].
Qed.
Lemma feeds_served f x q : feeds f x q → ∃ y, served f q y.
Proof.
  induction f as [b|p a IHa b IHb|a IHa b IHb]; simpl; [done| |].
  - intros [[-> _]|[S|S]]; [destruct (entries_inhabited b) as [y ?]; eauto|destruct (IHa S); eauto|destruct (IHb S); eauto].
  - intros [S|S]; [destruct (IHa S); eauto|destruct (IHb S); eauto].
Qed.

Section Outcome.
  Context {B : Type} (code : nat → block B).
  Definition good (f : flow) : Prop := runnable code f ∧ (∀ x, x ∈ leaves f → declared code x) ∧
    (∀ x, x ∈ leaves f → all_calls code is_emit x).
  Lemma good_calls f : (∀ x, x ∈ leaves f → declared code x) → (∀ x, x ∈ leaves f → all_calls code (λ o, ¬ is_schedule o) x) →
    ∀ x, x ∈ leaves f → all_calls code (call_ok code x) x.
  Proof.
    intros D N x X. destruct (D x X) as (D1&D2&D3), (N x X) as (N1&N2&N3).
    split; [|split]; intros; (apply Forall_and; split; [|by auto]); auto.
  Qed.
  Lemma emit_not_schedule x : all_calls code is_emit x → all_calls code (λ o, ¬ is_schedule o) x.
  Proof.
    intros (D1&D2&D3). split; [|split]; [|intros h m; specialize (D2 h m)|intros h; specialize (D3 h)]; (eapply Forall_impl; [eassumption|]);
      intros []; simpl; tauto.
  Qed.

  Lemma single_serial f : (∀ x1 x2 y, wired f x1 y → wired f x2 y → x1 = x2) → one_at_a_time code f.
  Proof. intros S x1 x2 q F1 F2. left. destruct (feeds_served f x1 q F1) as [y Hy]. apply (S x1 x2 y); exists q; done. Qed.

  Lemma inv_reach f ls tr s : runnable code f → (∀ x, x ∈ leaves f → all_calls code (call_ok code x) x) →
    run code f ls (initial code f) = Some (tr, s) → Inv code f s ∧ InvT code f tr s.
  Proof.
    intros (Wt&In&Out&N1&N2) C R. assert (wf f) as Wf by done.
    apply (inv_run code f Wf Wt C Out ls [] (initial code f)); [by apply inv_init|by apply invT_init|done].
  Qed.

  Lemma received_all f tr s x y : InvT code f tr s → (∀ x1 x2 y, wired f x1 y → wired f x2 y → x1 = x2) → wired f x y →
    received y tr = pair x <$> received_from x y tr.
  Proof.
    intros T S W. assert (∀ x' m, Received y x' m ∈ tr → x' = x) as K.
    { intros x' m Hin. destruct (T_recv _ _ _ _ T _ _ _ Hin) as (_&W'&_). by apply (S x' x y). }
    clear T. unfold received_from, received. induction tr as [|e tr IH]; [done|].
    assert (∀ x' m, Received y x' m ∈ tr → x' = x) as K' by set_solver. specialize (IH K').
    destruct e as [| | | |y' x' m|]; try exact IH. simpl. destruct (decide (y' = y)) as [->|]; [|exact IH]. simpl.
    rewrite decide_True by (apply (K x' m); left). simpl. f_equal; [|exact IH]. f_equal. apply (K x' m). left.
  Qed.
  Lemma received_none f tr s y : InvT code f tr s → (∀ x, ¬ wired f x y) → received y tr = [].
  Proof.
    intros T S. assert (∀ x' m, Received y x' m ∉ tr) as K.
    { intros x' m Hin. destruct (T_recv _ _ _ _ T _ _ _ Hin) as (_&W'&_). by apply (S x'). }
    clear T. unfold received. induction tr as [|e tr IH]; [done|].
    assert (∀ x' m, Received y x' m ∉ tr) as K' by set_solver. specialize (IH K').
    destruct e as [| | | |y' x' m|]; try exact IH. simpl. destruct (decide (y' = y)) as [->|]; [|exact IH].
    destruct (K x' m). left.
  Qed.

  Lemma outcome f ls tr s x y : good f → (∀ x1 x2 y, wired f x1 y → wired f x2 y → x1 = x2) →
    run code f ls (initial code f) = Some (tr, s) → finished s → wired f x y →
    received y tr = pair x <$> filter (λ m, m_type m ∈ b_ins (code y)) (omap message_of (program code x (received x tr).*2)).
  Proof.
    intros (R&D&E) S Ru F W.
    assert (∀ x, x ∈ leaves f → all_calls code (call_ok code x) x) as C.
    { apply good_calls; [done|]. intros z Z. by apply emit_not_schedule, E. }
    destruct (inv_reach f ls tr s R C Ru) as [I T]. destruct R as (Wt&In&Out&N1&N2). assert (wf f) as Wf by done.
    rewrite (received_all f tr s x y T S W). f_equal.
    rewrite (received_from_delivered code f Wf Wt tr s x y T W).
    assert (x ∈ leaves f) as X by (destruct W as (q&Fq&_); by apply feeds_in in Fq as [? _]).
    destruct (finished_all code f Wf tr s x I T F X) as (Hi&Ho&Hs).
    rewrite <-Hi, <-Ho, <-Hs. f_equal. apply no_error_sent.
    apply (no_error_run code f Wf Wt C E (single_serial f S) ls (initial code f)) with (s' := s); [by apply inv_init|by apply invE_init|done].
  Qed.
  Lemma outcome_none f ls tr s y : good f →
    run code f ls (initial code f) = Some (tr, s) → (∀ x, ¬ wired f x y) → received y tr = [].
  Proof.
    intros (R&D&E) Ru N.
    assert (∀ x, x ∈ leaves f → all_calls code (call_ok code x) x) as C.
    { apply good_calls; [done|]. intros z Z. by apply emit_not_schedule, E. }
    destruct (inv_reach f ls tr s R C Ru) as [I T]. by apply (received_none f tr s y).
  Qed.

  Lemma outcome_same f g ls1 ls2 tr1 tr2 s1 s2 : good f → good g →
    (∀ x1 x2 y, wired f x1 y → wired f x2 y → x1 = x2) → (∀ x y, wired f x y ↔ wired g x y) →
    run code f ls1 (initial code f) = Some (tr1, s1) → finished s1 →
    run code g ls2 (initial code g) = Some (tr2, s2) → finished s2 →
    ∀ y, y ∈ leaves f → received y tr1 = received y tr2.
  Proof.
    intros G1 G2 S W R1 F1 R2 F2 y Y.
    assert (∀ x1 x2 y, wired g x1 y → wired g x2 y → x1 = x2) as S2.
    { intros x1 x2 z A1 A2. apply (S x1 x2 z); by apply W. }
    assert (wf f) as Wf by (destruct G1 as ((_&_&_&?&?)&_); done).
    apply teardown_block, elem_of_list_split in Y as (d&r&Hd). remember (length d) as n eqn:Hn.
    revert y d r Hd Hn. induction n as [n IH] using lt_wf_ind. intros y d r Hd Hn.
    assert (y ∈ leaves f) as Y by (apply teardown_block; rewrite Hd; set_solver).
    assert ((∀ x, ¬ wired f x y) ∨ ∃ x, wired f x y) as [N|[x X]].
    { destruct (leaf_in f y Y) as [En|[q Sq]].
      - left. intros x (q&_&Sq). by apply (entries_not_served f q y).
      - right. destruct (served_fed f q y Sq) as [x Fx]. exists x, q. done. }
    - rewrite (outcome_none f ls1 tr1 s1 y G1 R1 N), (outcome_none g ls2 tr2 s2 y G2 R2); [done|].
      intros x Wx. by apply (N x), W.
    - rewrite (outcome f ls1 tr1 s1 x y G1 S R1 F1 X), (outcome g ls2 tr2 s2 x y G2 S2 R2 F2); [|by apply W].
      assert (received x tr1 = received x tr2) as ->; [|done].
      destruct X as (q&Fx&Sy).
      pose proof (before_head _ _ _ d r (teardown_NoDup f Wf) (served_before f q y Wf Sy) Hd) as Nq.
      assert (IBlock x ∈ d) as Hx.
      { pose proof (feeds_in _ _ _ Fx) as [Lx _]. apply teardown_block in Lx. rewrite Hd in Lx.
        apply elem_of_app in Lx as [?|Lx]; [done|]. destruct Nq.
        by apply (before_left _ _ _ d _ (feeds_before f x q Wf Fx) Hd). }
      apply elem_of_list_split in Hx as (d1&d2&->).
      apply (IH (length d1)) with (d := d1) (r := d2 ++ IBlock y :: r); [|by rewrite Hd, <-app_assoc|done].
      rewrite Hn, app_length. simpl. lia.
  Qed.
End Outcome.
