(** * Proofs about the search for a free port: which ports are tried *)
From stdpp Require Import list.
From Coq Require Import Lia.
From Verif Require Import Tcp_Model Tcp_Spec Tcp_Proofs2.

Section Ports.
  Context (shuffle : nat → list nat → list nat) (try : nat → nat → bool).
  Context (Hsh : shuffles shuffle).

  (** Going through a list, up to the first success. *)
  Fixpoint upto (n : nat) (l : list nat) : list nat :=
    match l with [] => [] | x :: r => if try n x then [x] else x :: upto (S n) r end.
  Definition all_fail (n : nat) (l : list nat) : Prop := ∀ i x, l !! i = Some x → try (n + i) x = false.
  Definition good (n : nat) (l : list nat) (res : option (list nat * found)) : Prop :=
    ∃ r, res = Some (upto n l, r) ∧ (r = Fatal ↔ all_fail n l).

  Lemma good_nil fuel n hint save p : good n [] (search shuffle try (S fuel) n false hint save p).
  Proof. exists Fatal. split; [done|]. split; [|done]. intros _ i x H. discriminate. Qed.

  Lemma all_fail_cons n x l : all_fail n (x :: l) ↔ try n x = false ∧ all_fail (S n) l.
  Proof.
    split.
    - intros H. split.
      + rewrite <- (Nat.add_0_r n). by apply (H 0).
      + intros i y Hy. replace (S n + i) with (n + S i) by lia. by apply H.
    - intros [H1 H2] [|i] y; simpl.
      + intros [= <-]. by rewrite Nat.add_0_r.
      + intros Hy. replace (n + S i) with (S n + i) by lia. by apply H2.
  Qed.

  Lemma good_cons n x l q (res : option (list nat * found)) :
    good (S n) l res →
    good n (x :: l) (if try n x then Some ([x], Found x q) else '(l, r) ← res; Some (x :: l, r)).
  Proof.
    intros (r & -> & Hr). unfold good. simpl. destruct (try n x) eqn:E; simpl.
    - eexists. split; [done|]. rewrite all_fail_cons. split; [discriminate|]. intros []. congruence.
    - exists r. split; [done|]. rewrite all_fail_cons, Hr. tauto.
  Qed.

  (** One round, with no hint. *)
  Lemma search_round fuel n save o j :
    search shuffle try (S fuel) n true 0 save (Picker o j) =
      let o1 := if decide (j = 0) then shuffle n o else o in
      let i := if decide (S j = length o) then 0 else S j in
      if try n (nth j o1 0) then Some ([nth j o1 0], Found (nth j o1 0) (Picker o1 i))
      else '(l, r) ← search shuffle try fuel (S n) (if decide (i = save) then false else true) 0 save (Picker o1 i);
           Some (nth j o1 0 :: l, r).
  Proof.
    cbn [search index order]. unfold candidate.
    destruct (decide (j = 0)) as [->|Hj]; cbn [index order]; simpl.
    - rewrite (Permutation_length (Hsh n o)). done.
    - done.
  Qed.

  Lemma drop_nth (o : list nat) j : j < length o → drop j o = nth j o 0 :: drop (S j) o.
  Proof.
    intros H. destruct (lookup_lt_is_Some_2 o j H) as [x E]. rewrite (drop_S _ _ _ E).
    f_equal. symmetry. by apply nth_lookup_Some.
  Qed.

  (** From [j] on, not past the end. *)
  Lemma good_ahead save o fuel n j :
    0 < j → j < save → save < length o → save - j < fuel →
    good n (take (save - j) (drop j o)) (search shuffle try fuel n true 0 save (Picker o j)).
  Proof.
    revert n j. induction fuel as [|fuel IH]; intros n j H1 H2 H3 H4; [lia|].
    rewrite search_round. rewrite decide_False by lia. rewrite decide_False by lia. cbv zeta.
    rewrite drop_nth by lia. replace (save - j) with (S (save - S j)) by lia. simpl take.
    apply good_cons. destruct (decide (S j = save)) as [E|E].
    - replace (save - S j) with 0 by lia. simpl take. destruct fuel; [lia|]. apply good_nil.
    - apply IH; lia.
  Qed.

  (** From the start, which shuffles. *)
  Lemma good_start save o fuel n :
    0 < save → save < length o → save < fuel →
    good n (take save (shuffle n o)) (search shuffle try fuel n true 0 save (Picker o 0)).
  Proof.
    intros H1 H2 H3. destruct fuel as [|fuel]; [lia|].
    rewrite search_round. rewrite decide_True by done. rewrite decide_False by lia. cbv zeta.
    pose proof (Permutation_length (Hsh n o)) as HL.
    replace (take save (shuffle n o)) with (nth 0 (shuffle n o) 0 :: take (save - 1) (drop 1 (shuffle n o))).
    2:{ pose proof (drop_nth (shuffle n o) 0) as D. rewrite drop_0 in D. rewrite D at 3 by lia.
        destruct save as [|save]; [lia|]. rewrite firstn_cons. replace (S save - 1) with save by lia. done. }
    apply good_cons. destruct (decide (1 = save)) as [E|E].
    - replace (save - 1) with 0 by lia. simpl take. destruct fuel; [lia|]. apply good_nil.
    - apply good_ahead; lia.
  Qed.

  (** From [j] on to the end, and then from the start. *)
  Lemma good_around save o fuel n j :
    0 < j → save ≤ j → j < length o → length o - j + save < fuel →
    good n (drop j o ++ take save (shuffle (n + (length o - j)) o)) (search shuffle try fuel n true 0 save (Picker o j)).
  Proof.
    revert n j. induction fuel as [|fuel IH]; intros n j H1 H2 H3 H4; [lia|].
    rewrite search_round. rewrite decide_False by lia. cbv zeta.
    rewrite drop_nth by lia. simpl app. apply good_cons.
    destruct (decide (S j = length o)) as [E|E].
    - rewrite (drop_ge o (S j)) by lia. simpl app. replace (n + (length o - j)) with (S n) by lia.
      destruct (decide (0 = save)) as [<-|E2].
      + rewrite take_0. destruct fuel; [lia|]. apply good_nil.
      + apply good_start; lia.
    - rewrite decide_False by lia. replace (n + (length o - j)) with (S n + (length o - S j)) by lia. apply IH; lia.
  Qed.

  (** The ports that a call of [DoIt] goes through, without the hint. *)
  Definition expected (n : nat) (p : picker) : list nat :=
    if decide (index p = 0) then shuffle n (order p)
    else drop (index p) (order p) ++ take (index p) (shuffle (n + (length (order p) - index p)) (order p)).

  Lemma expected_length n p : index p ≤ length (order p) → length (expected n p) = length (order p).
  Proof.
    intros H. unfold expected. case_decide.
    - apply Permutation_length, Hsh.
    - rewrite app_length, drop_length, take_length, (Permutation_length (Hsh _ _)). lia.
  Qed.

  Lemma good_search fuel n p :
    2 ≤ length (order p) → index p < length (order p) → length (order p) < fuel →
    good n (expected n p) (search shuffle try fuel n true 0 (index p) p).
  Proof.
    intros H1 H2 H3. destruct p as [o j]. simpl in *. unfold expected. simpl.
    destruct (decide (j = 0)) as [->|Hj].
    - destruct fuel as [|fuel]; [lia|]. rewrite search_round. rewrite decide_True by done. rewrite decide_False by lia. cbv zeta.
      pose proof (Permutation_length (Hsh n o)) as HL.
      replace (shuffle n o) with (nth 0 (shuffle n o) 0 :: drop 1 (shuffle n o)) at 1
        by (rewrite <- (drop_nth _ 0) by lia; done).
      apply good_cons. rewrite decide_False by lia.
      pose proof (good_around 0 (shuffle n o) fuel (S n) 1) as G. rewrite take_0, app_nil_r in G. apply G; lia.
    - apply good_around; lia.
  Qed.

  Lemma good_search_hint fuel n hint p :
    hint ≠ 0 →
    2 ≤ length (order p) → index p < length (order p) → S (length (order p)) < fuel →
    good n (hint :: expected (S n) (if decide (index p = 0) then Picker (shuffle n (order p)) (index p) else p))
      (search shuffle try fuel n true hint (index p) p).
  Proof.
    intros Hh H1 H2 H3. destruct fuel as [|fuel]; [lia|]. cbn [search]. unfold candidate.
    rewrite (decide_True (P := hint ≠ 0)) by done.
    apply good_cons. destruct (decide (index p = 0)) as [E|E].
    - pose proof (Permutation_length (Hsh n (order p))) as HL.
      pose proof (good_search fuel (S n) (Picker (shuffle n (order p)) (index p))) as G. simpl in G. apply G; lia.
    - apply good_search; lia.
  Qed.
End Ports.
