(** * Proofs about the search for a free port *)
From stdpp Require Import list.
From Coq Require Import Lia.
From Verif Require Import Tcp_Model Tcp_Spec.

Section Ports.
  Context (shuffle : nat → list nat → list nat) (try : nat → nat → bool).

  (** What has been tried, whatever the state. *)
  Lemma search_tried fuel n keep hint save p l r :
    search shuffle try fuel n keep hint save p = Some (l, r) →
    (∀ i x, l !! i = Some x → S i < length l → try (n + i) x = false) ∧
    match r with
    | Found port _ => ∃ pre, l = pre ++ [port] ∧ try (n + length pre) port = true
    | Fatal => ∀ i x, l !! i = Some x → try (n + i) x = false
    end.
  Proof.
    revert n keep hint p l r. induction fuel as [|fuel IH]; intros n keep hint p l r; [discriminate|].
    cbn [search]. destruct keep; [|intros [= <- <-]; split; [|]; intros i x H; discriminate].
    destruct (candidate _ _ _ _) as [[[port keep1] hint1] p1].
    destruct (try n port) eqn:E.
    - intros [= <- <-]. split.
      + intros [|i] x; simpl; [lia|discriminate].
      + exists []. simpl. by rewrite Nat.add_0_r.
    - destruct (search shuffle try fuel (S n) keep1 hint1 save p1) as [[l1 r1]|] eqn:E1; simpl; [|discriminate].
      intros [= <- <-]. apply IH in E1 as [H1 H2]. split.
      + intros [|i] x; simpl.
        * intros [= <-] _. by rewrite Nat.add_0_r.
        * intros Hx Hi. replace (n + S i) with (S n + i) by lia. apply H1; [done|lia].
      + destruct r1 as [q p2|].
        * destruct H2 as (pre & -> & H2). exists (port :: pre). split; [done|]. simpl.
          replace (n + S (length pre)) with (S n + length pre) by lia. done.
        * intros [|i] x; simpl.
          -- intros [= <-]. by rewrite Nat.add_0_r.
          -- intros Hx. replace (n + S i) with (S n + i) by lia. by apply H2.
  Qed.

  Lemma search_hint fuel n hint save p l r :
    hint ≠ 0 → search shuffle try fuel n true hint save p = Some (l, r) → head l = Some hint.
  Proof.
    intros Hh. destruct fuel as [|fuel]; [discriminate|]. cbn [search].
    unfold candidate. rewrite (decide_True (P := hint ≠ 0)) by done. cbn.
    destruct (try n hint); [intros [= <- <-]; done|].
    match goal with |- context [search ?a ?b ?c ?d ?e ?f ?g ?h] => destruct (search a b c d e f g h) as [[l1 r1]|] end;
      simpl; [|discriminate].
    intros [= <- <-]. done.
  Qed.

  Context (Hsh : shuffles shuffle).
  Context (ports : list nat).

  Lemma valid_nth p : valid ports p → nth (index p) (order p) 0 ∈ ports.
  Proof.
    intros [H1 H2]. rewrite <- H1. apply elem_of_list_In, nth_In. by rewrite H1.
  Qed.

  Lemma search_valid fuel n keep hint save p l r :
    valid ports p → search shuffle try fuel n keep hint save p = Some (l, r) →
    (∀ x, x ∈ l → (x = hint ∧ hint ≠ 0) ∨ x ∈ ports) ∧ match r with Found _ p' => valid ports p' | Fatal => True end.
  Proof.
    revert n keep hint p l r. induction fuel as [|fuel IH]; intros n keep hint p l r Hv; [discriminate|].
    cbn [search]. destruct keep; [|intros [= <- <-]; split; [|done]; intros x H; by apply elem_of_nil in H].
    set (p1 := if decide (index p = 0) then Picker (shuffle n (order p)) (index p) else p).
    assert (valid ports p1) as Hv1.
    { unfold p1. case_decide; [|done]. destruct Hv as [H1 H2]. split; simpl; [|done]. by rewrite (Hsh n). }
    destruct (candidate _ _ _ _) as [[[port keep1] hint1] p2] eqn:En.
    assert (valid ports p2 ∧ ((port = hint ∧ hint ≠ 0) ∨ port ∈ ports) ∧ hint1 = 0) as (Hv2 & Hp & ->).
    { unfold candidate in En. case_decide; injection En as <- <- <- <-; [auto|].
      split; [|split; [right; by apply valid_nth|done]].
      destruct Hv1 as [H1 H2]. split; simpl; [done|]. pose proof (Permutation_length H1). case_decide; lia. }
    destruct (try n port) eqn:E.
    - intros [= <- <-]. split; [|done]. intros x ->%elem_of_list_singleton. done.
    - destruct (search shuffle try fuel (S n) keep1 0 save p2) as [[l1 r1]|] eqn:E1; simpl; [|discriminate].
      intros [= <- <-]. destruct keep1.
      + apply IH in E1 as [H1 H2]; [|done]. split; [|done]. intros x [->|Hx]%elem_of_cons; [done|].
        destruct (H1 _ Hx) as [[_ ?]|]; [done|tauto].
      + destruct fuel as [|fuel]; [discriminate|]. simpl in E1. injection E1 as <- <-. split; [|done].
        intros x [->|Hx]%elem_of_cons; [done|]. by apply elem_of_nil in Hx.
  Qed.
End Ports.
