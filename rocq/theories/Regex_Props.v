(** * Named groups are the groups they are *)
From stdpp Require Import list.
From Verif Require Import Regex_Model Regex_Spec.

Section Ind.
Context (P : item → Prop) (HL : ∀ c, P (Lit c)) (HE : ∀ c, P (Esc c)) (HG : ∀ n l, Forall P l → P (Group n l)) (HP : ∀ l, Forall P l → P (Plain l)) (HA : ∀ l, Forall P l → P (Ahead l)).
Fixpoint item_ind' (i : item) : P i :=
  let fix go l : Forall P l := match l with [] => Forall_nil_2 _ | i :: l => Forall_cons_2 _ _ _ (item_ind' i) (go l) end in
  match i with Lit c => HL c | Esc c => HE c | Group n l => HG n l (go l) | Plain l => HP l (go l) | Ahead l => HA l (go l) end.
End Ind.

Lemma skip_names e n x k : group_names e (S (length n)) (n ++ x :: k) = group_names (bool_decide (x = 92)) 0 k.
Proof. revert e. induction n as [|c n IH]; intros e; [done|]. apply IH. Qed.
Lemma skip_name e n k : group_names e (3 + length n) (63 :: 60 :: n ++ 62 :: k) = group_names false 0 k.
Proof. exact (skip_names _ n 62 k). Qed.
Lemma skip_tname n k : transformed (3 + length n) (63 :: 60 :: n ++ 62 :: k) = transformed 0 k.
Proof. change (transformed (S (length n)) (n ++ 62 :: k) = transformed 0 k). induction n as [|c n IH]; [done|]. exact IH. Qed.
Lemma word_prefix_all n c k : Forall is_word n → ¬ is_word c → word_prefix (n ++ c :: k) = n.
Proof.
  intros F N. induction F as [|x n W F IH]; simpl; [by rewrite decide_False|]. by rewrite decide_True, IH.
Qed.
Lemma name_there n k : Forall is_word n → name_at (63 :: 60 :: n ++ 62 :: k) = n.
Proof.
  intros F. unfold name_at. rewrite word_prefix_all; [|done|unfold is_word; lia]. by rewrite drop_app.
Qed.
Lemma no_name l : head l ≠ Some 63 → name_at l = [] ∧ ¬ not_a_group l.
Proof.
  intros N. split.
  - destruct l as [|c l]; [done|]. assert (C : c ≠ 63) by (intros ->; by apply N). clear N. do 63 (destruct c as [|c]; [done|]). by destruct c as [|c].
  - unfold not_a_group. destruct l as [|c l]; [by intros [[=]|[=]]|]. intros [[= -> _]|[= -> _]]; by apply N.
Qed.

Lemma text_app1 l k : head (text l ++ [41]) ≠ Some 63 → head (text l ++ 41 :: k) ≠ Some 63.
Proof. by destruct (text l). Qed.

Lemma names1 i : ∀ k, ok1 i k → group_names false 0 (text1 i ++ k) = captures1 i ++ group_names false 0 k.
Proof.
  induction i as [c|c|n l IH|l IH|l IH] using item_ind'; intros k O.
  - destruct O as [O1 O2]. simpl. rewrite decide_False by (intros [? _]; done). by rewrite bool_decide_false.
  - destruct O as [O1 O2]. cbn [text1 app group_names]. rewrite decide_False by (intros [? _]; done). rewrite bool_decide_true by done.
    destruct (decide (c = 40 ∧ ¬ not_a_group k)) as [[-> D]|D].
    + destruct (no_name k (O2 eq_refl)) as [-> _]. done.
    + by rewrite bool_decide_false.
  - destruct O as (W & N & O). change (text1 (Group n l)) with (match n with [] => 40 :: text l ++ [41] | n => 40 :: 63 :: 60 :: n ++ 62 :: text l ++ [41] end).
    change (captures1 (Group n l)) with (n :: captures l).
    assert (A : ∀ k, ok l k → group_names false 0 (text l ++ k) = captures l ++ group_names false 0 k).
    { clear -IH. induction IH as [|i l H IH' IH]; intros k O; [done|]. destruct O as [O1 O2]. cbn [text captures]. rewrite <- !app_assoc, H by done. f_equal. by apply IH. }
    assert (E : group_names false 0 (text l ++ 41 :: k) = captures l ++ group_names false 0 k).
    { rewrite A by exact O. f_equal. }
    destruct n as [|c n].
    + rewrite <- app_comm_cons, <- app_assoc. cbn [app group_names]. specialize (N eq_refl). destruct (no_name _ (text_app1 l k N)) as [NN NG].
      rewrite decide_True by done. rewrite NN. cbn [app]. f_equal. exact E.
    + cbn [app]. rewrite <- app_assoc. cbn [app]. change (c :: n ++ 62 :: (text l ++ [41]) ++ k) with ((c :: n) ++ 62 :: (text l ++ [41]) ++ k). rewrite <- (app_assoc (text l)). cbn [group_names].
      rewrite decide_True by (split; [done|]; unfold not_a_group; simpl; intros [[=]|[=]]). rewrite (name_there (c :: n)) by done. cbn [app]. f_equal.
      exact (eq_trans (skip_name false (c :: n) (text l ++ 41 :: k)) E).
  - change (text1 (Plain l)) with (40 :: 63 :: 58 :: text l ++ [41]). change (captures1 (Plain l)) with (captures l).
    assert (A : ∀ k, ok l k → group_names false 0 (text l ++ k) = captures l ++ group_names false 0 k).
    { clear -IH. induction IH as [|i l H IH' IH]; intros k O; [done|]. destruct O as [O1 O2]. cbn [text captures]. rewrite <- !app_assoc, H by done. f_equal. by apply IH. }
    cbn [app]. rewrite <- app_assoc. cbn [group_names]. rewrite decide_False by (intros [_ G]; apply G; unfold not_a_group; simpl; auto). rewrite !decide_False by (intros [? _]; done).
    rewrite !bool_decide_false by done. change ([41] ++ k) with (41 :: k). rewrite A by exact O. done.
  - change (text1 (Ahead l)) with (40 :: 63 :: 61 :: text l ++ [41]). change (captures1 (Ahead l)) with (captures l).
    assert (A : ∀ k, ok l k → group_names false 0 (text l ++ k) = captures l ++ group_names false 0 k).
    { clear -IH. induction IH as [|i l H IH' IH]; intros k O; [done|]. destruct O as [O1 O2]. cbn [text captures]. rewrite <- !app_assoc, H by done. f_equal. by apply IH. }
    cbn [app]. rewrite <- app_assoc. cbn [group_names]. rewrite decide_False by (intros [_ G]; apply G; unfold not_a_group; simpl; auto). rewrite !decide_False by (intros [? _]; done).
    rewrite !bool_decide_false by done. change ([41] ++ k) with (41 :: k). rewrite A by exact O. done.
Qed.
Lemma transformed1 i : ∀ k, ok1 i k → transformed 0 (text1 i ++ k) = text1 (unnamed1 i) ++ transformed 0 k.
Proof.
  induction i as [c|c|n l IH|l IH|l IH] using item_ind'; intros k O.
  - destruct O as [O1 O2]. simpl. by rewrite decide_False by (intros [? _]; done).
  - destruct O as [O1 O2]. cbn [text1 unnamed1 app transformed]. rewrite decide_False by (intros [? _]; done). f_equal.
    destruct (decide (c = 40 ∧ ¬ not_a_group k)) as [[-> D]|D]; [|done].
    by destruct (no_name k (O2 eq_refl)) as [-> _].
  - destruct O as (W & N & O). change (text1 (Group n l)) with (match n with [] => 40 :: text l ++ [41] | n => 40 :: 63 :: 60 :: n ++ 62 :: text l ++ [41] end).
    change (text1 (unnamed1 (Group n l))) with (40 :: text (unnamed l) ++ [41]).
    assert (A : ∀ k, ok l k → transformed 0 (text l ++ k) = text (unnamed l) ++ transformed 0 k).
    { clear -IH. induction IH as [|i l H IH' IH]; intros k O; [done|]. destruct O as [O1 O2]. cbn [text unnamed]. rewrite <- !app_assoc, H by done. f_equal. by apply IH. }
    assert (E : transformed 0 (text l ++ 41 :: k) = text (unnamed l) ++ 41 :: transformed 0 k) by (rewrite A by exact O; done).
    rewrite <- app_comm_cons, <- app_assoc. change ([41] ++ transformed 0 k) with (41 :: transformed 0 k). rewrite <- E. destruct n as [|c n].
    + rewrite <- app_comm_cons, <- app_assoc. cbn [app transformed]. specialize (N eq_refl). destruct (no_name _ (text_app1 l k N)) as [NN NG].
      rewrite decide_True by done. by rewrite NN.
    + cbn [app]. rewrite <- app_assoc. cbn [app]. change (c :: n ++ 62 :: (text l ++ [41]) ++ k) with ((c :: n) ++ 62 :: (text l ++ [41]) ++ k). rewrite <- (app_assoc (text l)). cbn [transformed].
      rewrite decide_True by (split; [done|]; unfold not_a_group; simpl; intros [[=]|[=]]). rewrite (name_there (c :: n)) by done. f_equal.
      exact (skip_tname (c :: n) (text l ++ 41 :: k)).
  - change (text1 (Plain l)) with (40 :: 63 :: 58 :: text l ++ [41]). change (text1 (unnamed1 (Plain l))) with (40 :: 63 :: 58 :: text (unnamed l) ++ [41]).
    assert (A : ∀ k, ok l k → transformed 0 (text l ++ k) = text (unnamed l) ++ transformed 0 k).
    { clear -IH. induction IH as [|i l H IH' IH]; intros k O; [done|]. destruct O as [O1 O2]. cbn [text unnamed]. rewrite <- !app_assoc, H by done. f_equal. by apply IH. }
    cbn [app]. rewrite <- !app_assoc. cbn [transformed]. rewrite decide_False by (intros [_ G]; apply G; unfold not_a_group; simpl; auto). rewrite !decide_False by (intros [? _]; done).
    change ([41] ++ k) with (41 :: k). rewrite A by exact O. done.
  - change (text1 (Ahead l)) with (40 :: 63 :: 61 :: text l ++ [41]). change (text1 (unnamed1 (Ahead l))) with (40 :: 63 :: 61 :: text (unnamed l) ++ [41]).
    assert (A : ∀ k, ok l k → transformed 0 (text l ++ k) = text (unnamed l) ++ transformed 0 k).
    { clear -IH. induction IH as [|i l H IH' IH]; intros k O; [done|]. destruct O as [O1 O2]. cbn [text unnamed]. rewrite <- !app_assoc, H by done. f_equal. by apply IH. }
    cbn [app]. rewrite <- !app_assoc. cbn [transformed]. rewrite decide_False by (intros [_ G]; apply G; unfold not_a_group; simpl; auto). rewrite !decide_False by (intros [? _]; done).
    change ([41] ++ k) with (41 :: k). rewrite A by exact O. done.
Qed.

(** The groups that are found are those that capture, in the order in which they open, which is how std::regex counts them; and what it is given is the same regular
    expression without the names. *)
Theorem C102_groups l : ok l [] → group_names false 0 (text l) = captures l ∧ transformed 0 (text l) = text (unnamed l).
Proof.
  intros O. split.
  - assert (A : ∀ k, ok l k → group_names false 0 (text l ++ k) = captures l ++ group_names false 0 k).
    { clear. induction l as [|i l IH]; intros k O; [done|]. destruct O as [O1 O2]. cbn [text captures]. rewrite <- !app_assoc, names1 by done. f_equal. by apply IH. }
    specialize (A [] O). by rewrite !app_nil_r in A.
  - assert (A : ∀ k, ok l k → transformed 0 (text l ++ k) = text (unnamed l) ++ transformed 0 k).
    { clear. induction l as [|i l IH]; intros k O; [done|]. destruct O as [O1 O2]. cbn [text unnamed]. rewrite <- !app_assoc, transformed1 by done. f_equal. by apply IH. }
    specialize (A [] O). by rewrite !app_nil_r in A.
Qed.
(** So a name stands for the last group that has it; one that no group has stands for none. *)
Theorem C102_index l name : ok l [] → name ≠ [] →
  match group_index (text l) name with
  | Some i => 1 ≤ i ∧ captures l !! (i - 1) = Some name ∧ ∀ j, i - 1 < j → captures l !! j ≠ Some name
  | None => name ∉ captures l
  end.
Proof.
  intros O N. unfold group_index. destruct (C102_groups l O) as [-> _]. generalize (captures l) as ns. clear -N. intros ns.
  assert (A : ∀ k, match index_from k name ns with Some i => k ≤ i ∧ ns !! (i - k) = Some name ∧ ∀ j, i - k < j → ns !! j ≠ Some name | None => name ∉ ns end); [|apply A].
  induction ns as [|n ns IH]; intros k; [by intros ?%elem_of_nil|]. cbn [index_from]. specialize (IH (S k)). destruct (index_from (S k) name ns) as [i|].
  - destruct IH as (L & E & F). split; [lia|]. replace (i - k) with (S (i - S k)) by lia. split; [exact E|]. intros [|j] J; [lia|]. apply F. lia.
  - destruct (decide (n = name ∧ n ≠ [])) as [[-> D]|D].
    + split; [lia|]. rewrite Nat.sub_diag. split; [done|]. intros [|j] J; [lia|]. intros H. apply IH. by eapply elem_of_list_lookup_2.
    + intros [->|H]%elem_of_cons; [by apply D|done].
Qed.
(** [a(?<x>b(?:c)\()(d)(?<y>e)*] *)
Definition ex_re : list item := [Lit 97; Group [120] [Lit 98; Plain [Lit 99]; Esc 40]; Group [] [Lit 100]; Group [121] [Lit 101]; Lit 42].
Example ex_groups : ok ex_re [] ∧ captures ex_re = [[120]; []; [121]] ∧ group_index (text ex_re) [121] = Some 3 ∧
  transformed 0 (text ex_re) = [97; 40; 98; 40; 63; 58; 99; 41; 92; 40; 41; 40; 100; 41; 40; 101; 41; 42].
Proof. split_and!; [|done|done|done]. repeat split; try done; repeat constructor; unfold is_word; lia. Qed.

(** [(?!a)(?<x>b)]: a negative lookahead counts as a group, so that [x] is taken to be group two of one (regex.h 70 leaves out [?:] and [?=] only). *)
Theorem C102_lookaheads_refuted : ¬ (∀ l n, Forall is_word n → n ≠ [] → ok l [] → captures l = [] → group_index ([40; 63; 33] ++ text l ++ [41] ++ text [Group n []]) n = Some 1).
Proof.
  intros A. specialize (A [Lit 97] [120]). assert (W : Forall is_word [120]) by (repeat constructor; unfold is_word; lia).
  specialize (A W ltac:(done) ltac:(by repeat split) eq_refl). vm_compute in A. discriminate.
Qed.
(** A group after an escaped backslash does not count, so that the names after it are of the groups before theirs: 72 looks at one character only. *)
Theorem C102_escaped_backslashes_refuted : ¬ (∀ c n m, Forall is_word n → Forall is_word m → m ≠ [] → n ≠ m → group_index (text [Esc c; Group n []; Group m []]) m = Some 2).
Proof. intros A. specialize (A 92 [] [120] (Forall_nil_2 _)). assert (W : Forall is_word [120]) by (repeat constructor; unfold is_word; lia). specialize (A W ltac:(done) ltac:(done)). vm_compute in A. discriminate. Qed.

Print Assumptions C102_groups.
Print Assumptions C102_index.
Print Assumptions C102_lookaheads_refuted.
Print Assumptions C102_escaped_backslashes_refuted.
