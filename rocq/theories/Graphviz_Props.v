(** * Graphs are written as they are *)
From stdpp Require Import gmap list fin_sets.
From Verif Require Import Graphviz_Model Graphviz_Spec.

Lemma quoted_other c l : c ≠ 34 → c ≠ 92 → quoted (c :: l) = match quoted l with Some (s, r) => Some (c :: s, r) | None => None end.
Proof. intros A B. simpl. do 35 (destruct c as [|c]; [done|]). do 58 (destruct c as [|c]; [done|]). done. Qed.
(** Any text can be a label: what is read between the quotes is the text. *)
Theorem C101_escaped s r : quoted (escape s ++ 34 :: r) = Some (s, r).
Proof.
  induction s as [|c s IH]; [done|]. change (escape (c :: s)) with ((if decide (c = 34 ∨ c = 92) then [92; c] else [c]) ++ escape s). rewrite <- app_assoc. destruct (decide (c = 34 ∨ c = 92)) as [D|D].
  - cbn [app]. change (quoted (92 :: c :: escape s ++ 34 :: r)) with (match quoted (escape s ++ 34 :: r) with Some (s, r) => Some (c :: s, r) | None => None end). by rewrite IH.
  - cbn [app]. rewrite quoted_other by lia. by rewrite IH.
Qed.

Lemma key_other v w k h : v ≠ w → key (set_key v k h) w = key h w.
Proof. intros N. unfold key, set_key. by rewrite lookup_alter_ne. Qed.
Lemma keys_other n l h w : w ∉ l → key (keys n l h) w = key h w.
Proof. revert n h. induction l as [|v l IH]; intros n h N; [done|]. simpl. rewrite IH by (intros ?; apply N; by right). apply key_other. intros ->. apply N. by left. Qed.
Lemma keys_dom n l h w : is_Some (keys n l h !! w) ↔ is_Some (h !! w).
Proof. revert n h. induction l as [|v l IH]; intros n h; [done|]. simpl. rewrite IH. unfold set_key. apply lookup_alter_is_Some. Qed.
Lemma keys_label n l h w : from_option label [] (keys n l h !! w) = from_option label [] (h !! w).
Proof.
  revert n h. induction l as [|v l IH]; intros n h; [done|]. simpl. rewrite IH. unfold set_key. destruct (decide (v = w)) as [->|N]; [|by rewrite lookup_alter_ne].
  rewrite lookup_alter. by destruct (h !! w).
Qed.
Lemma keys_at l : NoDup l → ∀ n h, (∀ v, v ∈ l → is_Some (h !! v)) → ∀ i v, l !! i = Some v → key (keys n l h) v = S (n + i).
Proof.
  induction 1 as [|v l N ND IH]; intros n h H i w E; [done|]. simpl. destruct i as [|i]; simpl in E.
  - injection E as ->. rewrite keys_other by done. unfold key, set_key. rewrite lookup_alter. destruct (H w) as [x ->]; [by left|]. simpl. lia.
  - rewrite (IH (S n)) with (i := i); [lia| |done]. intros u U. unfold set_key. apply lookup_alter_is_Some. apply H. by right.
Qed.
Lemma keys_seq l n h : NoDup l → (∀ v, v ∈ l → is_Some (h !! v)) → key (keys n l h) <$> l = seq (S n) (length l).
Proof.
  intros ND H. apply list_eq. intros i. rewrite list_lookup_fmap. destruct (l !! i) as [v|] eqn:E; simpl.
  - rewrite (keys_at l ND n h H i v E). symmetry. apply lookup_seq. split; [lia|]. by eapply lookup_lt_Some.
  - symmetry. apply lookup_ge_None. rewrite seq_length. by apply lookup_ge_None.
Qed.
Lemma index_at l h : NoDup l → (∀ v, v ∈ l → is_Some (h !! v)) → ∀ i v, l !! i = Some v → at_ (keys 0 l h) (node_index (keys 0 l h) l) v = S i.
Proof.
  intros ND H i v E. unfold at_. rewrite (keys_at l ND 0 h H i v E). unfold node_index. rewrite (keys_seq l 0 h ND H).
  set (m := list_to_set (seq 1 (length l)) : gset nat). pose proof (lookup_lt_Some _ _ _ E) as L.
  assert (K : (set_to_map (λ k, (k, S (size (filter (λ k', k' < k) m)))) m : gmap nat nat) !! S (0 + i) = Some (S (size (filter (λ k', k' < S (0 + i)) m)))).
  { apply lookup_set_to_map; [by intros ? ? _ _|]. exists (S (0 + i)). split; [|done]. unfold m. rewrite elem_of_list_to_set, elem_of_seq. lia. }
  rewrite K. simpl. f_equal. transitivity (size (list_to_set (seq 1 i) : gset nat)).
  - f_equal. apply set_eq. intros x. unfold m. rewrite elem_of_filter, !elem_of_list_to_set, !elem_of_seq. lia.
  - rewrite size_list_to_set by apply NoDup_seq. by rewrite seq_length.
Qed.
(** A graph of which each node was added once, and whose edges are between its nodes, is written as it is. *)
Theorem C101_written nodes edges h : NoDup nodes → (∀ v, v ∈ nodes → is_Some (h !! v)) → (∀ u v, (u, v) ∈ edges → u ∈ nodes ∧ v ∈ nodes) →
  says nodes edges h (as_dot nodes edges h).1.
Proof.
  intros ND H E. unfold says, as_dot. simpl. eexists _, _. split; [done|]. rewrite !fmap_length. split_and!; [done|done|..].
  - intros i v V. eexists. rewrite list_lookup_fmap, V. simpl. rewrite (index_at nodes h ND H i v V). split; [done|]. intros r. rewrite keys_label. apply C101_escaped.
  - intros k u v K. destruct (E u v) as [U V]; [by eapply elem_of_list_lookup_2|]. apply elem_of_list_lookup in U as [i U]. apply elem_of_list_lookup in V as [j V].
    exists i, j. rewrite list_lookup_fmap, K. simpl. by rewrite (index_at nodes h ND H i u U), (index_at nodes h ND H j v V).
Qed.
Definition ex_heap : heap := {[ 10 := Impl 77 [97]; 20 := Impl 0 [98; 34]; 30 := Impl 5 [99] ]}.
Example ex_written : NoDup [20; 10] ∧ (∀ u v, (u, v) ∈ [(10, 20); (20, 20)] → u ∈ [20; 10] ∧ v ∈ [20; 10]) ∧
  (as_dot [20; 10] [(10, 20); (20, 20)] ex_heap).1 = [NodeLine 1 [98; 92; 34]; NodeLine 2 [97]; EdgeLine 2 1; EdgeLine 1 1].
Proof.
  split_and!; [apply NoDup_cons; split; [by intros ?%elem_of_list_singleton|apply NoDup_singleton]| |vm_compute; reflexivity].
  intros u v. rewrite !elem_of_cons, !elem_of_nil. intros [[= -> ->]|[[= -> ->]|[]]]; auto.
Qed.
(** An edge to a node that is not in the graph can be drawn to another node, which is: nodes are told apart by their order_key (graphviz.h 180-182), and a node that is
    in another graph has one from there. The comment there expects a node0 instead. *)
Theorem C101_edges_to_other_nodes_refuted :
  ¬ (∀ nodes other edges h, NoDup nodes → NoDup other → (∀ v, v ∈ nodes ++ other → is_Some (h !! v)) →
     ∀ k u v i j, edges !! k = Some (u, v) → (as_dot nodes edges (as_dot other [] h).2).1 !! (length nodes + k) = Some (EdgeLine (S i) (S j)) → nodes !! j = Some v).
Proof.
  intros A. specialize (A [20; 10] [30] [(10, 30)] ex_heap). assert (nodes : [20; 10] !! 0 = Some 30); [|done].
  apply A with (k := 0) (u := 10) (i := 1).
  - apply NoDup_cons. split; [by intros ?%elem_of_list_singleton|apply NoDup_singleton].
  - apply NoDup_singleton.
  - intros v. rewrite !elem_of_app, !elem_of_cons, !elem_of_nil. intros [[->|[->|[]]]|[->|[]]]; by eexists.
  - done.
  - vm_compute. reflexivity.
Qed.

Print Assumptions C101_escaped.
Print Assumptions C101_written.
Print Assumptions C101_edges_to_other_nodes_refuted.
