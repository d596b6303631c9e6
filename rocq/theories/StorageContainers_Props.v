(** C23-C26: the four storage containers. *)
From stdpp Require Import gmap.
From Coq Require Import ZArith Lia.
From Verif Require Import StorageContainers_Model StorageContainers_Spec StorageContainers_Proofs.

(* ------------------------------------------------------------------ *)
(** * C23 *)

Section C23.
  Context {K T P : Type} `{Countable K} (get_key : T -> K) (patch_with : P -> T -> T).

  (** Any sequence of Add, Erase and Patch starting from an empty dictionary
      runs without undefined behaviour, and every read agrees with the table
      obtained by applying the operations; LastModified is the time of the last
      journalled mutation of the key (kept after erasure).  Patches are assumed
      not to change the key of the object (see C28 for what happens if not). *)
  Theorem C23_dictionary_is_a_map clk n (ops : list (dict_op K T P)) :
    (∀ p o, get_key (patch_with p o) = get_key o) ->
    ∃ log s n',
      run_ops (dict_step get_key patch_with clk) n ops dict_init = Some (log, s, n') ∧
      let table := fold_left (dictionary_after get_key patch_with) ops ∅ in
      (∀ k, dict_get s k = table !! k) ∧
      (∀ k, dict_has s k = true ↔ is_Some (table !! k)) ∧
      dict_size s = size table ∧
      (dict_empty s = true ↔ table = ∅) ∧
      (∀ k o, (k, o) ∈ dict_entries s ↔ table !! k = Some o) ∧
      NoDup (dict_entries s).*1 ∧
      (∀ k o, table !! k = Some o → get_key o = k) ∧
      (∀ k, dict_last_modified s k = last_touch get_key k log.*1).
  Proof.
    intros Hp.
    destruct (run_ops_ok get_key patch_with dict_valid (dict_step get_key patch_with clk)
      (dict_inv get_key) dict_abs (dictionary_after get_key patch_with)
      (λ n op s, dict_step_full get_key patch_with clk n op s Hp) ops n dict_init
      (dict_init_inv get_key)) as (log & s & n' & E & I & Hc & Ht).
    exists log, s, n'. split; [done|]. simpl in Ht. intros table. fold table in Ht.
    unfold dict_get, dict_has, dict_size, dict_empty, dict_entries, dict_last_modified. rewrite Ht.
    split_and!.
    - done.
    - intros k. destruct (table !! k); split; try done; first [by eauto|by intros [? ?]].
    - done.
    - by rewrite bool_decide_eq_true.
    - intros k o. apply elem_of_map_to_list.
    - apply NoDup_fst_map_to_list.
    - intros k o Hk. apply (proj1 I). by rewrite Ht.
    - intros k. pose proof (chain_last_touch _ _ _ _ _ _ k Hc) as El.
      cbn [dict_abs snd] in El. rewrite El. simpl. rewrite lookup_empty.
      by destruct (last_touch get_key k log.*1).
  Qed.

  (** Each operation journals exactly what it changed: Add one update, Erase
      and Patch one mutation if the key is present and none otherwise. *)
  Theorem C23_dictionary_journal clk n (ops : list (dict_op K T P)) :
    (∀ p o, get_key (patch_with p o) = get_key o) ->
    ∀ log s n', run_ops (dict_step get_key patch_with clk) n ops dict_init = Some (log, s, n') →
    (∀ o, ∃ u s', dict_step get_key patch_with clk n' (DAdd o) s =
                    Some ([(Updated (clk n') o, u)], s', S n')) ∧
    (∀ k, ∃ l s', dict_step get_key patch_with clk n' (DErase k) s = Some (l, s', S n') ∧
        l.*1 = if decide (is_Some (dict_get s k)) then [Deleted (clk n') k] else []) ∧
    (∀ k p, ∃ l s', dict_step get_key patch_with clk n' (DPatch k p) s = Some (l, s', S n') ∧
        l.*1 = if decide (is_Some (dict_get s k)) then [Patched (clk n') k p] else []).
  Proof.
    intros Hp log s n' E.
    destruct (run_ops_ok get_key patch_with dict_valid (dict_step get_key patch_with clk)
      (dict_inv get_key) dict_abs (dictionary_after get_key patch_with)
      (λ n op s, dict_step_full get_key patch_with clk n op s Hp) ops n dict_init
      (dict_init_inv get_key)) as (log1 & s1 & n1 & E1 & [I1 I2] & _).
    rewrite E in E1. simplify_eq. split_and!.
    - intros o. simpl. unfold dict_add. destruct (d_map s1 !! get_key o) as [o'|] eqn:Ek.
      + destruct (I2 _ _ Ek) as [ts ->]. eauto.
      + destruct (d_lm s1 !! get_key o); eauto.
    - intros k. simpl. unfold dict_erase, dict_get. destruct (d_map s1 !! k) as [o'|] eqn:Ek.
      + destruct (I2 _ _ Ek) as [ts ->]. rewrite (I1 _ _ Ek). eexists _, _; split; [done|].
        by rewrite decide_True by eauto.
      + eexists _, _; split; [done|]. by rewrite decide_False by (by intros [? ?]).
    - intros k p. simpl. unfold dict_patch, dict_get. destruct (d_map s1 !! k) as [o'|] eqn:Ek.
      + destruct (I2 _ _ Ek) as [ts ->]. eexists _, _; split; [done|].
        by rewrite decide_True by eauto.
      + eexists _, _; split; [done|]. by rewrite decide_False by (by intros [? ?]).
  Qed.
End C23.

(** Non-vacuity: a dictionary of pairs keyed by the first component; patches
    add to the second component. *)
Example C23_example :
  let gk := (λ o : nat * nat, o.1) in
  let pw := (λ (p : nat) (o : nat * nat), (o.1, o.2 + p)) in
  (∀ p o, gk (pw p o) = gk o) ∧
  ∃ log s n', run_ops (dict_step gk pw (λ n, Z.of_nat (100 + n))) 0
                [DAdd (1, 10); DAdd (2, 20); DPatch 1 5; DErase 2; DErase 7] dict_init = Some (log, s, n')
    ∧ dict_get s 1 = Some (1, 15) ∧ dict_get s 2 = None ∧ dict_size s = 1
    ∧ dict_last_modified s 1 = Some 102%Z ∧ dict_last_modified s 2 = Some 103%Z
    ∧ dict_last_modified s 7 = None ∧ length log = 4.
Proof. split; [done|]. eexists _, _, _. split; [vm_compute; reflexivity|]. vm_compute. split_and!; reflexivity. Qed.

(* ------------------------------------------------------------------ *)
(** * C24-C26 *)

Section Matrix.
  Context {R C T : Type} `{Countable R} `{Countable C}.
  Context (get_row : T -> R) (get_col : T -> C).
  Notation key_of := (λ o : T, (get_row o, get_col o)).

  Lemma o2o_reach clk n ops :
    ∃ log s n', run_ops (o2o_step get_row get_col clk) n ops o2o_init = Some (log, s, n') ∧
      o2o_inv get_row get_col s ∧
      (∀ k, x_last_modified s k = last_touch key_of k log.*1) ∧
      (x_abs s).1 = fold_left (one_to_one_after get_row get_col) ops ∅.
  Proof.
    destruct (run_ops_ok _ _ (o2o_valid get_row get_col) (o2o_step get_row get_col clk)
      (o2o_inv get_row get_col) x_abs (one_to_one_after get_row get_col)
      (o2o_step_full get_row get_col clk) ops n o2o_init (o2o_init_inv get_row get_col))
      as (log & s & n' & E & I & Hc & Ht).
    exists log, s, n'. split_and!; [done|done| |].
    - intros k. unfold x_last_modified. pose proof (chain_last_touch _ _ _ _ _ _ k Hc) as El.
      cbn [x_abs snd] in El. rewrite El. simpl. rewrite lookup_empty.
      by destruct (last_touch _ k log.*1).
    - rewrite Ht. f_equal. unfold x_abs, contents. simpl. apply omap_empty.
  Qed.

  Lemma o2m_reach clk n ops :
    ∃ log s n', run_ops (o2m_step get_row get_col clk) n ops o2m_init = Some (log, s, n') ∧
      o2m_inv get_row get_col s ∧
      (∀ k, x_last_modified s k = last_touch key_of k log.*1) ∧
      (x_abs s).1 = fold_left (one_to_many_after get_row get_col) ops ∅.
  Proof.
    destruct (run_ops_ok _ _ (o2m_valid get_row get_col) (o2m_step get_row get_col clk)
      (o2m_inv get_row get_col) x_abs (one_to_many_after get_row get_col)
      (o2m_step_full get_row get_col clk) ops n o2m_init (o2m_init_inv get_row get_col))
      as (log & s & n' & E & I & Hc & Ht).
    exists log, s, n'. split_and!; [done|done| |].
    - intros k. unfold x_last_modified. pose proof (chain_last_touch _ _ _ _ _ _ k Hc) as El.
      cbn [x_abs snd] in El. rewrite El. simpl. rewrite lookup_empty.
      by destruct (last_touch _ k log.*1).
    - rewrite Ht. f_equal. unfold x_abs, contents. simpl. apply omap_empty.
  Qed.

  Lemma m2m_reach clk n ops :
    ∃ log s n', run_ops (m2m_step get_row get_col clk) n ops m2m_init = Some (log, s, n') ∧
      m2m_inv get_row get_col s ∧
      (∀ k, x_last_modified s k = last_touch key_of k log.*1) ∧
      (x_abs s).1 = fold_left (many_to_many_after get_row get_col) ops ∅.
  Proof.
    destruct (run_ops_ok _ _ m2m_valid (m2m_step get_row get_col clk)
      (m2m_inv get_row get_col) x_abs (many_to_many_after get_row get_col)
      (m2m_step_full get_row get_col clk) ops n m2m_init (m2m_init_inv get_row get_col))
      as (log & s & n' & E & I & Hc & Ht).
    exists log, s, n'. split_and!; [done|done| |].
    - intros k. unfold x_last_modified. pose proof (chain_last_touch _ _ _ _ _ _ k Hc) as El.
      cbn [x_abs snd] in El. rewrite El. simpl. rewrite lookup_empty.
      by destruct (last_touch _ k log.*1).
    - rewrite Ht. f_equal. unfold x_abs, contents. simpl. apply omap_empty.
  Qed.

  (** OneToOne: after any sequence of Add, Erase, EraseRow, EraseCol the table
      is a partial bijection between rows and columns, and the element map, the
      row view, the column view and all reads agree with it; no read ever
      follows a dangling pointer. *)
  Theorem C24_one_to_one_is_a_bijection clk n (ops : list (o2o_op R C T)) :
    ∃ log s n',
      run_ops (o2o_step get_row get_col clk) n ops o2o_init = Some (log, s, n') ∧
      let table := fold_left (one_to_one_after get_row get_col) ops ∅ in
      (* at most one column per row, at most one row per column *)
      (∀ r c c', is_Some (table !! (r, c)) → is_Some (table !! (r, c')) → c = c') ∧
      (∀ r r' c, is_Some (table !! (r, c)) → is_Some (table !! (r', c)) → r = r') ∧
      (∀ k o, table !! k = Some o → k = (get_row o, get_col o)) ∧
      (* element map *)
      (∀ k, x_get s k = Val (table !! k)) ∧ x_size s = size table ∧
      x_elements s = Some <$> table ∧
      (* row and column views *)
      lists_by fst table (o2o_rows s) ∧ lists_by snd table (o2o_cols s) ∧
      (∀ r, (o2o_from_row s r = Val None ∧ ∀ c, table !! (r, c) = None) ∨
            (∃ c o, o2o_from_row s r = Val (Some o) ∧ table !! (r, c) = Some o)) ∧
      (∀ c, (o2o_from_col s c = Val None ∧ ∀ r, table !! (r, c) = None) ∨
            (∃ r o, o2o_from_col s c = Val (Some o) ∧ table !! (r, c) = Some o)) ∧
      (∀ k, o2o_does_not_conflict s k = true ↔
            ∀ k', is_Some (table !! k') → k'.1 ≠ k.1 ∧ k'.2 ≠ k.2) ∧
      (∀ k, x_last_modified s k = last_touch key_of k log.*1).
  Proof.
    destruct (o2o_reach clk n ops) as (log & s & n' & E & (Hc & Hf & Ht) & Hl & Htab).
    exists log, s, n'. split; [done|]. intros table. fold table in Htab.
    pose proof (contents_is_Some get_row get_col) as Hdom.
    assert (Hu1 : ∀ k k', is_Some (table !! k) → is_Some (table !! k') → k.1 = k'.1 → k = k').
    { rewrite <- Htab. intros k k' H1%(Hdom _ _ _ _ k Hc) H2%(Hdom _ _ _ _ k' Hc) Ek.
      by apply (flat_ok_alone get_row get_col fst _ _ _ _ _ k' Hc Hf H2). }
    assert (Hu2 : ∀ k k', is_Some (table !! k) → is_Some (table !! k') → k.2 = k'.2 → k = k').
    { rewrite <- Htab. intros k k' H1%(Hdom _ _ _ _ k Hc) H2%(Hdom _ _ _ _ k' Hc) Ek.
      by apply (flat_ok_alone get_row get_col snd _ _ _ _ _ k' Hc Ht H2). }
    split_and!.
    - intros r c c' H1 H2. by assert ((r, c) = (r, c')) as [= ->] by by apply Hu1.
    - intros r r' c H1 H2. by assert ((r, c) = (r', c)) as [= ->] by by apply Hu2.
    - intros k o. rewrite <- Htab. intros Hk. by rewrite (contents_key _ _ _ _ _ _ _ _ Hc Hk).
    - intros k. rewrite <- Htab. by apply (x_get_ok get_row get_col).
    - rewrite <- Htab. by apply (x_size_ok get_row get_col).
    - rewrite <- Htab. by apply (x_elements_ok get_row get_col).
    - intros a x. rewrite <- Htab. apply (flat_view_Some get_row get_col fst _ _ _ _ _ _ _ Hc Hf).
    - intros a x. rewrite <- Htab. apply (flat_view_Some get_row get_col snd _ _ _ _ _ _ _ Hc Ht).
    - intros r. rewrite <- Htab.
      destruct (flat_read_ok get_row get_col fst _ _ _ _ _ r Hc Hf) as [[H1 H2]|([r' c] & o & <- & Ho & Hr & _)].
      + left. split; [done|]. intros c. by apply H2.
      + right. exists c, o. split; done.
    - intros c. rewrite <- Htab.
      destruct (flat_read_ok get_row get_col snd _ _ _ _ _ c Hc Ht) as [[H1 H2]|([r c'] & o & <- & Ho & Hr & _)].
      + left. split; [done|]. intros r. by apply H2.
      + right. exists r, o. split; done.
    - intros k. rewrite <- Htab. unfold o2o_does_not_conflict. split.
      + intros Hd k' [i Hi]%(Hdom _ _ _ _ k' Hc). split; intros Ek.
        * assert (x_fwd s !! k.1 = Some i) as Ef by (apply Hf; eauto). by rewrite Ef in Hd.
        * assert (x_tr s !! k.2 = Some i) as Ef by (apply Ht; eauto). rewrite Ef in Hd.
          by destruct (x_fwd s !! k.1).
      + intros Hall. destruct (x_fwd s !! k.1) as [i|] eqn:Ef.
        { apply Hf in Ef as (k' & Hk' & Ek). exfalso.
          destruct (Hall k'); [|done]. apply (Hdom _ _ _ _ k' Hc). eauto. }
        destruct (x_tr s !! k.2) as [i|] eqn:Et; [|done].
        apply Ht in Et as (k' & Hk' & Ek). exfalso.
        destruct (Hall k'); [|done]. apply (Hdom _ _ _ _ k' Hc). eauto.
    - exact Hl.
  Qed.

  (** OneToOne journal: in any reachable state, Add journals the deletion of
      exactly the conflicting entries, then the update; the erasing operations
      journal the deletion of the designated entry, if any. *)
  Theorem C24_one_to_one_journal clk n (ops : list (o2o_op R C T)) :
    ∀ log s n', run_ops (o2o_step get_row get_col clk) n ops o2o_init = Some (log, s, n') →
    let table := fold_left (one_to_one_after get_row get_col) ops ∅ in
    ∀ op, ∃ l s' n'',
      o2o_step get_row get_col clk n' op s = Some (l, s', n'') ∧
      match op with
      | OAdd o => add_log (o2o_conflicts get_row get_col o table) clk n' o l.*1 n''
      | OErase k => erase_log (λ k', k' = k ∧ is_Some (table !! k')) clk n' l.*1 n''
      | OEraseRow r => erase_log (λ k', k'.1 = r ∧ is_Some (table !! k')) clk n' l.*1 n''
      | OEraseCol c => erase_log (λ k', k'.2 = c ∧ is_Some (table !! k')) clk n' l.*1 n''
      end.
  Proof.
    intros log s n' E table.
    destruct (o2o_reach clk n ops) as (log1 & s1 & n1 & E1 & I & Hl & Htab).
    rewrite E in E1. simplify_eq. fold table in Htab. rewrite <- Htab.
    intros [o|k|r|c]; simpl.
    - destruct (o2o_add_ok get_row get_col clk n1 o s1 I) as (?&?&?&?&_&_&?). eauto 10.
    - destruct (o2o_erase_ok get_row get_col clk n1 k s1 I) as (?&?&?&?&_&_&?). eauto 10.
    - destruct (o2o_erase_row_ok get_row get_col clk n1 r s1 I) as (?&?&?&?&_&_&?). eauto 10.
    - destruct (o2o_erase_col_ok get_row get_col clk n1 c s1 I) as (?&?&?&?&_&_&?). eauto 10.
  Qed.

  (** OneToMany: each column belongs to at most one row. *)
  Theorem C25_one_to_many_columns_unique clk n (ops : list (o2m_op R C T)) :
    ∃ log s n',
      run_ops (o2m_step get_row get_col clk) n ops o2m_init = Some (log, s, n') ∧
      let table := fold_left (one_to_many_after get_row get_col) ops ∅ in
      (∀ r r' c, is_Some (table !! (r, c)) → is_Some (table !! (r', c)) → r = r') ∧
      (∀ k o, table !! k = Some o → k = (get_row o, get_col o)) ∧
      (∀ k, x_get s k = Val (table !! k)) ∧
      (∀ k, x_has s k = true ↔ is_Some (table !! k)) ∧
      x_size s = size table ∧
      x_elements s = Some <$> table ∧
      lists_by2 pair table (o2m_rows s) ∧ lists_by snd table (o2m_cols s) ∧
      (∀ r c, o2m_row s r !! c = Some <$> table !! (r, c)) ∧
      (∀ c, (o2m_from_col s c = Val None ∧ ∀ r, table !! (r, c) = None) ∨
            (∃ r o, o2m_from_col s c = Val (Some o) ∧ table !! (r, c) = Some o)) ∧
      (∀ k, o2m_does_not_conflict s k = true ↔ ∀ k', is_Some (table !! k') → k'.2 ≠ k.2) ∧
      (∀ k, x_last_modified s k = last_touch key_of k log.*1).
  Proof.
    destruct (o2m_reach clk n ops) as (log & s & n' & E & (Hc & Hf & Ht) & Hl & Htab).
    exists log, s, n'. split; [done|]. intros table. fold table in Htab.
    pose proof (contents_is_Some get_row get_col) as Hdom.
    assert (Hu2 : ∀ k k', is_Some (table !! k) → is_Some (table !! k') → k.2 = k'.2 → k = k').
    { rewrite <- Htab. intros k k' H1%(Hdom _ _ _ _ k Hc) H2%(Hdom _ _ _ _ k' Hc) Ek.
      by apply (flat_ok_alone get_row get_col snd _ _ _ _ _ k' Hc Ht H2). }
    split_and!.
    - intros r r' c H1 H2. by assert ((r, c) = (r', c)) as [= ->] by by apply Hu2.
    - intros k o. rewrite <- Htab. intros Hk. by rewrite (contents_key _ _ _ _ _ _ _ _ Hc Hk).
    - intros k. rewrite <- Htab. by apply (x_get_ok get_row get_col).
    - intros k. rewrite <- Htab. by apply (x_has_ok get_row get_col).
    - rewrite <- Htab. by apply (x_size_ok get_row get_col).
    - rewrite <- Htab. by apply (x_elements_ok get_row get_col).
    - rewrite <- Htab. apply (nest_lists get_row get_col pair _ _ _ _ _ Hc Hf).
    - intros a x. rewrite <- Htab. apply (flat_view_Some get_row get_col snd _ _ _ _ _ _ _ Hc Ht).
    - intros r c. rewrite <- Htab. apply (nest_row_read get_row get_col pair _ _ _ _ _ r c Hc Hf).
    - intros c. rewrite <- Htab.
      destruct (flat_read_ok get_row get_col snd _ _ _ _ _ c Hc Ht) as [[H1 H2]|([r c'] & o & <- & Ho & Hr & _)].
      + left. split; [done|]. intros r. by apply H2.
      + right. exists r, o. split; done.
    - intros k. rewrite <- Htab. unfold o2m_does_not_conflict. split.
      + intros Hd k' [i Hi]%(Hdom _ _ _ _ k' Hc). intros Ek.
        assert (x_tr s !! k.2 = Some i) as Ef by (apply Ht; eauto). by rewrite Ef in Hd.
      + intros Hall. destruct (x_tr s !! k.2) as [i|] eqn:Et; [|done].
        apply Ht in Et as (k' & Hk' & Ek). exfalso.
        destruct (Hall k'); [|done]. apply (Hdom _ _ _ _ k' Hc). eauto.
    - exact Hl.
  Qed.

  Theorem C25_one_to_many_journal clk n (ops : list (o2m_op R C T)) :
    ∀ log s n', run_ops (o2m_step get_row get_col clk) n ops o2m_init = Some (log, s, n') →
    let table := fold_left (one_to_many_after get_row get_col) ops ∅ in
    ∀ op, ∃ l s' n'',
      o2m_step get_row get_col clk n' op s = Some (l, s', n'') ∧
      match op with
      | MAdd o => add_log (o2m_conflicts get_row get_col o table) clk n' o l.*1 n''
      | MErase k => erase_log (λ k', k' = k ∧ is_Some (table !! k')) clk n' l.*1 n''
      | MEraseCol c => erase_log (λ k', k'.2 = c ∧ is_Some (table !! k')) clk n' l.*1 n''
      end.
  Proof.
    intros log s n' E table.
    destruct (o2m_reach clk n ops) as (log1 & s1 & n1 & E1 & I & Hl & Htab).
    rewrite E in E1. simplify_eq. fold table in Htab. rewrite <- Htab.
    intros [o|k|c]; simpl.
    - destruct (o2m_add_ok get_row get_col clk n1 o s1 I) as (?&?&?&?&_&_&?). eauto 10.
    - destruct (o2m_erase_ok get_row get_col clk n1 k s1 I) as (?&?&?&?&_&_&?). eauto 10.
    - destruct (o2m_erase_col_ok get_row get_col clk n1 c s1 I) as (?&?&?&?&_&_&?). eauto 10.
  Qed.

  (** ManyToMany: the two views and the element map list the same entries. *)
  Theorem C26_many_to_many_views_agree clk n (ops : list (m2m_op R C T)) :
    ∃ log s n',
      run_ops (m2m_step get_row get_col clk) n ops m2m_init = Some (log, s, n') ∧
      let table := fold_left (many_to_many_after get_row get_col) ops ∅ in
      (∀ k o, table !! k = Some o → k = (get_row o, get_col o)) ∧
      (∀ k, x_get s k = Val (table !! k)) ∧
      (∀ k, x_has s k = true ↔ is_Some (table !! k)) ∧
      x_size s = size table ∧
      x_elements s = Some <$> table ∧
      lists_by2 pair table (m2m_rows s) ∧ lists_by2 (λ c r, (r, c)) table (m2m_cols s) ∧
      (∀ r c, m2m_row s r !! c = Some <$> table !! (r, c)) ∧
      (∀ r c, m2m_col s c !! r = Some <$> table !! (r, c)) ∧
      (∀ k, x_last_modified s k = last_touch key_of k log.*1).
  Proof.
    destruct (m2m_reach clk n ops) as (log & s & n' & E & (Hc & Hf & Ht) & Hl & Htab).
    exists log, s, n'. split; [done|]. intros table. fold table in Htab.
    split_and!.
    - intros k o. rewrite <- Htab. intros Hk. by rewrite (contents_key _ _ _ _ _ _ _ _ Hc Hk).
    - intros k. rewrite <- Htab. by apply (x_get_ok get_row get_col).
    - intros k. rewrite <- Htab. by apply (x_has_ok get_row get_col).
    - rewrite <- Htab. by apply (x_size_ok get_row get_col).
    - rewrite <- Htab. by apply (x_elements_ok get_row get_col).
    - rewrite <- Htab. apply (nest_lists get_row get_col pair _ _ _ _ _ Hc Hf).
    - rewrite <- Htab. apply (nest_lists get_row get_col (λ c r, (r, c)) _ _ _ _ _ Hc Ht).
    - intros r c. rewrite <- Htab. apply (nest_row_read get_row get_col pair _ _ _ _ _ r c Hc Hf).
    - intros r c. rewrite <- Htab.
      apply (nest_row_read get_row get_col (λ c r, (r, c)) _ _ _ _ _ c r Hc Ht).
    - exact Hl.
  Qed.

  Theorem C26_many_to_many_journal clk n (ops : list (m2m_op R C T)) :
    ∀ log s n', run_ops (m2m_step get_row get_col clk) n ops m2m_init = Some (log, s, n') →
    let table := fold_left (many_to_many_after get_row get_col) ops ∅ in
    ∀ op, ∃ l s' n'',
      m2m_step get_row get_col clk n' op s = Some (l, s', n'') ∧
      match op with
      | NAdd o => add_log (λ _, False) clk n' o l.*1 n''
      | NErase k => erase_log (λ k', k' = k ∧ is_Some (table !! k')) clk n' l.*1 n''
      end.
  Proof.
    intros log s n' E table.
    destruct (m2m_reach clk n ops) as (log1 & s1 & n1 & E1 & I & Hl & Htab).
    rewrite E in E1. simplify_eq. fold table in Htab. rewrite <- Htab.
    intros [o|k]; simpl.
    - destruct (m2m_add_ok get_row get_col clk n1 o s1 I) as (?&?&?&?&_&_&?). eauto 10.
    - destruct (m2m_erase_ok get_row get_col clk n1 k s1 I) as (?&?&?&?&_&_&?). eauto 10.
  Qed.
End Matrix.

(** Non-vacuity: objects are (row, column, payload). *)
Definition ex_row (o : nat * nat * nat) : nat := o.1.1.
Definition ex_col (o : nat * nat * nat) : nat := o.1.2.

(** (1,1) and (2,2) both conflict with (1,2). *)
Example C24_example :
  ∃ log s n', run_ops (o2o_step ex_row ex_col (λ n, Z.of_nat (100 + n))) 0
                [OAdd (1, 1, 11); OAdd (2, 2, 22); OAdd (3, 3, 33); OAdd (1, 2, 12); OEraseRow 3] o2o_init
              = Some (log, s, n')
    ∧ x_get s (1, 2) = Val (Some (1, 2, 12)) ∧ x_get s (1, 1) = Val None ∧ x_get s (2, 2) = Val None
    ∧ o2o_from_row s 1 = Val (Some (1, 2, 12)) ∧ o2o_from_row s 2 = Val None ∧ x_size s = 1
    ∧ log.*1 = [Updated 100%Z (1, 1, 11); Updated 101%Z (2, 2, 22); Updated 102%Z (3, 3, 33);
                Deleted 103%Z (1, 1); Deleted 104%Z (2, 2); Updated 105%Z (1, 2, 12); Deleted 106%Z (3, 3)].
Proof. eexists _, _, _. split; [vm_compute; reflexivity|]. vm_compute. split_and!; reflexivity. Qed.

Example C25_example :
  ∃ log s n', run_ops (o2m_step ex_row ex_col (λ n, Z.of_nat (100 + n))) 0
                [MAdd (1, 1, 11); MAdd (1, 2, 12); MAdd (2, 1, 21); MEraseCol 2] o2m_init
              = Some (log, s, n')
    ∧ x_get s (1, 1) = Val None ∧ o2m_from_col s 1 = Val (Some (2, 1, 21))
    ∧ (λ e, (e.1, map_to_list e.2)) <$> map_to_list (o2m_rows s) = [(2, [(1, Some (2, 1, 21))])] ∧ x_size s = 1.
Proof. eexists _, _, _. split; [vm_compute; reflexivity|]. vm_compute. split_and!; reflexivity. Qed.

Example C26_example :
  ∃ log s n', run_ops (m2m_step ex_row ex_col (λ n, Z.of_nat (100 + n))) 0
                [NAdd (1, 1, 11); NAdd (1, 2, 12); NAdd (2, 1, 21); NErase (1, 1)] m2m_init
              = Some (log, s, n')
    ∧ x_get s (1, 1) = Val None ∧ x_get s (2, 1) = Val (Some (2, 1, 21))
    ∧ map_to_list (m2m_col s 1) = [(2, Some (2, 1, 21))] ∧ map_to_list (m2m_row s 1) = [(2, Some (1, 2, 12))] ∧ x_size s = 2.
Proof. eexists _, _, _. split; [vm_compute; reflexivity|]. vm_compute. split_and!; reflexivity. Qed.

Print Assumptions C23_dictionary_is_a_map.
Print Assumptions C23_dictionary_journal.
Print Assumptions C24_one_to_one_is_a_bijection.
Print Assumptions C24_one_to_one_journal.
Print Assumptions C25_one_to_many_columns_unique.
Print Assumptions C25_one_to_many_journal.
Print Assumptions C26_many_to_many_views_agree.
Print Assumptions C26_many_to_many_journal.
