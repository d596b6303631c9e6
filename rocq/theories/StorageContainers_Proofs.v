(** Invariants of the storage containers and their simulation by an abstract
    pair (table, last-modified table). *)
From stdpp Require Import gmap.
From Coq Require Import ZArith Lia.
From Verif Require Import StorageContainers_Model StorageContainers_Spec.

(* ------------------------------------------------------------------ *)
(** * The abstract container *)

Section Abstract.
  Context {K T P : Type} `{Countable K}.
  Context (gk : T -> K) (pw : P -> T -> T).

  Definition atab := (gmap K T * gmap K Z)%type.

  Definition aapply (e : mutation K T P) (a : atab) : atab :=
    match e with
    | Updated us o => (<[gk o := o]> a.1, <[gk o := us]> a.2)
    | Deleted us k => (delete k a.1, <[k := us]> a.2)
    | Patched us k p =>
        match a.1 !! k with
        | Some o => (<[k := pw p o]> a.1, <[k := us]> a.2)
        | None => a
        end
    end.

  (** [u] is the rollback of [e] performed in [a]. *)
  Definition apair (e : mutation K T P) (u : undo K T) (a : atab) : Prop :=
    match e with
    | Updated us o =>
        match a.1 !! gk o with
        | Some o' => ∃ ts, a.2 !! gk o = Some ts ∧ u = Restore (gk o) o' ts
        | None =>
            match a.2 !! gk o with
            | Some ts => u = EraseTs (gk o) ts
            | None => u = EraseAll (gk o)
            end
        end
    | Deleted us k | Patched us k _ =>
        ∃ o ts, a.1 !! k = Some o ∧ a.2 !! k = Some ts ∧ u = Restore k o ts
    end.

  Fixpoint chain (valid : mutation K T P -> atab -> Prop) (a : atab)
    (log : logged K T P) (a' : atab) : Prop :=
    match log with
    | [] => a = a'
    | (e, u) :: l => valid e a ∧ apair e u a ∧ chain valid (aapply e a) l a'
    end.

  Lemma chain_app valid a l1 a1 l2 a2 :
    chain valid a l1 a1 → chain valid a1 l2 a2 → chain valid a (l1 ++ l2) a2.
  Proof.
    revert a; induction l1 as [|[e u] l IH]; simpl; intros a Hc H2.
    - by subst.
    - destruct Hc as (?&?&?). split_and!; auto.
  Qed.

  Definition aundo (u : undo K T) (a : atab) : atab :=
    match u with
    | Restore k o ts => (<[k := o]> a.1, <[k := ts]> a.2)
    | EraseTs k ts => (delete k a.1, <[k := ts]> a.2)
    | EraseAll k => (delete k a.1, delete k a.2)
    end.

  Lemma aundo_ok e u a : apair e u a → aundo u (aapply e a) = a.
  Proof.
    destruct a as [m l], e as [us o|us k|us k p]; simpl.
    - destruct (m !! gk o) as [o'|] eqn:Em.
      + intros (ts & El & ->); simpl. f_equal.
        * by rewrite insert_insert, insert_id.
        * by rewrite insert_insert, insert_id.
      + destruct (l !! gk o) as [ts|] eqn:El; intros ->; simpl; f_equal.
        * by rewrite delete_insert.
        * by rewrite insert_insert, insert_id.
        * by rewrite delete_insert.
        * by rewrite delete_insert.
    - intros (o & ts & Em & El & ->); simpl. f_equal.
      + by rewrite insert_delete.
      + by rewrite insert_insert, insert_id.
    - intros (o & ts & Em & El & ->). rewrite Em; simpl. f_equal.
      + by rewrite insert_insert, insert_id.
      + by rewrite insert_insert, insert_id.
  Qed.
End Abstract.
Arguments atab K T {_ _}.

(* ------------------------------------------------------------------ *)
(** * Dictionary *)

Section DictProofs.
  Context {K T P : Type} `{Countable K}.
  Context (gk : T -> K) (pw : P -> T -> T).

  Definition dict_inv (s : dict K T) : Prop :=
    (∀ k o, d_map s !! k = Some o → gk o = k) ∧
    (∀ k o, d_map s !! k = Some o → is_Some (d_lm s !! k)).

  Definition dict_abs (s : dict K T) : atab K T := (d_map s, d_lm s).

  (** patches keep the key *)
  Definition patch_keeps_key := ∀ p o, gk (pw p o) = gk o.

  Definition dict_valid (e : mutation K T P) (a : atab K T) : Prop := True.

  Lemma dict_init_inv : dict_inv dict_init.
  Proof. split; intros k o; simpl; by rewrite lookup_empty. Qed.

  Lemma dict_apply_ok e s : patch_keeps_key → dict_inv s →
    dict_inv (dict_apply gk pw e s) ∧ dict_abs (dict_apply gk pw e s) = aapply gk pw e (dict_abs s).
  Proof.
    intros Hp [I1 I2]. destruct e as [us o|us k|us k p]; simpl.
    - split; [|done]. split; simpl; intros k o'; rewrite !lookup_insert_Some.
      + intros [[<- <-]|[? ?]]; eauto.
      + intros [[<- <-]|[? Hl]].
        * rewrite lookup_insert; eauto.
        * rewrite lookup_insert_ne by done. eauto.
    - split; [|done]. split; simpl; intros k' o'; rewrite lookup_delete_Some; intros [? ?].
      + eauto.
      + rewrite lookup_insert_ne by done; eauto.
    - destruct (d_map s !! k) as [o|] eqn:E; [|done].
      split; [|done]. split; simpl; intros k' o'; rewrite lookup_insert_Some.
      + intros [[<- <-]|[? ?]]; [rewrite Hp|]; eauto.
      + intros [[<- <-]|[? Hl]].
        * rewrite lookup_insert; eauto.
        * rewrite lookup_insert_ne by done. eauto.
  Qed.

  Lemma dict_undo_ok e u s a : dict_inv s → patch_keeps_key →
    (∀ k o, a.1 !! k = Some o → gk o = k ∧ is_Some (a.2 !! k)) →
    apair gk e u a → dict_abs s = aapply gk pw e a →
    dict_inv (dict_undo u s) ∧ dict_abs (dict_undo u s) = a.
  Proof.
    intros I Hp Ha Hpair Es.
    assert (Hu : dict_abs (dict_undo u s) = aundo u (dict_abs s)) by (destruct u; done).
    rewrite Es, (aundo_ok gk pw) in Hu by done. split; [|done].
    rewrite <- Hu in Ha. simpl in Ha.
    split; intros k o E; by destruct (Ha k o E).
  Qed.

  Lemma dict_step_ok clk n op s : patch_keeps_key → dict_inv s →
    ∃ log s' n', dict_step gk pw clk n op s = Some (log, s', n') ∧ dict_inv s' ∧
      chain gk pw dict_valid (dict_abs s) log (dict_abs s').
  Proof.
    intros Hp I. pose proof I as [I1 I2].
    destruct op as [o|k|k p]; simpl.
    - unfold dict_add. pose proof (dict_apply_ok (Updated (clk n) o) s Hp I) as [Ia Ea].
      destruct (d_map s !! gk o) as [o'|] eqn:E.
      + destruct (I2 _ _ E) as [ts Ets]. rewrite Ets.
        eexists _, _, _; split; [done|]. split; [done|]. simpl.
        split_and!; [done| |done]. rewrite E. eauto.
      + destruct (d_lm s !! gk o) as [ts|] eqn:E2; (eexists _, _, _; split; [done|]; split; [done|]);
          simpl; split_and!; try done; rewrite E, E2; done.
    - unfold dict_erase. destruct (d_map s !! k) as [o'|] eqn:E.
      + destruct (I2 _ _ E) as [ts Ets]. rewrite Ets.
        pose proof (I1 _ _ E) as <-.
        pose proof (dict_apply_ok (Deleted (clk n) (gk o')) s Hp I) as [Ia Ea].
        eexists _, _, _; split; [done|]. split; [done|]. simpl. split_and!; eauto. done.
      + eexists _, _, _; split; [done|]. split; done.
    - unfold dict_patch. destruct (d_map s !! k) as [o'|] eqn:E.
      + destruct (I2 _ _ E) as [ts Ets]. rewrite Ets.
        pose proof (dict_apply_ok (Patched (clk n) k p) s Hp I) as [Ia Ea]. simpl in Ia. rewrite E in Ia.
        eexists _, _, _; split; [done|]. split; [done|]. simpl. split_and!; eauto; [done|].
        by rewrite E.
      + eexists _, _, _; split; [done|]. split; done.
  Qed.
End DictProofs.

(* ------------------------------------------------------------------ *)
(** * Matrix containers *)

Section MatrixProofs.
  Context {R C T : Type} `{Countable R} `{Countable C}.
  Context (get_row : T -> R) (get_col : T -> C).
  Notation key := (R * C)%type.
  Notation key_of := (λ o : T, (get_row o, get_col o)).
  Notation ev := (mutation (R * C) T Empty_set).
  Notation pw0 := (λ (p : Empty_set) (o : T), o).
  Notation aap := (aapply (P := Empty_set) key_of pw0).

  Record core (m : gmap key nat) (h : gmap nat T) (nx : nat) (l : gmap key Z) : Prop := Core {
    core_map : ∀ k i, m !! k = Some i → ∃ o, h !! i = Some o ∧ key_of o = k;
    core_heap : ∀ i o, h !! i = Some o → m !! key_of o = Some i ∧ i < nx;
    core_lm : ∀ k i, m !! k = Some i → is_Some (l !! k)
  }.

  Definition contents (m : gmap key nat) (h : gmap nat T) : gmap key T := omap (h !!.) m.

  Lemma contents_Some m h k o : contents m h !! k = Some o ↔ ∃ i, m !! k = Some i ∧ h !! i = Some o.
  Proof. unfold contents. rewrite lookup_omap. destruct (m !! k); simpl; naive_solver. Qed.

  Lemma contents_is_Some m h nx l k : core m h nx l → is_Some (contents m h !! k) ↔ is_Some (m !! k).
  Proof.
    intros Hc. split.
    - intros [o (i & ? & ?)%contents_Some]. eauto.
    - intros [i Hi]. destruct (core_map _ _ _ _ Hc _ _ Hi) as (o & ? & ?).
      exists o. apply contents_Some. eauto.
  Qed.

  Lemma contents_key m h nx l k o : core m h nx l → contents m h !! k = Some o → key_of o = k.
  Proof.
    intros Hc (i & Hi & Hh)%contents_Some.
    destruct (core_map _ _ _ _ Hc _ _ Hi) as (o' & ? & ?). congruence.
  Qed.

  Lemma core_init : core ∅ ∅ 0 ∅.
  Proof. split; intros *; by rewrite lookup_empty. Qed.

  Lemma core_inj m h nx l k k' i : core m h nx l → m !! k = Some i → m !! k' = Some i → k = k'.
  Proof.
    intros Hc H1 H2. destruct (core_map _ _ _ _ Hc _ _ H1) as (o & E1 & <-).
    destruct (core_map _ _ _ _ Hc _ _ H2) as (o' & E2 & <-). congruence.
  Qed.

  Lemma heap_replace_Some m h nx l k o i o' : core m h nx l →
    heap_replace (m !! k) nx o h !! i = Some o' ↔
    (i = nx ∧ o' = o) ∨ (m !! k ≠ Some i ∧ i ≠ nx ∧ h !! i = Some o').
  Proof.
    intros Hc. unfold heap_replace. destruct (m !! k) as [j|] eqn:E.
    - assert (j < nx).
      { destruct (core_map _ _ _ _ Hc _ _ E) as (o1 & E1 & _).
        by destruct (core_heap _ _ _ _ Hc _ _ E1). }
      rewrite lookup_delete_Some, lookup_insert_Some. split.
      + intros [? [[<- <-]|[? ?]]]; [left; done|right; split_and!; congruence].
      + intros [[-> ->]|(?&?&?)]; [split; [lia|left; done]|split; [congruence|right; done]].
    - rewrite lookup_insert_Some. split.
      + intros [[<- <-]|[? ?]]; [left; done|right; split_and!; congruence].
      + intros [[-> ->]|(?&?&?)]; [left; done|right; done].
  Qed.

  Lemma heap_free_Some (m : gmap key nat) (h : gmap nat T) k i o :
    heap_free (m !! k) h !! i = Some o ↔ m !! k ≠ Some i ∧ h !! i = Some o.
  Proof.
    unfold heap_free. destruct (m !! k) as [j|] eqn:E.
    - rewrite lookup_delete_Some. split; intros [? ?]; split; congruence.
    - split; [intros; split; congruence|by intros [? ?]].
  Qed.

  Lemma core_fresh m h nx l k i : core m h nx l → m !! k = Some i → i < nx.
  Proof.
    intros Hc E. destruct (core_map _ _ _ _ Hc _ _ E) as (o1 & E1 & _).
    by destruct (core_heap _ _ _ _ Hc _ _ E1).
  Qed.

  Lemma core_update m h nx l k o us : core m h nx l → key_of o = k →
    core (<[k := nx]> m) (heap_replace (m !! k) nx o h) (S nx) (<[k := us]> l) ∧
    contents (<[k := nx]> m) (heap_replace (m !! k) nx o h) = <[k := o]> (contents m h).
  Proof.
    intros Hc Hk. split; [split|].
    - intros k' i. rewrite lookup_insert_Some. intros [[<- <-]|[Hne Hi]].
      + exists o. split; [|done]. apply (heap_replace_Some _ _ _ _ _ _ _ _ Hc). by left.
      + destruct (core_map _ _ _ _ Hc _ _ Hi) as (o' & Ho' & Hk').
        exists o'. split; [|done]. apply (heap_replace_Some _ _ _ _ _ _ _ _ Hc). right.
        split_and!; [|intros ->; pose proof (core_fresh _ _ _ _ _ _ Hc Hi); lia|done].
        intros E. apply Hne. by apply (core_inj _ _ _ _ _ _ _ Hc E).
    - intros i o'. rewrite (heap_replace_Some _ _ _ _ _ _ _ _ Hc). intros [[-> ->]|(Hm & Hn & Hh)].
      + rewrite Hk, lookup_insert. split; [done|lia].
      + destruct (core_heap _ _ _ _ Hc _ _ Hh) as [E ?]. split; [|lia].
        rewrite lookup_insert_ne; [done|]. intros ->. by apply Hm.
    - intros k' i. rewrite lookup_insert_Some. intros [[<- <-]|[Hne Hi]].
      + rewrite lookup_insert. eauto.
      + rewrite lookup_insert_ne by done. by apply (core_lm _ _ _ _ Hc _ _ Hi).
    - apply map_eq. intros k'. apply option_eq. intros o'.
      rewrite contents_Some, lookup_insert_Some, contents_Some. split.
      + intros (i & [[<- <-]|[Hne Hi]]%lookup_insert_Some & Hh).
        * apply (heap_replace_Some _ _ _ _ _ _ _ _ Hc) in Hh as [[_ ->]|(?&?&?)]; [left; done|done].
        * right. split; [done|]. exists i. split; [done|].
          apply (heap_replace_Some _ _ _ _ _ _ _ _ Hc) in Hh as [[-> ->]|(?&?&?)]; [|done].
          pose proof (core_fresh _ _ _ _ _ _ Hc Hi); lia.
      + intros [[<- <-]|[Hne (i & Hi & Hh)]].
        * exists nx. rewrite lookup_insert. split; [done|].
          apply (heap_replace_Some _ _ _ _ _ _ _ _ Hc). by left.
        * exists i. rewrite lookup_insert_ne by done. split; [done|].
          apply (heap_replace_Some _ _ _ _ _ _ _ _ Hc). right. split_and!; [| |done].
          -- intros E. apply Hne. by apply (core_inj _ _ _ _ _ _ _ Hc E).
          -- intros ->. pose proof (core_fresh _ _ _ _ _ _ Hc Hi); lia.
  Qed.

  Lemma core_erase m h nx l l' k : core m h nx l → (∀ k', k' ≠ k → l' !! k' = l !! k') →
    core (delete k m) (heap_free (m !! k) h) nx l' ∧
    contents (delete k m) (heap_free (m !! k) h) = delete k (contents m h).
  Proof.
    intros Hc Hl. split; [split|].
    - intros k' i. rewrite lookup_delete_Some. intros [Hne Hi].
      destruct (core_map _ _ _ _ Hc _ _ Hi) as (o' & Ho' & Hk').
      exists o'. split; [|done]. apply heap_free_Some. split; [|done].
      intros E. apply Hne. by apply (core_inj _ _ _ _ _ _ _ Hc E).
    - intros i o'. rewrite heap_free_Some. intros [Hm Hh].
      destruct (core_heap _ _ _ _ Hc _ _ Hh) as [E ?]. split; [|done].
      rewrite lookup_delete_ne; [done|]. intros ->. by apply Hm.
    - intros k' i. rewrite lookup_delete_Some. intros [Hne Hi].
      rewrite Hl by done. by apply (core_lm _ _ _ _ Hc _ _ Hi).
    - apply map_eq. intros k'. apply option_eq. intros o'.
      rewrite contents_Some, lookup_delete_Some, contents_Some. split.
      + intros (i & [Hne Hi]%lookup_delete_Some & [Hm Hh]%heap_free_Some).
        split; [done|]. eauto.
      + intros [Hne (i & Hi & Hh)]. exists i. rewrite lookup_delete_ne by done.
        split; [done|]. apply heap_free_Some. split; [|done].
        intros E. apply Hne. by apply (core_inj _ _ _ _ _ _ _ Hc E).
  Qed.

  (** ** Index maps *)
  Definition flat_ok {A} `{Countable A} (proj : key → A) (f : gmap A nat) (m : gmap key nat) : Prop :=
    ∀ a i, f !! a = Some i ↔ ∃ k, m !! k = Some i ∧ proj k = a.

  (** no other key of the table shares the projection of [k] *)
  Definition alone {A V} (proj : key → A) (k : key) (m : gmap key V) : Prop :=
    ∀ k', is_Some (m !! k') → proj k' = proj k → k' = k.

  Lemma flat_set_ok {A} `{Countable A} (proj : key → A) f m k p :
    flat_ok proj f m → alone proj k m → flat_ok proj (flat_set (proj k) p f) (<[k := p]> m).
  Proof.
    unfold flat_ok. intros Hf Ha a i. unfold flat_set. rewrite lookup_insert_Some, Hf. split.
    - intros [[<- <-]|[Hne (k' & Hk' & <-)]].
      + exists k. by rewrite lookup_insert.
      + exists k'. split; [|done]. rewrite lookup_insert_ne; [done|]. congruence.
    - intros (k' & [[<- <-]|[Hne Hk']]%lookup_insert_Some & <-); [by left|].
      right. split; [|eauto]. intros E. apply Hne. symmetry. apply Ha; eauto.
  Qed.

  Lemma flat_erase_ok {A} `{Countable A} (proj : key → A) f m k :
    flat_ok proj f m → alone proj k m → flat_ok proj (flat_erase (proj k) f) (delete k m).
  Proof.
    unfold flat_ok. intros Hf Ha a i. unfold flat_erase. rewrite lookup_delete_Some, Hf. split.
    - intros [Hne (k' & Hk' & <-)]. exists k'. split; [|done].
      rewrite lookup_delete_ne; [done|]. congruence.
    - intros (k' & [Hne Hk']%lookup_delete_Some & <-).
      split; [|eauto]. intros E. apply Hne. symmetry. apply Ha; eauto.
  Qed.

  Lemma flat_ok_alone {A} `{Countable A} (proj : key → A) f m h nx l k :
    core m h nx l → flat_ok proj f m → is_Some (m !! k) → alone proj k m.
  Proof.
    intros Hc Hf [i Hi] k' [i' Hi'] E.
    assert (f !! proj k = Some i) as E1 by (apply Hf; eauto).
    assert (f !! proj k = Some i') as E2 by (apply Hf; eauto).
    apply (core_inj _ _ _ _ _ _ i' Hc); congruence.
  Qed.

  Lemma flat_view_Some {A} `{Countable A} (proj : key → A) f m h nx l a x :
    core m h nx l → flat_ok proj f m →
    flat_view h f !! a = Some x ↔ ∃ k o, contents m h !! k = Some o ∧ proj k = a ∧ x = Some o.
  Proof.
    intros Hc Hf. unfold flat_view. rewrite lookup_fmap_Some. split.
    - intros (i & Hx & (k & Hk & <-)%Hf).
      destruct (core_map _ _ _ _ Hc _ _ Hk) as (o & Ho & _).
      exists k, o. rewrite contents_Some. split_and!; [eauto|done|congruence].
    - intros (k & o & (i & Hi & Ho)%contents_Some & <- & ->).
      exists i. split; [done|]. apply Hf. eauto.
  Qed.

  Definition nest_ok {A B} `{Countable A} `{Countable B} (mk : A → B → key)
    (f : gmap A (gmap B nat)) (m : gmap key nat) : Prop :=
    (∀ a b, f !! a ≫= (.!! b) = m !! mk a b) ∧ (∀ a, f !! a ≠ Some ∅).

  Definition mk_inj {A B} (mk : A → B → key) := ∀ a b a' b', mk a b = mk a' b' → a = a' ∧ b = b'.

  Lemma nest_set_ok {A B} `{Countable A} `{Countable B} (mk : A → B → key) f m a b p :
    mk_inj mk → nest_ok mk f m → nest_ok mk (nest_set a b p f) (<[mk a b := p]> m).
  Proof.
    intros Hi [H1' H2']. unfold nest_set. split.
    - intros a' b'. destruct (decide (a = a')) as [<-|Ha].
      + rewrite lookup_insert. simpl. destruct (decide (b = b')) as [<-|Hb].
        * by rewrite !lookup_insert.
        * rewrite !lookup_insert_ne; [|intros E; by apply Hi in E as [_ ?]|done].
          rewrite <- H1'. destruct (f !! a); done.
      + rewrite !lookup_insert_ne; [apply H1'|intros E; by apply Hi in E as [? _]|done].
    - intros a'. rewrite lookup_insert_Some. intros [[<- E]|[? E]].
      + by apply insert_non_empty in E.
      + by apply H2' in E.
  Qed.

  Lemma nest_erase_ok {A B} `{Countable A} `{Countable B} (mk : A → B → key) f m a b :
    mk_inj mk → nest_ok mk f m → nest_ok mk (nest_erase a b f) (delete (mk a b) m).
  Proof.
    intros Hi [H1' H2']. unfold nest_erase.
    assert (Hin : ∀ b', delete b (default ∅ (f !! a)) !! b' = delete (mk a b) m !! mk a b').
    { intros b'. destruct (decide (b = b')) as [<-|Hb].
      - by rewrite !lookup_delete.
      - rewrite !lookup_delete_ne; [|intros E; by apply Hi in E as [_ ?]|done].
        rewrite <- H1'. destruct (f !! a); simpl; [done|]. by rewrite lookup_empty. }
    set (inner := delete b (default ∅ (f !! a))) in *. clearbody inner.
    destruct (decide (inner = ∅)) as [Ee|Ene]; split.
    - intros a' b'. destruct (decide (a = a')) as [<-|Ha].
      + rewrite lookup_delete. simpl. rewrite <- Hin, Ee. by rewrite lookup_empty.
      + rewrite !lookup_delete_ne; [apply H1'|intros E; by apply Hi in E as [? _]|done].
    - intros a'. rewrite lookup_delete_Some. intros [? E]. by apply H2' in E.
    - intros a' b'. destruct (decide (a = a')) as [<-|Ha].
      + rewrite lookup_insert. simpl. apply Hin.
      + rewrite lookup_insert_ne, lookup_delete_ne; [apply H1'|intros E; by apply Hi in E as [? _]|done].
    - intros a'. rewrite lookup_insert_Some. intros [[<- E]|[? E]]; [done|]. by apply H2' in E.
  Qed.

  Lemma nest_view_Some {A B} `{Countable A} `{Countable B} (mk : A → B → key) f m h nx l a v :
    core m h nx l → nest_ok mk f m →
    nest_view h f !! a = Some v ↔
    v ≠ ∅ ∧ ∀ b, v !! b = Some <$> contents m h !! mk a b.
  Proof.
    intros Hc [H1' H2']. unfold nest_view. rewrite lookup_fmap_Some.
    assert (Hv : ∀ g, f !! a = Some g →
      ∀ b, flat_view h g !! b = Some <$> contents m h !! mk a b).
    { intros g Eg b. pose proof (H1' a b) as E1. rewrite Eg in E1. simpl in E1.
      unfold flat_view. rewrite lookup_fmap, E1. unfold contents. rewrite lookup_omap.
      destruct (m !! mk a b) as [i|] eqn:Ei; [|done]. simpl.
      destruct (core_map _ _ _ _ Hc _ _ Ei) as (o & Ho & _). rewrite Ho. done. }
    split.
    - intros (g & <- & Eg). split; [|by apply Hv].
      intros E. apply (H2' a). rewrite Eg. f_equal. unfold flat_view in E.
      by apply fmap_empty_inv in E.
    - intros [Hne Hall]. destruct (f !! a) as [g|] eqn:Eg.
      + exists g. split; [|done]. apply map_eq. intros b. rewrite (Hv _ eq_refl). by rewrite Hall.
      + destruct Hne. apply map_eq. intros b. rewrite Hall, lookup_empty.
        pose proof (H1' a b) as E1. rewrite Eg in E1. simpl in E1.
        unfold contents. rewrite lookup_omap, <- E1. done.
  Qed.

  (** ** One-to-one *)
  Definition o2o_inv (s : o2o R C T) : Prop :=
    core (x_map s) (x_heap s) (x_next s) (x_lm s) ∧
    flat_ok fst (x_fwd s) (x_map s) ∧ flat_ok snd (x_tr s) (x_map s).
  Definition x_abs {FW TR} (s : matrix R C T FW TR) : atab key T :=
    (contents (x_map s) (x_heap s), x_lm s).

  Definition o2o_valid (e : ev) (a : atab key T) : Prop :=
    match e with
    | Updated _ o => alone fst (key_of o) a.1 ∧ alone snd (key_of o) a.1
    | Deleted _ k => is_Some (a.1 !! k)
    | Patched _ _ _ => False
    end.

  Lemma alone_contents {A} (proj : key → A) k m h nx l :
    core m h nx l → alone proj k (contents m h) ↔ alone proj k m.
  Proof.
    intros Hc. split; intros Ha k' Hk'; apply Ha; by apply (contents_is_Some _ _ _ _ k' Hc).
  Qed.

  Lemma o2o_init_inv : o2o_inv o2o_init.
  Proof.
    split_and!; [apply core_init| |]; intros a i; simpl; rewrite lookup_empty;
      (split; [done|intros (k & E & _); by rewrite lookup_empty in E]).
  Qed.

  Lemma o2o_do_update_ok us o s : o2o_inv s →
    alone fst (key_of o) (x_map s) → alone snd (key_of o) (x_map s) →
    o2o_inv (o2o_do_update us (key_of o) o s) ∧
    x_abs (o2o_do_update us (key_of o) o s) =
      (<[key_of o := o]> (x_abs s).1, <[key_of o := us]> (x_abs s).2).
  Proof.
    intros (Hc & Hf & Ht) Ha1 Ha2.
    destruct (core_update _ _ _ _ (key_of o) o us Hc eq_refl) as [Hc' Hcont].
    split.
    - split_and!; [exact Hc'| |].
      + by apply (flat_set_ok fst).
      + by apply (flat_set_ok snd).
    - unfold x_abs. f_equal. exact Hcont.
  Qed.

  Lemma o2o_do_erase_no_lm_ok k (s : o2o R C T) l' : o2o_inv s → is_Some (x_map s !! k) →
    (∀ k', k' ≠ k → l' !! k' = x_lm s !! k') →
    let s' := o2o_do_erase_no_lm k (Matrix (x_map s) (x_heap s) (x_next s) (x_fwd s) (x_tr s) l') in
    o2o_inv s' ∧ x_abs s' = (delete k (x_abs s).1, l').
  Proof.
    intros (Hc & Hf & Ht) Hk Hl s'.
    destruct (core_erase _ _ _ _ l' k Hc Hl) as [Hc' Hcont].
    split.
    - split_and!; [exact Hc'| |].
      + apply (flat_erase_ok fst); [done|]. by eapply flat_ok_alone.
      + apply (flat_erase_ok snd); [done|]. by eapply flat_ok_alone.
    - unfold x_abs. f_equal. exact Hcont.
  Qed.

  Lemma o2o_do_erase_ok us k s : o2o_inv s → is_Some (x_map s !! k) →
    o2o_inv (o2o_do_erase us k s) ∧
    x_abs (o2o_do_erase us k s) = (delete k (x_abs s).1, <[k := us]> (x_abs s).2).
  Proof.
    intros I Hk. apply (o2o_do_erase_no_lm_ok k s (<[k := us]> (x_lm s)) I Hk).
    intros k' ?. by rewrite lookup_insert_ne.
  Qed.

  Lemma o2o_apply_ok e s : o2o_inv s → o2o_valid e (x_abs s) →
    o2o_inv (o2o_apply get_row get_col e s) ∧
    x_abs (o2o_apply get_row get_col e s) = aap e (x_abs s).
  Proof.
    intros I Hv. pose proof I as (Hc & _). destruct e as [us o|us k|? ? []]; simpl in *.
    - destruct Hv as [Ha1 Ha2].
      apply (alone_contents fst _ _ _ _ _ Hc) in Ha1. apply (alone_contents snd _ _ _ _ _ Hc) in Ha2.
      apply o2o_do_update_ok; done.
    - apply (contents_is_Some _ _ _ _ _ Hc) in Hv. by apply o2o_do_erase_ok.
  Qed.

  Lemma o2o_undo_ok e u s s0 : o2o_inv s → o2o_inv s0 → o2o_valid e (x_abs s0) →
    apair key_of e u (x_abs s0) → x_abs s = aap e (x_abs s0) →
    o2o_inv (o2o_undo u s) ∧ x_abs (o2o_undo u s) = x_abs s0.
  Proof.
    intros I I0 Hv Hpair Es.
    pose proof I as (Hc & Hf & Ht). pose proof I0 as (Hc0 & Hf0 & Ht0).
    assert (Hdom : ∀ k, is_Some (x_map s !! k) ↔ is_Some ((aap e (x_abs s0)).1 !! k)).
    { intros k. rewrite <- Es. symmetry. by apply (contents_is_Some _ _ _ _ _ Hc). }
    assert (Hu : aundo u (x_abs s) = x_abs s0) by (rewrite Es; by apply aundo_ok).
    rewrite <- Hu. clear Hu.
    destruct e as [us o|us k|? ? []]; simpl in Hv, Hpair, Hdom.
    - assert (Hin : is_Some (x_map s !! key_of o)) by (apply Hdom; rewrite lookup_insert; eauto).
      destruct (contents (x_map s0) (x_heap s0) !! (get_row o, get_col o)) as [o'|] eqn:E0.
      + destruct Hpair as (ts & El & ->). simpl.
        pose proof (contents_key _ _ _ _ _ _ Hc0 E0) as Hk'. simpl in Hk'.
        simpl in Hin. rewrite <- Hk' in Hin |- *.
        apply (o2o_do_update_ok ts o' s I).
        * by apply (flat_ok_alone fst _ _ _ _ _ _ Hc Hf Hin).
        * by apply (flat_ok_alone snd _ _ _ _ _ _ Hc Ht Hin).
      + destruct (x_lm s0 !! (get_row o, get_col o)) as [ts|]; subst u; simpl.
        * by apply o2o_do_erase_ok.
        * apply (o2o_do_erase_no_lm_ok _ _ (delete (get_row o, get_col o) (x_lm s)) I Hin).
          intros k' ?. by rewrite lookup_delete_ne.
    - destruct Hpair as (o & ts & Eo & El & ->). simpl.
      pose proof (contents_key _ _ _ _ _ _ Hc0 Eo) as <-.
      apply (contents_is_Some _ _ _ _ _ Hc0) in Hv.
      assert (Hsub : ∀ k', is_Some (x_map s !! k') → is_Some (x_map s0 !! k')).
      { intros k' Hk'. apply Hdom in Hk' as [x Hx%lookup_delete_Some].
        apply (contents_is_Some _ _ _ _ _ Hc0). exists x. apply Hx. }
      apply o2o_do_update_ok; [done|..]; intros k' Hk' E.
      + by apply (flat_ok_alone fst _ _ _ _ _ _ Hc0 Hf0 Hv); [apply Hsub|].
      + by apply (flat_ok_alone snd _ _ _ _ _ _ Hc0 Ht0 Hv); [apply Hsub|].
  Qed.

  Lemma flat_view_eq {A} `{Countable A} (proj : key → A) f m h nx l f' m' h' nx' l' :
    core m h nx l → flat_ok proj f m → core m' h' nx' l' → flat_ok proj f' m' →
    contents m h = contents m' h' → flat_view h f = flat_view h' f'.
  Proof.
    intros Hc Hf Hc' Hf' E. apply map_eq. intros a. apply option_eq. intros x.
    rewrite (flat_view_Some _ _ _ _ _ _ _ _ Hc Hf), (flat_view_Some _ _ _ _ _ _ _ _ Hc' Hf').
    by rewrite E.
  Qed.
  Lemma nest_view_eq {A B} `{Countable A} `{Countable B} (mk : A → B → key) f m h nx l f' m' h' nx' l' :
    core m h nx l → nest_ok mk f m → core m' h' nx' l' → nest_ok mk f' m' →
    contents m h = contents m' h' → nest_view h f = nest_view h' f'.
  Proof.
    intros Hc Hf Hc' Hf' E. apply map_eq. intros a. apply option_eq. intros x.
    rewrite (nest_view_Some _ _ _ _ _ _ _ _ Hc Hf), (nest_view_Some _ _ _ _ _ _ _ _ Hc' Hf').
    by rewrite E.
  Qed.
  Lemma elements_eq m h nx l : core m h nx l →
    (λ i, h !! i) <$> m = Some <$> contents m h.
  Proof.
    intros Hc. apply map_eq. intros k. rewrite !lookup_fmap. unfold contents. rewrite lookup_omap.
    destruct (m !! k) as [i|] eqn:Ei; [|done]. simpl.
    destruct (core_map _ _ _ _ Hc _ _ Ei) as (o & Ho & _). rewrite Ho. done.
  Qed.

  (** journalled mutations of an operation that reads the object behind a
      pointer of the table *)
  Lemma o2o_deref (s : o2o R C T) p : o2o_inv s →
    (∃ k, x_map s !! k = Some p) → ∃ o, x_heap s !! p = Some o ∧ x_map s !! key_of o = Some p
       ∧ contents (x_map s) (x_heap s) !! key_of o = Some o ∧ is_Some (x_lm s !! key_of o).
  Proof.
    intros (Hc & _) [k Hk]. destruct (core_map _ _ _ _ Hc _ _ Hk) as (o & Ho & <-).
    exists o. split_and!; [done|done|apply contents_Some; eauto|by eapply core_lm].
  Qed.

  Lemma o2o_erase_step_ok us o p s : o2o_inv s → x_heap s !! p = Some o →
    ∃ ts, x_lm s !! key_of o = Some ts ∧
    o2o_inv (o2o_do_erase us (key_of o) s) ∧
    x_abs (o2o_do_erase us (key_of o) s) = aap (Deleted us (key_of o)) (x_abs s) ∧
    o2o_valid (Deleted us (key_of o)) (x_abs s) ∧
    apair (P := Empty_set) key_of (Deleted us (key_of o)) (Restore (key_of o) o ts) (x_abs s).
  Proof.
    intros I Hp. pose proof I as (Hc & Hf & Ht).
    destruct (core_heap _ _ _ _ Hc _ _ Hp) as [Hm _].
    destruct (core_lm _ _ _ _ Hc _ _ Hm) as [ts Ets].
    exists ts. split; [done|].
    assert (Hin : is_Some (x_map s !! key_of o)) by eauto.
    destruct (o2o_do_erase_ok us _ _ I Hin) as [I' E'].
    split_and!; [done|done| |].
    - simpl. by apply (contents_is_Some _ _ _ _ _ Hc).
    - simpl. exists o, ts. split_and!; [|done|done]. apply contents_Some. eauto.
  Qed.

  Lemma o2o_tail_ok clk n o s log a : o2o_inv s →
    x_map s !! key_of o = None →
    x_fwd s !! get_row o = None → x_tr s !! get_col o = None →
    chain key_of pw0 o2o_valid a log (x_abs s) →
    ∃ u, let s' := o2o_do_update (clk n) (key_of o) o s in
      o2o_add_tail clk n o (key_of o) s log = Some (log ++ [(Updated (clk n) o, u)], s', S n) ∧
      o2o_inv s' ∧
      chain key_of pw0 o2o_valid a (log ++ [(Updated (clk n) o, u)]) (x_abs s').
  Proof.
    intros I Hm Hf0 Ht0 Hch. pose proof I as (Hc & Hf & Ht).
    assert (Ha1 : alone fst (key_of o) (x_map s)).
    { intros k' [i Hi] E. simpl in E. assert (x_fwd s !! get_row o = Some i) by (apply Hf; eauto). congruence. }
    assert (Ha2 : alone snd (key_of o) (x_map s)).
    { intros k' [i Hi] E. simpl in E. assert (x_tr s !! get_col o = Some i) by (apply Ht; eauto). congruence. }
    destruct (o2o_do_update_ok (clk n) o s I Ha1 Ha2) as [I' E'].
    assert (Hnone : contents (x_map s) (x_heap s) !! key_of o = None).
    { unfold contents. rewrite lookup_omap, Hm. done. }
    unfold o2o_add_tail.
    destruct (x_lm s !! key_of o) as [ts|] eqn:El.
    - exists (EraseTs (key_of o) ts). split_and!; [done|done|].
      eapply chain_app; [done|]. simpl. split_and!.
      + by apply (alone_contents fst _ _ _ _ _ Hc).
      + by apply (alone_contents snd _ _ _ _ _ Hc).
      + rewrite Hnone, El. done.
      + by rewrite E'.
    - exists (EraseAll (key_of o)). split_and!; [done|done|].
      eapply chain_app; [done|]. simpl. split_and!.
      + by apply (alone_contents fst _ _ _ _ _ Hc).
      + by apply (alone_contents snd _ _ _ _ _ Hc).
      + rewrite Hnone, El. done.
      + by rewrite E'.
  Qed.

  Lemma o2o_add_ok clk n o s : o2o_inv s →
    ∃ log s' n', o2o_add get_row get_col clk n o s = Some (log, s', n') ∧ o2o_inv s' ∧
      chain key_of pw0 o2o_valid (x_abs s) log (x_abs s') ∧
      add_log (o2o_conflicts get_row get_col o (x_abs s).1) clk n o log.*1 n'.
  Proof.
    intros I. pose proof I as (Hc & Hf & Ht). unfold o2o_add.
    destruct (x_map s !! (get_row o, get_col o)) as [p|] eqn:Em.
    - destruct (core_map _ _ _ _ Hc _ _ Em) as (o' & Ho' & Hk'). rewrite Ho'. simpl.
      destruct (core_lm _ _ _ _ Hc _ _ Em) as [ts Ets]. rewrite Ets. simpl.
      assert (Hin : is_Some (x_map s !! key_of o)) by eauto.
      assert (Ha1 : alone fst (key_of o) (x_map s)) by (by eapply flat_ok_alone).
      assert (Ha2 : alone snd (key_of o) (x_map s)) by (by eapply flat_ok_alone).
      destruct (o2o_do_update_ok (clk n) o s I Ha1 Ha2) as [I' E'].
      assert (Hcont : contents (x_map s) (x_heap s) !! key_of o = Some o').
      { apply contents_Some. eauto. }
      eexists _, _, _. split; [done|]. split; [done|]. split.
      + simpl. split_and!.
        * by apply (alone_contents fst _ _ _ _ _ Hc).
        * by apply (alone_contents snd _ _ _ _ _ Hc).
        * rewrite Hcont. eauto.
        * by rewrite E'.
      + exists []. split; [constructor|]. split.
        * intros k. split; [by intros ?%elem_of_nil|]. intros (Hk & Hne & Hor). exfalso. apply Hne.
          simpl in Hk. apply (contents_is_Some _ _ _ _ _ Hc) in Hk.
          destruct Hor as [E|E]; [by apply Ha1|by apply Ha2].
        * simpl. rewrite Nat.add_0_r. done.
    - assert (Em' : contents (x_map s) (x_heap s) !! key_of o = None).
      { unfold contents. rewrite lookup_omap, Em. done. }
      destruct (x_fwd s !! get_row o) as [pr|] eqn:Er; destruct (x_tr s !! get_col o) as [pc|] eqn:Ec.
      + (* both occupied *)
        pose proof Er as Er'. pose proof Ec as Ec'.
        apply Hf in Er as (kr & Hkr & Ekr). apply Ht in Ec as (kc & Hkc & Ekc).
        destruct (core_map _ _ _ _ Hc _ _ Hkr) as (ro & Hro & Kro).
        destruct (core_map _ _ _ _ Hc _ _ Hkc) as (co & Hco & Kco).
        rewrite Hro, Hco. cbn [mbind option_bind].
        subst kr kc. simpl in Ekr, Ekc.
        assert (Hrc : key_of ro ≠ key_of co).
        { intros E. injection E as E1 E2. rewrite Ekr, E2, Ekc in Hkr. simpl in Hkr. congruence. }
        destruct (o2o_erase_step_ok (clk n) ro pr s I Hro) as (tr & Etr & I1 & E1 & V1 & P1).
        assert (Er1 : (get_row o, get_col ro) = (get_row ro, get_col ro)) by congruence.
        assert (Ec1 : (get_row co, get_col o) = (get_row co, get_col co)) by congruence.
        cbn zeta. rewrite !Er1, !Ec1. simpl in Etr. rewrite Etr. cbn [mbind option_bind].
        destruct (core_lm _ _ _ _ Hc _ _ Hkc) as [tc Etc]. rewrite Etc. cbn [mbind option_bind].
        set (s1 := o2o_do_erase (clk n) (get_row ro, get_col ro) s) in *.
        assert (Hco1 : x_heap s1 !! pc = Some co).
        { unfold s1. cbn -[heap_free]. apply heap_free_Some. split; [|done]. intros E.
          apply Hrc. by apply (core_inj _ _ _ _ _ _ pc Hc). }
        rewrite Hco1. cbn [mbind option_bind].
        destruct (o2o_erase_step_ok (clk (S n)) co pc s1 I1 Hco1) as (tc' & Etc' & I2 & E2 & V2 & P2).
        assert (tc' = tc) as ->.
        { unfold s1 in Etc'. simpl in Etc'. rewrite lookup_insert_ne in Etc' by done. congruence. }
        set (s2 := o2o_do_erase (clk (S n)) (get_row co, get_col co) s1) in *.
        pose proof (o2o_tail_ok clk (S (S n)) o s2
          [(Deleted (clk n) (key_of ro), Restore (key_of ro) ro tr);
           (Deleted (clk (S n)) (key_of co), Restore (key_of co) co tc)] (x_abs s) I2) as Htl.
        destruct Htl as (u & Htl & I3 & Hch).
        { unfold s2, s1. simpl. rewrite !lookup_delete_None. right. right. done. }
        { unfold s2, s1, o2o_do_erase, flat_erase. simpl. unfold flat_erase. rewrite lookup_delete_None. right.
          rewrite Ekr. apply lookup_delete. }
        { unfold s2, s1, o2o_do_erase, flat_erase. simpl. unfold flat_erase. rewrite Ekc. apply lookup_delete. }
        { cbn [chain]. split_and!; [done|done|..].
          - by rewrite <- E1.
          - by rewrite <- E1.
          - by rewrite <- E1, <- E2. }
        eexists _, _, _. split; [exact Htl|]. split; [done|]. split; [done|].
        exists [key_of ro; key_of co]. split.
        { repeat constructor; [|by intros ?%elem_of_nil]. rewrite elem_of_list_singleton. done. }
        split.
        { intros k. rewrite !elem_of_cons, elem_of_nil. split.
          - intros [->|[->|[]]].
            + split_and!; [simpl; by apply (contents_is_Some _ _ _ _ _ Hc); eauto| |left; done].
              intros E. rewrite E in Hkr. simpl in Hkr. congruence.
            + split_and!; [simpl; by apply (contents_is_Some _ _ _ _ _ Hc); eauto| |right; done].
              intros E. rewrite E in Hkc. simpl in Hkc. congruence.
          - intros (Hk & Hne & Hor). simpl in Hk. apply (contents_is_Some _ _ _ _ _ Hc) in Hk.
            destruct Hor as [E|E].
            + left. eapply (flat_ok_alone fst _ _ _ _ _ (key_of ro) Hc Hf); [eauto|done|]. simpl. congruence.
            + right; left. eapply (flat_ok_alone snd _ _ _ _ _ (key_of co) Hc Ht); [eauto|done|]. simpl. congruence. }
        simpl. rewrite Nat.add_0_r, Nat.add_1_r.
        replace (n + 2) with (S (S n)) by lia. done.
      + (* row only *)
        pose proof Er as Er'. apply Hf in Er as (kr & Hkr & Ekr).
        destruct (core_map _ _ _ _ Hc _ _ Hkr) as (ro & Hro & Kro). rewrite Hro. cbn [mbind option_bind].
        subst kr. simpl in Ekr.
        destruct (o2o_erase_step_ok (clk n) ro pr s I Hro) as (tr & Etr & I1 & E1 & V1 & P1).
        rewrite Etr. cbn [mbind option_bind].
        set (s1 := o2o_do_erase (clk n) (key_of ro) s) in *.
        destruct (o2o_tail_ok clk (S n) o s1
          [(Deleted (clk n) (key_of ro), Restore (key_of ro) ro tr)] (x_abs s) I1) as (u & Htl & I3 & Hch).
        { unfold s1. simpl. rewrite !lookup_delete_None. right. done. }
        { unfold s1, o2o_do_erase. simpl. unfold flat_erase. rewrite Ekr. apply lookup_delete. }
        { unfold s1, o2o_do_erase. simpl. unfold flat_erase. rewrite lookup_delete_None. by right. }
        { simpl. split_and!; done. }
        eexists _, _, _. split; [exact Htl|]. split; [done|]. split; [done|].
        exists [key_of ro]. split; [repeat constructor; by intros ?%elem_of_nil|].
        split.
        { intros k. rewrite elem_of_list_singleton. split.
          - intros ->. split_and!; [simpl; by apply (contents_is_Some _ _ _ _ _ Hc); eauto| |left; done].
            intros E. rewrite E in Hkr. simpl in Hkr. congruence.
          - intros (Hk & Hne & Hor). simpl in Hk. apply (contents_is_Some _ _ _ _ _ Hc) in Hk.
            destruct Hor as [E|E].
            + eapply (flat_ok_alone fst _ _ _ _ _ (key_of ro) Hc Hf); [eauto|done|]. simpl. congruence.
            + destruct Hk as [i Hi]. assert (x_tr s !! get_col o = Some i) by (apply Ht; eauto). congruence. }
        simpl. rewrite Nat.add_0_r, Nat.add_1_r. done.
      + (* column only *)
        pose proof Ec as Ec'. apply Ht in Ec as (kc & Hkc & Ekc). cbn [default].
        destruct (core_map _ _ _ _ Hc _ _ Hkc) as (co & Hco & Kco). simpl. rewrite Hco. cbn [mbind option_bind].
        subst kc. simpl in Ekc.
        destruct (o2o_erase_step_ok (clk n) co pc s I Hco) as (tc & Etc & I1 & E1 & V1 & P1).
        rewrite Etc. cbn [mbind option_bind].
        set (s1 := o2o_do_erase (clk n) (key_of co) s) in *.
        destruct (o2o_tail_ok clk (S n) o s1
          [(Deleted (clk n) (key_of co), Restore (key_of co) co tc)] (x_abs s) I1) as (u & Htl & I3 & Hch).
        { unfold s1. simpl. rewrite !lookup_delete_None. right. done. }
        { unfold s1, o2o_do_erase. simpl. unfold flat_erase. rewrite lookup_delete_None. by right. }
        { unfold s1, o2o_do_erase. simpl. unfold flat_erase. rewrite Ekc. apply lookup_delete. }
        { simpl. split_and!; done. }
        eexists _, _, _. split; [exact Htl|]. split; [done|]. split; [done|].
        exists [key_of co]. split; [repeat constructor; by intros ?%elem_of_nil|].
        split.
        { intros k. rewrite elem_of_list_singleton. split.
          - intros ->. split_and!; [simpl; by apply (contents_is_Some _ _ _ _ _ Hc); eauto| |right; done].
            intros E. rewrite E in Hkc. simpl in Hkc. congruence.
          - intros (Hk & Hne & Hor). simpl in Hk. apply (contents_is_Some _ _ _ _ _ Hc) in Hk.
            destruct Hor as [E|E].
            + destruct Hk as [i Hi]. assert (x_fwd s !! get_row o = Some i) by (apply Hf; eauto). congruence.
            + eapply (flat_ok_alone snd _ _ _ _ _ (key_of co) Hc Ht); [eauto|done|]. simpl. congruence. }
        simpl. rewrite Nat.add_0_r, Nat.add_1_r. done.
      + (* none *)
        destruct (o2o_tail_ok clk n o s [] (x_abs s) I Em Er Ec eq_refl) as (u & Htl & I3 & Hch).
        eexists _, _, _. split; [exact Htl|]. split; [done|]. split; [done|].
        exists []. split; [constructor|]. split.
        { intros k. split; [by intros ?%elem_of_nil|]. intros (Hk & Hne & Hor).
          simpl in Hk. apply (contents_is_Some _ _ _ _ _ Hc) in Hk as [i Hi].
          destruct Hor as [E|E].
          - assert (x_fwd s !! get_row o = Some i) by (apply Hf; eauto). congruence.
          - assert (x_tr s !! get_col o = Some i) by (apply Ht; eauto). congruence. }
        simpl. rewrite Nat.add_0_r. done.
  Qed.

  Lemma o2o_erase_ok clk n k s : o2o_inv s →
    ∃ log s' n', o2o_erase get_row get_col clk n k s = Some (log, s', n') ∧ o2o_inv s' ∧
      chain key_of pw0 o2o_valid (x_abs s) log (x_abs s') ∧
      erase_log (λ k', k' = k ∧ is_Some ((x_abs s).1 !! k')) clk n log.*1 n'.
  Proof.
    intros I. pose proof I as (Hc & Hf & Ht). unfold o2o_erase.
    destruct (x_map s !! k) as [p|] eqn:Em.
    - destruct (core_map _ _ _ _ Hc _ _ Em) as (o & Ho & <-). rewrite Ho. cbn [mbind option_bind].
      destruct (o2o_erase_step_ok (clk n) o p s I Ho) as (ts & Ets & I1 & E1 & V1 & P1).
      rewrite Ets. cbn [mbind option_bind].
      eexists _, _, _. split; [done|]. split; [done|]. split; [simpl; split_and!; done|].
      split; [done|]. right. exists (key_of o). split; [done|]. intros k'. split; [by intros [? ?]|].
      intros ->. split; [done|]. simpl. apply (contents_is_Some _ _ _ _ _ Hc). eauto.
    - eexists _, _, _. split; [done|]. split; [done|]. split; [done|]. split; [done|]. left.
      split; [done|]. intros k' [-> Hk']. simpl in Hk'. apply (contents_is_Some _ _ _ _ _ Hc) in Hk'.
      destruct Hk'. congruence.
  Qed.

  Lemma o2o_erase_row_ok clk n r s : o2o_inv s →
    ∃ log s' n', o2o_erase_row get_row get_col clk n r s = Some (log, s', n') ∧ o2o_inv s' ∧
      chain key_of pw0 o2o_valid (x_abs s) log (x_abs s') ∧
      erase_log (λ k', k'.1 = r ∧ is_Some ((x_abs s).1 !! k')) clk n log.*1 n'.
  Proof.
    intros I. pose proof I as (Hc & Hf & Ht). unfold o2o_erase_row.
    destruct (x_fwd s !! r) as [p|] eqn:Em.
    - pose proof Em as Em'. apply Hf in Em as (k & Hk & <-).
      destruct (core_map _ _ _ _ Hc _ _ Hk) as (o & Ho & <-). rewrite Ho. cbn [mbind option_bind].
      destruct (o2o_erase_step_ok (clk n) o p s I Ho) as (ts & Ets & I1 & E1 & V1 & P1).
      simpl fst. rewrite Ets. cbn [mbind option_bind].
      eexists _, _, _. split; [done|]. split; [done|]. split; [simpl; split_and!; done|].
      split; [done|]. right. exists (key_of o). split; [done|]. intros k'. simpl. split.
      + intros [E Hk']. apply (contents_is_Some _ _ _ _ _ Hc) in Hk'.
        eapply (flat_ok_alone fst _ _ _ _ _ (key_of o) Hc Hf); [eauto|done|done].
      + intros ->. split; [done|]. apply (contents_is_Some _ _ _ _ _ Hc). eauto.
    - eexists _, _, _. split; [done|]. split; [done|]. split; [done|]. split; [done|]. left.
      split; [done|]. intros k' [<- Hk']. simpl in Hk'. apply (contents_is_Some _ _ _ _ _ Hc) in Hk' as [i Hi].
      assert (x_fwd s !! k'.1 = Some i) by (apply Hf; eauto). congruence.
  Qed.

  Lemma o2o_erase_col_ok clk n c s : o2o_inv s →
    ∃ log s' n', o2o_erase_col get_row get_col clk n c s = Some (log, s', n') ∧ o2o_inv s' ∧
      chain key_of pw0 o2o_valid (x_abs s) log (x_abs s') ∧
      erase_log (λ k', k'.2 = c ∧ is_Some ((x_abs s).1 !! k')) clk n log.*1 n'.
  Proof.
    intros I. pose proof I as (Hc & Hf & Ht). unfold o2o_erase_col.
    destruct (x_tr s !! c) as [p|] eqn:Em.
    - pose proof Em as Em'. apply Ht in Em as (k & Hk & <-).
      destruct (core_map _ _ _ _ Hc _ _ Hk) as (o & Ho & <-). rewrite Ho. cbn [mbind option_bind].
      destruct (o2o_erase_step_ok (clk n) o p s I Ho) as (ts & Ets & I1 & E1 & V1 & P1).
      simpl snd. rewrite Ets. cbn [mbind option_bind].
      eexists _, _, _. split; [done|]. split; [done|]. split; [simpl; split_and!; done|].
      split; [done|]. right. exists (key_of o). split; [done|]. intros k'. simpl. split.
      + intros [E Hk']. apply (contents_is_Some _ _ _ _ _ Hc) in Hk'.
        eapply (flat_ok_alone snd _ _ _ _ _ (key_of o) Hc Ht); [eauto|done|done].
      + intros ->. split; [done|]. apply (contents_is_Some _ _ _ _ _ Hc). eauto.
    - eexists _, _, _. split; [done|]. split; [done|]. split; [done|]. split; [done|]. left.
      split; [done|]. intros k' [<- Hk']. simpl in Hk'. apply (contents_is_Some _ _ _ _ _ Hc) in Hk' as [i Hi].
      assert (x_tr s !! k'.2 = Some i) by (apply Ht; eauto). congruence.
  Qed.

  Lemma o2o_step_ok clk n op s : o2o_inv s →
    ∃ log s' n', o2o_step get_row get_col clk n op s = Some (log, s', n') ∧ o2o_inv s' ∧
      chain key_of pw0 o2o_valid (x_abs s) log (x_abs s').
  Proof.
    intros I. destruct op as [o|k|r|c]; simpl.
    - destruct (o2o_add_ok clk n o s I) as (?&?&?&?&?&?&_). eauto 10.
    - destruct (o2o_erase_ok clk n k s I) as (?&?&?&?&?&?&_). eauto 10.
    - destruct (o2o_erase_row_ok clk n r s I) as (?&?&?&?&?&?&_). eauto 10.
    - destruct (o2o_erase_col_ok clk n c s I) as (?&?&?&?&?&?&_). eauto 10.
  Qed.

  (** Everything the API shows of a one-to-one container. *)
  Definition o2o_obs (s : o2o R C T) :=
    (x_elements s, o2o_rows s, o2o_cols s, x_lm s).
  Lemma o2o_obs_ok s s' : o2o_inv s → o2o_inv s' → x_abs s = x_abs s' → o2o_obs s = o2o_obs s'.
  Proof.
    intros (Hc & Hf & Ht) (Hc' & Hf' & Ht') E. injection E as E1 E2.
    unfold o2o_obs, x_elements, o2o_rows, o2o_cols.
    rewrite (elements_eq _ _ _ _ Hc), (elements_eq _ _ _ _ Hc'), E1, E2.
    by rewrite (flat_view_eq fst _ _ _ _ _ _ _ _ _ _ Hc Hf Hc' Hf' E1),
      (flat_view_eq snd _ _ _ _ _ _ _ _ _ _ Hc Ht Hc' Ht' E1).
  Qed.

  (** ** One-to-many *)
  Definition o2m_inv (s : o2m R C T) : Prop :=
    core (x_map s) (x_heap s) (x_next s) (x_lm s) ∧
    nest_ok pair (x_fwd s) (x_map s) ∧ flat_ok snd (x_tr s) (x_map s).

  Definition o2m_valid (e : ev) (a : atab key T) : Prop :=
    match e with
    | Updated _ o => alone snd (key_of o) a.1
    | Deleted _ k => is_Some (a.1 !! k)
    | Patched _ _ _ => False
    end.

  Lemma pair_inj_mk : mk_inj (@pair R C).
  Proof. intros ? ? ? ? E. by injection E. Qed.
  Lemma flip_pair_inj_mk : mk_inj (λ (c : C) (r : R), (r, c)).
  Proof. intros ? ? ? ? E. by injection E. Qed.

  Lemma nest_init {A B} `{Countable A} `{Countable B} (mk : A → B → key) : nest_ok mk ∅ ∅.
  Proof. split; [intros a b; by rewrite !lookup_empty|intros a; by rewrite lookup_empty]. Qed.
  Lemma flat_init {A} `{Countable A} (proj : key → A) : flat_ok proj ∅ ∅.
  Proof.
    intros a i; rewrite lookup_empty;
      (split; [done|intros (k & E & _); by rewrite lookup_empty in E]).
  Qed.

  Lemma o2m_init_inv : o2m_inv o2m_init.
  Proof. split_and!; [apply core_init|apply nest_init|apply flat_init]. Qed.

  Lemma o2m_do_update_ok us o s : o2m_inv s → alone snd (key_of o) (x_map s) →
    o2m_inv (o2m_do_update us (key_of o) o s) ∧
    x_abs (o2m_do_update us (key_of o) o s) =
      (<[key_of o := o]> (x_abs s).1, <[key_of o := us]> (x_abs s).2).
  Proof.
    intros (Hc & Hf & Ht) Ha2.
    destruct (core_update _ _ _ _ (key_of o) o us Hc eq_refl) as [Hc' Hcont].
    split.
    - split_and!; [exact Hc'| |].
      + apply (nest_set_ok pair); [apply pair_inj_mk|done].
      + by apply (flat_set_ok snd).
    - unfold x_abs. f_equal. exact Hcont.
  Qed.

  Lemma o2m_do_erase_no_lm_ok k (s : o2m R C T) l' : o2m_inv s → is_Some (x_map s !! k) →
    (∀ k', k' ≠ k → l' !! k' = x_lm s !! k') →
    let s' := o2m_do_erase_no_lm k (Matrix (x_map s) (x_heap s) (x_next s) (x_fwd s) (x_tr s) l') in
    o2m_inv s' ∧ x_abs s' = (delete k (x_abs s).1, l').
  Proof.
    intros (Hc & Hf & Ht) Hk Hl s'.
    destruct (core_erase _ _ _ _ l' k Hc Hl) as [Hc' Hcont].
    split.
    - split_and!; [exact Hc'| |].
      + destruct k as [r c]. apply (nest_erase_ok pair); [apply pair_inj_mk|done].
      + apply (flat_erase_ok snd); [done|]. by eapply flat_ok_alone.
    - unfold x_abs. f_equal. exact Hcont.
  Qed.

  Lemma o2m_do_erase_ok us k s : o2m_inv s → is_Some (x_map s !! k) →
    o2m_inv (o2m_do_erase us k s) ∧
    x_abs (o2m_do_erase us k s) = (delete k (x_abs s).1, <[k := us]> (x_abs s).2).
  Proof.
    intros I Hk. apply (o2m_do_erase_no_lm_ok k s (<[k := us]> (x_lm s)) I Hk).
    intros k' ?. by rewrite lookup_insert_ne.
  Qed.

  Lemma o2m_apply_ok e s : o2m_inv s → o2m_valid e (x_abs s) →
    o2m_inv (o2m_apply get_row get_col e s) ∧
    x_abs (o2m_apply get_row get_col e s) = aap e (x_abs s).
  Proof.
    intros I Hv. pose proof I as (Hc & _). destruct e as [us o|us k|? ? []]; simpl in *.
    - apply (alone_contents snd _ _ _ _ _ Hc) in Hv. apply o2m_do_update_ok; done.
    - apply (contents_is_Some _ _ _ _ _ Hc) in Hv. by apply o2m_do_erase_ok.
  Qed.

  Lemma o2m_undo_ok e u s s0 : o2m_inv s → o2m_inv s0 → o2m_valid e (x_abs s0) →
    apair key_of e u (x_abs s0) → x_abs s = aap e (x_abs s0) →
    o2m_inv (o2m_undo u s) ∧ x_abs (o2m_undo u s) = x_abs s0.
  Proof.
    intros I I0 Hv Hpair Es.
    pose proof I as (Hc & Hf & Ht). pose proof I0 as (Hc0 & Hf0 & Ht0).
    assert (Hdom : ∀ k, is_Some (x_map s !! k) ↔ is_Some ((aap e (x_abs s0)).1 !! k)).
    { intros k. rewrite <- Es. symmetry. by apply (contents_is_Some _ _ _ _ _ Hc). }
    assert (Hu : aundo u (x_abs s) = x_abs s0) by (rewrite Es; by apply aundo_ok).
    rewrite <- Hu. clear Hu.
    destruct e as [us o|us k|? ? []]; simpl in Hv, Hpair, Hdom.
    - assert (Hin : is_Some (x_map s !! key_of o)) by (apply Hdom; rewrite lookup_insert; eauto).
      destruct (contents (x_map s0) (x_heap s0) !! (get_row o, get_col o)) as [o'|] eqn:E0.
      + destruct Hpair as (ts & El & ->). simpl.
        pose proof (contents_key _ _ _ _ _ _ Hc0 E0) as Hk'. simpl in Hk'.
        simpl in Hin. rewrite <- Hk' in Hin |- *.
        apply (o2m_do_update_ok ts o' s I).
        by apply (flat_ok_alone snd _ _ _ _ _ _ Hc Ht Hin).
      + destruct (x_lm s0 !! (get_row o, get_col o)) as [ts|]; subst u; simpl.
        * by apply o2m_do_erase_ok.
        * apply (o2m_do_erase_no_lm_ok _ _ (delete (get_row o, get_col o) (x_lm s)) I Hin).
          intros k' ?. by rewrite lookup_delete_ne.
    - destruct Hpair as (o & ts & Eo & El & ->). simpl.
      pose proof (contents_key _ _ _ _ _ _ Hc0 Eo) as <-.
      apply (contents_is_Some _ _ _ _ _ Hc0) in Hv.
      assert (Hsub : ∀ k', is_Some (x_map s !! k') → is_Some (x_map s0 !! k')).
      { intros k' Hk'. apply Hdom in Hk' as [x Hx%lookup_delete_Some].
        apply (contents_is_Some _ _ _ _ _ Hc0). exists x. apply Hx. }
      apply o2m_do_update_ok; [done|..]; intros k' Hk' E.
      by apply (flat_ok_alone snd _ _ _ _ _ _ Hc0 Ht0 Hv); [apply Hsub|].
  Qed.

  Lemma o2m_erase_step_ok us o p s : o2m_inv s → x_heap s !! p = Some o →
    ∃ ts, x_lm s !! key_of o = Some ts ∧
    o2m_inv (o2m_do_erase us (key_of o) s) ∧
    x_abs (o2m_do_erase us (key_of o) s) = aap (Deleted us (key_of o)) (x_abs s) ∧
    o2m_valid (Deleted us (key_of o)) (x_abs s) ∧
    apair (P := Empty_set) key_of (Deleted us (key_of o)) (Restore (key_of o) o ts) (x_abs s).
  Proof.
    intros I Hp. pose proof I as (Hc & Hf & Ht).
    destruct (core_heap _ _ _ _ Hc _ _ Hp) as [Hm _].
    destruct (core_lm _ _ _ _ Hc _ _ Hm) as [ts Ets].
    exists ts. split; [done|].
    assert (Hin : is_Some (x_map s !! key_of o)) by eauto.
    destruct (o2m_do_erase_ok us _ _ I Hin) as [I' E'].
    split_and!; [done|done| |].
    - simpl. by apply (contents_is_Some _ _ _ _ _ Hc).
    - simpl. exists o, ts. split_and!; [|done|done]. apply contents_Some. eauto.
  Qed.

  Lemma o2m_tail_ok clk n o s log a : o2m_inv s →
    x_map s !! key_of o = None → x_tr s !! get_col o = None →
    chain key_of pw0 o2m_valid a log (x_abs s) →
    ∃ u, let s' := o2m_do_update (clk n) (key_of o) o s in
      o2m_add_tail clk n o (key_of o) s log = Some (log ++ [(Updated (clk n) o, u)], s', S n) ∧
      o2m_inv s' ∧
      chain key_of pw0 o2m_valid a (log ++ [(Updated (clk n) o, u)]) (x_abs s').
  Proof.
    intros I Hm Ht0 Hch. pose proof I as (Hc & Hf & Ht).
    assert (Ha2 : alone snd (key_of o) (x_map s)).
    { intros k' [i Hi] E. simpl in E. assert (x_tr s !! get_col o = Some i) by (apply Ht; eauto). congruence. }
    destruct (o2m_do_update_ok (clk n) o s I Ha2) as [I' E'].
    assert (Hnone : contents (x_map s) (x_heap s) !! key_of o = None).
    { unfold contents. rewrite lookup_omap, Hm. done. }
    unfold o2m_add_tail.
    destruct (x_lm s !! key_of o) as [ts|] eqn:El.
    - exists (EraseTs (key_of o) ts). split_and!; [done|done|].
      eapply chain_app; [done|]. simpl. split_and!.
      + by apply (alone_contents snd _ _ _ _ _ Hc).
      + rewrite Hnone, El. done.
      + by rewrite E'.
    - exists (EraseAll (key_of o)). split_and!; [done|done|].
      eapply chain_app; [done|]. simpl. split_and!.
      + by apply (alone_contents snd _ _ _ _ _ Hc).
      + rewrite Hnone, El. done.
      + by rewrite E'.
  Qed.

  Lemma o2m_add_ok clk n o s : o2m_inv s →
    ∃ log s' n', o2m_add get_row get_col clk n o s = Some (log, s', n') ∧ o2m_inv s' ∧
      chain key_of pw0 o2m_valid (x_abs s) log (x_abs s') ∧
      add_log (o2m_conflicts get_row get_col o (x_abs s).1) clk n o log.*1 n'.
  Proof.
    intros I. pose proof I as (Hc & Hf & Ht). unfold o2m_add.
    destruct (x_map s !! (get_row o, get_col o)) as [p|] eqn:Em.
    - destruct (core_map _ _ _ _ Hc _ _ Em) as (o' & Ho' & Hk'). rewrite Ho'. simpl.
      destruct (core_lm _ _ _ _ Hc _ _ Em) as [ts Ets]. rewrite Ets. simpl.
      assert (Hin : is_Some (x_map s !! key_of o)) by eauto.
      assert (Ha2 : alone snd (key_of o) (x_map s)) by (by eapply flat_ok_alone).
      destruct (o2m_do_update_ok (clk n) o s I Ha2) as [I' E'].
      assert (Hcont : contents (x_map s) (x_heap s) !! key_of o = Some o').
      { apply contents_Some. eauto. }
      eexists _, _, _. split; [done|]. split; [done|]. split.
      + simpl. split_and!.
        * by apply (alone_contents snd _ _ _ _ _ Hc).
        * rewrite Hcont. eauto.
        * by rewrite E'.
      + exists []. split; [constructor|]. split.
        * intros k. split; [by intros ?%elem_of_nil|]. intros (Hk & Hne & E). exfalso. apply Hne.
          simpl in Hk. apply (contents_is_Some _ _ _ _ _ Hc) in Hk. by apply Ha2.
        * simpl. rewrite Nat.add_0_r. done.
    - assert (Em' : contents (x_map s) (x_heap s) !! key_of o = None).
      { unfold contents. rewrite lookup_omap, Em. done. }
      destruct (x_tr s !! get_col o) as [pc|] eqn:Ec.
      + pose proof Ec as Ec'. apply Ht in Ec as (kc & Hkc & Ekc).
        destruct (core_map _ _ _ _ Hc _ _ Hkc) as (co & Hco & Kco). simpl. rewrite Hco. cbn [mbind option_bind].
        subst kc. simpl in Ekc.
        destruct (o2m_erase_step_ok (clk n) co pc s I Hco) as (tc & Etc & I1 & E1 & V1 & P1).
        assert (Ec1 : (get_row co, get_col o) = (get_row co, get_col co)) by congruence.
        cbn zeta. rewrite !Ec1. simpl in Etc. rewrite Etc. cbn [mbind option_bind].
        set (s1 := o2m_do_erase (clk n) (get_row co, get_col co) s) in *.
        destruct (o2m_tail_ok clk (S n) o s1
          [(Deleted (clk n) (key_of co), Restore (key_of co) co tc)] (x_abs s) I1) as (u & Htl & I3 & Hch).
        { unfold s1. simpl. rewrite !lookup_delete_None. right. done. }
        { unfold s1, o2m_do_erase. simpl. unfold flat_erase. rewrite Ekc. apply lookup_delete. }
        { simpl. split_and!; done. }
        eexists _, _, _. split; [exact Htl|]. split; [done|]. split; [done|].
        exists [key_of co]. split; [repeat constructor; by intros ?%elem_of_nil|].
        split.
        { intros k. rewrite elem_of_list_singleton. split.
          - intros ->. split_and!; [simpl; by apply (contents_is_Some _ _ _ _ _ Hc); eauto| |done].
            intros E. rewrite E in Hkc. simpl in Hkc. congruence.
          - intros (Hk & Hne & E). simpl in Hk. apply (contents_is_Some _ _ _ _ _ Hc) in Hk.
            eapply (flat_ok_alone snd _ _ _ _ _ (key_of co) Hc Ht); [eauto|done|]. simpl. congruence. }
        simpl. rewrite Nat.add_0_r, Nat.add_1_r. done.
      + destruct (o2m_tail_ok clk n o s [] (x_abs s) I Em Ec eq_refl) as (u & Htl & I3 & Hch).
        eexists _, _, _. split; [exact Htl|]. split; [done|]. split; [done|].
        exists []. split; [constructor|]. split.
        { intros k. split; [by intros ?%elem_of_nil|]. intros (Hk & Hne & E).
          simpl in Hk. apply (contents_is_Some _ _ _ _ _ Hc) in Hk as [i Hi].
          assert (x_tr s !! get_col o = Some i) by (apply Ht; eauto). congruence. }
        simpl. rewrite Nat.add_0_r. done.
  Qed.

  Lemma o2m_erase_ok clk n k s : o2m_inv s →
    ∃ log s' n', o2m_erase get_row get_col clk n k s = Some (log, s', n') ∧ o2m_inv s' ∧
      chain key_of pw0 o2m_valid (x_abs s) log (x_abs s') ∧
      erase_log (λ k', k' = k ∧ is_Some ((x_abs s).1 !! k')) clk n log.*1 n'.
  Proof.
    intros I. pose proof I as (Hc & Hf & Ht). unfold o2m_erase.
    destruct (x_map s !! k) as [p|] eqn:Em.
    - destruct (core_map _ _ _ _ Hc _ _ Em) as (o & Ho & <-). rewrite Ho. cbn [mbind option_bind].
      destruct (o2m_erase_step_ok (clk n) o p s I Ho) as (ts & Ets & I1 & E1 & V1 & P1).
      rewrite Ets. cbn [mbind option_bind].
      eexists _, _, _. split; [done|]. split; [done|]. split; [simpl; split_and!; done|].
      split; [done|]. right. exists (key_of o). split; [done|]. intros k'. split; [by intros [? ?]|].
      intros ->. split; [done|]. simpl. apply (contents_is_Some _ _ _ _ _ Hc). eauto.
    - eexists _, _, _. split; [done|]. split; [done|]. split; [done|]. split; [done|]. left.
      split; [done|]. intros k' [-> Hk']. simpl in Hk'. apply (contents_is_Some _ _ _ _ _ Hc) in Hk'.
      destruct Hk'. congruence.
  Qed.

  Lemma o2m_erase_col_ok clk n c s : o2m_inv s →
    ∃ log s' n', o2m_erase_col get_row get_col clk n c s = Some (log, s', n') ∧ o2m_inv s' ∧
      chain key_of pw0 o2m_valid (x_abs s) log (x_abs s') ∧
      erase_log (λ k', k'.2 = c ∧ is_Some ((x_abs s).1 !! k')) clk n log.*1 n'.
  Proof.
    intros I. pose proof I as (Hc & Hf & Ht). unfold o2m_erase_col.
    destruct (x_tr s !! c) as [p|] eqn:Em.
    - pose proof Em as Em'. apply Ht in Em as (k & Hk & <-).
      destruct (core_map _ _ _ _ Hc _ _ Hk) as (o & Ho & <-). rewrite Ho. cbn [mbind option_bind].
      destruct (o2m_erase_step_ok (clk n) o p s I Ho) as (ts & Ets & I1 & E1 & V1 & P1).
      simpl snd. rewrite Ets. cbn [mbind option_bind].
      eexists _, _, _. split; [done|]. split; [done|]. split; [simpl; split_and!; done|].
      split; [done|]. right. exists (key_of o). split; [done|]. intros k'. simpl. split.
      + intros [E Hk']. apply (contents_is_Some _ _ _ _ _ Hc) in Hk'.
        eapply (flat_ok_alone snd _ _ _ _ _ (key_of o) Hc Ht); [eauto|done|done].
      + intros ->. split; [done|]. apply (contents_is_Some _ _ _ _ _ Hc). eauto.
    - eexists _, _, _. split; [done|]. split; [done|]. split; [done|]. split; [done|]. left.
      split; [done|]. intros k' [<- Hk']. simpl in Hk'. apply (contents_is_Some _ _ _ _ _ Hc) in Hk' as [i Hi].
      assert (x_tr s !! k'.2 = Some i) by (apply Ht; eauto). congruence.
  Qed.

  Lemma o2m_step_ok clk n op s : o2m_inv s →
    ∃ log s' n', o2m_step get_row get_col clk n op s = Some (log, s', n') ∧ o2m_inv s' ∧
      chain key_of pw0 o2m_valid (x_abs s) log (x_abs s').
  Proof.
    intros I. destruct op as [o|k|c]; simpl.
    - destruct (o2m_add_ok clk n o s I) as (?&?&?&?&?&?&_). eauto 10.
    - destruct (o2m_erase_ok clk n k s I) as (?&?&?&?&?&?&_). eauto 10.
    - destruct (o2m_erase_col_ok clk n c s I) as (?&?&?&?&?&?&_). eauto 10.
  Qed.

  Definition o2m_obs (s : o2m R C T) :=
    (x_elements s, o2m_rows s, o2m_cols s, x_lm s).
  Lemma o2m_obs_ok s s' : o2m_inv s → o2m_inv s' → x_abs s = x_abs s' → o2m_obs s = o2m_obs s'.
  Proof.
    intros (Hc & Hf & Ht) (Hc' & Hf' & Ht') E. injection E as E1 E2.
    unfold o2m_obs, x_elements, o2m_rows, o2m_cols.
    rewrite (elements_eq _ _ _ _ Hc), (elements_eq _ _ _ _ Hc'), E1, E2.
    by rewrite (nest_view_eq pair _ _ _ _ _ _ _ _ _ _ Hc Hf Hc' Hf' E1),
      (flat_view_eq snd _ _ _ _ _ _ _ _ _ _ Hc Ht Hc' Ht' E1).
  Qed.

  (** ** Many-to-many *)
  Definition m2m_inv (s : m2m R C T) : Prop :=
    core (x_map s) (x_heap s) (x_next s) (x_lm s) ∧
    nest_ok pair (x_fwd s) (x_map s) ∧ nest_ok (λ c r, (r, c)) (x_tr s) (x_map s).

  Definition m2m_valid (e : ev) (a : atab key T) : Prop := True.

  Lemma m2m_init_inv : m2m_inv m2m_init.
  Proof. split_and!; [apply core_init|apply nest_init|apply nest_init]. Qed.

  Lemma m2m_do_update_ok us o s : m2m_inv s →
    m2m_inv (m2m_do_update us (key_of o) o s) ∧
    x_abs (m2m_do_update us (key_of o) o s) =
      (<[key_of o := o]> (x_abs s).1, <[key_of o := us]> (x_abs s).2).
  Proof.
    intros (Hc & Hf & Ht).
    destruct (core_update _ _ _ _ (key_of o) o us Hc eq_refl) as [Hc' Hcont].
    split.
    - split_and!; [exact Hc'| |].
      + apply (nest_set_ok pair); [apply pair_inj_mk|done].
      + apply (nest_set_ok (λ c r, (r, c))); [apply flip_pair_inj_mk|done].
    - unfold x_abs. f_equal. exact Hcont.
  Qed.

  Lemma m2m_do_erase_no_lm_ok k (s : m2m R C T) l' : m2m_inv s →
    (∀ k', k' ≠ k → l' !! k' = x_lm s !! k') →
    let s' := m2m_do_erase_no_lm k (Matrix (x_map s) (x_heap s) (x_next s) (x_fwd s) (x_tr s) l') in
    m2m_inv s' ∧ x_abs s' = (delete k (x_abs s).1, l').
  Proof.
    intros (Hc & Hf & Ht) Hl s'.
    destruct (core_erase _ _ _ _ l' k Hc Hl) as [Hc' Hcont].
    split.
    - split_and!; [exact Hc'| |].
      + destruct k as [r c]. apply (nest_erase_ok pair); [apply pair_inj_mk|done].
      + destruct k as [r c]. apply (nest_erase_ok (λ c r, (r, c))); [apply flip_pair_inj_mk|done].
    - unfold x_abs. f_equal. exact Hcont.
  Qed.

  Lemma m2m_do_erase_ok us k s : m2m_inv s →
    m2m_inv (m2m_do_erase us k s) ∧
    x_abs (m2m_do_erase us k s) = (delete k (x_abs s).1, <[k := us]> (x_abs s).2).
  Proof.
    intros I. apply (m2m_do_erase_no_lm_ok k s (<[k := us]> (x_lm s)) I).
    intros k' ?. by rewrite lookup_insert_ne.
  Qed.

  Lemma m2m_apply_ok e s : m2m_inv s →
    m2m_inv (m2m_apply get_row get_col e s) ∧
    x_abs (m2m_apply get_row get_col e s) = aap e (x_abs s).
  Proof.
    intros I. destruct e as [us o|us k|? ? []]; simpl in *.
    - apply m2m_do_update_ok; done.
    - by apply m2m_do_erase_ok.
  Qed.

  Lemma m2m_undo_ok e u s s0 : m2m_inv s → m2m_inv s0 →
    apair key_of e u (x_abs s0) → x_abs s = aap e (x_abs s0) →
    m2m_inv (m2m_undo u s) ∧ x_abs (m2m_undo u s) = x_abs s0.
  Proof.
    intros I I0 Hpair Es. pose proof I0 as (Hc0 & _ & _).
    assert (Hu : aundo u (x_abs s) = x_abs s0) by (rewrite Es; by apply aundo_ok).
    rewrite <- Hu. clear Hu.
    destruct e as [us o|us k|? ? []]; simpl in Hpair.
    - destruct (contents (x_map s0) (x_heap s0) !! (get_row o, get_col o)) as [o'|] eqn:E0.
      + destruct Hpair as (ts & El & ->). simpl.
        pose proof (contents_key _ _ _ _ _ _ Hc0 E0) as Hk'. simpl in Hk'.
        rewrite <- Hk'. apply (m2m_do_update_ok ts o' s I).
      + destruct (x_lm s0 !! (get_row o, get_col o)) as [ts|]; subst u; simpl.
        * by apply m2m_do_erase_ok.
        * apply (m2m_do_erase_no_lm_ok _ _ (delete (get_row o, get_col o) (x_lm s)) I).
          intros k' ?. by rewrite lookup_delete_ne.
    - destruct Hpair as (o & ts & Eo & El & ->). simpl.
      pose proof (contents_key _ _ _ _ _ _ Hc0 Eo) as <-. by apply m2m_do_update_ok.
  Qed.

  Lemma m2m_add_ok clk n o s : m2m_inv s →
    ∃ log s' n', m2m_add get_row get_col clk n o s = Some (log, s', n') ∧ m2m_inv s' ∧
      chain key_of pw0 m2m_valid (x_abs s) log (x_abs s') ∧
      add_log (λ _, False) clk n o log.*1 n'.
  Proof.
    intros I. pose proof I as (Hc & Hf & Ht). unfold m2m_add. cbn zeta.
    destruct (m2m_do_update_ok (clk n) o s I) as [I' E'].
    assert (Hal : add_log (P := Empty_set) (λ _ : key, False) clk n o [Updated (clk n) o] (S n)).
    { exists []. split; [constructor|]. split; [intros k; split; [by intros ?%elem_of_nil|done]|].
      simpl. by rewrite Nat.add_0_r. }
    destruct (x_map s !! (get_row o, get_col o)) as [p|] eqn:Em.
    - destruct (core_map _ _ _ _ Hc _ _ Em) as (o' & Ho' & Hk'). rewrite Ho'. cbn [mbind option_bind].
      destruct (core_lm _ _ _ _ Hc _ _ Em) as [ts Ets]. rewrite Ets. cbn [mbind option_bind].
      assert (Hcont : contents (x_map s) (x_heap s) !! key_of o = Some o').
      { apply contents_Some. eauto. }
      eexists _, _, _. split; [done|]. split; [done|]. split; [|done].
      simpl. split_and!; [done| |by rewrite E'].
      rewrite Hcont. eauto.
    - assert (Em' : contents (x_map s) (x_heap s) !! key_of o = None).
      { unfold contents. rewrite lookup_omap, Em. done. }
      destruct (x_lm s !! (get_row o, get_col o)) as [ts|] eqn:El;
        (eexists _, _, _; split; [done|]; split; [done|]; split; [|done]);
        simpl; (split_and!; [done| |by rewrite E']); rewrite Em', El; done.
  Qed.

  Lemma m2m_erase_ok clk n k s : m2m_inv s →
    ∃ log s' n', m2m_erase get_row get_col clk n k s = Some (log, s', n') ∧ m2m_inv s' ∧
      chain key_of pw0 m2m_valid (x_abs s) log (x_abs s') ∧
      erase_log (λ k', k' = k ∧ is_Some ((x_abs s).1 !! k')) clk n log.*1 n'.
  Proof.
    intros I. pose proof I as (Hc & Hf & Ht). unfold m2m_erase.
    destruct (x_map s !! k) as [p|] eqn:Em.
    - destruct (core_map _ _ _ _ Hc _ _ Em) as (o & Ho & <-). rewrite Ho. cbn [mbind option_bind].
      destruct (core_lm _ _ _ _ Hc _ _ Em) as [ts Ets]. rewrite Ets. cbn [mbind option_bind].
      destruct (m2m_do_erase_ok (clk n) (key_of o) s I) as [I1 E1].
      eexists _, _, _. split; [done|]. split; [done|]. split.
      + simpl. split_and!; [done| |by rewrite E1].
        exists o, ts. split_and!; [|done|done]. apply contents_Some; eauto.
      + split; [done|]. right. exists (key_of o). split; [done|]. intros k'. split; [by intros [? ?]|].
        intros ->. split; [done|]. simpl. apply (contents_is_Some _ _ _ _ _ Hc). eauto.
    - eexists _, _, _. split; [done|]. split; [done|]. split; [done|]. split; [done|]. left.
      split; [done|]. intros k' [-> Hk']. simpl in Hk'. apply (contents_is_Some _ _ _ _ _ Hc) in Hk'.
      destruct Hk'. congruence.
  Qed.

  Lemma m2m_step_ok clk n op s : m2m_inv s →
    ∃ log s' n', m2m_step get_row get_col clk n op s = Some (log, s', n') ∧ m2m_inv s' ∧
      chain key_of pw0 m2m_valid (x_abs s) log (x_abs s').
  Proof.
    intros I. destruct op as [o|k]; simpl.
    - destruct (m2m_add_ok clk n o s I) as (?&?&?&?&?&?&_). eauto 10.
    - destruct (m2m_erase_ok clk n k s I) as (?&?&?&?&?&?&_). eauto 10.
  Qed.

  Definition m2m_obs (s : m2m R C T) :=
    (x_elements s, m2m_rows s, m2m_cols s, x_lm s).
  Lemma m2m_obs_ok s s' : m2m_inv s → m2m_inv s' → x_abs s = x_abs s' → m2m_obs s = m2m_obs s'.
  Proof.
    intros (Hc & Hf & Ht) (Hc' & Hf' & Ht') E. injection E as E1 E2.
    unfold m2m_obs, x_elements, m2m_rows, m2m_cols.
    rewrite (elements_eq _ _ _ _ Hc), (elements_eq _ _ _ _ Hc'), E1, E2.
    by rewrite (nest_view_eq pair _ _ _ _ _ _ _ _ _ _ Hc Hf Hc' Hf' E1),
      (nest_view_eq (λ c r, (r, c)) _ _ _ _ _ _ _ _ _ _ Hc Ht Hc' Ht' E1).
  Qed.
End MatrixProofs.

(* ------------------------------------------------------------------ *)
(** * From journals to tables *)

Section Tables.
  Context {K T P : Type} `{Countable K}.
  Context (gk : T -> K) (pw : P -> T -> T).

  Lemma chain_fold valid a log a' :
    chain gk pw valid a log a' → a' = fold_left (λ x e, aapply gk pw e x) log.*1 a.
  Proof.
    revert a; induction log as [|[e u] l IH]; simpl; intros a.
    - done.
    - intros (_ & _ & Hc). by apply IH.
  Qed.

  Lemma chain_last_touch valid a log a' k :
    chain gk pw valid a log a' →
    a'.2 !! k = match last_touch gk k log.*1 with Some t => Some t | None => a.2 !! k end.
  Proof.
    revert a; induction log as [|[e u] l IH]; simpl; intros a.
    - by intros ->.
    - intros (_ & Hp & Hc). rewrite (IH _ Hc). clear IH Hc.
      change (list_fmap _ _ fst l) with (l.*1). destruct (last_touch gk k l.*1); [done|].
      destruct e as [us o|us k'|us k' p]; simpl.
      + case_decide as E; [by rewrite <- E, lookup_insert|by rewrite lookup_insert_ne].
      + case_decide as E; [by rewrite <- E, lookup_insert|by rewrite lookup_insert_ne].
      + destruct Hp as (o & ts & Eo & _ & _). rewrite Eo. simpl.
        case_decide as E; [by rewrite <- E, lookup_insert|by rewrite lookup_insert_ne].
  Qed.

  Lemma fold_dels (f : nat → Z) (dels : list K) (a : gmap K T * gmap K Z) k :
    (fold_left (λ x e, aapply gk pw e x) (imap (λ j k, Deleted (f j) k) dels) a).1 !! k =
    if decide (k ∈ dels) then None else a.1 !! k.
  Proof.
    revert f a; induction dels as [|d l IH]; intros f a.
    - rewrite decide_False; [done|apply not_elem_of_nil].
    - cbn [imap fold_left]. change (imap ((λ j k0, Deleted (f j) k0) ∘ S) l) with (imap (λ j k0, @Deleted K T P (f (S j)) k0) l).
      rewrite (IH (λ j, f (S j))). simpl.
      destruct (decide (k = d)) as [->|Hne].
      + rewrite lookup_delete. rewrite (decide_True (P := d ∈ d :: l)) by apply elem_of_list_here.
        by destruct (decide (d ∈ l)).
      + rewrite lookup_delete_ne by done.
        destruct (decide (k ∈ l)) as [Hin|Hnin].
        * rewrite decide_True; [done|by apply elem_of_list_further].
        * rewrite decide_False; [done|]. rewrite elem_of_cons. naive_solver.
  Qed.

  Lemma add_log_table valid conflicts clk n o log a a' n' k :
    chain gk pw valid a log a' → add_log conflicts clk n o log.*1 n' →
    (k = gk o → a'.1 !! k = Some o) ∧
    (k ≠ gk o → conflicts k → a'.1 !! k = None) ∧
    (k ≠ gk o → ¬ conflicts k → a'.1 !! k = a.1 !! k).
  Proof.
    intros Hc (dels & Hnd & Hd & Hl & Hn). apply chain_fold in Hc. subst a'.
    rewrite Hl, fold_left_app. simpl. split_and!.
    - intros ->. by rewrite lookup_insert.
    - intros Hne Hcf. rewrite lookup_insert_ne by done. rewrite (fold_dels (λ j, clk (n + j))).
      by rewrite decide_True by (by apply Hd).
    - intros Hne Hcf. rewrite lookup_insert_ne by done. rewrite (fold_dels (λ j, clk (n + j))).
      rewrite decide_False; [done|]. by rewrite Hd.
  Qed.

  Lemma erase_log_table valid which clk n log a a' n' k :
    chain gk pw valid a log a' → erase_log which clk n log.*1 n' →
    (which k → a'.1 !! k = None) ∧ (¬ which k → a'.1 !! k = a.1 !! k).
  Proof.
    intros Hc (_ & Hor). apply chain_fold in Hc. subst a'.
    destruct Hor as [[-> Hno]|(k0 & -> & Hk)]; simpl.
    - split; [intros Hw; by apply Hno in Hw|done].
    - split.
      + intros ->%Hk. by rewrite lookup_delete.
      + intros Hw. rewrite lookup_delete_ne; [done|]. intros <-. apply Hw. by apply Hk.
  Qed.
End Tables.

Lemma run_ops_ok {OP S K T P} `{Countable K} (gk : T → K) (pw : P → T → T) valid
  (step : nat → OP → S → option (logged K T P * S * nat)) (I : S → Prop) (abs : S → atab K T)
  (after : gmap K T → OP → gmap K T) :
  (∀ n op s, I s → ∃ log s' n', step n op s = Some (log, s', n') ∧ I s' ∧
     chain gk pw valid (abs s) log (abs s') ∧ (abs s').1 = after (abs s).1 op) →
  ∀ ops n s, I s → ∃ log s' n', run_ops step n ops s = Some (log, s', n') ∧ I s' ∧
     chain gk pw valid (abs s) log (abs s') ∧ (abs s').1 = fold_left after ops (abs s).1.
Proof.
  intros Hstep ops. induction ops as [|op ops IH]; intros n s Is; simpl.
  - eexists _, _, _. split; [done|]. split; [done|]. split; done.
  - destruct (Hstep n op s Is) as (l1 & s1 & n1 & -> & I1 & C1 & A1).
    destruct (IH n1 s1 I1) as (l2 & s2 & n2 & -> & I2 & C2 & A2).
    eexists _, _, _. split; [done|]. split; [done|]. split.
    + eapply chain_app; eauto.
    + by rewrite A2, A1.
Qed.

Section Steps.
  Context {K T P : Type} `{Countable K}.
  Context (gk : T -> K) (pw : P -> T -> T).

  Lemma dict_step_full clk n op s : patch_keeps_key gk pw → dict_inv gk s →
    ∃ log s' n', dict_step gk pw clk n op s = Some (log, s', n') ∧ dict_inv gk s' ∧
      chain gk pw dict_valid (dict_abs s) log (dict_abs s') ∧
      (dict_abs s').1 = dictionary_after gk pw (dict_abs s).1 op.
  Proof.
    intros Hp Is. destruct (dict_step_ok gk pw clk n op s Hp Is) as (l & s' & n' & E & I' & Hc).
    exists l, s', n'. split_and!; [done|done|done|].
    destruct op as [o|k|k p]; simpl in *.
    - unfold dict_add in E.
      destruct (d_map s !! gk o), (d_lm s !! gk o); by simplify_eq.
    - unfold dict_erase in E. destruct (d_map s !! k) as [o|] eqn:Ek.
      + destruct (d_lm s !! k); by simplify_eq.
      + simplify_eq. by rewrite delete_notin.
    - unfold dict_patch in E. destruct (d_map s !! k) as [o|] eqn:Ek.
      + destruct (d_lm s !! k); simplify_eq. simpl. apply map_eq. intros k'.
        destruct (decide (k = k')) as [<-|Hne].
        * by rewrite lookup_insert, lookup_alter, Ek.
        * by rewrite lookup_insert_ne, lookup_alter_ne.
      + simplify_eq. symmetry. apply map_eq. intros k'. destruct (decide (k = k')) as [<-|Hne].
        * by rewrite lookup_alter, Ek.
        * by rewrite lookup_alter_ne.
  Qed.
End Steps.

Section MatrixSteps.
  Context {R C T : Type} `{Countable R} `{Countable C}.
  Context (get_row : T -> R) (get_col : T -> C).
  Notation key := (R * C)%type.
  Notation key_of := (λ o : T, (get_row o, get_col o)).
  Notation pw0 := (λ (p : Empty_set) (o : T), o).

  (** an entry with another key that shares a coordinate is a conflict *)
  Lemma o2o_step_full clk n op s : o2o_inv get_row get_col s →
    ∃ log s' n', o2o_step get_row get_col clk n op s = Some (log, s', n') ∧ o2o_inv get_row get_col s' ∧
      chain key_of pw0 (o2o_valid get_row get_col) (x_abs s) log (x_abs s') ∧
      (x_abs s').1 = one_to_one_after get_row get_col (x_abs s).1 op.
  Proof.
    intros Is. destruct op as [o|k|r|c]; cbn [o2o_step one_to_one_after].
    - destruct (o2o_add_ok get_row get_col clk n o s Is) as (l & s' & n' & E & I' & Hc & Hl).
      exists l, s', n'. split_and!; [done|done|done|].
      apply map_eq. intros k.
      destruct (add_log_table _ _ _ _ _ _ _ _ _ _ _ k Hc Hl) as (H1 & H2 & H3).
      destruct (decide (k = (get_row o, get_col o))) as [->|Hne].
      + rewrite (H1 eq_refl). by rewrite lookup_insert.
      + rewrite lookup_insert_ne by done.
        destruct ((x_abs s).1 !! k) as [x|] eqn:Ex.
        * destruct (decide (k.1 = get_row o ∨ k.2 = get_col o)) as [Hor|Hor].
          -- rewrite H2; [|done|by split_and!; eauto]. symmetry. apply map_filter_lookup_None. right.
             intros x' _. simpl. naive_solver.
          -- rewrite H3; [|done|]; [|intros (_ & _ & ?); done]. try rewrite Ex; symmetry.
             apply map_filter_lookup_Some. split; [done|]. simpl. naive_solver.
        * rewrite H3; [|done|]; [|intros ([? ?] & _); congruence]. try rewrite Ex; symmetry.
          apply map_filter_lookup_None. by left.
    - destruct (o2o_erase_ok get_row get_col clk n k s Is) as (l & s' & n' & E & I' & Hc & Hl).
      exists l, s', n'. split_and!; [done|done|done|].
      apply map_eq. intros k'. destruct (erase_log_table _ _ _ _ _ _ _ _ _ _ k' Hc Hl) as (H1 & H2).
      destruct (decide (k' = k)) as [->|Hne].
      + rewrite lookup_delete. destruct ((x_abs s).1 !! k) eqn:Ek; [apply H1; split; eauto|].
        rewrite H2; [done|]. intros [_ [? ?]]. congruence.
      + rewrite lookup_delete_ne by done. apply H2. naive_solver.
    - destruct (o2o_erase_row_ok get_row get_col clk n r s Is) as (l & s' & n' & E & I' & Hc & Hl).
      exists l, s', n'. split_and!; [done|done|done|].
      apply map_eq. intros k'. destruct (erase_log_table _ _ _ _ _ _ _ _ _ _ k' Hc Hl) as (H1 & H2).
      destruct ((x_abs s).1 !! k') as [x|] eqn:Ex.
      + destruct (decide (k'.1 = r)) as [Er|Er].
        * rewrite H1 by (split; [done|eauto]). symmetry. apply map_filter_lookup_None. right.
          intros ? _. simpl. naive_solver.
        * rewrite H2 by naive_solver. try rewrite Ex; symmetry. by apply map_filter_lookup_Some.
      + rewrite H2; [|intros [_ [? ?]]; congruence]. try rewrite Ex; symmetry. apply map_filter_lookup_None. by left.
    - destruct (o2o_erase_col_ok get_row get_col clk n c s Is) as (l & s' & n' & E & I' & Hc & Hl).
      exists l, s', n'. split_and!; [done|done|done|].
      apply map_eq. intros k'. destruct (erase_log_table _ _ _ _ _ _ _ _ _ _ k' Hc Hl) as (H1 & H2).
      destruct ((x_abs s).1 !! k') as [x|] eqn:Ex.
      + destruct (decide (k'.2 = c)) as [Er|Er].
        * rewrite H1 by (split; [done|eauto]). symmetry. apply map_filter_lookup_None. right.
          intros ? _. simpl. naive_solver.
        * rewrite H2 by naive_solver. try rewrite Ex; symmetry. by apply map_filter_lookup_Some.
      + rewrite H2; [|intros [_ [? ?]]; congruence]. try rewrite Ex; symmetry. apply map_filter_lookup_None. by left.
  Qed.

  Lemma o2m_step_full clk n op s : o2m_inv get_row get_col s →
    ∃ log s' n', o2m_step get_row get_col clk n op s = Some (log, s', n') ∧ o2m_inv get_row get_col s' ∧
      chain key_of pw0 (o2m_valid get_row get_col) (x_abs s) log (x_abs s') ∧
      (x_abs s').1 = one_to_many_after get_row get_col (x_abs s).1 op.
  Proof.
    intros Is. destruct op as [o|k|c]; cbn [o2m_step one_to_many_after].
    - destruct (o2m_add_ok get_row get_col clk n o s Is) as (l & s' & n' & E & I' & Hc & Hl).
      exists l, s', n'. split_and!; [done|done|done|].
      apply map_eq. intros k.
      destruct (add_log_table _ _ _ _ _ _ _ _ _ _ _ k Hc Hl) as (H1 & H2 & H3).
      destruct (decide (k = (get_row o, get_col o))) as [->|Hne].
      + rewrite (H1 eq_refl). by rewrite lookup_insert.
      + rewrite lookup_insert_ne by done.
        destruct ((x_abs s).1 !! k) as [x|] eqn:Ex.
        * destruct (decide (k.2 = get_col o)) as [Hor|Hor].
          -- rewrite H2; [|done|by split_and!; eauto]. symmetry. apply map_filter_lookup_None. right.
             intros x' _. simpl. naive_solver.
          -- rewrite H3; [|done|]; [|intros (_ & _ & ?); done]. try rewrite Ex; symmetry.
             apply map_filter_lookup_Some. split; [done|]. simpl. naive_solver.
        * rewrite H3; [|done|]; [|intros ([? ?] & _); congruence]. try rewrite Ex; symmetry.
          apply map_filter_lookup_None. by left.
    - destruct (o2m_erase_ok get_row get_col clk n k s Is) as (l & s' & n' & E & I' & Hc & Hl).
      exists l, s', n'. split_and!; [done|done|done|].
      apply map_eq. intros k'. destruct (erase_log_table _ _ _ _ _ _ _ _ _ _ k' Hc Hl) as (H1 & H2).
      destruct (decide (k' = k)) as [->|Hne].
      + rewrite lookup_delete. destruct ((x_abs s).1 !! k) eqn:Ek; [apply H1; split; eauto|].
        rewrite H2; [done|]. intros [_ [? ?]]. congruence.
      + rewrite lookup_delete_ne by done. apply H2. naive_solver.
    - destruct (o2m_erase_col_ok get_row get_col clk n c s Is) as (l & s' & n' & E & I' & Hc & Hl).
      exists l, s', n'. split_and!; [done|done|done|].
      apply map_eq. intros k'. destruct (erase_log_table _ _ _ _ _ _ _ _ _ _ k' Hc Hl) as (H1 & H2).
      destruct ((x_abs s).1 !! k') as [x|] eqn:Ex.
      + destruct (decide (k'.2 = c)) as [Er|Er].
        * rewrite H1 by (split; [done|eauto]). symmetry. apply map_filter_lookup_None. right.
          intros ? _. simpl. naive_solver.
        * rewrite H2 by naive_solver. try rewrite Ex; symmetry. by apply map_filter_lookup_Some.
      + rewrite H2; [|intros [_ [? ?]]; congruence]. try rewrite Ex; symmetry. apply map_filter_lookup_None. by left.
  Qed.

  Lemma m2m_step_full clk n op s : m2m_inv get_row get_col s →
    ∃ log s' n', m2m_step get_row get_col clk n op s = Some (log, s', n') ∧ m2m_inv get_row get_col s' ∧
      chain key_of pw0 m2m_valid (x_abs s) log (x_abs s') ∧
      (x_abs s').1 = many_to_many_after get_row get_col (x_abs s).1 op.
  Proof.
    intros Is. destruct op as [o|k]; cbn [m2m_step many_to_many_after].
    - destruct (m2m_add_ok get_row get_col clk n o s Is) as (l & s' & n' & E & I' & Hc & Hl).
      exists l, s', n'. split_and!; [done|done|done|].
      apply map_eq. intros k.
      destruct (add_log_table _ _ _ _ _ _ _ _ _ _ _ k Hc Hl) as (H1 & H2 & H3).
      destruct (decide (k = (get_row o, get_col o))) as [->|Hne].
      + rewrite (H1 eq_refl). by rewrite lookup_insert.
      + rewrite lookup_insert_ne by done. by apply H3; [|intros []].
    - destruct (m2m_erase_ok get_row get_col clk n k s Is) as (l & s' & n' & E & I' & Hc & Hl).
      exists l, s', n'. split_and!; [done|done|done|].
      apply map_eq. intros k'. destruct (erase_log_table _ _ _ _ _ _ _ _ _ _ k' Hc Hl) as (H1 & H2).
      destruct (decide (k' = k)) as [->|Hne].
      + rewrite lookup_delete. destruct ((x_abs s).1 !! k) eqn:Ek; [apply H1; split; eauto|].
        rewrite H2; [done|]. intros [_ [? ?]]. congruence.
      + rewrite lookup_delete_ne by done. apply H2. naive_solver.
  Qed.

  (** ** Reads *)
  Lemma x_get_ok {FW TR} (s : matrix R C T FW TR) k :
    core get_row get_col (x_map s) (x_heap s) (x_next s) (x_lm s) →
    x_get s k = Val ((x_abs s).1 !! k).
  Proof.
    intros Hc. unfold x_get, x_abs, contents. simpl. rewrite lookup_omap.
    destruct (x_map s !! k) as [i|] eqn:Ei; [|done]. simpl.
    destruct (core_map _ _ _ _ _ _ Hc _ _ Ei) as (o & Ho & _). by rewrite Ho.
  Qed.

  Lemma x_has_ok {FW TR} (s : matrix R C T FW TR) k :
    core get_row get_col (x_map s) (x_heap s) (x_next s) (x_lm s) →
    x_has s k = true ↔ is_Some ((x_abs s).1 !! k).
  Proof.
    intros Hc. unfold x_has, x_abs. simpl. rewrite (contents_is_Some _ _ _ _ _ _ _ Hc).
    destruct (x_map s !! k); split; try done; first [by eauto | by intros [? ?]].
  Qed.

  Lemma x_size_ok {FW TR} (s : matrix R C T FW TR) :
    core get_row get_col (x_map s) (x_heap s) (x_next s) (x_lm s) →
    x_size s = size (x_abs s).1.
  Proof.
    intros Hc. unfold x_size, x_abs. simpl.
    rewrite <- (map_size_fmap (λ i, x_heap s !! i) (x_map s)).
    rewrite (elements_eq _ _ _ _ _ _ Hc). by rewrite map_size_fmap.
  Qed.

  Lemma x_elements_ok {FW TR} (s : matrix R C T FW TR) :
    core get_row get_col (x_map s) (x_heap s) (x_next s) (x_lm s) →
    x_elements s = Some <$> (x_abs s).1.
  Proof. apply elements_eq. Qed.

  Lemma flat_read_ok {A} `{Countable A} (proj : key → A) (f : gmap A nat) m h nx l a :
    core get_row get_col m h nx l → flat_ok proj f m →
    (read_ptr h (f !! a) = Val None ∧ (∀ k, proj k = a → contents m h !! k = None)) ∨
    (∃ k o, proj k = a ∧ contents m h !! k = Some o ∧ read_ptr h (f !! a) = Val (Some o) ∧
       ∀ k', proj k' = a → is_Some (contents m h !! k') → k' = k).
  Proof.
    intros Hc Hf. destruct (f !! a) as [i|] eqn:Ei.
    - right. pose proof Ei as Ei'. apply Hf in Ei as (k & Hk & <-).
      destruct (core_map _ _ _ _ _ _ Hc _ _ Hk) as (o & Ho & Hko).
      exists k, o. split_and!; [done|apply contents_Some; eauto|simpl; by rewrite Ho|].
      intros k' E Hk'. apply (contents_is_Some _ _ _ _ _ _ _ Hc) in Hk'.
      eapply (flat_ok_alone _ _ proj _ _ _ _ _ k Hc Hf); eauto.
    - left. split; [done|]. intros k <-. unfold contents. rewrite lookup_omap.
      destruct (m !! k) as [i|] eqn:Em; [|done].
      assert (f !! proj k = Some i) by (apply Hf; eauto). congruence.
  Qed.

  Lemma nest_lists {A B} `{Countable A} `{Countable B} (mk : A → B → key) f m h nx l :
    core get_row get_col m h nx l → nest_ok mk f m → lists_by2 mk (contents m h) (nest_view h f).
  Proof.
    intros Hc Hf. split.
    - intros a b x. split.
      + intros (inner & Hi & Hb). apply (nest_view_Some _ _ _ _ _ _ _ _ _ _ Hc Hf) in Hi as [_ Hall].
        rewrite Hall in Hb. destruct (contents m h !! mk a b) eqn:E; simplify_eq/=. eauto.
      + intros (o & Ho & ->).
        destruct (nest_view h f !! a) as [inner|] eqn:Ei.
        * exists inner. split; [done|].
          apply (nest_view_Some _ _ _ _ _ _ _ _ _ _ Hc Hf) in Ei as [_ Hall]. by rewrite Hall, Ho.
        * exfalso. unfold nest_view in Ei. rewrite lookup_fmap in Ei.
          destruct (f !! a) as [g|] eqn:Eg; [done|]. destruct Hf as [Hf _].
          specialize (Hf a b). rewrite Eg in Hf. simpl in Hf.
          apply (contents_Some get_row get_col) in Ho as (i & Hi & _). rewrite Hi in Hf. done.
    - intros a E. by apply (nest_view_Some _ _ _ _ _ _ _ _ _ _ Hc Hf) in E as [? _].
  Qed.

  Lemma nest_row_read {A B} `{Countable A} `{Countable B} (mk : A → B → key) f m h nx l a b :
    core get_row get_col m h nx l → nest_ok mk f m →
    flat_view h (default ∅ (f !! a)) !! b = Some <$> contents m h !! mk a b.
  Proof.
    intros Hc [Hf _]. specialize (Hf a b). unfold flat_view, contents.
    rewrite lookup_fmap, lookup_omap, <- Hf.
    destruct (f !! a) as [g|]; simpl; [|by rewrite lookup_empty].
    destruct (g !! b) as [i|] eqn:Ei; [|done]. simpl in *.
    destruct (core_map _ _ _ _ _ _ Hc (mk a b) i) as (o & Ho & _); [by rewrite <- Hf, <- Ei || by rewrite <- Hf|]. by rewrite Ho.
  Qed.
End MatrixSteps.
