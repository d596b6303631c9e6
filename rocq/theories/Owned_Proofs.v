(** Invariants of the model of [Owned] and [Borrowed]. *)
From stdpp Require Import list sorting.
From Verif Require Import Owned_Model Owned_Spec.

Section Proofs.
  Context {C : Type}.
  Implicit Types s : state C.
  Implicit Types l : list (nat * C).
  Notation keys l := (map fst l).

  Lemma upd_eq {A} (f : nat → A) i x : upd f i x i = x.
  Proof. unfold upd. by rewrite decide_True. Qed.
  Lemma upd_ne {A} (f : nat → A) i j x : j ≠ i → upd f i x j = f j.
  Proof. unfold upd. intros. by rewrite decide_False. Qed.

  (** ** The registry *)
  Lemma put_keys k c l j : j ∈ keys (put k c l) ↔ j = k ∨ j ∈ keys l.
  Proof.
    induction l as [|[k' c'] l IH]; simpl; [rewrite elem_of_cons; naive_solver|].
    destruct (decide (k < k')); [simpl; rewrite !elem_of_cons; naive_solver|]. destruct (decide (k = k')) as [->|]; simpl; rewrite !elem_of_cons; [naive_solver|].
    rewrite IH. naive_solver.
  Qed.
  Lemma put_sorted k c l : StronglySorted lt (keys l) → StronglySorted lt (keys (put k c l)).
  Proof.
    induction l as [|[k' c'] l IH]; simpl; intros H; [repeat constructor|]. apply StronglySorted_inv in H as [H1 H2].
    destruct (decide (k < k')); [|destruct (decide (k = k')) as [->|]]; simpl.
    - constructor; [by constructor|]. constructor; [done|]. eapply Forall_impl; [done|]. simpl. intros. lia.
    - by constructor.
    - constructor; [by apply IH|]. apply Forall_forall. intros j Hj. apply put_keys in Hj as [->|Hj]; [lia|]. by eapply Forall_forall in H2.
  Qed.
  Lemma del_keys k l j : j ∈ keys (del k l) ↔ j ≠ k ∧ j ∈ keys l.
  Proof.
    unfold del. rewrite !elem_of_list_fmap. split.
    - intros ([a b] & -> & H). apply elem_of_list_filter in H as [H1 H2]. split; [done|]. by exists (a, b).
    - intros (H & [a b] & -> & H2). exists (a, b). split; [done|]. by apply elem_of_list_filter.
  Qed.
  Lemma del_sorted k l : StronglySorted lt (keys l) → StronglySorted lt (keys (del k l)).
  Proof.
    induction l as [|[k' c'] l IH]; simpl; intros H; [constructor|]. apply StronglySorted_inv in H as [H1 H2]. unfold del in *. rewrite filter_cons. case_decide; simpl; [|by apply IH].
    constructor; [by apply IH|]. apply Forall_forall. intros j Hj. apply (del_keys k l j) in Hj as [_ Hj]. by eapply Forall_forall in H2.
  Qed.
  Lemma sorted_nodup (a : list nat) : StronglySorted lt a → NoDup a.
  Proof. induction 1 as [|x a H IH F]; constructor; [|done]. intros E. eapply Forall_forall in F; [|exact E]. lia. Qed.

  (** ** The invariant *)
  Record inv s : Prop := Inv {
    i_owner : ∀ h i, container (handles s h) = Some i → i < next s ∧ dtor (insts s i) = Alive ∧
                (p_actual_instance (handles s h) = None ∨ p_actual_instance (handles s h) = Some i) ∧ key (handles s h) = 0 ∧ releasing (handles s h) = None;
    i_owner_unique : ∀ h g i, container (handles s h) = Some i → container (handles s g) = Some i → h = g;
    i_refers : ∀ h i, refers s h i → i < next s ∧ releasing (handles s h) = None;
    i_registered : ∀ h i, borrower s h i → key (handles s h) ∈ keys (borrowers (insts s i));
    i_distinct : ∀ h g i, borrower s h i → borrower s g i → key (handles s h) = key (handles s g) → key (handles s h) ≠ 0 → h = g;
    i_sorted : ∀ i, StronglySorted lt (keys (borrowers (insts s i)));
    i_total : ∀ i k, k ∈ keys (borrowers (insts s i)) → k ≤ total (insts s i);
    i_releasing : ∀ h i b, releasing (handles s h) = Some (i, b) → i < next s ∧ container (handles s h) = None ∧ p_actual_instance (handles s h) = None;
    i_gone : ∀ i, dtor (insts s i) = Destroyed → borrowers (insts s i) = [];
    i_flag : ∀ i, destructing (insts s i) = true ↔ dtor (insts s i) ≠ Alive;
    i_sleep : ∀ i, dtor (insts s i) = Sleeping → borrowers (insts s i) ≠ [] ∨ ∃ h, releasing (handles s h) = Some (i, true) }.

  Lemma inv_initial : inv initial.
  Proof. constructor; simpl; try done; try (intros h i []; done); try (intros h g i []; done); try (constructor; done); try (by intros i k ?%elem_of_nil). Qed.

  Lemma keys_nil l : (∀ k, k ∉ keys l) → l = [].
  Proof. destruct l as [|[k c] l]; [done|]. intros H. destruct (H k). by left. Qed.
  Lemma is_null_spec x : is_null x = true → container x = None ∧ p_actual_instance x = None ∧ releasing x = None.
  Proof. by intros ?%bool_decide_eq_true. Qed.

  (** Nothing refers to a destroyed instance. *)
  Lemma refers_not_destroyed s h i : inv s → refers s h i → dtor (insts s i) ≠ Destroyed.
  Proof.
    intros I H E. destruct (container (handles s h)) as [j|] eqn:Ec.
    - destruct (i_owner s I h j Ec) as (_ & Ha & [Hp|Hp] & _); rewrite H in Hp; [done|]. injection Hp as ->. by rewrite Ha in E.
    - pose proof (i_registered s I h i (conj H Ec)) as R. rewrite (i_gone s I i E) in R. by apply elem_of_nil in R.
  Qed.

  (** The effect of a step on one instance's registry, when the handles change at [h] and perhaps [g] only. *)
  Lemma inv_move_from s h g i cb : inv s → refers s g i → releasing (handles s h) = None → (container (handles s h) = None) →
    inv (move_from s h g i cb).
  Proof.
    intros I Hg Hr Hc. unfold move_from. set (k := key (handles s g)). set (x := insts s i).
    set (h1 := upd (handles s) h _). set (hs := upd h1 g _).
    assert (∀ j, container (hs j) = container (handles s j)) as Hcont.
    { intros j. unfold hs, h1. unfold upd. repeat case_decide; subst; simpl; done. }
    assert (∀ j, releasing (hs j) = releasing (handles s j)) as Hrel.
    { intros j. unfold hs, h1. unfold upd. repeat case_decide; subst; simpl; try done. }
    assert (∀ j, j ≠ h → j ≠ g → hs j = handles s j) as Hother. { intros j H1 H2. unfold hs, h1. by rewrite !upd_ne. }
    assert (p_actual_instance (hs g) = None ∧ key (hs g) = 0) as [Hg1 Hg2]. { unfold hs. by rewrite upd_eq. }
    assert (h ≠ g → p_actual_instance (hs h) = Some i ∧ key (hs h) = k) as Hh. { intros Hn. unfold hs. rewrite upd_ne by done. unfold h1. by rewrite upd_eq. }
    set (xs := upd (insts s) i _).
    assert (∀ j, dtor (xs j) = dtor (insts s j) ∧ destructing (xs j) = destructing (insts s j) ∧ total (xs j) = total (insts s j)) as Hx.
    { intros j. unfold xs, upd. case_decide; subst; done. }
    assert (∀ j q, q ∈ keys (borrowers (xs j)) ↔ (j = i ∧ q = k) ∨ q ∈ keys (borrowers (insts s j))) as Hb.
    { intros j q. unfold xs, upd. case_decide; subst; simpl; [rewrite put_keys; naive_solver|naive_solver]. }
    assert (k ≤ total x) as Hkt.
    { unfold k, x. destruct (container (handles s g)) as [j|] eqn:Ec; [destruct (i_owner s I g j Ec) as (_ & _ & _ & -> & _); lia|]. eapply i_total; [done|]. by apply i_registered. }
    assert (dtor x ≠ Destroyed) as Hnd by (by eapply refers_not_destroyed).
    (* where a borrower in the new state comes from *)
    assert (∀ j n, p_actual_instance (hs j) = Some n → (j = h ∧ n = i ∧ h ≠ g) ∨ (j ≠ h ∧ j ≠ g ∧ p_actual_instance (handles s j) = Some n)) as Hcase.
    { intros j n. destruct (decide (j = g)) as [->|Hn]; [by rewrite Hg1|]. destruct (decide (j = h)) as [->|Hn'].
      - intros E. left. destruct (Hh Hn) as [E' _]. rewrite E in E'. injection E' as ->. done.
      - rewrite Hother by done. intros E. by right. }
    constructor; cbn [handles insts next].
    - intros j n. rewrite Hcont. intros E. destruct (i_owner s I j n E) as (A1 & A2 & A3 & A4 & A5). rewrite (proj1 (Hx n)), Hrel. split_and!; try done.
      + destruct (decide (j = g)) as [->|Hn]; [by left|]. assert (j ≠ h) by (intros ->; congruence). by rewrite Hother.
      + destruct (decide (j = g)) as [->|Hn]; [done|]. assert (j ≠ h) by (intros ->; congruence). by rewrite Hother.
    - intros j j' n. rewrite !Hcont. by apply i_owner_unique.
    - intros j n E. unfold refers in E. cbn in E. rewrite Hrel. apply Hcase in E as [(-> & -> & _)|(_ & _ & E)]; [|by apply (i_refers s I)].
      split; [|done]. by apply (i_refers s I g i).
    - intros j n [E1 E2]. unfold refers in E1. cbn in E1, E2. rewrite Hcont in E2. apply Hb. destruct (Hcase _ _ E1) as [(-> & -> & Hn)|(N1 & N2 & E)].
      + left. split; [done|]. by destruct (Hh Hn).
      + right. rewrite Hother by done. apply (i_registered s I). done.
    - intros j j' n [E1 E2] [E1' E2']. unfold refers in E1, E1'. cbn in E1, E1', E2, E2'. rewrite Hcont in E2, E2'.
      destruct (Hcase _ _ E1) as [(-> & -> & Hn)|(N1 & N2 & E)]; destruct (Hcase _ _ E1') as [(-> & Hi & Hn')|(N1' & N2' & E')]; try done.
      + destruct (Hh Hn) as [_ ->]. rewrite (Hother j') by done. intros Hk Hk0. destruct (container (handles s g)) as [m|] eqn:Em.
        { exfalso. apply Hk0. unfold k. by destruct (i_owner s I g m Em) as (_ & _ & _ & ? & _). }
        exfalso. apply N2'. symmetry. by apply (i_distinct s I g j' i).
      + subst n. destruct (Hh Hn') as [_ ->]. rewrite (Hother j) by done. intros Hk Hk0. destruct (container (handles s g)) as [m|] eqn:Em.
        { exfalso. apply Hk0. rewrite Hk. unfold k. by destruct (i_owner s I g m Em) as (_ & _ & _ & ? & _). }
        exfalso. apply N2. by apply (i_distinct s I j g i).
      + rewrite !Hother by done. by apply (i_distinct s I j j' n).
    - intros n. unfold xs, upd. case_decide; [subst; cbn; apply put_sorted|]; apply (i_sorted s I).
    - intros n q. rewrite Hb. destruct (Hx n) as (_ & _ & ->). intros [[-> ->]|H]; [done|]. by apply (i_total s I).
    - intros j n b. rewrite Hrel, Hcont. intros E. destruct (i_releasing s I j n b E) as (A1 & A2 & A3). split_and!; try done.
      destruct (decide (j = g)) as [->|Hn]; [done|]. rewrite Hother; [done| |done]. intros ->. congruence.
    - intros n. destruct (Hx n) as (-> & _). intros E. unfold xs, upd. case_decide; [subst; done|]. by apply (i_gone s I).
    - intros n. destruct (Hx n) as (-> & -> & _). apply (i_flag s I).
    - intros n. destruct (Hx n) as (-> & _). intros E. destruct (i_sleep s I n E) as [H|[j Hj]].
      + left. unfold xs, upd. case_decide; [|done]. subst. cbn. intros E'. assert (k ∈ keys (put k cb (borrowers x))) as H' by (apply put_keys; by left). rewrite E' in H'. by apply elem_of_nil in H'.
      + right. exists j. by rewrite Hrel.
  Qed.

  Lemma inv_step s a s' : inv s → exec s a = Some s' → inv s'.
  Proof.
    intros I H. destruct a as [h|h g|h g cb|h g cb|h g cb|h|h|h|i|i]; cbn [exec] in H.
    - (* MakeOwned *)
      destruct (is_null (handles s h)) eqn:En; [|done]. injection H as <-. apply is_null_spec in En as (N1 & N2 & N3).
      set (o := next s). assert (∀ j n, j ≠ h → refers s j n → n ≠ o) as F. { intros j n _ E ->. apply (i_refers s I) in E. unfold o in E. lia. }
      constructor; cbn [handles insts next].
      + intros j n. destruct (decide (j = h)) as [->|Hn].
        * rewrite upd_eq. cbn. intros [= <-]. rewrite upd_eq. split_and!; try done; [unfold o; lia|by right].
        * rewrite upd_ne by done. intros E. destruct (i_owner s I j n E) as (A1 & A2 & A3 & A4 & A5). rewrite upd_ne by (unfold o; lia). split_and!; try done. lia.
      + intros j j' n. destruct (decide (j = h)) as [->|Hn], (decide (j' = h)) as [->|Hn']; rewrite ?upd_eq, ?upd_ne by done; cbn; try done.
        * intros [= <-] E. destruct (i_owner s I j' _ E) as (A1 & _). unfold o in A1. lia.
        * intros E [= <-]. destruct (i_owner s I j _ E) as (A1 & _). unfold o in A1. lia.
        * by apply i_owner_unique.
      + intros j n. unfold refers. cbn. destruct (decide (j = h)) as [->|Hn]; [rewrite upd_eq; cbn; intros [= <-]; unfold o; split; [lia|done]|].
        rewrite upd_ne by done. intros E. destruct (i_refers s I j n E). split; [lia|done].
      + intros j n. unfold borrower, refers. cbn. destruct (decide (j = h)) as [->|Hn]; [rewrite upd_eq; cbn; intros [_ ?]; done|].
        rewrite upd_ne by done. intros E. rewrite upd_ne by (eapply F; [done|apply E]). by apply (i_registered s I).
      + intros j j' n. unfold borrower, refers. cbn. destruct (decide (j = h)) as [->|Hn]; [rewrite upd_eq; cbn; intros [_ ?]; done|].
        destruct (decide (j' = h)) as [->|Hn']; [rewrite upd_eq; cbn; intros _ [_ ?]; done|]. rewrite !upd_ne by done. by apply (i_distinct s I).
      + intros n. unfold upd. case_decide; [constructor|apply (i_sorted s I)].
      + intros n k. unfold upd. case_decide; [by intros ?%elem_of_nil|apply (i_total s I)].
      + intros j n b. destruct (decide (j = h)) as [->|Hn]; [by rewrite upd_eq|]. rewrite upd_ne by done. intros E. destruct (i_releasing s I j n b E). split; [lia|done].
      + intros n. unfold upd. case_decide; [done|apply (i_gone s I)].
      + intros n. unfold upd. case_decide; [done|apply (i_flag s I)].
      + intros n. unfold upd at 1 2. case_decide; [done|]. intros E. destruct (i_sleep s I n E) as [?|[j Hj]]; [by left|right; exists j]. destruct (decide (j = h)) as [->|Hn]; [by rewrite N3 in Hj|by rewrite upd_ne].
    - (* MoveOwned *)
      destruct (container (handles s g)) as [i|] eqn:Eg; [|done]. destruct (is_null (handles s h)) eqn:En; [|done]. injection H as <-. apply is_null_spec in En as (N1 & N2 & N3).
      assert (h ≠ g) as Hne by (intros ->; congruence). destruct (i_owner s I g i Eg) as (G1 & G2 & G3 & G4 & G5).
      set (hs := upd _ h _). assert (hs h = Handle (Some i) (Some i) 0 None) as Hh by (unfold hs; by rewrite upd_eq). assert (hs g = null) as Hg by (unfold hs; by rewrite upd_ne, upd_eq).
      assert (∀ j, j ≠ h → j ≠ g → hs j = handles s j) as Ho by (intros; unfold hs; by rewrite !upd_ne).
      assert (∀ j, j = h ∨ j = g ∨ (j ≠ h ∧ j ≠ g)) as Hj by (intros j; destruct (decide (j = h)), (decide (j = g)); auto).
      constructor; cbn [handles insts next].
      + intros j n. destruct (Hj j) as [->|[->|[J1 J2]]]; rewrite ?Hh, ?Hg, ?Ho by done; cbn; try done; [|by apply (i_owner s I)]. intros [= <-]. split_and!; try done. by right.
      + intros j j' n. destruct (Hj j) as [->|[->|[J1 J2]]], (Hj j') as [->|[->|[J1' J2']]]; rewrite ?Hh, ?Hg, ?Ho by done; cbn; try done.
        * intros [= <-] E. by destruct J2'; apply (i_owner_unique s I _ _ i).
        * intros E [= <-]. by destruct J2; apply (i_owner_unique s I _ _ i).
        * by apply i_owner_unique.
      + intros j n. unfold refers; cbn. destruct (Hj j) as [->|[->|[J1 J2]]]; rewrite ?Hh, ?Hg, ?Ho by done; cbn; try done; [by intros [= <-]|by apply (i_refers s I)].
      + intros j n. unfold borrower, refers; cbn. destruct (Hj j) as [->|[->|[J1 J2]]]; rewrite ?Hh, ?Hg, ?Ho by done; cbn; [by intros [_ ?]|by intros [? _]|by apply (i_registered s I)].
      + intros j j' n. unfold borrower, refers; cbn. destruct (Hj j) as [->|[->|[J1 J2]]]; rewrite ?Hh, ?Hg, ?(Ho j) by done; cbn; [by intros [_ ?]|by intros [? _]|].
        destruct (Hj j') as [->|[->|[J1' J2']]]; rewrite ?Hh, ?Hg, ?(Ho j') by done; cbn; [by intros _ [_ ?]|by intros _ [? _]|]. by apply (i_distinct s I).
      + apply (i_sorted s I).
      + apply (i_total s I).
      + intros j n b. destruct (Hj j) as [->|[->|[J1 J2]]]; rewrite ?Hh, ?Hg, ?Ho by done; cbn; try done. by apply (i_releasing s I).
      + apply (i_gone s I).
      + apply (i_flag s I).
      + intros n E. destruct (i_sleep s I n E) as [?|[j E']]; [by left|right; exists j]. destruct (Hj j) as [->|[->|[J1 J2]]]; [congruence|congruence|by rewrite Ho].
    - (* Borrow *)
      destruct (p_actual_instance (handles s g)) as [i|] eqn:Eg; [|done]. destruct (is_null (handles s h)) eqn:En; [|done]. cbv zeta in H. injection H as <-. apply is_null_spec in En as (N1 & N2 & N3).
      assert (refers s g i) as Rg by done. pose proof (refers_not_destroyed s g i I Rg) as Hnd. destruct (i_refers s I g i Rg) as [Gi _].
      set (x := insts s i) in *. set (k := S (total x)).
      assert (∀ n, n = i ∨ n ≠ i) as Hi by (intros n; destruct (decide (n = i)); auto).
      assert (∀ n q, q ∈ keys (borrowers (upd (insts s) i (with_borrowers x (put k cb (borrowers x)) k) n)) ↔ (n = i ∧ q = k) ∨ q ∈ keys (borrowers (insts s n))) as Hb.
      { intros n q. destruct (Hi n) as [->|Hn]; [rewrite upd_eq; cbn; rewrite put_keys; fold x; naive_solver|rewrite upd_ne by done; naive_solver]. }
      assert (k ∉ keys (borrowers x)) as Hk. { intros E. apply (i_total s I) in E. fold x in E. unfold k in E. lia. }
      constructor; cbn [handles insts next].
      + intros j n. destruct (decide (j = h)) as [->|Hn]; [by rewrite upd_eq|]. rewrite upd_ne by done. intros E. destruct (i_owner s I j n E) as (A1 & A2 & A3).
        split_and!; try apply A3; [done|]. unfold upd. case_decide; [subst; done|done].
      + intros j j' n. destruct (decide (j = h)) as [->|Hn]; [by rewrite upd_eq|]. destruct (decide (j' = h)) as [->|Hn']; [by rewrite upd_eq|]. rewrite !upd_ne by done. by apply i_owner_unique.
      + intros j n. unfold refers; cbn. destruct (decide (j = h)) as [->|Hn]; [rewrite upd_eq; cbn; by intros [= <-]|]. rewrite upd_ne by done. by apply (i_refers s I).
      + intros j n. unfold borrower, refers; cbn. rewrite Hb. destruct (decide (j = h)) as [->|Hn]; [rewrite upd_eq; cbn; intros [[= <-] _]; by left|]. rewrite upd_ne by done. right. by apply (i_registered s I).
      + intros j j' n. unfold borrower, refers; cbn. destruct (decide (j = h)) as [->|Hn], (decide (j' = h)) as [->|Hn']; rewrite ?upd_eq, ?upd_ne by done; cbn; try done.
        * intros [[= <-] _] E Ek. exfalso. apply Hk. rewrite Ek. by apply (i_registered s I).
        * intros E [[= <-] _] Ek. exfalso. apply Hk. rewrite <- Ek. by apply (i_registered s I).
        * by apply (i_distinct s I).
      + intros n. unfold upd. case_decide; [subst; cbn; apply put_sorted|]; apply (i_sorted s I).
      + intros n q. rewrite Hb. destruct (Hi n) as [->|Hn]; [rewrite upd_eq; cbn|rewrite upd_ne by done].
        * intros [[_ ->]|E]; [done|]. apply (i_total s I) in E. fold x in E. unfold k. lia.
        * intros [[? _]|E]; [done|]. by apply (i_total s I).
      + intros j n b. destruct (decide (j = h)) as [->|Hn]; [by rewrite upd_eq|]. rewrite upd_ne by done. by apply (i_releasing s I).
      + intros n. destruct (Hi n) as [->|Hn]; [rewrite upd_eq; done|rewrite upd_ne by done; apply (i_gone s I)].
      + intros n. destruct (Hi n) as [->|Hn]; [rewrite upd_eq; cbn|rewrite upd_ne by done]; apply (i_flag s I).
      + intros n. destruct (Hi n) as [->|Hn]; [rewrite upd_eq; cbn|rewrite upd_ne by done].
        * intros _. left. intros E. assert (k ∈ keys (put k cb (borrowers x))) as E' by (apply put_keys; by left). rewrite E in E'. by apply elem_of_nil in E'.
        * intros E. destruct (i_sleep s I n E) as [?|[j E']]; [by left|right; exists j]. destruct (decide (j = h)) as [->|Hn']; [congruence|by rewrite upd_ne].
    - (* MoveConstruct *)
      destruct (p_actual_instance (handles s g)) as [i|] eqn:Eg; [|done]. destruct (is_null (handles s h)) eqn:En; [|done]. injection H as <-. apply is_null_spec in En as (N1 & N2 & N3). by apply inv_move_from.
    - (* MoveAssign *)
      destruct (p_actual_instance (handles s g)) as [i|] eqn:Eg; [|done]. destruct (container (handles s h)) eqn:E1; [done|]. destruct (releasing (handles s h)) eqn:E2; [done|]. injection H as <-. by apply inv_move_from.
    - (* Release *)
      destruct (p_actual_instance (handles s h)) as [i|] eqn:Eh; [|done]. destruct (container (handles s h)) eqn:Ec; [done|].
      assert (borrower s h i) as Bh by done. destruct (i_refers s I h i Eh) as [Hi0 Hr0]. cbv zeta in H. destruct (decide (key (handles s h) = 0)) as [Hk|Hk]; injection H as <-.
      + constructor; cbn [handles insts next]; try apply (i_sorted s I); try apply (i_total s I); try apply (i_gone s I); try apply (i_flag s I).
        * intros j n. destruct (decide (j = h)) as [->|Hn]; [by rewrite upd_eq|]. rewrite upd_ne by done. by apply (i_owner s I).
        * intros j j' n. destruct (decide (j = h)) as [->|Hn]; [by rewrite upd_eq|]. destruct (decide (j' = h)) as [->|Hn']; [by rewrite upd_eq|]. rewrite !upd_ne by done. by apply i_owner_unique.
        * intros j n. unfold refers; cbn. destruct (decide (j = h)) as [->|Hn]; [by rewrite upd_eq|]. rewrite upd_ne by done. by apply (i_refers s I).
        * intros j n. unfold borrower, refers; cbn. destruct (decide (j = h)) as [->|Hn]; [rewrite upd_eq; by intros [? _]|]. rewrite upd_ne by done. by apply (i_registered s I).
        * intros j j' n. unfold borrower, refers; cbn. destruct (decide (j = h)) as [->|Hn]; [rewrite upd_eq; by intros [? _]|]. destruct (decide (j' = h)) as [->|Hn']; [rewrite upd_eq; by intros _ [? _]|].
          rewrite !upd_ne by done. by apply (i_distinct s I).
        * intros j n b. destruct (decide (j = h)) as [->|Hn]; [by rewrite upd_eq|]. rewrite upd_ne by done. by apply (i_releasing s I).
        * intros n E. destruct (i_sleep s I n E) as [?|[j E']]; [by left|right; exists j]. destruct (decide (j = h)) as [->|Hn']; [congruence|by rewrite upd_ne].
      + set (x := insts s i). set (k := key (handles s h)) in *. set (l := del k (borrowers x)).
        assert (∀ n, n = i ∨ n ≠ i) as Hi by (intros n; destruct (decide (n = i)); auto).
        assert (∀ n q, q ∈ keys (borrowers (upd (insts s) i (with_borrowers x l (total x)) n)) ↔ q ∈ keys (borrowers (insts s n)) ∧ (n = i → q ≠ k)) as Hb.
        { intros n q. destruct (Hi n) as [->|Hn]; [rewrite upd_eq; cbn; unfold l; rewrite del_keys; fold x; naive_solver|rewrite upd_ne by done; naive_solver]. }
        assert (∀ n, dtor (upd (insts s) i (with_borrowers x l (total x)) n) = dtor (insts s n) ∧ destructing (upd (insts s) i (with_borrowers x l (total x)) n) = destructing (insts s n) ∧
                     total (upd (insts s) i (with_borrowers x l (total x)) n) = total (insts s n)) as Hx.
        { intros n. destruct (Hi n) as [->|Hn]; [by rewrite upd_eq|by rewrite upd_ne]. }
        constructor; cbn [handles insts next].
        * intros j n. destruct (decide (j = h)) as [->|Hn]; [by rewrite upd_eq|]. rewrite upd_ne by done. destruct (Hx n) as (-> & _). by apply (i_owner s I).
        * intros j j' n. destruct (decide (j = h)) as [->|Hn]; [by rewrite upd_eq|]. destruct (decide (j' = h)) as [->|Hn']; [by rewrite upd_eq|]. rewrite !upd_ne by done. by apply i_owner_unique.
        * intros j n. unfold refers; cbn. destruct (decide (j = h)) as [->|Hn]; [by rewrite upd_eq|]. rewrite upd_ne by done. by apply (i_refers s I).
        * intros j n. unfold borrower, refers; cbn. destruct (decide (j = h)) as [->|Hn]; [rewrite upd_eq; by intros [? _]|]. rewrite upd_ne by done. intros B. apply Hb. split; [by apply (i_registered s I)|].
          intros -> E. apply Hn. symmetry. by apply (i_distinct s I h j i).
        * intros j j' n. unfold borrower, refers; cbn. destruct (decide (j = h)) as [->|Hn]; [rewrite upd_eq; by intros [? _]|]. destruct (decide (j' = h)) as [->|Hn']; [rewrite upd_eq; by intros _ [? _]|].
          rewrite !upd_ne by done. by apply (i_distinct s I).
        * intros n. destruct (Hi n) as [->|Hn]; [rewrite upd_eq; cbn; apply del_sorted|rewrite upd_ne by done]; apply (i_sorted s I).
        * intros n q. rewrite Hb. intros [E _]. destruct (Hx n) as (_ & _ & ->). by apply (i_total s I).
        * intros j n b. destruct (decide (j = h)) as [->|Hn]; [rewrite upd_eq; cbn; by intros [= <- _]|]. rewrite upd_ne by done. by apply (i_releasing s I).
        * intros n. destruct (Hx n) as (-> & _). intros E. apply (i_gone s I) in E. destruct (Hi n) as [->|Hn]; [rewrite upd_eq; cbn; unfold l, x; by rewrite E|by rewrite upd_ne].
        * intros n. destruct (Hx n) as (-> & -> & _). apply (i_flag s I).
        * intros n. destruct (Hx n) as (-> & _). intros E. destruct (Hi n) as [->|Hn].
          { rewrite upd_eq. cbn. destruct (decide (l = [])) as [El|El]; [|by left]. right. exists h. rewrite upd_eq. cbn. by rewrite bool_decide_eq_true_2. }
          rewrite upd_ne by done. destruct (i_sleep s I n E) as [?|[j E']]; [by left|right; exists j]. destruct (decide (j = h)) as [->|Hn']; [congruence|by rewrite upd_ne].
    - (* ReleaseNotify *)
      destruct (releasing (handles s h)) as [[i b]|] eqn:Er; [|done]. destruct (i_releasing s I h i b Er) as (R1 & R2 & R3).
      set (x := insts s i) in *. cbv zeta in H. injection H as <-. set (xs := if b then _ else _).
      assert (∀ n, borrowers (xs n) = borrowers (insts s n) ∧ destructing (xs n) = destructing (insts s n) ∧ total (xs n) = total (insts s n) ∧
                   (dtor (xs n) = dtor (insts s n) ∨ n = i ∧ dtor (insts s n) = Sleeping ∧ dtor (xs n) = Woken)) as Hx.
      { intros n. unfold xs. destruct b; [|auto]. unfold upd. case_decide; [subst|auto]. cbn. fold x. split_and!; try done. destruct (dtor x); auto. }
      assert (∀ n d, d ≠ Woken → dtor (xs n) = d → dtor (insts s n) = d) as Hd. { intros n d Hdn E. destruct (Hx n) as (_ & _ & _ & [E'|(_ & _ & E')]); congruence. }
      assert (∀ n d, d ≠ Sleeping → dtor (insts s n) = d → dtor (xs n) = d) as Hd'. { intros n d Hdn E. destruct (Hx n) as (_ & _ & _ & [E'|(_ & E'' & E')]); congruence. }
      constructor; cbn [handles insts next].
      + intros j n. destruct (decide (j = h)) as [->|Hn]; [by rewrite upd_eq|]. rewrite upd_ne by done. intros E. destruct (i_owner s I j n E) as (A1 & A2 & A3 & A4 & A5). split_and!; try done. by apply Hd'.
      + intros j j' n. destruct (decide (j = h)) as [->|Hn]; [by rewrite upd_eq|]. destruct (decide (j' = h)) as [->|Hn']; [by rewrite upd_eq|]. rewrite !upd_ne by done. by apply i_owner_unique.
      + intros j n. unfold refers; cbn. destruct (decide (j = h)) as [->|Hn]; [by rewrite upd_eq|]. rewrite upd_ne by done. by apply (i_refers s I).
      + intros j n. unfold borrower, refers; cbn. destruct (decide (j = h)) as [->|Hn]; [rewrite upd_eq; by intros [? _]|]. rewrite upd_ne by done. destruct (Hx n) as (-> & _). by apply (i_registered s I).
      + intros j j' n. unfold borrower, refers; cbn. destruct (decide (j = h)) as [->|Hn]; [rewrite upd_eq; by intros [? _]|]. destruct (decide (j' = h)) as [->|Hn']; [rewrite upd_eq; by intros _ [? _]|].
        rewrite !upd_ne by done. by apply (i_distinct s I).
      + intros n. destruct (Hx n) as (-> & _). apply (i_sorted s I).
      + intros n. destruct (Hx n) as (-> & _ & -> & _). apply (i_total s I).
      + intros j n c. destruct (decide (j = h)) as [->|Hn]; [by rewrite upd_eq|]. rewrite upd_ne by done. by apply (i_releasing s I).
      + intros n E. apply Hd in E; [|done]. destruct (Hx n) as (-> & _). by apply (i_gone s I).
      + intros n. destruct (Hx n) as (_ & -> & _ & [-> |(-> & E1 & E2)]); [apply (i_flag s I)|]. rewrite E2. rewrite (i_flag s I i), E1. naive_solver.
      + intros n E. pose proof (Hd n Sleeping ltac:(done) E) as E0. destruct (Hx n) as (-> & _). destruct (i_sleep s I n E0) as [?|[j E']]; [by left|right; exists j].
        destruct (decide (j = h)) as [->|Hn']; [|by rewrite upd_ne]. rewrite Er in E'. injection E' as -> ->. exfalso. unfold xs in E. rewrite upd_eq in E. cbn in E. fold x in E0. by rewrite E0 in E.
    - (* Destroy *)
      destruct (container (handles s h)) as [i|] eqn:Ec; [|done]. cbv zeta in H. injection H as <-. destruct (i_owner s I h i Ec) as (A1 & A2 & A3 & A4 & A5).
      assert (∀ n, n = i ∨ n ≠ i) as Hi by (intros n; destruct (decide (n = i)); auto).
      constructor; cbn [handles insts next].
      + intros j n. destruct (decide (j = h)) as [->|Hn]; [by rewrite upd_eq|]. rewrite upd_ne by done. intros E. rewrite upd_ne; [by apply (i_owner s I)|]. intros ->. by apply Hn, (i_owner_unique s I j h i).
      + intros j j' n. destruct (decide (j = h)) as [->|Hn]; [by rewrite upd_eq|]. destruct (decide (j' = h)) as [->|Hn']; [by rewrite upd_eq|]. rewrite !upd_ne by done. by apply i_owner_unique.
      + intros j n. unfold refers; cbn. destruct (decide (j = h)) as [->|Hn]; [by rewrite upd_eq|]. rewrite upd_ne by done. by apply (i_refers s I).
      + intros j n. unfold borrower, refers; cbn. destruct (decide (j = h)) as [->|Hn]; [rewrite upd_eq; by intros [? _]|]. rewrite upd_ne by done. intros B.
        destruct (Hi n) as [->|Hn']; [rewrite upd_eq|rewrite upd_ne by done]; by apply (i_registered s I).
      + intros j j' n. unfold borrower, refers; cbn. destruct (decide (j = h)) as [->|Hn]; [rewrite upd_eq; by intros [? _]|]. destruct (decide (j' = h)) as [->|Hn']; [rewrite upd_eq; by intros _ [? _]|].
        rewrite !upd_ne by done. by apply (i_distinct s I).
      + intros n. destruct (Hi n) as [->|Hn']; [rewrite upd_eq|rewrite upd_ne by done]; apply (i_sorted s I).
      + intros n. destruct (Hi n) as [->|Hn']; [rewrite upd_eq|rewrite upd_ne by done]; apply (i_total s I).
      + intros j n c. destruct (decide (j = h)) as [->|Hn]; [by rewrite upd_eq|]. rewrite upd_ne by done. by apply (i_releasing s I).
      + intros n. destruct (Hi n) as [->|Hn']; [by rewrite upd_eq|rewrite upd_ne by done]; apply (i_gone s I).
      + intros n. destruct (Hi n) as [->|Hn']; [by rewrite upd_eq|rewrite upd_ne by done]; apply (i_flag s I).
      + intros n. destruct (Hi n) as [->|Hn']; [by rewrite upd_eq|rewrite upd_ne by done]. intros E. destruct (i_sleep s I n E) as [?|[j E']]; [by left|right; exists j].
        destruct (decide (j = h)) as [->|Hn]; [congruence|by rewrite upd_ne].
    - (* Continue *)
      cbv zeta in H.
      assert (∃ x, s' = State (handles s) (upd (insts s) i x) (next s) ∧ borrowers x = borrowers (insts s i) ∧ total x = total (insts s i) ∧ destructing x = destructing (insts s i) ∧
                dtor (insts s i) ≠ Alive ∧ dtor x ≠ Alive ∧ (dtor x = Destroyed → borrowers (insts s i) = []) ∧ (dtor x = Sleeping → borrowers (insts s i) ≠ [])) as (x & -> & X1 & X2 & X3 & X4 & X5 & X6 & X7).
      { destruct (dtor (insts s i)) as [| |[|f r]| | |] eqn:Ed; try done; injection H as <-; eexists; (split; [done|]); cbn; try (split_and!; try done); destruct (decide (borrowers (insts s i) = [])); done. }
      assert (∀ n, n = i ∨ n ≠ i) as Hi by (intros n; destruct (decide (n = i)); auto).
      assert (∀ n, borrowers (upd (insts s) i x n) = borrowers (insts s n) ∧ total (upd (insts s) i x n) = total (insts s n)) as Hx.
      { intros n. destruct (Hi n) as [->|Hn]; [by rewrite upd_eq|by rewrite upd_ne]. }
      constructor; cbn [handles insts next]; try apply (i_releasing s I); try apply (i_refers s I); try apply (i_owner_unique s I); try apply (i_distinct s I).
      + intros j n E. destruct (i_owner s I j n E) as (A1 & A2 & A3). split_and!; try apply A3; [done|]. rewrite upd_ne; [done|]. by intros ->.
      + intros j n. destruct (Hx n) as (-> & _). apply (i_registered s I).
      + intros n. destruct (Hx n) as (-> & _). apply (i_sorted s I).
      + intros n. destruct (Hx n) as (-> & ->). apply (i_total s I).
      + intros n. destruct (Hx n) as (-> & _). destruct (Hi n) as [->|Hn]; [rewrite upd_eq; done|rewrite upd_ne by done; apply (i_gone s I)].
      + intros n. destruct (Hi n) as [->|Hn]; [rewrite upd_eq|rewrite upd_ne by done; apply (i_flag s I)]. rewrite X3, (i_flag s I i). naive_solver.
      + intros n. destruct (Hx n) as (-> & _). destruct (Hi n) as [->|Hn]; [rewrite upd_eq; intros E; left; by apply X7|rewrite upd_ne by done; apply (i_sleep s I)].
    - (* SpuriousWake *)
      cbv zeta in H. destruct (dtor (insts s i)) eqn:Ed; try done. injection H as <-.
      assert (∀ n, n = i ∨ n ≠ i) as Hi by (intros n; destruct (decide (n = i)); auto).
      constructor; cbn [handles insts next]; try apply (i_releasing s I); try apply (i_refers s I); try apply (i_owner_unique s I); try apply (i_distinct s I).
      + intros j n E. destruct (i_owner s I j n E) as (A1 & A2 & A3). split_and!; try apply A3; [done|]. rewrite upd_ne; [done|]. intros ->. congruence.
      + intros j n B. destruct (Hi n) as [->|Hn]; [rewrite upd_eq|rewrite upd_ne by done]; by apply (i_registered s I).
      + intros n. destruct (Hi n) as [->|Hn]; [rewrite upd_eq|rewrite upd_ne by done]; apply (i_sorted s I).
      + intros n. destruct (Hi n) as [->|Hn]; [rewrite upd_eq|rewrite upd_ne by done]; apply (i_total s I).
      + intros n. destruct (Hi n) as [->|Hn]; [by rewrite upd_eq|rewrite upd_ne by done]; apply (i_gone s I).
      + intros n. destruct (Hi n) as [->|Hn]; [rewrite upd_eq|rewrite upd_ne by done; apply (i_flag s I)]. cbn. rewrite (i_flag s I i), Ed. naive_solver.
      + intros n. destruct (Hi n) as [->|Hn]; [by rewrite upd_eq|rewrite upd_ne by done; apply (i_sleep s I)].
  Qed.
  Lemma reachable_inv ok s : reachable_from ok initial s → inv s.
  Proof. induction 1; [apply inv_initial|]. by eapply inv_step. Qed.
End Proofs.
