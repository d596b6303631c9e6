(** Files of documents; the types inferred. *)
From stdpp Require Import list strings sets.
From Coq Require Import ZArith Lia.
From Verif Require Import Json_Model Infer_Model Infer_Spec Infer_Proofs Infer_Proofs2.
From Verif Require Json_Proofs.

Lemma infer_not_empty p d s : infer nothing p d = inr s → is_empty_array d = false.
Proof. by destruct d as [| | | | |[|]|]. Qed.

Lemma infer_more_ok docs : ∀ s A W r, describes s A → bounded W s → (1 ≤ W)%N → Forall distinct_keys docs → (W + total docs < 2 ^ 32)%N →
  infer_more nothing s docs = inr r → describes r (A ++ map Some docs) ∧ Forall suitable docs.
Proof.
  induction docs as [|d docs IH]; intros s A W r Hd Hb H1 Hk Hsz Hr; simpl in Hr.
  { injection Hr as <-. simpl. rewrite app_nil_r. auto. }
  inversion Hk; subst. unfold total in Hsz. simpl in Hsz.
  destruct (infer nothing [] d) as [|sd] eqn:E; [done|]. simpl in Hr. destruct (reduce s sd) as [|s'] eqn:E'; [done|]. simpl in Hr.
  destruct (infer_ok d [] sd) as (Hdd & Hbd & Hsd); auto; [by eapply infer_not_empty|lia|].
  pose proof (size_pos d).
  destruct (reduce_ok s sd A [Some d] W (size d) s') as [H' H'']; auto; [lia|].
  destruct (IH s' (A ++ [Some d]) (W + size d)%N r) as [Hx Hy]; auto; [lia|unfold total; lia|].
  rewrite <- app_assoc in Hx. auto.
Qed.
Lemma infer_file_ok doc docs s : Forall distinct_keys (doc :: docs) → (total (doc :: docs) < 2 ^ 32)%N →
  infer_file nothing doc docs = inr s → describes s (map Some (doc :: docs)) ∧ Forall suitable (doc :: docs).
Proof.
  intros Hk Hsz H. unfold infer_file in H. destruct (infer nothing [] doc) as [|sd] eqn:E; [done|]. simpl in H. inversion Hk; subst.
  unfold total in Hsz. simpl in Hsz.
  destruct (infer_ok doc [] sd) as (Hdd & Hbd & Hsd); auto; [by eapply infer_not_empty|lia|].
  destruct (infer_more_ok docs sd [Some doc] (size doc) s) as [Hx Hy]; auto. apply size_pos.
Qed.

Lemma infer_more_succeeds all sall docs : describes sall (map Some all) → Forall suitable all → ∀ s A W,
  (∀ j, j ∈ A → j ∈ all) → (∀ j, j ∈ docs → j ∈ all) →
  describes s (map Some A) → bounded W s → (1 ≤ W)%N → Forall distinct_keys docs → (W + total docs < 2 ^ 32)%N →
  ∃ r, infer_more nothing s docs = inr r.
Proof.
  intros Hall Hsuit. rewrite Forall_forall in Hsuit.
  induction docs as [|d docs IH]; intros s A W HA Hdocs Hd Hb H1 Hk Hsz; simpl; [eauto|].
  inversion Hk; subst. unfold total in Hsz. simpl in Hsz.
  assert (d ∈ all) as Hda by (apply Hdocs; set_solver).
  destruct (sub_describable sall (map Some all) [Some d] Hall) as [sd' Hsd'].
  { intros o Ho. apply elem_of_list_singleton in Ho. subst. apply elem_of_list_fmap. eauto. }
  { intros j Hj. apply elem_of_list_singleton in Hj. injection Hj as ->. auto. }
  destruct (infer_succeeds d [] sd') as [sd Hsd]; auto; [lia|].
  destruct (infer_ok d [] sd) as (Hdd & Hbd & _); auto; [by eapply infer_not_empty|lia|].
  destruct (sub_describable sall (map Some all) (map Some A ++ [Some d]) Hall) as [sAd HsAd].
  { intros o Ho. change [Some d] with (map Some [d]) in Ho. rewrite <- map_app in Ho. apply elem_of_list_fmap in Ho as (j & -> & Hj).
    apply elem_of_list_fmap. exists j. split; [done|]. apply elem_of_app in Hj as [Hj|Hj]; [auto|]. apply elem_of_list_singleton in Hj. by subst. }
  { intros j Hj. change [Some d] with (map Some [d]) in Hj. rewrite <- map_app in Hj. apply elem_of_list_fmap in Hj as (j' & [= ->] & Hj).
    apply Hsuit. apply elem_of_app in Hj as [Hj|Hj]; [auto|]. apply elem_of_list_singleton in Hj. by subst. }
  destruct (reduce_succeeds s sd (map Some A) [Some d] sAd) as [s' Hs']; auto.
  rewrite Hsd. simpl. rewrite Hs'. simpl. pose proof (size_pos d).
  destruct (reduce_ok s sd (map Some A) [Some d] W (size d) s') as [H' H'']; auto; [lia|].
  eapply (IH s' (A ++ [d]) (W + size d)%N); auto.
  - intros j Hj. apply elem_of_app in Hj as [Hj|Hj]; [auto|]. apply elem_of_list_singleton in Hj. by subst.
  - intros j Hj. apply Hdocs. set_solver.
  - rewrite map_app. done.
  - lia.
  - unfold total. lia.
Qed.
Lemma infer_file_succeeds doc docs s : Forall distinct_keys (doc :: docs) → (total (doc :: docs) < 2 ^ 32)%N →
  Forall suitable (doc :: docs) → describes s (map Some (doc :: docs)) → ∃ r, infer_file nothing doc docs = inr r.
Proof.
  intros Hk Hsz Hsuit Hs. inversion Hk; subst. inversion Hsuit; subst. pose proof Hsz as Hsz'. unfold total in Hsz'. simpl in Hsz'.
  destruct (sub_describable s (map Some (doc :: docs)) [Some doc] Hs) as [sd' Hsd'].
  { intros o Ho. apply elem_of_list_singleton in Ho. subst. set_solver. }
  { intros j Hj. apply elem_of_list_singleton in Hj. injection Hj as ->. auto. }
  destruct (infer_succeeds doc [] sd') as [sd Hsd]; auto; [lia|].
  destruct (infer_ok doc [] sd) as (Hdd & Hbd & _); auto; [by eapply infer_not_empty|lia|].
  unfold infer_file. rewrite Hsd. simpl.
  eapply (infer_more_succeeds (doc :: docs) s docs Hs Hsuit sd [doc] (size doc)); auto.
  - intros j Hj. set_solver.
  - intros j Hj. set_solver.
  - apply size_pos.
Qed.
Lemma infer_file_stripped ig doc docs :
  infer_file ig doc docs = infer_file nothing (stripped ig [] doc) (map (stripped ig []) docs).
Proof.
  unfold infer_file. rewrite (infer_stripped ig doc [] []). destruct (infer nothing [] _) as [|s]; [done|]. simpl. revert s.
  induction docs as [|d docs IH]; intros s; [done|]. simpl. rewrite (infer_stripped ig d [] []).
  destruct (infer nothing [] _) as [|sd]; [done|]. simpl. destruct (reduce s sd); [done|]. simpl. apply IH.
Qed.

(** ** The order *)
Lemma given_perm A B : A ≡ₚ B → given A ≡ₚ given B. Proof. intros H. unfold given. by rewrite H. Qed.
Lemma concat_perm {A} (l l' : list (list A)) : l ≡ₚ l' → concat l ≡ₚ concat l'.
Proof.
  induction 1 as [|x l l' H IH|x y l|]; simpl; [done|by rewrite IH|by rewrite !app_assoc, (Permutation_app_comm x y)|etrans; eauto].
Qed.
Lemma objects_perm A B : A ≡ₚ B → objects A ≡ₚ objects B.
Proof. intros H%given_perm. unfold objects. by rewrite H. Qed.
Lemma elements_perm A B : A ≡ₚ B → elements A ≡ₚ elements B.
Proof. intros H%given_perm. unfold elements. apply fmap_Permutation, filter_Permutation, concat_perm. by rewrite H. Qed.
Lemma lacking_perm A B : A ≡ₚ B → lacking A ↔ lacking B.
Proof. intros H. unfold lacking. by setoid_rewrite H. Qed.
Lemma how_many_perm b l l' : l ≡ₚ l' → how_many b l = how_many b l'.
Proof. intros H. unfold how_many. by rewrite H. Qed.
Lemma describes_perm s : ∀ A B, A ≡ₚ B → describes s A → describes s B.
Proof.
  induction s as [|i n|u m i n|i n|f t n|o|e i n IH|fs i n IH] using schema_rect_nested; intros A B HAB Hs.
  all: pose proof (given_perm _ _ HAB) as Hg; pose proof (lacking_perm _ _ HAB) as Hl.
  all: assert (given A = [] ↔ given B = []) as Hnil by (split; intros H; rewrite H in Hg; [apply Permutation_nil_l in Hg|apply Permutation_nil_r in Hg]; done).
  all: cbn [describes] in *.
  - subst. by apply Permutation_nil_l in HAB.
  - rewrite <- Hnil, <- Hl, <- Hg. done.
  - rewrite <- Hnil, <- Hl, <- Hg. destruct Hs as (? & ? & Hu & Hm). split; [done|]. split; [done|]. split; [rewrite Hu|rewrite Hm]; by setoid_rewrite Hg.
  - rewrite <- Hnil, <- Hl, <- Hg. destruct Hs as (? & ? & j & Hj & ?). split; [done|]. split; [done|]. exists j. by rewrite <- Hg.
  - rewrite <- Hnil, <- Hl, <- !(how_many_perm _ _ _ Hg), <- Hg. done.
  - rewrite <- Hnil. destruct Hs as (Hne & Hs). split; [|done]. intros ->. apply Permutation_nil_r in HAB. done.
  - rewrite <- Hnil, <- Hl, <- Hg. destruct Hs as (? & ? & Hne & He). pose proof (elements_perm _ _ HAB) as Hel.
    split; [done|]. split; [done|]. split; [|by eapply IH]. intros E. rewrite E in Hel. apply Permutation_nil_r in Hel. done.
  - rewrite <- Hnil, <- Hl, <- Hg. destruct Hs as (? & ? & ? & Hfs & Hd). pose proof (objects_perm _ _ HAB) as Ho.
    split; [done|]. split; [done|]. split; [done|]. split.
    + intros k. rewrite Hfs. by setoid_rewrite Ho.
    + rewrite describes_fields in *. intros k s Hin. eapply (IH k s Hin); [|by apply Hd]. apply fmap_Permutation. done.
Qed.

Lemma iff_bool (b b' : bool) (P : Prop) : (b = true ↔ P) → (b' = true ↔ P) → b = b'.
Proof. destruct b, b'; intuition congruence. Qed.
Lemma iff_zero (n n' : N) (P : Prop) : (n ≠ 0%N ↔ P) → (n' ≠ 0%N ↔ P) → n = 0%N ↔ n' = 0%N.
Proof. intros. destruct (decide (n = 0%N)), (decide (n' = 0%N)); tauto. Qed.
Lemma describes_similar s : ∀ s' ds, describes s ds → describes s' ds → similar s s'.
Proof.
  induction s as [|i n|u m i n|i n|f t n|o|e i n IH|fs i n IH] using schema_rect_nested; intros s' ds Hs Hs'.
  all: pose proof (describes_kind _ _ Hs) as [Hk Hk2]; pose proof (describes_kind _ _ Hs') as [Hk' Hk2'].
  all: assert (∀ x, skind s' = Some x → given ds ≠ []) as Hne' by (intros x Hx E; destruct (Hk2' _ Hx) as [j Hj]; rewrite E in Hj; inversion Hj).
  { simpl in Hs. subst. destruct s'; simpl in Hs'; [done|..]; exfalso; try (by eapply Hne'); tauto. }
  5: { destruct Hs as (Hne & Hg & _). destruct s'; simpl in Hs'; try done; exfalso; try (by eapply Hne'). }
  all: destruct (Hk2 _ eq_refl) as [j Hj]; specialize (Hk _ Hj); specialize (Hk' _ Hj); rewrite <- Hk in Hk'; simpl in Hk'; destruct s'; try discriminate Hk'.
  all: cbn [describes similar] in *.
  - destruct Hs as (_ & -> & ?), Hs' as (_ & -> & ?). split; [done|]. by eapply iff_zero.
  - destruct Hs as (_ & (-> & ?) & Hu & Hm), Hs' as (_ & (-> & ?) & Hu' & Hm').
    split; [by eapply iff_bool|]. split; [by eapply iff_bool|]. split; [done|]. by eapply iff_zero.
  - destruct Hs as ((_ & Hs) & _), Hs' as (_ & _ & j' & Hj' & Hn). rewrite Forall_forall in Hs. apply Hs in Hj'. done.
  - destruct Hs' as ((_ & Hs') & _), Hs as (_ & _ & j' & Hj' & Hn). rewrite Forall_forall in Hs'. apply Hs' in Hj'. done.
  - destruct Hs as (_ & (-> & ?) & _), Hs' as (_ & (-> & ?) & _). split; [done|]. by eapply iff_zero.
  - destruct Hs as (_ & ? & -> & ->), Hs' as (_ & ? & -> & ->). split; [done|]. split; [done|]. by eapply iff_zero.
  - destruct Hs as (_ & (-> & ?) & _ & He), Hs' as (_ & (-> & ?) & _ & He'). split; [done|]. split; [by eapply iff_zero|]. by eapply IH.
  - destruct Hs as (_ & (-> & ?) & Hnd & Hfs & Hd), Hs' as (_ & (-> & ?) & Hnd' & Hfs' & Hd').
    rewrite describes_fields in Hd, Hd'.
    split; [done|]. split; [by eapply iff_zero|]. split; [done|]. split; [done|]. split.
    + apply NoDup_Permutation; [done..|]. intros k. by rewrite Hfs, Hfs'.
    + rewrite Forall_map, Forall_forall. intros [k s] Hin. simpl.
      assert (k ∈ fields.*1) as Hk3. { apply Hfs', Hfs, in_fst. eauto. }
      apply in_fst in Hk3 as [s' Hs']. exists s'. split; [done|]. eapply (IH k s Hin); eauto.
Qed.

Lemma total_perm (l l' : list N) : l ≡ₚ l' → foldr N.add 0%N l = foldr N.add 0%N l'.
Proof. induction 1; simpl; lia. Qed.

(** ** The types *)
Definition reads (E : env) (t : ty) (o : option json) : Prop := ∀ dst, ∃ v, de (Mode false StyleCurrent) E t o dst = Ok v.
Lemma reads_optional E t o : (∀ j, o = Some j → j ≠ JNull → reads E t (Some j)) → reads E (TOptional t) o.
Proof.
  intros H dst. destruct o as [j|]; [|simpl; eauto].
  destruct (null_dec (Some j)) as [[?|[= ->]]|Hj]; [done|simpl; eauto|].
  destruct (H j) with (dst := default_of t) as [v Hv]; [done|naive_solver|].
  destruct j; try (exfalso; by auto); cbn [de]; rewrite Hv; simpl; eauto.
Qed.
Lemma reads_maybe_optional E n t t' ds o :
  (n ≠ 0%N ↔ lacking ds) → o ∈ ds → maybe_optional n t = CppType t' → (∀ j, o = Some j → j ≠ JNull → reads E t (Some j)) → reads E t' o.
Proof.
  intros Hn Ho [= <-] H. case_decide.
  - destruct (null_dec o) as [Hx|Hx]; [exfalso; assert (lacking ds) as Hl by (by exists o); apply Hn in Hl; done|].
    destruct o as [j|]; [|exfalso; auto]. apply H; [done|]. intros ->. auto.
  - by apply reads_optional.
Qed.
Lemma reads_elements E t l : (∀ j, j ∈ l → reads E t (Some j)) → reads E (TVector t) (Some (JArr l)).
Proof.
  intros H dst. cbn [de].
  assert (length (resize (length l) (default_of t) (tuple_of dst)) = length l) as Hlen.
  { unfold resize. rewrite take_length, app_length, replicate_length. lia. }
  revert Hlen. generalize (resize (length l) (default_of t) (tuple_of dst)) as vs. intros vs Hlen.
  enough (∃ r, de_elements (de (Mode false StyleCurrent) E t) l vs = Ok r) as [r ->] by (simpl; eauto).
  revert vs Hlen. induction l as [|j l IH]; intros [|v vs] Hlen; try discriminate Hlen; simpl; [eauto|].
  destruct (H j) with (dst := v) as [v' ->]; [set_solver|]. destruct (IH) with (vs := vs) as [r ->]; [set_solver|by injection Hlen|]. simpl. eauto.
Qed.
Lemma reads_empty E u : reads E (TVector u) (Some (JArr [])).
Proof. apply reads_elements. intros j Hj. inversion Hj. Qed.
Lemma reads_struct E fs ms : (∀ k t d, (k, t, d) ∈ fs → reads E t (member k ms)) → reads E (TStruct fs) (Some (JObj ms)).
Proof.
  intros H dst. cbn [de].
  enough (∀ vs, ∃ r, de_fields (map (λ '(n, t, d), (n, de (Mode false StyleCurrent) E t, d)) fs) ms vs = Ok r) as Hf.
  { destruct (Hf (tuple_of dst)) as [r ->]. simpl. eauto. }
  induction fs as [|[[k t] d] fs IH]; intros vs; simpl; [eauto|].
  destruct (H k t d) with (dst := default d (head vs)) as [v ->]; [set_solver|].
  destruct IH with (vs := tail vs) as [r ->]; [set_solver|]. simpl. eauto.
Qed.
Lemma struct_fields_in l fs : struct_fields l = Some fs → ∀ k t d, (k, t, d) ∈ fs → (k, CppType t) ∈ l.
Proof.
  revert fs. induction l as [|[k' p] l IH]; intros fs H k t d Hin; simpl in H; [injection H as <-; inversion Hin|].
  destruct p as [| |t']; [|done|].
  - apply elem_of_cons. right. by eapply IH.
  - destruct (struct_fields l) as [fs'|] eqn:E; [|done]. injection H as <-. apply elem_of_cons in Hin as [[= -> -> ->]|Hin]; apply elem_of_cons; [by left|].
    right. by eapply IH.
Qed.

Lemma types_fit E s : ∀ ds t, describes s ds → cpp_type s = CppType t → ∀ o, o ∈ ds →
  (∀ j, o = Some j → empty_arrays_fit t j) → reads E t o.
Proof.
  induction s as [|i n|u m i n|i n|f tt n|o0|e i n IH|fs i n IH] using schema_rect_nested; intros ds t Hs Ht o Ho Hfit.
  - done.
  - destruct Hs as ((_ & Hall) & _ & Hn). eapply reads_maybe_optional; [exact Hn|exact Ho|exact Ht|].
    intros j -> Hj. rewrite Forall_forall in Hall. destruct (Hall j) as [x ->]; [by apply given_in|]. intros dst. simpl. eauto.
  - destruct Hs as ((_ & Hall) & (_ & Hn) & Hu & Hm). eapply reads_maybe_optional; [exact Hn|exact Ho|exact Ht|].
    intros j -> Hj. rewrite Forall_forall in Hall. destruct (Hall j) as (z & -> & Hz); [by apply given_in|]. intros dst.
    assert (JInt z ∈ given ds) as Hin by (by apply given_in). unfold int64 in Hz.
    destruct m; [|destruct u]; cbn [de].
    + unfold is_int64. rewrite bool_decide_true by done. eauto.
    + unfold is_uint64. specialize (proj1 Hu eq_refl z Hin) as H0. rewrite bool_decide_true by lia. eauto.
    + unfold is_int64. rewrite bool_decide_true by done. eauto.
  - destruct Hs as ((_ & Hall) & (_ & Hn) & _). eapply reads_maybe_optional; [exact Hn|exact Ho|exact Ht|].
    intros j -> Hj. rewrite Forall_forall in Hall. destruct (Hall j) as [[x ->]|[x ->]]; [by apply given_in|..]; intros dst; simpl; eauto.
  - destruct Hs as ((_ & Hall) & Hn & _). eapply reads_maybe_optional; [exact Hn|exact Ho|exact Ht|].
    intros j -> Hj. rewrite Forall_forall in Hall. destruct (Hall j) as [x ->]; [by apply given_in|]. intros dst. simpl. eauto.
  - done.
  - simpl in Ht. destruct (cpp_type e) as [| |te] eqn:Ete; try done. destruct Hs as ((_ & Hall) & (_ & Hn) & _ & He).
    eapply reads_maybe_optional; [exact Hn|exact Ho|exact Ht|].
    intros j -> Hj. rewrite Forall_forall in Hall. assert (j ∈ given ds) as Hg by (by apply given_in). destruct (Hall j Hg) as [l ->]. apply reads_elements.
    assert (Forall (empty_arrays_fit te) l) as Hl.
    { specialize (Hfit _ eq_refl). injection Ht as <-. revert Hfit. case_decide; [|intros [_ Hfit]; revert Hfit]; by intros [_ ?]. }
    rewrite Forall_forall in Hl. intros j Hjl. destruct (is_empty_array j) eqn:Ej.
    + specialize (Hl j Hjl). assert (j = JArr []) as -> by (by destruct j as [| | | | |[|]|]).
      assert (∃ u, te = TVector u ∨ te = TOptional (TVector u)) as (u & [-> | ->]) by (destruct te; by apply Hl).
      * apply reads_empty.
      * apply reads_optional. intros j [= <-] _. apply reads_empty.
    + eapply (IH (elements ds) te); auto.
      * apply elements_in. eauto.
      * intros j' [= <-]. auto.
  - simpl in Ht. destruct (struct_fields _) as [fields|] eqn:Ef; [|done]. destruct Hs as ((_ & Hall) & (_ & Hn) & _ & Hfs & Hd). rewrite describes_fields in Hd.
    eapply reads_maybe_optional; [exact Hn|exact Ho|exact Ht|].
    intros j -> Hj. rewrite Forall_forall in Hall. assert (j ∈ given ds) as Hg by (by apply given_in). destruct (Hall j Hg) as [ms ->]. apply reads_struct.
    assert (∀ k t' d, (k, t', d) ∈ fields → ∀ j, member k ms = Some j → empty_arrays_fit t' j) as Hl.
    { intros k t' d Hin j Hm. specialize (Hfit _ eq_refl). injection Ht as <-.
      assert (Forall id (map (λ '(k, t', _), match member k ms with Some j' => empty_arrays_fit t' j' | None => True end) fields)) as Hx.
      { revert Hfit. case_decide; [|intros [_ Hfit]; revert Hfit]; by intros [_ ?]. }
      rewrite Forall_map, Forall_forall in Hx. specialize (Hx _ Hin). simpl in Hx. rewrite Hm in Hx. done. }
    intros k t' d Hin. pose proof (struct_fields_in _ _ Ef _ _ _ Hin) as Hp. apply elem_of_list_fmap in Hp as ([k' s'] & [= -> Hs'] & Hks).
    assert (field k' ms ∈ map (field k') (objects ds)) as Hfield.
    { apply elem_of_list_fmap. exists ms. split; [done|]. by apply objects_in. }
    specialize (Hl _ _ _ Hin). destruct (member k' ms) as [j|] eqn:Em.
    + destruct (is_empty_array j) eqn:Ej.
      * specialize (Hl j eq_refl). assert (j = JArr []) as -> by (by destruct j as [| | | | |[|]|]).
        assert (∃ u, t' = TVector u ∨ t' = TOptional (TVector u)) as (u & [-> | ->]) by (destruct t'; by apply Hl).
        -- apply reads_empty.
        -- apply reads_optional. intros j [= <-] _. apply reads_empty.
      * eapply (IH k' s' Hks (map (field k') (objects ds)) t'); auto.
        unfold field in Hfield at 1. by rewrite Em, Ej in Hfield.
    + eapply (IH k' s' Hks (map (field k') (objects ds)) t'); auto.
      unfold field in Hfield at 1. by rewrite Em in Hfield.
Qed.

Lemma no_empty_arrays_fit t : ∀ j, no_empty_arrays j → empty_arrays_fit t j.
Proof.
  assert (∀ j, no_empty_arrays j → is_empty_array j = false) as Hne by (intros [| | | | |[|]|]; try done; by intros [? _]).
  assert (∀ (j : json) (P : Prop), no_empty_arrays j → is_empty_array j = true → P) as Hno by (intros j P Hj E; rewrite (Hne j Hj) in E; done).
  induction t as [| | | | |fs IH|t IH| |t IH| | | | |] using Json_Proofs.ty_induction; intros j Hj; simpl;
    (split; [by apply Hno|]); try done.
  - destruct j as [| | | | | |ms]; try done. rewrite Forall_map, Forall_forall. rewrite Forall_forall in IH.
    intros [[k t] d] Hin. simpl. destruct (member k ms) as [j'|] eqn:E; [|done]. apply (IH _ Hin).
    simpl in Hj. rewrite Forall_map, Forall_forall in Hj. apply member_in in E. exact (Hj _ E).
  - by apply IH.
  - destruct j as [| | | | |l|]; try done. destruct Hj as [_ Hj]. rewrite Forall_map in Hj. eapply Forall_impl; [exact Hj|]. simpl. apply IH.
Qed.
Lemma stripped_nothing d : ∀ p, stripped nothing p d = d.
Proof.
  induction d as [| | | | |l IH|ms IH] using json_rect_nested; intros p; try done.
  - rewrite stripped_array. f_equal. generalize 0 as i. induction l as [|j l IHl]; intros i; [done|]. simpl. f_equal; [apply IH; set_solver|].
    apply IHl. intros j' Hj'. apply IH. set_solver.
  - rewrite stripped_object. f_equal. induction ms as [|[k j] ms IHm]; [done|]. simpl. f_equal; [f_equal; eapply (IH k); set_solver|].
    apply IHm. intros k' j' Hj'. eapply (IH k'). set_solver.
Qed.
Lemma stripped_nothing_all ds : map (stripped nothing []) ds = ds.
Proof. induction ds as [|d ds IH]; [done|]. simpl. by rewrite stripped_nothing, IH. Qed.
