(** More about schema inference: when it succeeds, and how far the order of documents matters. *)
From stdpp Require Import list strings sets.
From Coq Require Import ZArith Lia.
From Verif Require Import Json_Model Infer_Model Infer_Spec Infer_Proofs.

(** ** Describing some of what is found *)
Lemma lacking_iff ds : lacking ds ↔ Exists (λ o, o = None ∨ o = Some JNull) ds.
Proof. unfold lacking. rewrite Exists_exists. done. Qed.
Lemma null_dec (o : option json) : Decision (o = None ∨ o = Some JNull).
Proof. destruct o as [[]|]; (left; by auto) || (right; naive_solver). Defined.
Lemma some_nulls ds : ∃ n : N, n ≠ 0%N ↔ lacking ds.
Proof.
  pose proof null_dec as Hdec. destruct (decide (Exists (λ o, o = None ∨ o = Some JNull) ds)) as [H|H]; [exists 1%N|exists 0%N]; rewrite lacking_iff; split; try done.
Qed.
Lemma all_or_not (P : Z → Prop) (Pdec : ∀ z, Decision (P z)) (l : list json) : ∃ b : bool, b = true ↔ ∀ z, JInt z ∈ l → P z.
Proof.
  induction l as [|j l [b IH]].
  - exists true. split; [intros _ z H; inversion H|done].
  - setoid_rewrite elem_of_cons. destruct j as [| |z| | | |]; try (exists b; rewrite IH; naive_solver).
    exists (b && bool_decide (P z)). rewrite andb_true_iff, IH, bool_decide_eq_true. naive_solver.
Qed.

Lemma suitable_array l : suitable (JArr l) ↔ (∃ j, j ∈ l ∧ is_empty_array j = false) ∧ ∀ j, j ∈ l → is_empty_array j = false → suitable j.
Proof. simpl. rewrite Forall_map, Forall_forall, Exists_exists. done. Qed.
Lemma suitable_object ms :
  suitable (JObj ms) ↔ ∀ k j, (k, j) ∈ ms → is_empty_array j = false → valid_identifier k = true ∧ suitable j.
Proof.
  simpl. rewrite Forall_map, !Forall_forall. split.
  - intros [H H'] k j Hin E. split; [apply valid_identifier_spec, (H _ Hin E)|exact (H' _ Hin E)].
  - intros H. split; intros [k j] Hin E; [apply valid_identifier_spec|]; by eapply (H k j).
Qed.
Lemma suitable_not_empty j : suitable j → is_empty_array j = false.
Proof. destruct j as [| | | | |[|]|]; try done. intros [H _]. inversion H. Qed.
Lemma elem_of_concat {A} (x : A) ls : x ∈ concat ls ↔ ∃ l, x ∈ l ∧ l ∈ ls.
Proof. rewrite elem_of_list_In, in_concat. setoid_rewrite elem_of_list_In. naive_solver. Qed.
Lemma elements_in ds j : Some j ∈ elements ds ↔ ∃ l, JArr l ∈ given ds ∧ j ∈ l ∧ is_empty_array j = false.
Proof.
  unfold elements. rewrite elem_of_list_fmap. split.
  - intros (j' & [= ->] & H). apply elem_of_list_filter in H as [E H]. apply elem_of_concat in H as (l & Hj & Hl).
    apply elem_of_list_omap in Hl as (y & Hy & Heq). destruct y; simplify_eq. eauto.
  - intros (l & Hl & Hj & E). exists j. split; [done|]. apply elem_of_list_filter. split; [done|]. apply elem_of_concat. exists l. split; [done|].
    apply elem_of_list_omap. by exists (JArr l).
Qed.
Lemma elements_some ds o : o ∈ elements ds → ∃ j, o = Some j.
Proof. unfold elements. rewrite elem_of_list_fmap. naive_solver. Qed.
Lemma field_in k ms j : field k ms = Some j → (k, j) ∈ ms ∧ is_empty_array j = false.
Proof.
  unfold field. destruct (member k ms) as [j'|] eqn:E; [|done]. destruct (is_empty_array j') eqn:E'; [done|]. intros [= ->].
  split; [by apply member_in|done].
Qed.
Lemma given_sub (A ds : list (option json)) : (∀ o, o ∈ A → o ∈ ds) → ∀ j, j ∈ given A → j ∈ given ds.
Proof. intros H j. rewrite !given_in. naive_solver. Qed.

Lemma sub_describable s : ∀ ds A, describes s ds → (∀ o, o ∈ A → o ∈ ds) → (∀ j, Some j ∈ A → suitable j) → ∃ s', describes s' A.
Proof.
  induction s as [|i n|u m i n|i n|f t n|o|e i n IH|fs i n IH] using schema_rect_nested; intros ds A Hd Hsub Hsuit.
  all: destruct (decide (A = [])) as [->|HA]; [by exists SUninitialized|].
  all: destruct (decide (given A = [])) as [HgA|HgA]; [by exists (SNull 1)|].
  all: pose proof (given_sub A ds Hsub) as Hgs.
  all: destruct (some_nulls A) as [n' Hn'].
  - exfalso. simpl in Hd. subst ds. destruct A as [|o A]; [done|]. specialize (Hsub o). set_solver.
  - destruct Hd as [[_ Hd] _]. exists (SString (N.of_nat (length (given A))) n'). simpl. repeat split; try done; try tauto.
    rewrite Forall_forall in *. auto.
  - destruct Hd as [[_ Hd] _].
    destruct (all_or_not (λ z, (0 ≤ z)%Z) _ (given A)) as [u' Hu'].
    destruct (all_or_not plausible_time (λ z, ltac:(unfold plausible_time; apply _)) (given A)) as [m' Hm'].
    exists (SInteger u' m' (N.of_nat (length (given A))) n'). simpl. split; [split; [done|]|done]. rewrite Forall_forall in *. auto.
  - destruct Hd as [[_ Hd] _].
    assert (∀ j, Decision (¬ ∃ z, j = JInt z ∧ int64 z)) as Hdec.
    { intros j. destruct j as [| |z| | | |]; try (left; naive_solver). destruct (int64_dec z); [right|left]; naive_solver. }
    destruct (decide (Exists (λ j, ¬ ∃ z, j = JInt z ∧ int64 z) (given A))) as [H|H].
    + exists (SDouble (N.of_nat (length (given A))) n'). simpl. split; [split; [done|]|split; [done|]].
      * rewrite Forall_forall in *. auto.
      * apply Exists_exists in H. done.
    + destruct (all_or_not (λ z, (0 ≤ z)%Z) _ (given A)) as [u' Hu'].
      destruct (all_or_not plausible_time (λ z, ltac:(unfold plausible_time; apply _)) (given A)) as [m' Hm'].
      exists (SInteger u' m' (N.of_nat (length (given A))) n'). simpl. split; [split; [done|]|done].
      rewrite Forall_forall in *. intros j Hj. destruct (Hd j) as [[z ->]|[d ->]]; [auto|..].
      * exists z. split; [done|]. destruct (int64_dec z) as [?|Hz]; [done|]. exfalso. apply H, Exists_exists. exists (JInt z). split; [done|].
        intros (z' & [= ->] & ?). done.
      * exfalso. apply H, Exists_exists. exists (JDouble d). split; [done|]. intros (z' & ? & ?). done.
  - destruct Hd as [[_ Hd] _]. exists (SBool (how_many false (given A)) (how_many true (given A)) n'). simpl. repeat split; try done; try tauto.
    rewrite Forall_forall in *. auto.
  - exfalso. destruct Hd as (_ & Hd & _). destruct (given A) as [|j ?] eqn:E; [done|]. specialize (Hgs j). rewrite Hd in Hgs. set_solver.
  - destruct Hd as ((_ & Hd) & _ & _ & He). rewrite Forall_forall in Hd.
    destruct (IH (elements ds) (elements A)) as [e' He'].
    + exact He.
    + intros o Ho. destruct (elements_some _ _ Ho) as [j ->]. rewrite elements_in in *. naive_solver.
    + intros j Hj. apply elements_in in Hj as (l & Hl & Hj & E). apply given_in in Hl as [Hl _]. apply Hsuit, suitable_array in Hl as [_ Hl]. auto.
    + exists (SArray e' (N.of_nat (length (given A))) n'). simpl. split; [split; [done|]|split; [done|split; [|done]]].
      * rewrite Forall_forall. auto.
      * destruct (given A) as [|j l] eqn:E; [done|]. assert (j ∈ given A) as Hj by (rewrite E; set_solver).
        destruct (Hd j) as [l' Hl']; [by apply (given_sub A ds Hsub)|]. subst j. pose proof (proj1 (given_in _ _) Hj) as [Hj' _]. apply Hsuit in Hj'. rewrite suitable_array in Hj'. destruct Hj' as [(j & Hjl & E') _].
        assert (Some j ∈ elements A) as Hin by (apply elements_in; eauto). destruct (elements A); [inversion Hin|done].
  - destruct Hd as ((_ & Hd) & _ & Hnd & Hfs & Hds). rewrite Forall_forall in Hd. rewrite describes_fields in Hds.
    assert (∀ ms, ms ∈ objects A → ms ∈ objects ds) as Hos by (intros ms; rewrite !objects_in; auto).
    assert (∀ k s, (k, s) ∈ fs → ∃ s', describes s' (map (field k) (objects A))) as Hex.
    { intros k s Hin. eapply (IH k s Hin); [by apply Hds| |].
      - intros o Ho. apply elem_of_list_fmap in Ho as (ms & -> & Hms). apply elem_of_list_fmap. eauto.
      - intros j Hj. apply elem_of_list_fmap in Hj as (ms & Hms & Hin'). symmetry in Hms. apply field_in in Hms as [Hms E].
        apply objects_in, given_in in Hin' as [Hin' _]. apply Hsuit in Hin'. rewrite suitable_object in Hin'. by eapply Hin'. }
    set (P := λ k, Exists (λ ms, is_Some (field k ms)) (objects A)).
    assert (∀ k, Decision (P k)) as Pdec by (intros k; apply Exists_dec; intros ms; destruct (field k ms); [left; eauto|right; by intros [? ?]]).
    assert (∃ fs', fs'.*1 = filter P fs.*1 ∧ ∀ k s, (k, s) ∈ fs' → describes s (map (field k) (objects A))) as (fs' & Hfst & Hfs').
    { clear -Hex. induction fs as [|[k s] fs IHf]; [exists []; split; [done|intros ?? H; inversion H]|].
      destruct IHf as (fs' & Hfst & Hfs'). { intros k' s' Hin. apply (Hex k' s'). set_solver. }
      csimpl. rewrite filter_cons. destruct (decide (P k)); [|eauto].
      destruct (Hex k s) as [s' Hs']; [set_solver|]. exists ((k, s') :: fs'). csimpl. split; [by rewrite Hfst|].
      intros k'' s'' Hin. apply elem_of_cons in Hin as [[= -> ->]|Hin]; auto. }
    exists (SObject fs' (N.of_nat (length (given A))) n'). simpl. split; [split; [done|]|split; [done|]].
    { rewrite Forall_forall. auto. }
    rewrite Hfst. split; [by apply NoDup_filter|]. split; [|by apply describes_fields].
    intros k. rewrite elem_of_list_filter. subst P. simpl. rewrite Exists_exists, Hfs. split; [tauto|].
    intros (ms & Hms & H). split; [eauto|]. exists ms. auto.
Qed.

(** ** Success *)
Definition kind (j : json) : nat :=
  match j with JNull => 0 | JStr _ => 1 | JInt _ | JDouble _ => 2 | JBool _ => 3 | JArr _ => 4 | JObj _ => 5 end.
Definition skind (s : schema) : option nat :=
  match s with
  | SUninitialized | SNull _ => None
  | SString _ _ => Some 1 | SInteger _ _ _ _ | SDouble _ _ => Some 2 | SBool _ _ _ => Some 3 | SArray _ _ _ => Some 4 | SObject _ _ _ => Some 5
  end.
Lemma describes_kind s ds : describes s ds →
  (∀ j, j ∈ given ds → skind s = Some (kind j)) ∧ (∀ x, skind s = Some x → ∃ j, j ∈ given ds).
Proof.
  assert (given ds ≠ [] → ∃ j, j ∈ given ds) as Hex by (destruct (given ds) as [|j l]; [done|]; exists j; set_solver).
  destruct s; simpl; intros H.
  1: subst; split; [intros j Hj; inversion Hj|done].
  5: destruct H as (_ & -> & _); split; [intros j Hj; inversion Hj|done].
  all: destruct H as [[Hne Hall] _]; split; [|by auto]; intros j Hj; rewrite Forall_forall in Hall; apply Hall in Hj; naive_solver.
Qed.
Lemma merged_kinds a b s A B x y :
  describes a A → describes b B → describes s (A ++ B) → skind a = Some x → skind b = Some y → x = y.
Proof.
  intros Ha Hb Hs Hx Hy. apply describes_kind in Ha as [Ha Ha'], Hb as [Hb Hb'], Hs as [Hs _].
  destruct (Ha' _ Hx) as [j Hj], (Hb' _ Hy) as [j' Hj']. specialize (Ha _ Hj). specialize (Hb _ Hj').
  rewrite given_app in Hs. pose proof (Hs j) as H1. pose proof (Hs j') as H2. rewrite elem_of_app in H1, H2. naive_solver.
Qed.

Lemma reduce_succeeds a : ∀ b A B s, describes a A → describes b B → describes s (A ++ B) → ∃ r, reduce a b = inr r.
Proof.
  induction a as [|i n|u m i n|i n|f t n|o|e i n IH|fs i n IH] using schema_rect_nested; intros b A B s Ha Hb Hs.
  all: destruct b as [|i' n'|u' m' i' n'|i' n'|f' t' n'|o'|e' i' n'|fs' i' n'].
  all: try (pose proof (merged_kinds _ _ _ _ _ _ _ Ha Hb Hs eq_refl eq_refl); discriminate).
  all: try (eexists; reflexivity).
  - pose proof (describes_kind _ _ Hs) as [Hk _]. pose proof (describes_kind _ _ Ha) as [Hk1 Hk2].
    destruct (Hk2 _ eq_refl) as [j Hj]. specialize (Hk1 _ Hj). specialize (Hk j). rewrite given_app, elem_of_app in Hk. specialize (Hk (or_introl Hj)).
    rewrite <- Hk1 in Hk. destruct s; try discriminate Hk.
    destruct Ha as (_ & _ & _ & Ha), Hb as (_ & _ & _ & Hb), Hs as (_ & _ & _ & Hs). rewrite elements_app in Hs.
    cbn [reduce]. destruct (IH e' _ _ _ Ha Hb Hs) as [r ->]. simpl. eauto.
  - pose proof (describes_kind _ _ Hs) as [Hk _]. pose proof (describes_kind _ _ Ha) as [Hk1 Hk2].
    destruct (Hk2 _ eq_refl) as [j Hj]. specialize (Hk1 _ Hj). specialize (Hk j). rewrite given_app, elem_of_app in Hk. specialize (Hk (or_introl Hj)).
    rewrite <- Hk1 in Hk. destruct s; try discriminate Hk. clear Hk Hk1 Hk2 Hj j.
    destruct Ha as (Ha & _ & Hnd & Hfs & Hd), Hb as (Hb & _ & Hnd' & Hfs' & Hd'), Hs as (_ & _ & _ & Hfs'' & Hd'').
    rewrite describes_fields in Hd, Hd', Hd''. setoid_rewrite objects_app in Hfs''. setoid_rewrite objects_app in Hd''.
    assert (objects B ≠ []) as HoB by (apply objects_nonempty; tauto).
    rewrite reduce_objects. edestruct (collect_succeeds (merged_field fs fs')) as [r ->]; [|simpl; eauto].
    intros k Hk. rewrite union_in in Hk. unfold merged_field.
    assert (∃ s'', (k, s'') ∈ fields) as [s'' Hs''].
    { apply in_fst, Hfs''. rewrite Hfs, Hfs' in Hk. setoid_rewrite elem_of_app. naive_solver. }
    specialize (Hd'' _ _ Hs''). rewrite map_app in Hd''.
    destruct (last_of k fs) as [s1|] eqn:E1, (last_of k fs') as [s2|] eqn:E2; simpl.
    + apply last_of_in in E1, E2. destruct (IH k s1 E1 s2 _ _ _ (Hd _ _ E1) (Hd' _ _ E2) Hd'') as [r ->]. simpl. eauto.
    + apply last_of_in in E1. apply last_of_fst in E2.
      destruct (IH k s1 E1 (SNull 1) _ _ _ (Hd _ _ E1) (absent_field _ _ _ HoB Hfs' E2) Hd'') as [r ->]. simpl. eauto.
    + eauto.
    + apply last_of_fst in E1, E2. tauto.
Qed.

Lemma infer_members_succeeds ms : ∀ p,
  (∀ k j, (k, j) ∈ ms → is_empty_array j = false → valid_identifier k = true ∧ ∃ s, infer nothing (member_path p k) j = inr s) →
  ∃ fs, infer_members nothing p ms = inr fs.
Proof.
  induction ms as [|[k j] ms IH]; intros p H; simpl; [eauto|].
  destruct (IH p) as [fs Hfs]. { intros k' j' Hin. apply H. set_solver. }
  destruct (is_empty_array j) eqn:E; [eauto|]. destruct (H k j) as (-> & s & ->); [set_solver|done|]. rewrite Hfs. simpl. eauto.
Qed.

Lemma infer_succeeds d : ∀ p s, suitable d → distinct_keys d → (size d < 2 ^ 32)%N → describes s [Some d] → ∃ s', infer nothing p d = inr s'.
Proof.
  induction d as [|b|z|d|t|l IH|ms IH] using json_rect_nested; intros p s Hsuit Hk Hsz Hs; try (eexists; reflexivity).
  - simpl. case_bool_decide; eauto.
  - pose proof (describes_kind _ _ Hs) as [Hkind _]. specialize (Hkind (JArr l)). destruct s; try (discriminate Hkind; apply elem_of_list_singleton; done).
    destruct Hs as (_ & _ & _ & He). rewrite suitable_array in Hsuit. destruct Hsuit as [(j1 & Hj1 & Ej1) Hsuit]. rewrite distinct_keys_array in Hk.
    set (keep := λ l : list json, map Some (filter (λ j, is_empty_array j = false) l)).
    assert (elements [Some (JArr l)] = keep l) as Hel. { unfold elements. simpl. by rewrite app_nil_r. }
    rewrite Hel in He.
    assert (∀ j, Some j ∈ keep l ↔ j ∈ l ∧ is_empty_array j = false) as Hkeep.
    { intros j. unfold keep. rewrite elem_of_list_fmap. setoid_rewrite elem_of_list_filter. naive_solver. }
    assert (∀ o, o ∈ keep l → ∃ j, o = Some j) as Hkeep' by (intros o; unfold keep; rewrite elem_of_list_fmap; naive_solver).
    assert (∀ l' i e' A W, (∀ j, j ∈ l' → j ∈ l) → (∀ o, o ∈ A → o ∈ keep l) → describes e' A → bounded W e' → (1 ≤ W)%N → (W + foldr N.add 0 (map size l') < 2 ^ 32)%N →
      ∃ r, infer_elements nothing p i e' l' = inr r ∧ describes r (A ++ keep l')) as Hfold.
    { induction l' as [|j l' IHl]; intros i' e' A W Hin HA HdA HW H1 Hsum; simpl.
      - exists e'. unfold keep. rewrite filter_nil. simpl. rewrite app_nil_r. done.
      - simpl in Hsum. unfold keep. rewrite filter_cons. destruct (is_empty_array j) eqn:Ej.
        + destruct (decide (true = false)); [done|]. apply (IHl (S i') e' A W); auto; [set_solver|lia].
        + destruct (decide (false = false)); [|done].
          assert (j ∈ l) as Hjl by (apply Hin; set_solver).
          assert (∃ sj, describes sj [Some j]) as [sj' Hsj'].
          { eapply sub_describable; [exact He| |].
            - intros o Ho. apply elem_of_list_singleton in Ho. subst. by apply Hkeep.
            - intros j' Hj'. apply elem_of_list_singleton in Hj'. injection Hj' as ->. auto. }
          destruct (IH j Hjl (element_path p i') sj') as [sj Hsj]; auto; [lia|]. rewrite Hsj. cbn [bind].
          destruct (infer_ok j (element_path p i') sj) as (Hdj & Hbj & _); auto; [lia|].
          assert (∃ sAj, describes sAj (A ++ [Some j])) as [sAj HsAj].
          { eapply sub_describable; [exact He| |].
            - intros o Ho. apply elem_of_app in Ho as [Ho|Ho]; [auto|]. apply elem_of_list_singleton in Ho. subst. by apply Hkeep.
            - intros j' Hj'. assert (Some j' ∈ keep l) as Hj''.
              { apply elem_of_app in Hj' as [Ho|Ho]; [auto|]. apply elem_of_list_singleton in Ho. injection Ho as ->. by apply Hkeep. }
              apply Hkeep in Hj'' as [??]. auto. }
          destruct (reduce_succeeds e' sj A [Some j] sAj) as [e'' He'']; auto. rewrite He''. cbn [bind].
          pose proof (size_pos j).
          destruct (reduce_ok e' sj A [Some j] W (size j) e'') as [Hd'' Hb'']; auto; [lia|].
          destruct (IHl (S i') e'' (A ++ [Some j]) (W + size j)%N) as (r & Hr & Hdr); auto; [set_solver| |lia|lia|].
          { intros o Ho. apply elem_of_app in Ho as [Ho|Ho]; [auto|]. apply elem_of_list_singleton in Ho. subst. by apply Hkeep. }
          exists r. rewrite <- app_assoc in Hdr. done. }
    simpl in Hsz. destruct l as [|j0 l0]; [inversion Hj1|]. rewrite infer_array.
    destruct (Hfold (j0 :: l0) 0 SUninitialized [] 1%N) as (r & Hr & Hdr); auto; [intros o Ho; inversion Ho|done|done|].
    rewrite Hr. simpl. destruct r; try (eexists; reflexivity). exfalso. change (keep (j0 :: l0) = []) in Hdr.
    assert (Some j1 ∈ keep (j0 :: l0)) as Hin by (by apply Hkeep). rewrite Hdr in Hin. inversion Hin.
  - pose proof (describes_kind _ _ Hs) as [Hkind _]. specialize (Hkind (JObj ms)). destruct s; try (discriminate Hkind; apply elem_of_list_singleton; done).
    destruct Hs as (_ & _ & _ & Hfs & Hd). rewrite describes_fields in Hd. unfold objects in Hfs, Hd. simpl in Hfs, Hd.
    rewrite suitable_object in Hsuit. apply distinct_keys_object in Hk as [Hnd Hk].
    rewrite infer_object. destruct (infer_members_succeeds ms p) as [fs' ->]; [|simpl; eauto].
    intros k j Hin E. destruct (Hsuit k j Hin E) as [Hv Hsj]. split; [done|].
    assert (field k ms = Some j) as Hf by (unfold field; by rewrite (member_nodup _ _ _ Hnd Hin), E).
    assert (∃ s', (k, s') ∈ fields) as [s' Hs']. { apply in_fst, Hfs. exists ms. rewrite Hf. split; [set_solver|eauto]. }
    specialize (Hd _ _ Hs'). rewrite Hf in Hd. eapply (IH k j Hin); eauto.
    pose proof (sum_in (λ '(_, j), size j) (k, j) ms Hin) as Hle. simpl in Hle, Hsz. lia.
Qed.
