(** * Matching of queries: further properties, what is false, and examples *)
From stdpp Require Import list fin_sets.
From Verif Require Import Nlp_Model Nlp_Spec Nlp_Props.

(** ** What is without data is found once *)
Lemma or_unit a b : emitted (Or a b) = TUnit → emitted a = TUnit ∧ emitted b = TUnit.
Proof. simpl. unfold or_ty. case_decide as E; [rewrite E; auto|done]. Qed.
Lemma seq_unit d a b : emitted (Seq d a b) = TUnit → emitted a = TUnit ∧ emitted b = TUnit.
Proof. simpl. by destruct (emitted a), (emitted b). Qed.
Lemma unit_if_short {A} (l : list A) : length (unit_if l) ≤ 1. Proof. destruct l; simpl; lia. Qed.
Theorem C98_units_are_found_once F P query b : no_unit_maps b → emitted b = TUnit → ∀ i j, length (results F P query b i j) ≤ 1 ∧ ∀ v, v ∈ results F P query b i j → v = VUnit.
Proof.
  induction b as [w|f| |b IH|a IHa b IHb|a IHa b IHb|d a IHa b IHb|t f b IH|p b IH]; intros N E i j.
  - cbn [results]. destruct (query !! i); [case_decide|]; simpl; (split; [lia|]); intros v HV; first [by apply elem_of_list_singleton in HV|by apply elem_of_nil in HV].
  - done.
  - cbn [results]. case_decide; simpl; (split; [lia|]); intros v HV; first [by apply elem_of_list_singleton in HV|by apply elem_of_nil in HV].
  - cbn [results]. split; [apply unit_if_short|]. by intros v [-> _]%unit_if_elem.
  - apply or_unit in E. cbn [results]. rewrite decide_True by done. split; [apply unit_if_short|]. by intros v [-> _]%unit_if_elem.
  - done.
  - apply seq_unit in E. cbn [results]. rewrite decide_True by done. split; [apply unit_if_short|]. by intros v [-> _]%unit_if_elem.
  - destruct N as [N _]. done.
  - cbn [results]. destruct (IH N E i j) as [L V]. split; [|intros v [_ H]%elem_of_list_filter; by apply V].
    etransitivity; [|exact L]. apply filter_length.
Qed.

(** ** How sequences are grouped, and whether [>>] or [<<] is written, makes no difference to what is found. *)
Lemma seq_ty d a b : emitted a ≠ TUnit → emitted b ≠ TUnit → emitted (Seq d a b) = TTuple (wrapped_ty (emitted a) ++ wrapped_ty (emitted b)).
Proof. simpl. intros A B. by destruct (emitted a), (emitted b). Qed.
Theorem C98_grouping_makes_no_difference F P query d d' a b c i j v : emitted a ≠ TUnit → emitted b ≠ TUnit → emitted c ≠ TUnit →
  v ∈ results F P query (Seq d (Seq d' a b) c) i j ↔ v ∈ results F P query (Seq d' a (Seq d b c)) i j.
Proof.
  intros A B C. rewrite !C98_what_matches. pose proof (seq_ty d' a b A B) as AB. pose proof (seq_ty d b c B C) as BC.
  split; intros H; inversion H as [| | | | | | | | |d1 x y i1 m j1 u w L X Y MX MY|d1 x y i1 m j1 u w L X Y MX MY|d1 x y i1 m j1 u w L X Y MX MY|d1 x y i1 m j1 u w L X Y MX MY| |]; subst; try congruence.
  - inversion MX as [| | | | | | | | |d2 x2 y2 i2 m' j2 u' w' L2 X2 Y2 MX2 MY2|d2 x2 y2 i2 m' j2 u' w' L2 X2 Y2 MX2 MY2|d2 x2 y2 i2 m' j2 u' w' L2 X2 Y2 MX2 MY2|d2 x2 y2 i2 m' j2 u' w' L2 X2 Y2 MX2 MY2| |]; subst; try congruence.
    rewrite AB. replace (cat (TTuple _) (emitted c) _ w) with (cat (emitted a) (emitted (Seq d b c)) u' (cat (emitted b) (emitted c) w' w)).
    + eapply matches_seq; [|done|by rewrite BC|exact MX2|]; [lia|]. eapply matches_seq; [|done..]. lia.
    + rewrite BC. unfold cat. simpl. by rewrite app_assoc.
  - inversion MY as [| | | | | | | | |d2 x2 y2 i2 m' j2 u' w' L2 X2 Y2 MX2 MY2|d2 x2 y2 i2 m' j2 u' w' L2 X2 Y2 MX2 MY2|d2 x2 y2 i2 m' j2 u' w' L2 X2 Y2 MX2 MY2|d2 x2 y2 i2 m' j2 u' w' L2 X2 Y2 MX2 MY2| |]; subst; try congruence.
    rewrite BC. replace (cat (emitted a) (TTuple _) u _) with (cat (emitted (Seq d' a b)) (emitted c) (cat (emitted a) (emitted b) u u') w').
    + eapply matches_seq; [|by rewrite AB|done| |exact MY2]; [lia|]. eapply matches_seq; [|done..]. lia.
    + rewrite AB. unfold cat. simpl. by rewrite app_assoc.
Qed.
Theorem C98_direction_makes_no_difference F P query a b i j v : v ∈ results F P query (Seq L2R a b) i j ↔ v ∈ results F P query (Seq R2L a b) i j.
Proof.
  rewrite !C98_what_matches. split; intros H; inversion H; subst;
    first [by eapply matches_seq|by eapply matches_seq_unit_left|by eapply matches_seq_unit_right|by eapply matches_seq_units].
Qed.
(** What matches is within the query. *)
Theorem C98_matches_are_within_the_query F P query b i j v : v ∈ results F P query b i j → i ≤ j ∧ (j ≤ length query ∨ i = j).
Proof.
  rewrite C98_what_matches. intros H. induction H; try lia.
  - apply lookup_lt_Some in H. lia.
  - apply lookup_lt_Some in H. lia.
Qed.

(** ** The blocks are those that are written *)
Definition consistent (l : list (block * nat)) : Prop := ∀ k f g, (k, f) ∈ l → (k, g) ∈ l → f = g.
Lemma find_static_elem k r f : find_static k r = Some f → (k, f) ∈ r.
Proof. induction r as [|[k' g] r IH]; simpl; [done|]. case_decide; [intros [= ->]; subst; by left|]. intros H'. right. auto. Qed.
Lemma make_same fl b : consistent fl → ∀ r, functions b ⊆ fl → r ⊆ fl → (make b r).1 = b ∧ (make b r).2 ⊆ fl.
Proof.
  intros C. induction b as [w|f| |b IH|a IHa b IHb|a IHa b IHb|d a IHa b IHb|t f b IH|p b IH]; intros r S R; try done; cbn [functions make] in *.
  - specialize (IH r S R). destruct (make b r) as [b' r']. simpl in *. by destruct IH as [-> ?].
  - specialize (IHa r ltac:(set_solver) R). destruct (make a r) as [a' ra]. simpl in *. destruct IHa as [-> RA].
    specialize (IHb ra ltac:(set_solver) RA). destruct (make b ra) as [b' rb]. simpl in *. by destruct IHb as [-> ?].
  - specialize (IHa r ltac:(set_solver) R). destruct (make a r) as [a' ra]. simpl in *. destruct IHa as [-> RA].
    specialize (IHb ra ltac:(set_solver) RA). destruct (make b ra) as [b' rb]. simpl in *. by destruct IHb as [-> ?].
  - specialize (IHa r ltac:(set_solver) R). destruct (make a r) as [a' ra]. simpl in *. destruct IHa as [-> RA].
    specialize (IHb ra ltac:(set_solver) RA). destruct (make b ra) as [b' rb]. simpl in *. by destruct IHb as [-> ?].
  - assert (M : (type_of (Map_ t f b), f) ∈ fl) by (apply S; by left). specialize (IH r ltac:(set_solver) R). destruct (make b r) as [b' r']. simpl in IH. destruct IH as [-> R'].
    destruct (find_static _ r') as [g|] eqn:E; cbn [fst snd]; [|split; [done|set_solver]]. apply find_static_elem in E. split; [|done]. f_equal. eapply C; [|exact M]. by apply R'.
  - assert (M : (type_of (Filter p b), p) ∈ fl) by (apply S; by left). specialize (IH r ltac:(set_solver) R). destruct (make b r) as [b' r']. simpl in IH. destruct IH as [-> R'].
    destruct (find_static _ r') as [g|] eqn:E; cbn [fst snd]; [|split; [done|set_solver]]. apply find_static_elem in E. split; [|done]. f_equal. eapply C; [|exact M]. by apply R'.
Qed.
Lemma make_all_same fl l : consistent fl → ∀ r, (∀ b, b ∈ l → functions b ⊆ fl) → r ⊆ fl → make_all l r = l.
Proof.
  intros C. induction l as [|b l IH]; intros r S R; simpl; [done|]. pose proof (make_same fl b C r (S b ltac:(by left)) R) as M. destruct (make b r) as [b' r']. simpl in M.
  destruct M as [-> R']. f_equal. apply IH; [|done]. intros b' H. apply S. by right.
Qed.
(** If no two Maps, or Filters, of the same type of block are of different functions, schemas match what is written. *)
Theorem C98_schemas_are_as_written l : consistent (l ≫= functions) → make_all l [] = l.
Proof.
  intros C. apply (make_all_same _ l C); [|set_solver]. intros b H x X. apply elem_of_list_bind. eauto.
Qed.
Lemma make_type b : ∀ r, type_of (make b r).1 = type_of b.
Proof.
  induction b as [w|f| |b IH|a IHa b IHb|a IHa b IHb|d a IHa b IHb|t f b IH|p b IH]; intros r; try done; cbn [make].
  - specialize (IH r). destruct (make b r). simpl in *. congruence.
  - specialize (IHa r). destruct (make a r) as [a' ra]. specialize (IHb ra). destruct (make b ra). simpl in *. congruence.
  - specialize (IHa r). destruct (make a r) as [a' ra]. specialize (IHb ra). destruct (make b ra). simpl in *. congruence.
  - specialize (IHa r). destruct (make a r) as [a' ra]. specialize (IHb ra). destruct (make b ra). simpl in *. congruence.
  - specialize (IH r). destruct (make b r) as [b' r']. simpl in IH. destruct (find_static _ r'); simpl; congruence.
  - specialize (IH r). destruct (make b r) as [b' r']. simpl in IH. destruct (find_static _ r'); simpl; congruence.
Qed.
Theorem C98_only_functions_can_differ l r : type_of <$> make_all l r = type_of <$> l.
Proof. revert r. induction l as [|b l IH]; intros r; simpl; [done|]. pose proof (make_type b r) as M. destruct (make b r) as [b' r']. simpl in *. by rewrite M, IH. Qed.

Definition ex_digit (w : list nat) : term := annotate None [([48], 0, VData 0); ([49], 0, VData 1); ([50], 0, VData 2); ([51], 0, VData 3)] w.
Definition ex_P (p : nat) (v : value) : bool := match v with VData n => bool_decide (n `mod` 2 = p) | _ => false end.
(** The second Filter of a block, or Map of a block to the same type, is the first one again: the static in MapHelper and FilterHelper (nlp.h 567, 575) is one for
    each type of block, and the function is not in the type. Filter(digit, even) and Filter(digit, odd) both give even digits. *)
Theorem C98_schemas_are_as_written_refuted :
  ¬ (∀ F P query l i b, l !! i = Some b → ∃ b', make_all l [] !! i = Some b' ∧ match_into_vector F P query b' = match_into_vector F P query b).
Proof.
  intros H. destruct (H (λ _ v, v) ex_P [ex_digit [50]] [Filter 0 (Dictionary 0); Filter 1 (Dictionary 0)] 1 (Filter 1 (Dictionary 0)) eq_refl) as (b' & B & E).
  vm_compute in B. injection B as <-. vm_compute in E. discriminate.
Qed.
(** Also within one schema: the sum of [Map(digit, Number, output.x = input.d)] and [Map(digit, Number, output.x = 10 * input.d)] *)
Theorem C98_blocks_are_as_written_refuted : ¬ (∀ F P query b, match_into_vector F P query (make b []).1 = match_into_vector F P query b).
Proof.
  intros H. set (F := λ f v, match v with VData n => VData (if decide (f = 0) then n else 10 * n) | v => v end).
  specialize (H F ex_P [ex_digit [50]; ex_digit [51]] (Seq L2R (Map_ (TData 7) 1 (Dictionary 0)) (Map_ (TData 7) 0 (Dictionary 0)))). vm_compute in H. discriminate.
Qed.
(** A Map to Unit of what can be found in several ways is found several times, and in a sequence so is what is before it: the code relies on there being one
    (nlp.h 358-361, 381). *)
Theorem C98_units_are_found_once_refuted : ¬ (∀ F P query b i j, emitted b = TUnit → length (results F P query b i j) ≤ 1).
Proof.
  intros H. set (t := annotate None [([49], 0, VData 1); ([49], 1, VData 1)] [49]).
  pose proof (H (λ _ _, VUnit) ex_P [t] (Map_ TUnit 0 (Or (Dictionary 0) (Dictionary 1))) 0 1 eq_refl) as K. vm_compute in K. lia.
Qed.

(** ** Annotation *)
Lemma annotate_fields n dict : ∀ u f, fields (foldl (λ u (e : list nat * nat * value), if decide (e.1.1 = n) then set_field e.1.2 e.2 u else u) u dict) f =
  match last (filter (λ e, e.1.1 = n ∧ e.1.2 = f) dict) with Some e => Some e.2 | None => fields u f end.
Proof.
  induction dict as [|e dict IH]; intros u f; simpl foldl; [done|]. rewrite IH, filter_cons. case_decide as N; case_decide as D; try (destruct D; congruence); rewrite ?last_cons.
  - destruct (last (filter _ dict)) as [e'|]; [done|]. destruct D as [_ <-]. simpl. by rewrite decide_True.
  - destruct (last (filter _ dict)) as [e'|]; [done|]. simpl. rewrite decide_False; [done|]. intros ->. by apply D.
  - done.
Qed.
Lemma annotate_normalized n dict : ∀ u, normalized (foldl (λ u (e : list nat * nat * value), if decide (e.1.1 = n) then set_field e.1.2 e.2 u else u) u dict) = normalized u.
Proof. induction dict as [|e dict IH]; intros u; simpl foldl; [done|]. rewrite IH. by case_decide. Qed.
(** A dictionary gives its field to exactly the words in it, whatever their case. *)
Theorem C98_dictionaries dict w f v : NoDup (fst <$> dict) →
  normalized (annotate None dict w) = to_lower w ∧ (fields (annotate None dict w) f = Some v ↔ (to_lower w, f, v) ∈ dict).
Proof.
  intros ND. unfold annotate. simpl. rewrite annotate_normalized. split; [done|]. rewrite annotate_fields. simpl. split.
  - destruct (last (filter _ dict)) as [[[k g] x]|] eqn:L; [|done]. intros [= <-]. apply last_Some in L as (l & L). assert (H : (k, g, x) ∈ l ++ [(k, g, x)]) by (rewrite elem_of_app, elem_of_list_singleton; auto). rewrite <- L in H.
    apply elem_of_list_filter in H as [[E1 E2] H]. simpl in *. by subst.
  - intros H. destruct (last (filter _ dict)) as [[[k g] x]|] eqn:L.
    + apply last_Some in L as (l & L). assert (K : (k, g, x) ∈ l ++ [(k, g, x)]) by (rewrite elem_of_app, elem_of_list_singleton; auto). rewrite <- L in K.
      apply elem_of_list_filter in K as [[E1 E2] K]. simpl in *. subst. apply elem_of_list_lookup in H as (n & H), K as (m & K).
      assert (n = m) as <-; [|congruence]. eapply NoDup_lookup; [exact ND| |]; rewrite list_lookup_fmap; [rewrite H|rewrite K]; done.
    + apply last_None in L. assert (K : (to_lower w, f, v) ∈ ([] : list (list nat * nat * value))) by (rewrite <- L; by apply elem_of_list_filter). by apply elem_of_nil in K.
Qed.
(** A keyword is matched by a word exactly if the word is the keyword in lower case. *)
Theorem C98_keywords F P dict w word : results F P [annotate None dict word] (Keyword w) 0 1 = if decide (to_lower word = w) then [VUnit] else [].
Proof.
  unfold results. change ([annotate None dict word] !! 0) with (Some (annotate None dict word)). cbv iota beta. replace (normalized (annotate None dict word)) with (to_lower word) by (unfold annotate; simpl; by rewrite annotate_normalized).
  destruct (decide (to_lower word = w)) as [E|E]; [by rewrite decide_True|]. rewrite decide_False; [done|]. by intros [_ ?].
Qed.
(** The case of the letters of a word makes no difference; a word without capitals stays as it is. *)
Theorem C98_case_makes_no_difference dict w w' :
  (Forall2 same_letter w w' → annotate None dict w = annotate None dict w') ∧ (Forall (λ c, ¬ capital c) w → to_lower w = w).
Proof.
  split.
  - intros H. unfold annotate. replace (to_lower w') with (to_lower w); [done|]. induction H as [|c d w w' S H IH]; [done|]. unfold to_lower in *. simpl. f_equal; [|done].
    unfold same_letter, capital in S. repeat case_decide; lia.
  - induction 1 as [|c w N H IH]; [done|]. change (to_lower (c :: w)) with ((if decide (65 <= c <= 90) then c + 32 else c) :: to_lower w). rewrite IH. f_equal. unfold capital in N. case_decide; lia.
Qed.
(** A keyword with a capital letter is never matched: the words of the query are put into lower case (nlp.h 583), and the keyword is not (inl 74). *)
Theorem C98_every_keyword_can_be_matched_refuted : ¬ (∀ F P dict w, ∃ word, results F P [annotate None dict word] (Keyword w) 0 1 ≠ []).
Proof.
  intros H. destruct (H (λ _ v, v) ex_P [] [65]) as (word & N). rewrite C98_keywords in N. case_decide as E; [|done]. destruct word as [|c word]; [done|]. simpl in E. injection E as E _.
  case_decide; lia.
Qed.

(** [add >> digit >> Void(Maybe(and)) >> digit], summed up; [digit | add], [digit << digit], and two words that are in two dictionaries *)
Definition w_add : list nat := [97;100;100].
Definition w_and : list nat := [97;110;100].
Definition ex_F (f : nat) (v : value) : value := match v with VTuple [VData m; VData n] => VData (m + n) | v => v end.
Definition ex_schema : block := Map_ (TData 9) 1 (Seq L2R (Keyword w_add) (Seq L2R (Seq L2R (Dictionary 0) (Void (Maybe (Keyword w_and)))) (Dictionary 0))).
Definition ex_odd : block := Filter 1 (Dictionary 0).
Definition ex_all : list block := [ex_schema; Or (Dictionary 0) (Keyword w_add); Seq R2L (Maybe (Dictionary 0)) (GreedyMaybe ex_odd); ex_odd].
Example ex_matches : match_into_vector ex_F ex_P (ex_digit <$> [[65;68;68]; [50]; w_and; [51]]) ex_schema = [VData 5] ∧
  match_into_vector ex_F ex_P (ex_digit <$> [w_add; [50]; [51]]) ex_schema = [VData 5] ∧
  just_match ex_F ex_P (ex_digit <$> [w_add; [50]; w_and]) ex_schema = None ∧
  match_into_vector ex_F ex_P [ex_digit [50]] (Or (Dictionary 0) (Keyword w_add)) = [VVariant (VData 2)] ∧
  match_into_vector ex_F ex_P [ex_digit [51]] (Seq R2L (Maybe (Dictionary 0)) (GreedyMaybe ex_odd)) =
    [VTuple [VVariant VUnit; VVariant (VData 3)]; VTuple [VVariant (VData 3); VVariant VUnit]] ∧
  just_match ex_F ex_P [ex_digit [51]] (Seq L2R (Maybe (Dictionary 0)) (GreedyMaybe ex_odd)) = Some (VTuple [VVariant VUnit; VVariant (VData 3)]).
Proof. vm_compute. repeat split; reflexivity. Qed.
Example ex_consistent : consistent (ex_all ≫= functions) ∧ (ex_all ≫= functions) ≠ [].
Proof.
  split; [|vm_compute; discriminate]. assert (E : ex_all ≫= functions = [(type_of ex_schema, 1); (type_of ex_odd, 1); (type_of ex_odd, 1)]) by reflexivity. rewrite E.
  intros k f g. rewrite !elem_of_cons, elem_of_nil. assert (O : ∀ a b : block, (k, f) = (a, 1) → (k, g) = (b, 1) → f = g) by (intros a b [= _ ->] [= _ ->]; reflexivity).
  intros [E1|[E1|[E1|E1]]] [E2|[E2|[E2|E2]]]; try (by apply elem_of_nil in E1); try (by apply elem_of_nil in E2); try done; eapply O; eassumption.
Qed.
Example ex_units : no_unit_maps (Seq L2R (Keyword w_add) (Void ex_schema)) ∧ emitted (Seq L2R (Keyword w_add) (Void ex_schema)) = TUnit ∧
  results ex_F ex_P (ex_digit <$> [w_add; w_add; [50]; [51]]) (Seq L2R (Keyword w_add) (Void ex_schema)) 0 4 = [VUnit].
Proof. split_and!; [repeat split; discriminate|reflexivity|vm_compute; reflexivity]. Qed.
(** A callback that stops after two *)
Example ex_stops : eval ex_F ex_P [ex_digit [51]] (Or (Dictionary 0) (Or (Map_ (TData 0) 2 (Dictionary 0)) (Dictionary 0))) 0 1 (λ v n, (S n, if decide (n = 1) then Some (User 5) else None)) 0 = (2, Some (User 5)).
Proof. vm_compute. reflexivity. Qed.

Print Assumptions C98_the_callback_gets_each_match.
Print Assumptions C98_matching.
Print Assumptions C98_what_matches.
Print Assumptions C98_units_are_found_once.
Print Assumptions C98_grouping_makes_no_difference.
Print Assumptions C98_direction_makes_no_difference.
Print Assumptions C98_matches_are_within_the_query.
Print Assumptions C98_schemas_are_as_written.
Print Assumptions C98_only_functions_can_differ.
Print Assumptions C98_schemas_are_as_written_refuted.
Print Assumptions C98_blocks_are_as_written_refuted.
Print Assumptions C98_units_are_found_once_refuted.
Print Assumptions C98_dictionaries.
Print Assumptions C98_keywords.
Print Assumptions C98_case_makes_no_difference.
Print Assumptions C98_every_keyword_can_be_matched_refuted.
