(** Proofs about schema inference. *)
From stdpp Require Import list strings sets.
From Coq Require Import ZArith Lia.
From Verif Require Import Json_Model Infer_Model Infer_Spec.

Lemma letter_alpha c : c ∈ letters ↔ bool_decide (c = 95%N) || is_alpha c = true.
Proof.
  unfold is_alpha. rewrite orb_true_iff, !bool_decide_eq_true. split.
  - intros H. unfold letters in H. cbn in H. repeat (apply elem_of_cons in H as [->|H]; [lia|]). inversion H.
  - intros H. assert (c = 95%N ∨ (∃ n, n < 26 ∧ c = (65 + N.of_nat n)%N) ∨ (∃ n, n < 26 ∧ c = (97 + N.of_nat n)%N)) as [->|[(n & Hn & ->)|(n & Hn & ->)]].
    { destruct H as [H|[H|H]]; [by left|right; left; exists (N.to_nat c - 65)|right; right; exists (N.to_nat c - 97)]; lia. }
    + apply elem_of_list_In. vm_compute. tauto.
    + do 26 (destruct n as [|n]; [apply elem_of_list_In; vm_compute; tauto|]). lia.
    + do 26 (destruct n as [|n]; [apply elem_of_list_In; vm_compute; tauto|]). lia.
Qed.
Lemma digit_is_digit c : c ∈ digits ↔ Dec.is_digit c = true.
Proof.
  unfold Dec.is_digit. rewrite andb_true_iff, !N.leb_le. split.
  - intros H. unfold digits in H. cbn in H. repeat (apply elem_of_cons in H as [->|H]; [lia|]). inversion H.
  - intros H. assert (∃ n, n < 10 ∧ c = (48 + N.of_nat n)%N) as (n & Hn & ->) by (exists (N.to_nat c - 48); lia).
    do 10 (destruct n as [|n]; [apply elem_of_list_In; vm_compute; tauto|]). lia.
Qed.
Lemma valid_identifier_spec k : valid_identifier k = true ↔ identifier k.
Proof.
  unfold identifier. destruct k as [|c k].
  - simpl. split; [done|]. intros [(? & ? & ? & _) _]. done.
  - cbn [valid_identifier]. rewrite !andb_true_iff, negb_true_iff, bool_decide_eq_false, <- letter_alpha, forallb_forall.
    assert ((c :: k) ∉ [[78; 85; 76; 76]; [110; 117; 108; 108]; [116; 114; 117; 101]; [102; 97; 108; 115; 101]]%N ↔
            c :: k ≠ text "NULL" ∧ c :: k ≠ text "null" ∧ c :: k ≠ text "true" ∧ c :: k ≠ text "false") as ->.
    { change (text "NULL") with [78; 85; 76; 76]%N. change (text "null") with [110; 117; 108; 108]%N.
      change (text "true") with [116; 114; 117; 101]%N. change (text "false") with [102; 97; 108; 115; 101]%N.
      rewrite !not_elem_of_cons. split; [naive_solver|]. intros (? & ? & ? & ?). repeat (split; [done|]). apply not_elem_of_nil. }
    assert ((∀ x, In x k → bool_decide (x = 95%N) || is_alpha x || Dec.is_digit x = true) ↔ ∀ c', c' ∈ k → c' ∈ letters ∨ c' ∈ digits) as ->.
    { split; intros H x Hx; specialize (H x ltac:(by apply elem_of_list_In)).
      - apply orb_true_iff in H as [H|H]; [left; by apply letter_alpha|right; by apply digit_is_digit].
      - apply orb_true_iff. destruct H as [H|H]; [left; by apply letter_alpha|right; by apply digit_is_digit]. }
    naive_solver.
Qed.

Lemma schema_rect_nested (P : schema → Prop) :
  P SUninitialized → (∀ i n, P (SString i n)) → (∀ u m i n, P (SInteger u m i n)) → (∀ i n, P (SDouble i n)) →
  (∀ f t n, P (SBool f t n)) → (∀ o, P (SNull o)) → (∀ e i n, P e → P (SArray e i n)) →
  (∀ fs i n, (∀ k s, (k, s) ∈ fs → P s) → P (SObject fs i n)) → ∀ s, P s.
Proof.
  intros HU HS HI HD HB HN HA HO. fix IH 1. intros [|i n|u m i n|i n|f t n|o|e i n|fs i n].
  - exact HU. - apply HS. - apply HI. - apply HD. - apply HB. - apply HN. - apply HA, IH.
  - apply HO. revert fs. fix IHl 1. intros [|[k' s'] fs] k s Hin.
    + inversion Hin.
    + apply elem_of_cons in Hin as [[= -> ->]|Hin]; [apply IH|exact (IHl fs k s Hin)].
Qed.
Lemma json_rect_nested (P : json → Prop) :
  P JNull → (∀ b, P (JBool b)) → (∀ z, P (JInt z)) → (∀ d, P (JDouble d)) → (∀ s, P (JStr s)) →
  (∀ l, (∀ j, j ∈ l → P j) → P (JArr l)) → (∀ ms, (∀ k j, (k, j) ∈ ms → P j) → P (JObj ms)) → ∀ j, P j.
Proof.
  intros HN HB HI HD HS HA HO. fix IH 1. intros [|b|z|d|s|l|ms].
  - exact HN. - apply HB. - apply HI. - apply HD. - apply HS.
  - apply HA. revert l. fix IHl 1. intros [|j' l] j Hin.
    + inversion Hin.
    + apply elem_of_cons in Hin as [->|Hin]; [apply IH|exact (IHl l j Hin)].
  - apply HO. revert ms. fix IHl 1. intros [|[k' s'] fs] k s Hin.
    + inversion Hin.
    + apply elem_of_cons in Hin as [[= -> ->]|Hin]; [apply IH|exact (IHl fs k s Hin)].
Qed.

Notation found := (list (option json)) (only parsing).

(** ** The readings of a position *)
Lemma given_app A B : given (A ++ B) = given A ++ given B. Proof. apply omap_app. Qed.
Lemma objects_app A B : objects (A ++ B) = objects A ++ objects B.
Proof. unfold objects. rewrite given_app. apply omap_app. Qed.
Lemma elements_app A B : elements (A ++ B) = elements A ++ elements B.
Proof. unfold elements. by rewrite given_app, omap_app, concat_app, filter_app, map_app. Qed.
Lemma lacking_app A B : lacking (A ++ B) ↔ lacking A ∨ lacking B.
Proof.
  unfold lacking. split.
  - intros (o & Ho & H). apply elem_of_app in Ho as [?|?]; eauto.
  - intros [(o & Ho & H)|(o & Ho & H)]; exists o; rewrite elem_of_app; auto.
Qed.
Lemma given_in A j : j ∈ given A ↔ Some j ∈ A ∧ j ≠ JNull.
Proof.
  unfold given. rewrite elem_of_list_omap. split.
  - intros (o & Ho & H). destruct o as [[]|]; simplify_eq; done.
  - intros [? ?]. exists (Some j). split; [done|]. by destruct j.
Qed.
Lemma nothing_given A : A ≠ [] → given A = [] → lacking A.
Proof.
  intros Hne H. destruct A as [|o A]; [done|]. exists o. split; [set_solver|].
  destruct o as [j|]; [|auto]. right. f_equal. destruct j; try done; simpl in H; discriminate.
Qed.
Lemma objects_in A ms : ms ∈ objects A ↔ JObj ms ∈ given A.
Proof.
  unfold objects. rewrite elem_of_list_omap. split.
  - intros (j & Hj & H). destruct j; by simplify_eq.
  - intros H. by exists (JObj ms).
Qed.
Lemma objects_nonempty A : given A ≠ [] → Forall (λ j, ∃ ms, j = JObj ms) (given A) → objects A ≠ [].
Proof.
  unfold objects. destruct (given A) as [|j l]; [done|]. intros _ H. inversion H as [|?? [ms ->]]; subst. done.
Qed.

(** ** No counter exceeds [W] *)
Fixpoint bounded (W : N) (s : schema) : Prop :=
  match s with
  | SUninitialized => True
  | SString i n | SInteger _ _ i n | SDouble i n => i ≤ W ∧ n ≤ W
  | SBool f t n => f ≤ W ∧ t ≤ W ∧ n ≤ W
  | SNull o => o ≤ W
  | SArray e i n => i ≤ W ∧ n ≤ W ∧ bounded W e
  | SObject fs i n => i ≤ W ∧ n ≤ W ∧ Forall id (map (λ '(_, s), bounded W s) fs)
  end%N.
Lemma bounded_fields W (fs : list (str * schema)) : Forall id (map (λ '(_, s), bounded W s) fs) ↔ ∀ k s, (k, s) ∈ fs → bounded W s.
Proof.
  rewrite Forall_map, Forall_forall. split.
  - intros H k s Hin. exact (H _ Hin).
  - intros H [k s] Hin. exact (H k s Hin).
Qed.
Lemma describes_fields ds (fs : list (str * schema)) :
  Forall id (map (λ '(k, s), describes s (map (field k) (objects ds))) fs) ↔
  ∀ k s, (k, s) ∈ fs → describes s (map (field k) (objects ds)).
Proof.
  rewrite Forall_map, Forall_forall. split.
  - intros H k s Hin. exact (H _ Hin).
  - intros H [k s] Hin. exact (H k s Hin).
Qed.
Lemma bounded_mono W W' s : (W ≤ W')%N → bounded W s → bounded W' s.
Proof.
  intros HW. induction s as [| | | | | |e i n IH|fs i n IH] using schema_rect_nested; simpl; try lia.
  - intros (?&?&?). repeat split; [lia..|auto].
  - rewrite !bounded_fields. intros (?&?&H). repeat split; [lia..|]. intros k s Hin. eauto.
Qed.
Lemma add32_small a b : (a + b < 2 ^ 32)%N → add32 a b = (a + b)%N.
Proof. intros H. unfold add32. apply N.mod_small. lia. Qed.

(** ** Adding nulls *)
Lemma add_nulls_describes o s ds dd W :
  describes s ds → given dd = given ds → lacking dd → o ≠ 0%N → bounded W s → (W + o < 2 ^ 32)%N →
  describes (add_nulls o s) dd ∧ bounded (W + o) (add_nulls o s).
Proof.
  intros Hd Hg Hl Ho Hb HW.
  assert (dd ≠ []) as Hdd. { intros ->. destruct Hl as (?&Hin&_). inversion Hin. }
  assert (objects dd = objects ds) as Hobj by (unfold objects; by rewrite Hg).
  assert (elements dd = elements ds) as Hel by (unfold elements; by rewrite Hg).
  destruct s; simpl in *; rewrite ?Hg, ?Hobj, ?Hel.
  - subst ds. repeat split; auto; lia.
  - destruct Hd as (Ha & Hi & Hn). rewrite add32_small by lia. split; [split; [exact Ha|split; [exact Hi|]]|lia]. split; [done|intros; lia].
  - destruct Hd as (Ha & (Hi & Hn) & Hu). rewrite add32_small by lia. split; [split; [exact Ha|split; [split; [exact Hi|]|exact Hu]]|lia]. split; [done|intros; lia].
  - destruct Hd as (Ha & (Hi & Hn) & Hu). rewrite add32_small by lia. split; [split; [exact Ha|split; [split; [exact Hi|]|exact Hu]]|lia]. split; [done|intros; lia].
  - destruct Hd as (Ha & Hn & Hu). rewrite add32_small by lia. split; [split; [exact Ha|split; [|exact Hu]]|lia]. split; [done|intros; lia].
  - destruct Hd as (Ha & Hn & Hu). rewrite add32_small by lia. repeat split; [exact Hdd|exact Hn|lia|lia].
  - destruct Hd as (Ha & (Hi & Hn) & Hu). destruct Hb as (?&?&Hb). rewrite add32_small by lia.
    split; [split; [exact Ha|split; [split; [exact Hi|]|exact Hu]]|]; [split; [done|intros; lia]|].
    repeat split; [lia..|]. eapply bounded_mono; [|apply Hb]. lia.
  - destruct Hd as (Ha & (Hi & Hn) & Hu). destruct Hb as (?&?&Hb). rewrite add32_small by lia.
    split; [split; [exact Ha|split; [split; [exact Hi|]|exact Hu]]|]; [split; [done|intros; lia]|].
    repeat split; [lia..|]. rewrite bounded_fields in *. intros k s Hin. eapply bounded_mono; [|eapply Hb, Hin]. lia.
Qed.

(** ** Lookups *)
Lemma last_of_fst {A} k (l : list (str * A)) : last_of k l = None ↔ k ∉ l.*1.
Proof.
  induction l as [|[k' a] l IH]; simpl; [set_solver|]. rewrite elem_of_cons.
  destruct (last_of k l) eqn:E.
  - split; [done|]. intros H. exfalso. assert (k ∉ l.*1) as H' by tauto. apply IH in H'. done.
  - case_decide; subst; split; try done; try tauto. intros _ [->|?]; [done|]. by apply IH.
Qed.
Lemma last_of_in {A} k (l : list (str * A)) a : last_of k l = Some a → (k, a) ∈ l.
Proof.
  induction l as [|[k' b] l IH]; simpl; [done|]. destruct (last_of k l); rewrite elem_of_cons.
  - intros [= ->]. auto.
  - case_decide; [|done]. intros [= ->]. left. congruence.
Qed.
Lemma nodup_fst_unique {A} (l : list (str * A)) k a b : NoDup l.*1 → (k, a) ∈ l → (k, b) ∈ l → a = b.
Proof.
  induction l as [|[k' c] l IH]; simpl; [intros _ H; inversion H|].
  rewrite NoDup_cons, !elem_of_cons. intros [Hn Hd] [[= -> ->]|Ha] [[= ->]|Hb]; auto.
  - exfalso. apply Hn. apply elem_of_list_fmap. by exists (k', b).
  - exfalso. subst. apply Hn. apply elem_of_list_fmap. by exists (k', a).
Qed.
Lemma in_fst {A} (l : list (str * A)) k : k ∈ l.*1 ↔ ∃ a, (k, a) ∈ l.
Proof.
  rewrite elem_of_list_fmap. split.
  - intros ([? a] & -> & ?). by exists a.
  - intros [a ?]. by exists (k, a).
Qed.
Lemma collect_inr {A B} (f : A → infer_error + B) l r : collect (map f l) = inr r → Forall2 (λ a b, f a = inr b) l r.
Proof.
  revert r. induction l as [|a l IH]; simpl; intros r; [intros [= <-]; constructor|].
  destruct (f a) eqn:E; simpl; [done|]. destruct (collect (map f l)) eqn:E'; simpl; [done|]. intros [= <-]. constructor; auto.
Qed.
Lemma collect_succeeds {A B} (f : A → infer_error + B) l : (∀ a, a ∈ l → ∃ b, f a = inr b) → ∃ r, collect (map f l) = inr r.
Proof.
  induction l as [|a l IH]; simpl; intros H; [eauto|].
  destruct (H a) as [b ->]; [set_solver|]. destruct IH as [r ->]; [set_solver|]. simpl. eauto.
Qed.

(** ** Merging *)
Lemma all_given_app (P : json → Prop) A B :
  given A ≠ [] ∧ Forall P (given A) → Forall P (given B) → given (A ++ B) ≠ [] ∧ Forall P (given (A ++ B)).
Proof.
  intros [Hn HA] HB. rewrite given_app. split; [|by apply Forall_app].
  intros H. apply app_eq_nil in H as [??]. done.
Qed.
Lemma counts_app A B i i' n n' :
  i = N.of_nat (length (given A)) ∧ (n ≠ 0%N ↔ lacking A) → i' = N.of_nat (length (given B)) ∧ (n' ≠ 0%N ↔ lacking B) →
  (i + i' < 2 ^ 32)%N → (n + n' < 2 ^ 32)%N →
  add32 i i' = N.of_nat (length (given (A ++ B))) ∧ (add32 n n' ≠ 0%N ↔ lacking (A ++ B)).
Proof.
  intros [-> Hn] [-> Hn'] ??. rewrite !add32_small by done. rewrite given_app, app_length, lacking_app, <- Hn, <- Hn'. lia.
Qed.
Lemma how_many_app b l l' : how_many b (l ++ l') = (how_many b l + how_many b l')%N.
Proof. unfold how_many. rewrite filter_app, app_length. lia. Qed.
Lemma int64_dec z : Decision (int64 z). Proof. unfold int64. apply _. Qed.

Lemma forall_given_app (P : Z → Prop) A B :
  (∀ z, JInt z ∈ given (A ++ B) → P z) ↔ (∀ z, JInt z ∈ given A → P z) ∧ (∀ z, JInt z ∈ given B → P z).
Proof. rewrite given_app. setoid_rewrite elem_of_app. naive_solver. Qed.
Lemma andb_iff (b b' : bool) (P Q : Prop) : (b = true ↔ P) → (b' = true ↔ Q) → (b && b' = true ↔ P ∧ Q).
Proof. rewrite andb_true_iff. tauto. Qed.

(** The fields of the union. *)
Lemma union_nodup (fs fs' : list (str * schema)) : NoDup fs.*1 → NoDup fs'.*1 → NoDup (fs.*1 ++ filter (λ k, k ∉ fs.*1) fs'.*1).
Proof.
  intros H H'. apply NoDup_app. split; [done|]. split.
  - intros k Hk. rewrite elem_of_list_filter. tauto.
  - by apply NoDup_filter.
Qed.
Lemma union_in (fs fs' : list (str * schema)) k : k ∈ fs.*1 ++ filter (λ k, k ∉ fs.*1) fs'.*1 ↔ k ∈ fs.*1 ∨ k ∈ fs'.*1.
Proof. rewrite elem_of_app, elem_of_list_filter. destruct (decide (k ∈ fs.*1)); tauto. Qed.

Definition merged_field (fs fs' : list (str * schema)) (k : str) : infer_error + (str * schema) :=
  bind (match last_of k fs, last_of k fs' with
        | None, Some s => inr (add_nulls 1 s)
        | Some s, None => reduce s (SNull 1)
        | Some s, Some s' => reduce s s'
        | None, None => inl IncompatibleTypes
        end) (λ s, inr (k, s)).
Lemma last_of_map {A B} (f : A → B) k (l : list (str * A)) : last_of k (map (λ '(k, a), (k, f a)) l) = f <$> last_of k l.
Proof. induction l as [|[k' a] l IH]; simpl; [done|]. rewrite IH. destruct (last_of k l); simpl; [done|]. by case_decide. Qed.
Lemma reduce_objects fs i n fs' i' n' :
  reduce (SObject fs i n) (SObject fs' i' n') =
  bind (collect (map (merged_field fs fs') (fs.*1 ++ filter (λ k, k ∉ fs.*1) fs'.*1)))
       (λ fields, inr (SObject fields (add32 i i') (add32 n n'))).
Proof.
  cbn [reduce]. f_equal. f_equal. apply map_ext. intros k. unfold merged_field. f_equal. rewrite last_of_map.
  by destruct (last_of k fs), (last_of k fs').
Qed.

(** A field that no object has. *)
Lemma absent_field ds k (fs : list (str * schema)) :
  objects ds ≠ [] → (∀ k, k ∈ fs.*1 ↔ ∃ ms, ms ∈ objects ds ∧ is_Some (field k ms)) → k ∉ fs.*1 →
  describes (SNull 1) (map (field k) (objects ds)).
Proof.
  intros Hne Hf Hk. simpl. split; [|split; [|done]].
  - by destruct (objects ds).
  - destruct (given (map (field k) (objects ds))) as [|j l] eqn:E; [done|]. exfalso. apply Hk, Hf.
    assert (j ∈ given (map (field k) (objects ds))) as Hj by (rewrite E; set_solver).
    apply given_in in Hj as [Hj _]. apply elem_of_list_fmap in Hj as (ms & Hj & Hms). exists ms. split; [done|]. rewrite <- Hj. eauto.
Qed.

Lemma reduce_ok a : ∀ b A B Wa Wb s,
  describes a A → describes b B → bounded Wa a → bounded Wb b → (1 ≤ Wa)%N → (1 ≤ Wb)%N → (Wa + Wb < 2 ^ 32)%N →
  reduce a b = inr s → describes s (A ++ B) ∧ bounded (Wa + Wb) s.
Proof.
  induction a as [|i n|u m i n|i n|f t n|o|e i n IH|fs i n IH] using schema_rect_nested; intros b A B Wa Wb s Ha Hb Ba Bb H1 H1' HW Hr.
  { simpl in Ha. subst A. simpl in Hr. injection Hr as <-. split; [done|]. eapply bounded_mono; [|done]. lia. }
  5: { simpl in Ha. destruct Ha as (Hne & Hg & Ho).
       assert (inr (add_nulls o b) = (inr s : result)) as Hr' by (rewrite <- Hr; by destruct b). injection Hr' as <-. simpl in Ba.
       destruct (add_nulls_describes o b B (A ++ B) Wb) as [H H']; auto.
       - by rewrite given_app, Hg.
       - apply lacking_app. left. by apply nothing_given.
       - lia.
       - split; [done|]. eapply bounded_mono; [|done]. lia. }
  all: destruct b as [|i' n'|u' m' i' n'|i' n'|f' t' n'|o'|e' i' n'|fs' i' n']; try (simpl in Hr; discriminate Hr).
  all: try (simpl in Hb; subst B; rewrite app_nil_r; cbn [reduce] in Hr; injection Hr as <-; split; [done|]; eapply bounded_mono; [|done]; lia).
  all: try (destruct Hb as (Hne & Hg & Ho); cbn [reduce] in Hr; injection Hr as <-; simpl in Bb;
       edestruct (add_nulls_describes o' _ A (A ++ B) Wa Ha) as [H H']; [rewrite given_app, Hg; apply app_nil_r|apply lacking_app; right; exact (nothing_given _ Hne Hg)|exact Ho|exact Ba|lia|];
       split; [exact H|eapply bounded_mono; [|exact H']; lia]).
  - (* String *) simpl in *. injection Hr as <-. destruct Ha as [Ha Hc], Hb as [Hb Hc'].
    split; [split; [apply all_given_app; tauto|apply counts_app; auto; lia]|cbn [bounded]; rewrite !add32_small by lia; lia].
  - (* Integer *) simpl in *. injection Hr as <-. destruct Ha as (Ha & Hc & Hu & Hm), Hb as (Hb & Hc' & Hu' & Hm').
    split; [split; [apply all_given_app; tauto|split; [apply counts_app; auto; lia|]]|cbn [bounded]; rewrite !add32_small by lia; lia].
    rewrite !forall_given_app. split; by apply andb_iff.
  - (* Integer, Double *) simpl in *. injection Hr as <-. destruct Ha as (Ha & Hc & Hu & Hm), Hb as (Hb & Hc' & Hj).
    split; [split; [|split; [apply counts_app; auto; lia|]]|cbn [bounded]; rewrite !add32_small by lia; lia].
    + apply all_given_app; [|tauto]. split; [tauto|]. eapply Forall_impl; [apply Ha|]. naive_solver.
    + destruct Hj as (j & Hj & ?). exists j. rewrite given_app, elem_of_app. auto.
  - (* Double, Integer *) simpl in *. injection Hr as <-. destruct Ha as (Ha & Hc & Hj), Hb as (Hb & Hc' & Hu & Hm).
    split; [split; [|split; [apply counts_app; auto; lia|]]|cbn [bounded]; rewrite !add32_small by lia; lia].
    + apply all_given_app; [tauto|]. eapply Forall_impl; [apply Hb|]. naive_solver.
    + destruct Hj as (j & Hj & ?). exists j. rewrite given_app, elem_of_app. auto.
  - (* Double *) simpl in *. injection Hr as <-. destruct Ha as (Ha & Hc & Hj), Hb as (Hb & Hc' & Hj').
    split; [split; [apply all_given_app; tauto|split; [apply counts_app; auto; lia|]]|cbn [bounded]; rewrite !add32_small by lia; lia].
    destruct Hj as (j & Hj & ?). exists j. rewrite given_app, elem_of_app. auto.
  - (* Bool *) simpl in *. injection Hr as <-. destruct Ha as (Ha & Hc & Hf & Ht), Hb as (Hb & Hc' & Hf' & Ht').
    rewrite !add32_small by lia. split; [split; [apply all_given_app; tauto|split]|cbn [bounded]; lia].
    + rewrite lacking_app, <- Hc, <- Hc'. lia.
    + rewrite given_app, !how_many_app. subst. done.
  - (* Array *) cbn [reduce] in Hr. destruct (reduce e e') as [|e''] eqn:E; [done|]. simpl in Hr. injection Hr as <-. simpl in *.
    destruct Ha as (Ha & Hc & Hne & He), Hb as (Hb & Hc' & Hne' & He'). destruct Ba as (?&?&Ba), Bb as (?&?&Bb).
    destruct (IH e' (elements A) (elements B) Wa Wb e'') as [Hd HB]; auto.
    split; [split; [apply all_given_app; tauto|split; [apply counts_app; auto; lia|]]|cbn [bounded]; rewrite !add32_small by lia; repeat split; [lia..|done]].
    rewrite elements_app. split; [|done]. destruct (elements A); done.
  - (* Object *) rewrite reduce_objects in Hr.
    destruct (collect _) as [|fields] eqn:E; [done|]. simpl in Hr. injection Hr as <-.
    apply collect_inr in E. simpl in Ha, Hb, Ba, Bb.
    destruct Ha as (Ha & Hc & Hnd & Hfs & Hd), Hb as (Hb & Hc' & Hnd' & Hfs' & Hd').
    destruct Ba as (?&?&Ba), Bb as (?&?&Bb). rewrite bounded_fields in Ba, Bb. rewrite describes_fields in Hd, Hd'.
    assert (fields.*1 = fs.*1 ++ filter (λ k, k ∉ fs.*1) fs'.*1) as Hfst.
    { clear -E. revert E. generalize (fs.*1 ++ filter (λ k, k ∉ fs.*1) fs'.*1) as l0. intros l0 E.
      induction E as [|k [k' s] l l' Hk E IH]; [done|]. rewrite fmap_cons, IH. f_equal.
      unfold merged_field in Hk. destruct (match last_of k fs with Some _ => _ | None => _ end); simpl in Hk; [done|]. by injection Hk as <-. }
    assert (objects A ≠ []) as HoA by (apply objects_nonempty; tauto).
    assert (objects B ≠ []) as HoB by (apply objects_nonempty; tauto).
    assert (∀ k s, (k, s) ∈ fields → describes s (map (field k) (objects (A ++ B))) ∧ bounded (Wa + Wb) s) as Hfields.
    { intros k s Hin. apply elem_of_list_lookup in Hin as [x Hx].
      destruct (Forall2_lookup_r _ _ _ _ _ E Hx) as (k' & Hk' & Hm).
      apply elem_of_list_lookup_2 in Hk'. rewrite union_in in Hk'.
      rewrite objects_app, map_app. unfold merged_field in Hm.
      destruct (last_of k' fs) as [s1|] eqn:E1, (last_of k' fs') as [s2|] eqn:E2; simpl in Hm.
      - destruct (reduce s1 s2) as [|s3] eqn:E3; [done|]. simpl in Hm. injection Hm as -> ->.
        apply last_of_in in E1, E2. eapply IH; eauto.
      - destruct (reduce s1 (SNull 1)) as [|s3] eqn:E3; [done|]. simpl in Hm. injection Hm as -> ->.
        apply last_of_in in E1. apply last_of_fst in E2. eapply (IH _ _ E1 (SNull 1)); eauto.
        eapply absent_field; eauto.
      - injection Hm as -> <-. apply last_of_fst in E1. apply last_of_in in E2.
        pose proof (absent_field A k fs HoA Hfs E1) as (Hne & Hg & _).
        destruct (add_nulls_describes 1 s2 (map (field k) (objects B)) (map (field k) (objects A) ++ map (field k) (objects B)) Wb) as [H' H'']; eauto.
        + by rewrite given_app, Hg.
        + apply lacking_app. left. by apply nothing_given.
        + lia.
        + split; [done|]. eapply bounded_mono; [|done]. lia.
      - done. }
    simpl. split; [split; [apply all_given_app; tauto|split; [apply counts_app; auto; lia|]]|].
    + rewrite Hfst. split; [by apply union_nodup|]. split.
      * intros k. rewrite union_in, Hfs, Hfs', objects_app. setoid_rewrite elem_of_app. naive_solver.
      * apply describes_fields. intros k s Hin. by apply Hfields.
    + rewrite !add32_small by lia. repeat split; [lia..|]. apply bounded_fields. intros k s Hin. by eapply Hfields.
Qed.

(** ** One document *)
Fixpoint infer_members (ignored : str → bool) (path : str) (ms : list (str * json)) : infer_error + list (str * schema) :=
  match ms with
  | [] => inr []
  | (key, inner) :: ms' =>
      if is_empty_array inner then infer_members ignored path ms'
      else if ignored (member_path path key) then infer_members ignored path ms'
      else if valid_identifier key
           then bind (infer ignored (member_path path key) inner) (λ s, bind (infer_members ignored path ms') (λ fs, inr ((key, s) :: fs)))
           else inl InvalidCPPIdentifier
  end.
Fixpoint infer_elements (ignored : str → bool) (path : str) (i : nat) (element : schema) (l : list json) : result :=
  match l with
  | [] => inr element
  | inner :: l' =>
      if is_empty_array inner then infer_elements ignored path (S i) element l'
      else bind (infer ignored (element_path path i) inner) (λ s, bind (reduce element s) (λ e, infer_elements ignored path (S i) e l'))
  end.
Lemma infer_object ig path ms : infer ig path (JObj ms) = bind (infer_members ig path ms) (λ fs, inr (SObject fs 1 0)).
Proof.
  simpl. f_equal. induction ms as [|[k j] ms IH]; [done|]. simpl. rewrite IH. done.
Qed.
Lemma infer_array ig path j l :
  infer ig path (JArr (j :: l)) =
  bind (infer_elements ig path 0 SUninitialized (j :: l)) (λ e, match e with SUninitialized => inl ArrayOfNullsOrEmptyArrays | _ => inr (SArray e 1 0) end).
Proof.
  enough (∀ l' e i, (fix elements (i : nat) (element : schema) (l : list json) : result :=
        match l with
        | [] => inr element
        | inner :: l' =>
            if is_empty_array inner then elements (S i) element l'
            else bind (infer ig (element_path path i) inner) (λ s, bind (reduce element s) (λ e, elements (S i) e l'))
        end) i e l' = infer_elements ig path i e l') as H
    by exact (f_equal (λ r, bind r (λ e, match e with SUninitialized => inl ArrayOfNullsOrEmptyArrays | _ => inr (SArray e 1 0) end)) (H (j :: l) SUninitialized 0)).
  clear j l. induction l' as [|j l' IH]; intros e i; [done|]. cbn [infer_elements]. destruct (is_empty_array j); [apply IH|].
  destruct (infer _ _ j) as [|s]; simpl; [done|]. destruct (reduce e s); simpl; [done|]. apply IH.
Qed.

Definition nothing : str → bool := λ _, false.
Fixpoint stripped_members (ignored : str → bool) (path : str) (ms : list (str * json)) :=
  match ms with
  | [] => []
  | (k, j) :: ms' => if ignored (member_path path k) then stripped_members ignored path ms' else (k, stripped ignored (member_path path k) j) :: stripped_members ignored path ms'
  end.
Fixpoint stripped_elements (ignored : str → bool) (path : str) (i : nat) (l : list json) :=
  match l with [] => [] | j :: l' => stripped ignored (element_path path i) j :: stripped_elements ignored path (S i) l' end.
Lemma stripped_object ig path ms : stripped ig path (JObj ms) = JObj (stripped_members ig path ms).
Proof. simpl. f_equal. induction ms as [|[k j] ms IH]; [done|]. simpl. by rewrite IH. Qed.
Lemma stripped_array ig path l : stripped ig path (JArr l) = JArr (stripped_elements ig path 0 l).
Proof. simpl. f_equal. generalize 0 as i. induction l as [|j l IH]; intros i; [done|]. simpl. by rewrite IH. Qed.
Lemma stripped_empty ig path j : is_empty_array (stripped ig path j) = is_empty_array j.
Proof. destruct j as [| | | | |[|j l]|]; reflexivity. Qed.

Lemma infer_stripped ig d : ∀ path p, infer ig path d = infer nothing p (stripped ig path d).
Proof.
  induction d as [|b|z|d|s|l IH|ms IH] using json_rect_nested; intros path p; try done.
  - rewrite stripped_array. destruct l as [|j l]; [done|]. rewrite infer_array.
    change (stripped_elements ig path 0 (j :: l)) with (stripped ig (element_path path 0) j :: stripped_elements ig path 1 l).
    rewrite infer_array. change (stripped ig (element_path path 0) j :: stripped_elements ig path 1 l) with (stripped_elements ig path 0 (j :: l)).
    f_equal. revert IH. generalize (j :: l) as l'. clear j l. intros l. generalize SUninitialized as e, 0 as i.
    induction l as [|j l IHl]; intros e i IH; [done|]. simpl. rewrite stripped_empty.
    destruct (is_empty_array j). { apply IHl. intros j' Hj'. apply IH. set_solver. }
    rewrite (IH j) with (p := element_path p i) by set_solver.
    destruct (infer nothing _ _); simpl; [done|]. destruct (reduce e s); simpl; [done|]. apply IHl. intros j' Hj'. apply IH. set_solver.
  - rewrite stripped_object, !infer_object. f_equal. induction ms as [|[k j] ms IHm]; [done|]. simpl.
    assert (infer_members ig path ms = infer_members nothing p (stripped_members ig path ms)) as Hms.
    { apply IHm. intros k' j' Hin. eapply (IH k'). set_solver. }
    destruct (ig (member_path path k)); simpl; rewrite ?stripped_empty.
    + by destruct (is_empty_array j).
    + destruct (is_empty_array j); [done|]. destruct (valid_identifier k); [|done].
      rewrite (IH k j) with (p := member_path p k) by set_solver. by rewrite Hms.
Qed.

(** A document that is not an empty array, the names in which are distinct. *)
Lemma size_pos j : (1 ≤ size j)%N. Proof. destruct j; simpl; lia. Qed.
Lemma sum_in {A} (f : A → N) a l : a ∈ l → (f a ≤ foldr N.add 0 (map f l))%N.
Proof. induction 1; simpl; lia. Qed.
Lemma distinct_keys_array l : distinct_keys (JArr l) ↔ ∀ j, j ∈ l → distinct_keys j.
Proof. simpl. rewrite Forall_map, Forall_forall. done. Qed.
Lemma distinct_keys_object ms : distinct_keys (JObj ms) ↔ NoDup ms.*1 ∧ ∀ k j, (k, j) ∈ ms → distinct_keys j.
Proof.
  simpl. rewrite Forall_map, Forall_forall. split; intros [? H]; (split; [done|]).
  - intros k j Hin. exact (H _ Hin).
  - intros [k j] Hin. exact (H k j Hin).
Qed.
Lemma member_in k j ms : member k ms = Some j → (k, j) ∈ ms.
Proof.
  induction ms as [|[k' j'] ms IH]; simpl; [done|]. rewrite elem_of_cons. case_decide; [|auto]. intros [= ->]. left. congruence.
Qed.
Lemma member_nodup k j ms : NoDup ms.*1 → (k, j) ∈ ms → member k ms = Some j.
Proof.
  induction ms as [|[k' j'] ms IH]; simpl; [intros _ H; inversion H|]. rewrite NoDup_cons, elem_of_cons.
  intros [Hn Hd] [[= -> ->]|Hin]; case_decide; subst; try done; [|auto]. exfalso. apply Hn, in_fst. eauto.
Qed.

Lemma infer_members_fields ms : ∀ p fs, infer_members nothing p ms = inr fs →
  fs.*1 = (filter (λ m, is_empty_array m.2 = false) ms).*1 ∧
  (∀ k s, (k, s) ∈ fs → ∃ j, (k, j) ∈ ms ∧ is_empty_array j = false ∧ infer nothing (member_path p k) j = inr s) ∧
  (∀ k j, (k, j) ∈ ms → is_empty_array j = false → valid_identifier k = true ∧ ∃ s, infer nothing (member_path p k) j = inr s).
Proof.
  induction ms as [|[k j] ms IH]; intros p fs H; simpl in H.
  { injection H as <-. split; [done|]. split; intros ?? Hin; inversion Hin. }
  rewrite filter_cons. simpl. destruct (is_empty_array j) eqn:E.
  - destruct (IH _ _ H) as (H1 & H2 & H3). destruct (decide (true = false)); [done|]. split; [done|]. split.
    + intros k' s' Hin. destruct (H2 k' s' Hin) as (j' & ? & ?). exists j'. set_solver.
    + intros k' j' Hin. apply elem_of_cons in Hin as [[= -> ->]|Hin]; [congruence|eauto].
  - destruct (valid_identifier k) eqn:V; [|done]. destruct (infer nothing (member_path p k) j) as [|s] eqn:Hs; [done|]. simpl in H.
    destruct (infer_members nothing p ms) as [|fs'] eqn:Hm; [done|]. simpl in H. injection H as <-.
    destruct (IH _ _ Hm) as (H1 & H2 & H3). destruct (decide (false = false)); [|done]. split; [by csimpl; rewrite H1|]. split.
    + intros k' s' Hin. apply elem_of_cons in Hin as [[= -> ->]|Hin]; [exists j; set_solver|].
      destruct (H2 k' s' Hin) as (j' & ? & ?). exists j'. set_solver.
    + intros k' j' Hin Hj. apply elem_of_cons in Hin as [[= -> ->]|Hin]; [eauto|eauto].
Qed.

Lemma nodup_filter_fst {A} (P : str * A → Prop) `{∀ x, Decision (P x)} (l : list (str * A)) : NoDup l.*1 → NoDup (filter P l).*1.
Proof.
  induction l as [|x l IH]; [done|]. csimpl. rewrite NoDup_cons, filter_cons. intros [Hx Hl]. destruct (decide (P x)); [|auto].
  csimpl. apply NoDup_cons. split; [|auto]. intros Hin. apply Hx. apply elem_of_list_fmap in Hin as (y & -> & Hy).
  apply elem_of_list_filter in Hy as [_ Hy]. apply elem_of_list_fmap. eauto.
Qed.
Lemma infer_ok d : ∀ p s, is_empty_array d = false → distinct_keys d → (size d < 2 ^ 32)%N → infer nothing p d = inr s →
  describes s [Some d] ∧ bounded (size d) s ∧ suitable d.
Proof.
  induction d as [|b|z|d|t|l IH|ms IH] using json_rect_nested; intros p s Hd Hk Hsz H.
  - simpl in H. injection H as <-. simpl. repeat split; done || lia.
  - simpl in H. injection H as <-.
    assert (lacking [Some (JBool b)] ↔ False) as Hl.
    { split; [|done]. intros (o & Ho & Hx). apply elem_of_list_singleton in Ho. subst. naive_solver. }
    destruct b; simpl; rewrite Hl; (split; [split; [split; [done|repeat constructor; eauto]|]|split; [lia|done]]); split; (done || lia).
  - simpl in H.
    assert (lacking [Some (JInt z)] ↔ False) as Hl.
    { split; [|done]. intros (o & Ho & Hx). apply elem_of_list_singleton in Ho. subst. naive_solver. }
    case_bool_decide; injection H as <-; simpl; rewrite Hl.
    + split; [|split; [lia|done]]. split; [split; [done|repeat constructor; eauto]|]. split; [split; [done|lia]|].
      split; rewrite bool_decide_eq_true; (split; [intros ? z' Hin|intros Hz; apply Hz; set_solver]); apply elem_of_list_singleton in Hin; by injection Hin as ->.
    + split; [|split; [lia|done]]. split; [split; [done|repeat constructor; eauto]|]. split; [split; [done|lia]|].
      exists (JInt z). split; [set_solver|]. intros (z' & [= ->] & ?). done.
  - simpl in H. injection H as <-.
    assert (lacking [Some (JDouble d)] ↔ False) as Hl.
    { split; [|done]. intros (o & Ho & Hx). apply elem_of_list_singleton in Ho. subst. naive_solver. }
    simpl; rewrite Hl. split; [|split; [lia|done]]. split; [split; [done|constructor; [eauto|constructor]]|]. split; [split; [done|lia]|].
    exists (JDouble d). split; [set_solver|]. naive_solver.
  - simpl in H. injection H as <-.
    assert (lacking [Some (JStr t)] ↔ False) as Hl.
    { split; [|done]. intros (o & Ho & Hx). apply elem_of_list_singleton in Ho. subst. naive_solver. }
    simpl; rewrite Hl. split; [|split; [lia|done]]. split; [split; [done|repeat constructor; eauto]|]. split; [done|lia].
  - destruct l as [|j0 l0]; [done|]. rewrite infer_array in H. remember (j0 :: l0) as l eqn:El. clear El Hd j0 l0.
    assert (lacking [Some (JArr l)] ↔ False) as Hl.
    { split; [|done]. intros (o & Ho & Hx). apply elem_of_list_singleton in Ho. subst. naive_solver. }
    rewrite distinct_keys_array in Hk.
    set (keep := λ l : list json, map Some (filter (λ j, is_empty_array j = false) l)).
    assert (∀ l' i e A W, (∀ j, j ∈ l' → j ∈ l) → describes e A → bounded W e → (1 ≤ W)%N → (W + foldr N.add 0 (map size l') < 2 ^ 32)%N →
      ∀ r, infer_elements nothing p i e l' = inr r → describes r (A ++ keep l') ∧ bounded (W + foldr N.add 0%N (map size l')) r ∧
        Forall (λ j, is_empty_array j = false → suitable j) l') as Hfold.
    { induction l' as [|j l' IHl]; intros i e A W Hin HA HW H1 Hsum r Hr; simpl in Hr.
      - injection Hr as <-. unfold keep. rewrite filter_nil. simpl. rewrite app_nil_r, N.add_0_r. auto.
      - simpl in Hsum. unfold keep. rewrite filter_cons. destruct (is_empty_array j) eqn:Ej.
        + edestruct (IHl (S i) e A W) as (? & ? & ?); eauto; [set_solver|lia|].
          destruct (decide (true = false)); [done|]. split; [done|]. split; [simpl; eapply bounded_mono; [|done]; lia|]. constructor; [congruence|done].
        + destruct (infer nothing _ j) as [|sj] eqn:Hj; [done|]. simpl in Hr. destruct (reduce e sj) as [|e'] eqn:Hred; [done|]. simpl in Hr.
          destruct (IH j) with (p := element_path p i) (s := sj) as (Hdj & Hbj & Hsj); auto; [set_solver|apply Hk; set_solver|lia|].
          pose proof (size_pos j).
          destruct (reduce_ok e sj A [Some j] W (size j) e') as [He' He'']; auto; [lia|].
          edestruct (IHl (S i) e' (A ++ [Some j]) (W + size j)%N) as (Hx & Hy & Hz); eauto; [set_solver|lia|lia|].
          destruct (decide (false = false)); [|done]. simpl. rewrite <- app_assoc in Hx. split; [done|].
          split; [eapply bounded_mono; [|done]; lia|]. constructor; auto. }
    simpl in Hsz.
    destruct (infer_elements nothing p 0 SUninitialized l) as [|e] eqn:He; [done|]. simpl in H.
    destruct (Hfold l 0 SUninitialized [] 1%N) with (r := e) as (Hx & Hy & Hz); auto; [done|done|].
    assert (elements [Some (JArr l)] = keep l) as Hel. { unfold elements. simpl. by rewrite app_nil_r. }
    assert (e ≠ SUninitialized) as Hne by (by destruct e).
    assert (s = SArray e 1 0) as -> by (destruct e; congruence).
    assert (keep l ≠ []) as Hkeep.
    { intros E. simpl in Hx. rewrite E in Hx. clear -Hne Hx. destruct e; simpl in Hx; unfold given in Hx; simpl in Hx; naive_solver. }
    cbn [describes bounded]. rewrite Hl, Hel. split; [|split].
    + split; [split; [done|repeat constructor; eauto]|]. split; [split; [done|lia]|]. done.
    + cbn [size]. split; [lia|]. split; [lia|done].
    + simpl. rewrite Forall_map. split.
      * apply Exists_exists. subst keep. simpl in Hkeep. destruct (filter (λ j, is_empty_array j = false) l) as [|j l'] eqn:E; [done|].
        exists j. assert (j ∈ filter (λ j, is_empty_array j = false) l) as Hj by (rewrite E; set_solver). apply elem_of_list_filter in Hj. tauto.
      * done.
  - rewrite infer_object in H. destruct (infer_members nothing p ms) as [|fs] eqn:Hm; [done|]. simpl in H. injection H as <-.
    apply infer_members_fields in Hm as (H1 & H2 & H3). apply distinct_keys_object in Hk as [Hnd Hk].
    assert (lacking [Some (JObj ms)] ↔ False) as Hl.
    { split; [|done]. intros (o & Ho & Hx). apply elem_of_list_singleton in Ho. subst. naive_solver. }
    assert (∀ k j, (k, j) ∈ ms → (size j < size (JObj ms))%N) as Hsize.
    { intros k j Hin. simpl. pose proof (sum_in (λ '(_, j), size j) (k, j) ms Hin) as Hle. simpl in Hle. lia. }
    assert (∀ k, k ∈ fs.*1 ↔ is_Some (field k ms)) as Hfield.
    { intros k. rewrite H1, in_fst. unfold field. split.
      - intros [j Hj]. apply elem_of_list_filter in Hj as [E Hj]. simpl in E. rewrite (member_nodup _ _ _ Hnd Hj), E. eauto.
      - intros [j' Hj']. destruct (member k ms) as [j|] eqn:E; [|done]. exists j. apply elem_of_list_filter. simpl.
        destruct (is_empty_array j); [done|]. split; [done|]. by apply member_in. }
    cbn [describes bounded]. rewrite Hl. split; [|split].
    + split; [split; [done|repeat constructor; eauto]|]. split; [split; [done|lia]|]. split.
      { rewrite H1. by apply nodup_filter_fst. }
      split.
      { intros k. rewrite Hfield. unfold objects. simpl. split; [intros ?; exists ms; set_solver|]. intros (ms' & Hms & ?). apply elem_of_list_singleton in Hms. by subst. }
      apply describes_fields. intros k s Hin. destruct (H2 k s Hin) as (j & Hj & E & Hs).
      unfold objects. simpl. unfold field. rewrite (member_nodup _ _ _ Hnd Hj), E.
      eapply (IH k j Hj); eauto. specialize (Hsize _ _ Hj). lia.
    + split; [pose proof (size_pos (JObj ms)); lia|]. split; [lia|]. apply bounded_fields. intros k s Hin.
      destruct (H2 k s Hin) as (j & Hj & E & Hs). specialize (Hsize _ _ Hj). eapply bounded_mono; [apply N.lt_le_incl, Hsize|].
      eapply (IH k j Hj); eauto. lia.
    + simpl. rewrite !Forall_map, !Forall_forall. split.
      * intros [k j] Hin E. apply valid_identifier_spec. by apply (H3 k j).
      * intros [k j] Hin E. destruct (H3 k j Hin E) as (_ & s & Hs). specialize (Hsize _ _ Hin). eapply (IH k j); eauto. lia.
Qed.
