From stdpp Require Import list gmap strings.
From Coq Require Import ZArith Lia Sorted.
From Verif Require Import Json_Model Json_Spec.
From Verif Require Base Dec.

(** * Induction over types *)
Section ty_induction.
Variable P : ty → Prop.
Hypothesis HBool : P TBool.
Hypothesis HInt : ∀ b s, P (TInt b s).
Hypothesis HDouble : P TDouble.
Hypothesis HFloat : P TFloat.
Hypothesis HString : P TString.
Hypothesis HStruct : ∀ fs, Forall (λ '(_, t, _), P t) fs → P (TStruct fs).
Hypothesis HOptional : ∀ t, P t → P (TOptional t).
Hypothesis HVariant : ∀ cs, Forall (λ '(_, _, t), P t) cs → P (TVariant cs).
Hypothesis HVector : ∀ t, P t → P (TVector t).
Hypothesis HArray : ∀ n t, P t → P (TArray n t).
Hypothesis HTuple : ∀ ts, Forall P ts → P (TTuple ts).
Hypothesis HSet : ∀ u t, P t → P (TSet u t).
Hypothesis HMap : ∀ u k t, P k → P t → P (TMap u k t).
Hypothesis HStrMap : ∀ u t, P t → P (TStrMap u t).
Fixpoint ty_induction (t : ty) : P t.
Proof.
  destruct t as [ | | | | |fs|t|cs|t|n t|ts|u t|u k t|u t].
  - exact HBool.
  - apply HInt.
  - exact HDouble.
  - exact HFloat.
  - exact HString.
  - apply HStruct. induction fs as [|[[n t] d] fs IH]; constructor; [apply ty_induction|exact IH].
  - apply HOptional, ty_induction.
  - apply HVariant. induction cs as [|[[n i] t] cs IH]; constructor; [apply ty_induction|exact IH].
  - apply HVector, ty_induction.
  - apply HArray, ty_induction.
  - apply HTuple. induction ts as [|t ts IH]; constructor; [apply ty_induction|exact IH].
  - apply HSet, ty_induction.
  - apply HMap; apply ty_induction.
  - apply HStrMap, ty_induction.
Defined.
End ty_induction.

(** * Ordered insertion *)
Section ins.
Context {A : Type} (lt : A → A → bool).
Fixpoint ins (x : A) (l : list A) : list A :=
  match l with
  | [] => [x]
  | y :: l' => if lt x y then x :: l else if lt y x then y :: ins x l' else l
  end.
Notation R := (λ a b, lt a b = true).
Variable D : A → Prop.
Hypothesis irr : ∀ x, D x → lt x x = false.
Hypothesis trans : ∀ x y z, D x → D y → D z → lt x y = true → lt y z = true → lt x z = true.

Lemma ins_new x l : D x → Forall D l → StronglySorted R l → (∀ y, y ∈ l → lt x y = true ∨ lt y x = true) →
  StronglySorted R (ins x l) ∧ ins x l ≡ₚ x :: l.
Proof.
  intros Dx Dl Sl C. induction l as [|y l IH]; simpl; [split; [by repeat constructor|done]|].
  apply Forall_cons in Dl as [Dy Dl]. apply StronglySorted_inv in Sl as [Sl Fl].
  destruct (lt x y) eqn:E1.
  - split; [|done]. constructor; [by constructor|]. constructor; [done|].
    rewrite Forall_forall in Fl, Dl |- *. intros z Hz. eapply (trans x y z); auto.
  - destruct (lt y x) eqn:E2.
    + destruct IH as [S' P']; [done|done|intros z Hz; apply C; by right|]. split.
      * constructor; [done|]. rewrite P'. constructor; [done|done].
      * rewrite P'. apply Permutation_swap.
    + destruct (C y ltac:(by left)); congruence.
Qed.
Lemma sorted_perm_eq l1 l2 : Forall D l1 → StronglySorted R l1 → StronglySorted R l2 → l1 ≡ₚ l2 → l1 = l2.
Proof.
  revert l2. induction l1 as [|x l1 IH]; intros l2 Dl S1 S2 P.
  { by apply Permutation_nil_l in P. }
  destruct l2 as [|y l2]; [by apply Permutation_nil_r in P|].
  pose proof Dl as Dl0. apply Forall_cons in Dl as [Dx Dl].
  apply StronglySorted_inv in S1 as [S1 F1], S2 as [S2 F2].
  assert (D y) as Dy. { rewrite Forall_forall in Dl0. apply Dl0. rewrite P. by left. }
  assert (x = y) as ->.
  { assert (x ∈ y :: l2) as [->|Hx]%elem_of_cons by (rewrite <-P; by left); [done|].
    assert (y ∈ x :: l1) as [->|Hy]%elem_of_cons by (rewrite P; by left); [done|].
    rewrite Forall_forall in F1, F2. specialize (F1 _ Hy). specialize (F2 _ Hx).
    pose proof (trans _ _ _ Dx Dy Dx F1 F2) as X. rewrite irr in X by done. done. }
  f_equal. apply IH; [done|done|done|]. by apply Permutation_cons_inv in P.
Qed.
Lemma sorted_comparable l : Forall D l → StronglySorted R l → NoDup l ∧ ∀ x y, x ∈ l → y ∈ l → x ≠ y → lt x y = true ∨ lt y x = true.
Proof.
  intros Dl Sl. induction Sl as [|x l Sl IH Fl]; [split; [constructor|by intros x y ?%not_elem_of_nil]|].
  apply Forall_cons in Dl as [Dx Dl]. destruct (IH Dl) as [Nd C]. rewrite Forall_forall in Fl. split.
  - constructor; [|done]. intros Hx. specialize (Fl x Hx). rewrite irr in Fl by done. done.
  - intros a b [->|Ha]%elem_of_cons [->|Hb]%elem_of_cons Hne; [done|left; by apply Fl|right; by apply Fl|by apply C].
Qed.
Lemma fold_ins_aux l acc : Forall D (acc ++ l) → StronglySorted R acc → NoDup (acc ++ l) →
  (∀ x y, x ∈ acc ++ l → y ∈ acc ++ l → x ≠ y → lt x y = true ∨ lt y x = true) →
  StronglySorted R (foldl (λ a x, ins x a) acc l) ∧ foldl (λ a x, ins x a) acc l ≡ₚ acc ++ l.
Proof.
  revert acc. induction l as [|x l IH]; intros acc Dl Sa Nd C; simpl.
  { by rewrite app_nil_r. }
  destruct (ins_new x acc) as [S' P'].
  - rewrite Forall_forall in Dl. apply Dl. apply elem_of_app. right. by left.
  - by apply Forall_app in Dl as [? _].
  - done.
  - intros y Hy. apply C; [apply elem_of_app; right; by left|by apply elem_of_app; left|].
    intros ->. apply NoDup_app in Nd as (_ & Nd & _). apply (Nd y Hy). by left.
  - assert (ins x acc ++ l ≡ₚ acc ++ x :: l) as P2. { rewrite P'. by rewrite <-Permutation_middle. }
    destruct (IH (ins x acc)) as [S2 P3].
    + by rewrite P2.
    + done.
    + by rewrite P2.
    + intros a b Ha Hb. rewrite P2 in Ha, Hb. by apply C.
    + split; [done|]. by rewrite P3.
Qed.
Lemma fold_ins l l' : Forall D l → StronglySorted R l → l' ≡ₚ l → foldl (λ a x, ins x a) [] l' = l.
Proof.
  intros Dl Sl P. destruct (sorted_comparable l Dl Sl) as [Nd C].
  destruct (fold_ins_aux l' []) as [S' P'].
  - simpl. by rewrite P.
  - constructor.
  - simpl. by rewrite P.
  - simpl. intros x y Hx Hy. rewrite P in Hx, Hy. by apply C.
  - apply sorted_perm_eq; [|done|done|by rewrite P'].
    simpl in P'. rewrite P', P. done.
Qed.
(** Insertion keeps a list sorted whatever is inserted. *)
Lemma ins_elem x y l : y ∈ ins x l → y = x ∨ y ∈ l.
Proof.
  induction l as [|z l IH]; simpl; [intros ->%elem_of_list_singleton; by left|].
  destruct (lt x z); [intros [->|?]%elem_of_cons; [by left|by right]|].
  destruct (lt z x); [|by right]. intros [->|H]%elem_of_cons; [right; by left|]. destruct (IH H); [by left|right; by right].
Qed.
Lemma ins_sorted x l : D x → Forall D l → StronglySorted R l → StronglySorted R (ins x l) ∧ Forall D (ins x l).
Proof.
  intros Dx Dl Sl. split.
  - induction l as [|y l IH]; simpl; [by repeat constructor|].
    pose proof Sl as Sl0. apply Forall_cons in Dl as [Dy Dl]. apply StronglySorted_inv in Sl as [Sl Fl].
    destruct (lt x y) eqn:E1.
    + constructor; [done|]. constructor; [done|]. rewrite Forall_forall in Fl, Dl |- *. intros z Hz. eapply (trans x y z); auto.
    + destruct (lt y x) eqn:E2; [|done]. constructor; [by apply IH|]. rewrite Forall_forall in Fl |- *.
      intros z [->|Hz]%ins_elem; [done|by apply Fl].
  - rewrite Forall_forall in Dl |- *. intros y [->|Hy]%ins_elem; [done|by apply Dl].
Qed.
End ins.

Lemma insert_set_ins lt x l : insert_set lt x l = ins lt x l.
Proof. induction l as [|y l IH]; simpl; [done|]. by rewrite IH. Qed.
Lemma insert_map_ins lt k v l : insert_map lt k v l = ins (λ a b : val * val, lt a.1 b.1) (k, v) l.
Proof. induction l as [|[y w] l IH]; simpl; [done|]. by rewrite IH. Qed.

(** * Type ids *)
Lemma leading_digits_all s : Forall (λ b, Dec.is_digit b = true) s → leading_digits s = s.
Proof. induction 1 as [|c s Hc _ IH]; [done|]. simpl. by rewrite Hc, IH. Qed.
Lemma read_type_id_dec i : (i < 2 ^ 64)%N → read_type_id (type_id_json i) = Some i.
Proof.
  intros Hi. unfold type_id_json, read_type_id. rewrite decide_True by done. f_equal. unfold read_uint64.
  destruct (Dec.dec_head_digit i) as (b & r & E & Hb).
  assert (48 <= b ∧ b <= 57)%N as [Hb1 Hb2].
  { unfold Dec.is_digit in Hb. apply andb_true_iff in Hb as [?%N.leb_le ?%N.leb_le]. done. }
  assert (skip_spaces (Dec.dec i) = Dec.dec i) as ->.
  { rewrite E. simpl. unfold is_space. rewrite bool_decide_eq_false_2; [done|]. lia. }
  assert (match Dec.dec i with c :: s' => if decide (c = 45%N) then (true, s') else if decide (c = 43%N) then (false, s') else (false, Dec.dec i)
          | [] => (false, Dec.dec i) end = (false, Dec.dec i)) as ->.
  { rewrite E. rewrite decide_False by lia. by rewrite decide_False by lia. }
  rewrite leading_digits_all by apply Dec.dec_is_digit. rewrite Dec.horner_dec. by rewrite decide_True.
Qed.

(** * Integers *)
Lemma wrap_in_range b s z : (0 < b)%N → in_range b s z → wrap b s z = z.
Proof.
  intros Hb. unfold in_range, wrap. set (m := (2 ^ Z.of_N b)%Z).
  assert (m = 2 * 2 ^ (Z.of_N b - 1))%Z as Em.
  { unfold m. rewrite <-Z.pow_succ_r by lia. f_equal. lia. }
  assert (0 < 2 ^ (Z.of_N b - 1))%Z as Hp by (apply Z.pow_pos_nonneg; lia).
  set (h := (2 ^ (Z.of_N b - 1))%Z) in *. assert (m / 2 = h)%Z as Eh by (rewrite Em, Z.mul_comm; by apply Z.div_mul).
  destruct s; simpl; intros H.
  - rewrite Eh. destruct (decide (0 ≤ z)%Z).
    + rewrite Z.mod_small by lia. rewrite bool_decide_eq_false_2 by lia. done.
    + assert (z mod m = z + m)%Z as ->. { symmetry. apply (Z.mod_unique _ _ (-1)); lia. }
      rewrite bool_decide_eq_true_2 by lia. lia.
  - by rewrite Z.mod_small.
Qed.
Lemma wrap_range b s z : (0 < b)%N → in_range b s (wrap b s z).
Proof.
  intros Hb. unfold in_range, wrap. set (m := (2 ^ Z.of_N b)%Z).
  assert (m = 2 * 2 ^ (Z.of_N b - 1))%Z as Em.
  { unfold m. rewrite <-Z.pow_succ_r by lia. f_equal. lia. }
  assert (0 < 2 ^ (Z.of_N b - 1))%Z as Hp by (apply Z.pow_pos_nonneg; lia).
  set (h := (2 ^ (Z.of_N b - 1))%Z) in *. assert (m / 2 = h)%Z as Eh by (rewrite Em, Z.mul_comm; by apply Z.div_mul).
  pose proof (Z.mod_pos_bound z m ltac:(lia)) as B. rewrite Eh.
  destruct s; simpl; [|done]. case_bool_decide; lia.
Qed.
Lemma in_range_64 b s z : (0 < b ≤ 64)%N → in_range b s z → if s : bool then is_int64 (JInt z) = true else is_uint64 (JInt z) = true.
Proof.
  intros Hb. unfold in_range. destruct s; simpl; intros H; apply bool_decide_eq_true_2.
  - assert (2 ^ (Z.of_N b - 1) ≤ 2 ^ 63)%Z by (apply Z.pow_le_mono_r; lia). lia.
  - assert (2 ^ Z.of_N b ≤ 2 ^ 64)%Z by (apply Z.pow_le_mono_r; lia). lia.
Qed.

(** * Round trip *)
Section round_trip.
Variables (E : env) (f : format).
Hypothesis EO : env_ok E.

(** The JSON of a value is null only if it is an empty Optional. *)
Lemma ser_not_null t v : has_type E t v → optional t = false → ∃ j, ser f E t v = Some j ∧ j ≠ JNull.
Proof.
  intros H N. destruct t as [ | | | | |fs|t|cs|t|n t|ts|u t|u k t|u t]; try done; destruct v as [ | | | |vs| |[[i v]|]|vs|es]; try done;
    simpl in *; eauto.
  rewrite list_lookup_fmap in H. rewrite list_lookup_fmap.
  destruct (cs !! i) as [[[n id] t]|]; [|done]. simpl. eauto.
Qed.

Definition trip (m : mode) (t : ty) (v : val) : Prop :=
  ∀ dst, de m E t (ser f E t v) dst = Ok v ∧ de m E t (Some (inner (ser f E t v))) dst = Ok v.
Lemma trip_some m t v j : ser f E t v = Some j → (∀ dst, de m E t (Some j) dst = Ok v) → trip m t v.
Proof. intros Ej H dst. rewrite Ej. simpl. by rewrite H. Qed.

Lemma member_notin n ms : n ∉ ms.*1 → member n ms = None.
Proof.
  induction ms as [|[k j] ms IH]; [done|]. intros H. simpl. rewrite fmap_cons, not_elem_of_cons in H. simpl in H.
  rewrite decide_False; [apply IH; tauto|]. intros ->. tauto.
Qed.
Lemma ser_fields_names fs vs : ∀ n, n ∈ (ser_fields fs vs).*1 → n ∈ fs.*1.
Proof.
  revert vs. induction fs as [|[n g] fs IH]; intros vs k H; [by apply not_elem_of_nil in H|].
  destruct vs as [|v vs]; [by apply not_elem_of_nil in H|]. simpl in *. destruct (g v).
  - apply elem_of_cons in H as [->|H]; [by left|right; by eapply IH].
  - right; by eapply IH.
Qed.
Lemma de_fields_trip m (fs : list (list N * ty * val)) vs : NoDup (map (λ '(n, _, _), n) fs) →
  Forall2 (λ '(_, t, _) v, trip m t v) fs vs →
  ∀ ms0 dst, (∀ n, n ∈ map (λ '(n, _, _), n) fs → member n ms0 = None) →
    de_fields (map (λ '(n, t, d), (n, de m E t, d)) fs)
              (ms0 ++ ser_fields (map (λ '(n, t, _), (n, ser f E t)) fs) vs) dst = Ok vs.
Proof.
  intros Nd F. induction F as [|[[n t] d] v fs vs T F IH]; intros ms0 dst M; [done|].
  simpl in Nd. apply NoDup_cons in Nd as [Nn Nd]. cbn [map de_fields ser_fields].
  assert (∀ ms1 n, member n ms0 = None → member n (ms0 ++ ms1) = member n ms1) as Mapp.
  { clear. intros ms1 n. induction ms0 as [|[k j] ms0 IH]; [done|]. simpl. destruct (decide (k = n)); [done|apply IH]. }
  assert (member n (ms0 ++ match ser f E t v with
                 | Some j => (n, j) :: ser_fields (map (λ '(n0, t0, _), (n0, ser f E t0)) fs) vs
                 | None => ser_fields (map (λ '(n0, t0, _), (n0, ser f E t0)) fs) vs end) = ser f E t v) as ->.
  { rewrite Mapp by (apply M; by left). destruct (ser f E t v); simpl.
    - by rewrite decide_True.
    - apply member_notin. intros H%ser_fields_names. apply Nn. clear -H. induction fs as [|[[? ?] ?] fs IH]; [done|].
      simpl in *. apply elem_of_cons in H as [->|H]; [by left|right; by apply IH]. }
  destruct (T (default d (head dst))) as [-> _]. simpl.
  assert (∀ ms1 n', n' ≠ n → member n' ((n, ms1) :: nil) = None) as Mone.
  { intros ms1 n' Hn. simpl. rewrite decide_False; [done|congruence]. }
  destruct (ser f E t v) as [j|].
  - specialize (IH Nd (ms0 ++ [(n, j)]) (tail dst)). rewrite <-app_assoc in IH. simpl in IH. rewrite IH; [done|].
    intros n' Hn'. rewrite Mapp by (apply M; by right). apply Mone. intros ->. done.
  - rewrite IH; [done|done|]. intros n' Hn'. apply M. by right.
Qed.
Lemma de_elements_trip m t vs dst : length dst = length vs → Forall (trip m t) vs →
  de_elements (de m E t) (map (λ v, inner (ser f E t v)) vs) dst = Ok vs.
Proof.
  intros L F. revert dst L. induction F as [|v vs T F IH]; intros [|d dst] L; try done. simpl.
  destruct (T d) as [_ ->]. simpl in L. rewrite IH by lia. done.
Qed.
Lemma resize_length n d vs : length (resize n d vs) = n.
Proof. unfold resize. rewrite take_length, app_length, replicate_length. lia. Qed.
Lemma de_array_trip m t vs dst d : Forall (trip m t) vs →
  de_array (de m E t) (length vs) (map (λ v, inner (ser f E t v)) vs) dst d = Ok vs.
Proof.
  intros F. revert dst. induction F as [|v vs T F IH]; intros dst; [done|]. simpl.
  destruct (T (default d (head dst))) as [_ ->]. rewrite IH. done.
Qed.
Lemma de_tuple_trip m ts vs dst : Forall2 (trip m) ts vs →
  de_tuple (map (λ t, (de m E t, default_of t)) ts) (ser_tuple (map (ser f E) ts) vs) dst = Ok vs.
Proof.
  intros F. revert dst. induction F as [|t v ts vs T F IH]; intros dst; [done|]. unfold ser_tuple in *. simpl.
  destruct (T (default (default_of t) (head dst))) as [_ ->]. rewrite IH. done.
Qed.
Lemma de_set_trip m t d lt vs acc : Forall (trip m t) vs →
  de_set (de m E t) d lt (map (λ v, inner (ser f E t v)) vs) acc = Ok (foldl (λ a x, ins lt x a) acc vs).
Proof.
  intros F. revert acc. induction F as [|v vs T F IH]; intros acc; [done|]. simpl.
  destruct (T d) as [_ ->]. rewrite IH, insert_set_ins. done.
Qed.
Lemma de_map_trip m k t dk dv lt es acc : Forall (λ e, trip m k e.1 ∧ trip m t e.2) es →
  de_map (de m E k) (de m E t) dk dv lt (map (ser_entry (ser f E k) (ser f E t)) es) acc =
  Ok (foldl (λ a x, ins (λ a b : val * val, lt a.1 b.1) x a) acc es).
Proof.
  intros F. revert acc. induction F as [|[kk v] es [Tk Tv] F IH]; intros acc; [done|]. simpl.
  destruct (Tk dk) as [_ Hk], (Tv dv) as [_ Hv]. simpl in Hk, Hv. rewrite Hk, Hv, IH, insert_map_ins. done.
Qed.
Lemma de_strmap_trip m t mv d lt es acc : Forall (λ e, (∃ s, e.1 = VStr s) ∧ trip m t e.2) es →
  de_strmap (de m E t) mv d lt (map (λ e, (key_text e.1, inner (ser f E t e.2))) es) acc =
  Ok (foldl (λ a x, ins (λ a b : val * val, lt a.1 b.1) x a) acc es).
Proof.
  intros F. revert d acc. induction F as [|[kk v] es [[s Es] Tv] F IH]; intros d acc; [done|]. simpl in *. subst kk. simpl.
  destruct (Tv d) as [_ Hv]. rewrite Hv, IH, insert_map_ins. done.
Qed.
Lemma iterate_perm {A} u t (l : list A) : iterate E u t l ≡ₚ l.
Proof. unfold iterate. destruct u; [by apply arrange_permutes|done]. Qed.

Lemma find_case_spec {K} `{EqDecision K} (k : K) cs i0 i c : NoDup cs.*1 → cs !! i = Some (k, c) → find_case k cs i0 = Some (i0 + i, c).
Proof.
  revert i i0. induction cs as [|[k' c'] cs IH]; intros i i0 Nd L; [done|].
  rewrite fmap_cons in Nd. apply NoDup_cons in Nd as [Nk Nd]. simpl in *. destruct i as [|i].
  - simpl in L. injection L as -> ->.
    assert (∀ i1, find_case k cs i1 = None) as Fn.
    { clear -Nk. induction cs as [|[k' c'] cs IH]; intros i1; [done|]. rewrite fmap_cons, not_elem_of_cons in Nk. simpl in *.
      rewrite IH by tauto. rewrite decide_False; [done|]. intros ->. tauto. }
    rewrite Fn, decide_True by done. by rewrite Nat.add_0_r.
  - rewrite (IH i (S i0) Nd L). do 2 f_equal. lia.
Qed.

Lemma Forall2_trip {X} m (tyof : X → ty) (xs : list X) vs :
  Forall (λ x, faithful f (tyof x) → ∀ v, has_type E (tyof x) v → trip m (tyof x) v) xs →
  Forall id (map (λ x, faithful f (tyof x)) xs) →
  Forall2 (λ (P : val → Prop) v, P v) (map (λ x, has_type E (tyof x)) xs) vs →
  Forall2 (λ x v, trip m (tyof x) v) xs vs.
Proof.
  revert vs. induction xs as [|x xs IH]; intros vs I Fa Ty.
  - inversion Ty. constructor.
  - apply Forall_cons in I as [Ix I]. simpl in Fa. apply Forall_cons in Fa as [Fx Fa].
    simpl in Ty. inversion Ty as [|? v ? vs' Hv Hvs]; subst. constructor; [by apply Ix|by apply IH].
Qed.

Lemma round_trip_all m t : vstyle m = variant_style f → (patch m = true → f ≠ Minimalistic) →
  faithful f t → ∀ v, has_type E t v → trip m t v.
Proof.
  intros Hst Hp. induction t as [ |bits s| | | |fs I|t I|cs I|t I|n t I|ts I|u t I|u k t Ik It|u t I] using ty_induction;
    intros Fa v Ty; try (destruct v as [bb|z|d|s0|vs|o|o|vs|es]; simpl in Ty; try (exfalso; exact Ty); []).
  - by apply (trip_some _ _ _ (JBool bb)).
  - eapply trip_some; [done|]. intros dst. simpl. simpl in Fa. pose proof (in_range_64 _ _ _ Fa Ty) as R.
    destruct s; simpl in R; rewrite R; (rewrite wrap_in_range; [done|lia|done]).
  - by eapply trip_some.
  - eapply trip_some; [done|]. intros dst. simpl. by rewrite Ty.
  - by eapply trip_some.
  - destruct Fa as [Nd Fa]. eapply trip_some; [done|]. intros dst. cbn [de].
    rewrite (de_fields_trip m fs vs Nd) with (ms0 := []); [done| |done].
    apply (Forall2_impl (λ x v, trip m (let '(_, t, _) := x in t) v)).
    + apply Forall2_trip.
      * eapply Forall_impl; [exact I|]. intros [[? ?] ?]. done.
      * erewrite map_ext; [exact Fa|]. by intros [[? ?] ?].
      * erewrite map_ext; [exact Ty|]. by intros [[? ?] ?].
    + intros [[? ?] ?] ?. done.
  - destruct Fa as [Fo Fa]. destruct o as [v|].
    + destruct (ser_not_null t v Ty Fo) as (j & Ej & Nj). eapply trip_some; [simpl; exact Ej|]. intros dst.
      assert (de m E (TOptional t) (Some j) dst = omap_out (λ v, VOpt (Some v)) (de m E t (Some j) (default_of t))) as ->.
      { by destruct j. }
      destruct (I Fa v Ty (default_of t)) as [H _]. rewrite Ej in H. by rewrite H.
    + intros dst. simpl. destruct f; simpl; try done. destruct (patch m); [by destruct (Hp eq_refl)|done].
  - destruct Fa as (Nn & Nd & Fa). destruct o as [[i v]|]; [|done]. rewrite list_lookup_fmap in Ty.
    destruct (cs !! i) as [[[n id] t]|] eqn:Ei; [|done]. simpl in Ty.
    assert (trip m t v) as T.
    { rewrite Forall_forall in I. apply (I (n, id, t)); [by eapply elem_of_list_lookup_2| |done].
      rewrite Forall_forall in Fa. apply (Fa (faithful f t)). apply elem_of_list_fmap. exists (n, id, t). split; [done|by eapply elem_of_list_lookup_2]. }
    assert (n ≠ [] ∧ n ≠ [36%N]) as [N1 N2].
    { rewrite Forall_forall in Nn. apply Nn. apply elem_of_list_fmap. exists (n, id, t). split; [done|by eapply elem_of_list_lookup_2]. }
    eapply trip_some. { simpl. rewrite list_lookup_fmap, Ei. simpl. done. }
    intros dst. unfold ser_case. cbn [de]. rewrite Hst.
    set (rds := map (λ '(n, id, t), (n, id, de m E t, default_of t)) cs).
    assert (∀ rest, member n ((n, inner (ser f E t v)) :: rest) = Some (inner (ser f E t v))) as Mn by (intros; simpl; by rewrite decide_True).
    assert (∀ p rest, de_case_generic p ((n, inner (ser f E t v)) :: rest) i n (de m E t) (default_of t) dst = Ok (VVariant (Some (i, v)))) as G.
    { intros p rest. unfold de_case_generic. rewrite Mn. destruct (T (default_of t)) as [_ ->]. done. }
    destruct f; simpl variant_style; cbn [variant_style].
    + destruct Nd as [Nd Rg]. unfold de_variant_current.
      assert (member [] ((n, inner (ser Current E t v)) :: [([], type_id_json id)]) = Some (type_id_json id)) as ->.
      { cbn [member]. rewrite (decide_False (P := n = [])) by done. by rewrite (decide_True (P := @nil N = [])). }
      rewrite read_type_id_dec.
      2:{ rewrite Forall_forall in Rg. apply Rg. apply elem_of_list_fmap. exists (n, id, t). split; [done|by eapply elem_of_list_lookup_2]. }
      rewrite (find_case_spec id _ 0 i (n, de m E t, default_of t)).
      * apply G.
      * unfold rds. clear -Nd; match goal with |- NoDup ?l => replace l with (map (λ c : list N * N * ty, c.1.2) cs) end; [erewrite map_ext; [exact Nd|by intros [[? ?] ?]]|]; clear; induction cs as [|[[? ?] ?] cs IH]; [done|]; cbn; f_equal; exact IH.
      * unfold rds. rewrite !list_lookup_fmap, Ei. done.
    + unfold de_variant_simple.
      assert (case_keys ((n, inner (ser Minimalistic E t v)) :: []) = [(n, inner (ser Minimalistic E t v))]) as ->.
      { unfold case_keys. rewrite filter_cons_True by done. done. }
      rewrite (find_case_spec n _ 0 i (n, de m E t, default_of t)).
      * apply G.
      * unfold rds. clear -Nd; match goal with |- NoDup ?l => replace l with (map (λ c : list N * N * ty, c.1.1) cs) end; [erewrite map_ext; [exact Nd|by intros [[? ?] ?]]|]; clear; induction cs as [|[[? ?] ?] cs IH]; [done|]; cbn; f_equal; exact IH.
      * unfold rds. rewrite !list_lookup_fmap, Ei. done.
    + unfold de_variant_simple.
      assert (case_keys ((n, inner (ser JavaScript E t v)) :: [([36%N], JStr n)]) = [(n, inner (ser JavaScript E t v))]) as ->.
      { unfold case_keys. rewrite filter_cons_True by done. rewrite filter_cons_False; [done|]. simpl. tauto. }
      rewrite (find_case_spec n _ 0 i (n, de m E t, default_of t)).
      * apply G.
      * unfold rds. clear -Nd; match goal with |- NoDup ?l => replace l with (map (λ c : list N * N * ty, c.1.1) cs) end; [erewrite map_ext; [exact Nd|by intros [[? ?] ?]]|]; clear; induction cs as [|[[? ?] ?] cs IH]; [done|]; cbn; f_equal; exact IH.
      * unfold rds. rewrite !list_lookup_fmap, Ei. done.
  - eapply trip_some; [done|]. intros dst. cbn [de]. rewrite de_elements_trip; [done| |].
    + by rewrite resize_length, map_length.
    + eapply Forall_impl; [exact Ty|]. intros v Hv. by apply I.
  - destruct Ty as [<- Ty]. eapply trip_some; [done|]. intros dst. cbn [de]. rewrite de_array_trip; [done|].
    eapply Forall_impl; [exact Ty|]. intros v Hv. by apply I.
  - eapply trip_some; [done|]. intros dst. cbn [de].
    assert (Forall2 (trip m) ts vs) as F2.
    { apply (Forall2_trip m (λ t, t)); [done|by apply Fa|by apply Ty]. }
    rewrite decide_True.
    2:{ unfold ser_tuple. rewrite zip_with_length, map_length. rewrite (Forall2_length _ _ _ F2). lia. }
    rewrite de_tuple_trip; done.
  - destruct Ty as [Ty S]. eapply trip_some; [done|]. intros dst. cbn [de]. rewrite de_set_trip.
    + rewrite (fold_ins _ (has_type E t)) with (l := vs); [done|..].
      * by apply less_irreflexive.
      * by apply less_transitive.
      * done.
      * done.
      * apply iterate_perm.
    + rewrite iterate_perm. eapply Forall_impl; [exact Ty|]. intros v Hv. by apply I.
  - destruct Ty as [Ty S]. destruct Fa as [Fk Ft]. eapply trip_some; [done|]. intros dst. cbn [de]. rewrite de_map_trip.
    + rewrite (fold_ins _ (λ e, has_type E k e.1)) with (l := es); [done|..].
      * intros [? ?]. by apply less_irreflexive.
      * intros [? ?] [? ?] [? ?]. by apply less_transitive.
      * eapply Forall_impl; [exact Ty|]. by intros ? [? ?].
      * done.
      * apply iterate_perm.
    + rewrite iterate_perm. eapply Forall_impl; [exact Ty|]. intros [kk v] [Hk Hv]. split; [by apply Ik|by apply It].
  - destruct Ty as [Ty S]. eapply trip_some; [done|]. intros dst. cbn [de]. rewrite de_strmap_trip.
    + rewrite (fold_ins _ (λ e, has_type E TString e.1)) with (l := es); [done|..].
      * intros [? ?]. by apply less_irreflexive.
      * intros [? ?] [? ?] [? ?]. by apply less_transitive.
      * eapply Forall_impl; [exact Ty|]. intros [? ?] [[? ?] ?]. simpl in *. by subst.
      * done.
      * apply iterate_perm.
    + rewrite iterate_perm. eapply Forall_impl; [exact Ty|]. intros [kk v] [Hk Hv]. split; [done|by apply I].
Qed.
End round_trip.
