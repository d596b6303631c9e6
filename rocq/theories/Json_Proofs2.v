From stdpp Require Import list gmap strings.
From Coq Require Import ZArith Lia Sorted.
From Verif Require Import Json_Model Json_Spec Json_Proofs.
From Verif Require Base Dec.

Lemma omap_out_Ok {A B} (g : A → B) o b : omap_out g o = Ok b → ∃ a, o = Ok a ∧ b = g a.
Proof. destruct o; simpl; [|done]. intros [= <-]. eauto. Qed.
Lemma otherwise_false j dst v : otherwise false j dst = Ok v → False.
Proof. by destruct j. Qed.

(** * Readers whose success does not depend on the destination *)
Definition blind (m : mode) (E : env) (t : ty) : Prop := ∀ j d1 d2 v, de m E t j d1 = Ok v → de m E t j d2 = Ok v.

Section parse_mode.
Variables (E : env) (m : mode).
Hypothesis Hp : patch m = false.

Lemma de_fields_blind (fs : list (list N * ty * val)) ms vs1 vs2 r : Forall (λ '(_, t, _), blind m E t) fs →
  de_fields (map (λ '(n, t, d), (n, de m E t, d)) fs) ms vs1 = Ok r →
  de_fields (map (λ '(n, t, d), (n, de m E t, d)) fs) ms vs2 = Ok r.
Proof.
  intros F. revert vs1 vs2 r. induction F as [|[[n t] d] fs B F IH]; intros vs1 vs2 r; [done|]. simpl.
  destruct (de m E t (member n ms) (default d (head vs1))) as [v|] eqn:E1; [|done].
  rewrite (B _ _ (default d (head vs2)) _ E1). intros (r' & Hr & ->)%omap_out_Ok. by rewrite (IH _ (tail vs2) _ Hr).
Qed.
Lemma de_elements_blind t js vs1 vs2 r : blind m E t → length vs1 = length js → length vs2 = length js →
  de_elements (de m E t) js vs1 = Ok r → de_elements (de m E t) js vs2 = Ok r.
Proof.
  intros B. revert vs1 vs2 r. induction js as [|j js IH]; intros [|v1 vs1] [|v2 vs2] r L1 L2; simpl; try done.
  destruct (de m E t (Some j) v1) as [v|] eqn:E1; [|done]. rewrite (B _ _ v2 _ E1).
  intros (r' & Hr & ->)%omap_out_Ok. simpl in *. rewrite (IH vs1 vs2 r' ltac:(lia) ltac:(lia) Hr). done.
Qed.
Lemma de_array_blind t n js vs1 vs2 d r : blind m E t →
  de_array (de m E t) n js vs1 d = Ok r → de_array (de m E t) n js vs2 d = Ok r.
Proof.
  intros B. revert n vs1 vs2 r. induction js as [|j js IH]; intros [|n] vs1 vs2 r; simpl; try done.
  destruct (de m E t (Some j) (default d (head vs1))) as [v|] eqn:E1; [|done]. rewrite (B _ _ (default d (head vs2)) _ E1).
  intros (r' & Hr & ->)%omap_out_Ok. by rewrite (IH _ _ (tail vs2) _ Hr).
Qed.
Lemma de_tuple_blind ts js vs1 vs2 r : Forall (blind m E) ts →
  de_tuple (map (λ t, (de m E t, default_of t)) ts) js vs1 = Ok r → de_tuple (map (λ t, (de m E t, default_of t)) ts) js vs2 = Ok r.
Proof.
  intros F. revert js vs1 vs2 r. induction F as [|t ts B F IH]; intros [|j js] vs1 vs2 r; simpl; try done.
  destruct (de m E t (Some j) (default (default_of t) (head vs1))) as [v|] eqn:E1; [|done].
  rewrite (B _ _ (default (default_of t) (head vs2)) _ E1). intros (r' & Hr & ->)%omap_out_Ok. by rewrite (IH _ _ (tail vs2) _ Hr).
Qed.

Lemma parse_blind t : vstyle m = StyleCurrent → blind m E t.
Proof.
  intros Hs. induction t as [ |bits s| | | |fs I|t I|cs I|t I|n t I|ts I|u t I|u k t Ik It|u t I] using ty_induction;
    intros j d1 d2 v; cbn [de]; rewrite ?Hp, ?Hs.
  - destruct j as [[]|]; try done.
  - destruct j as [[]|]; try done. by destruct (if s then _ else _).
  - destruct j as [[]|]; try done.
  - destruct j as [[]|]; try done.
  - destruct j as [[]|]; try done.
  - destruct j as [[]|]; try done. intros (r & Hr & ->)%omap_out_Ok. by rewrite (de_fields_blind _ _ _ (tuple_of d2) _ I Hr).
  - destruct j as [[]|]; try done.
  - destruct j as [[]|]; try done.
    unfold de_variant_current. destruct (member [] l); [|done]. destruct (read_type_id _); [|done].
    destruct (find_case _ _ _) as [[i [[n' rd] d]]|]; [|done]. unfold de_case_generic. destruct (member n' l); [|done].
    by destruct (rd _ _).
  - destruct j as [[]|]; try done. intros (r & Hr & ->)%omap_out_Ok.
    rewrite (de_elements_blind _ _ _ (resize (length l) (default_of t) (tuple_of d2)) _ I (resize_length _ _ _) (resize_length _ _ _) Hr). done.
  - destruct j as [[]|]; try done. intros (r & Hr & ->)%omap_out_Ok. by rewrite (de_array_blind _ _ _ _ (tuple_of d2) _ _ I Hr).
  - destruct j as [[]|]; try done. destruct (decide _); [|done]. intros (r & Hr & ->)%omap_out_Ok.
    by rewrite (de_tuple_blind _ _ _ (tuple_of d2) _ I Hr).
  - destruct j as [[]|]; try done.
  - destruct j as [[]|]; try done.
  - destruct j as [[]|]; try done.
Qed.

(** ** What is parsed has its type *)
Hypothesis EO : env_ok E.
Hypothesis float_idem : ∀ d, to_float E (to_float E d) = to_float E d.
Hypothesis Hs : vstyle m = StyleCurrent.
Definition sound (t : ty) : Prop := faithful Current t → ∀ j dst v, de m E t j dst = Ok v → has_type E t v.

Lemma de_elements_sound t js vs r : (∀ j dst v, de m E t j dst = Ok v → has_type E t v) → length vs = length js →
  de_elements (de m E t) js vs = Ok r → Forall (has_type E t) r.
Proof.
  intros S. revert vs r. induction js as [|j js IH]; intros [|v vs] r L; simpl; try done.
  { intros [= <-]. constructor. }
  destruct (de m E t (Some j) v) as [w|] eqn:E1; [|done]. intros (r' & Hr & ->)%omap_out_Ok.
  constructor; [by eapply S|]. eapply IH; [|exact Hr]. simpl in L. lia.
Qed.
Lemma de_array_sound t n js vs d r : (∀ j dst v, de m E t j dst = Ok v → has_type E t v) →
  de_array (de m E t) n js vs d = Ok r → length r = n ∧ Forall (has_type E t) r.
Proof.
  intros S. revert n vs r. induction js as [|j js IH]; intros [|n] vs r; simpl; try done; try (by intros [= <-]).
  destruct (de m E t (Some j) (default d (head vs))) as [w|] eqn:E1; [|done]. intros (r' & Hr & ->)%omap_out_Ok.
  destruct (IH _ _ _ Hr) as [L F]. split; [simpl; lia|]. constructor; [by eapply S|done].
Qed.
Lemma de_set_sound t d js acc r : (∀ j dst v, de m E t j dst = Ok v → has_type E t v) →
  de_set (de m E t) d (less E t) js acc = Ok r → Forall (has_type E t) acc → StronglySorted (λ a b, less E t a b = true) acc →
  Forall (has_type E t) r ∧ StronglySorted (λ a b, less E t a b = true) r.
Proof.
  intros S. revert acc. induction js as [|j js IH]; intros acc; simpl; [by intros [= <-]|].
  destruct (de m E t (Some j) d) as [w|] eqn:E1; [|done]. intros Hr F So. eapply IH; [exact Hr|..]; rewrite insert_set_ins.
  - apply (ins_sorted _ (has_type E t)); try done; [by apply less_transitive|by eapply S].
  - apply (ins_sorted _ (has_type E t)); try done; [by apply less_transitive|by eapply S].
Qed.
Lemma de_map_sound k t dk dv js acc r : (∀ j dst v, de m E k j dst = Ok v → has_type E k v) → (∀ j dst v, de m E t j dst = Ok v → has_type E t v) →
  de_map (de m E k) (de m E t) dk dv (less E k) js acc = Ok r →
  Forall (λ e, has_type E k e.1 ∧ has_type E t e.2) acc → StronglySorted (λ a b, less E k a.1 b.1 = true) acc →
  Forall (λ e, has_type E k e.1 ∧ has_type E t e.2) r ∧ StronglySorted (λ a b, less E k a.1 b.1 = true) r.
Proof.
  intros Sk St. revert acc. induction js as [|j js IH]; intros acc; simpl; [by intros [= <-]|].
  destruct j as [| | | | |[|jk [|jv [|]]]|]; try done.
  destruct (de m E k (Some jk) dk) as [kk|] eqn:E1; [|done]. destruct (de m E t (Some jv) dv) as [w|] eqn:E2; [|done].
  intros Hr F So.
  assert (StronglySorted (λ a b, less E k a.1 b.1 = true) (insert_map (less E k) kk w acc) ∧
          Forall (λ e, has_type E k e.1 ∧ has_type E t e.2) (insert_map (less E k) kk w acc)) as [S' F'].
  { rewrite insert_map_ins. apply (ins_sorted (λ a b : val * val, less E k a.1 b.1) (λ e, has_type E k e.1 ∧ has_type E t e.2)); try done.
    - intros [??] [??] [??] [? ?] [? ?] [? ?]. by apply less_transitive.
    - split; [by eapply Sk|by eapply St]. }
  eapply IH; [exact Hr|done|done].
Qed.
Lemma de_strmap_sound t mv d ms acc r : (∀ j dst v, de m E t j dst = Ok v → has_type E t v) →
  de_strmap (de m E t) mv d (less E TString) ms acc = Ok r →
  Forall (λ e, (∃ s, e.1 = VStr s) ∧ has_type E t e.2) acc → StronglySorted (λ a b, less E TString a.1 b.1 = true) acc →
  Forall (λ e, (∃ s, e.1 = VStr s) ∧ has_type E t e.2) r ∧ StronglySorted (λ a b, less E TString a.1 b.1 = true) r.
Proof.
  intros St. revert d acc. induction ms as [|[k j] js IH]; intros d acc; simpl; [by intros [= <-]|].
  destruct (de m E t (Some j) d) as [w|] eqn:E2; [|done].
  intros Hr F So.
  assert (StronglySorted (λ a b, less E TString a.1 b.1 = true) (insert_map (less E TString) (VStr k) w acc) ∧
          Forall (λ e, (∃ s, e.1 = VStr s) ∧ has_type E t e.2) (insert_map (less E TString) (VStr k) w acc)) as [S' F'].
  { rewrite insert_map_ins. apply (ins_sorted (λ a b : val * val, less E TString a.1 b.1) (λ e, (∃ s, e.1 = VStr s) ∧ has_type E t e.2)); try done.
    - intros [??] [??] [??] [[? ?] ?] [[? ?] ?] [[? ?] ?]. simpl in *. subst. by apply less_transitive.
    - split; [by exists k|by eapply St]. }
  eapply IH; [exact Hr|done|done].
Qed.

Lemma find_case_In {K} `{EqDecision K} (k : K) cs i0 i c : find_case k cs i0 = Some (i, c) → ∃ i', i = i0 + i' ∧ cs !! i' = Some (k, c).
Proof.
  revert i0. induction cs as [|[k' c'] cs IH]; intros i0; simpl; [done|].
  destruct (find_case k cs (S i0)) as [[i2 c2]|] eqn:E1.
  - intros [= -> ->]. destruct (IH _ E1) as (i' & -> & L). exists (S i'). split; [lia|done].
  - destruct (decide (k' = k)) as [->|]; [|done]. intros [= <- <-]. exists 0. split; [lia|done].
Qed.

Lemma Forall_id_map {X} (g : X → Prop) xs : Forall id (map g xs) ↔ Forall g xs.
Proof. induction xs as [|x xs IH]; simpl; [done|]. rewrite !Forall_cons, IH. done. Qed.

Lemma parse_sound t : sound t.
Proof.
  unfold sound. induction t as [ |bits s| | | |fs I|t I|cs I|t I|n t I|ts I|u t I|u k t Ik It|u t I] using ty_induction;
    intros Fa j dst v; cbn [de]; rewrite ?Hp, ?Hs.
  - destruct j as [[]|]; try done. by intros [= <-].
  - destruct j as [[]|]; try done. destruct (if s then _ else _); [|done]. intros [= <-]. simpl. apply wrap_range. simpl in Fa. lia.
  - destruct j as [[]|]; try done; by intros [= <-].
  - destruct j as [[]|]; try done; intros [= <-]; simpl; apply float_idem.
  - destruct j as [[]|]; try done; by intros [= <-].
  - destruct j as [[]|]; try done. intros (r & Hr & ->)%omap_out_Ok. simpl. destruct Fa as [_ Fa].
    apply (proj1 (Forall_id_map _ _)) in Fa. revert r Hr. generalize (tuple_of dst) as vs.
    induction fs as [|[[n t] d] fs IH]; intros vs r Hr; simpl in *; [injection Hr as <-; constructor|].
    apply Forall_cons in I as [It I]. apply Forall_cons in Fa as [Ft Fa].
    destruct (de m E t (member n l) (default d (head vs))) as [w|] eqn:E1; [|done]. apply omap_out_Ok in Hr as (r' & Hr & ->).
    constructor; [by eapply It|by eapply IH].
  - destruct j as [j|]; [|by intros [= <-]]. destruct Fa as [_ Fa].
    assert (j = JNull ∨ j ≠ JNull) as [->|Hj] by (destruct j; auto); [by intros [= <-]|].
    intros Hr. assert (omap_out (λ v, VOpt (Some v)) (de m E t (Some j) (default_of t)) = Ok v) as (w & Hw & ->)%omap_out_Ok by (by destruct j).
    simpl. by eapply I.
  - destruct Fa as (_ & _ & Fa). apply (proj1 (Forall_id_map _ _)) in Fa. destruct j as [[]|]; try done. unfold de_variant_current.
    destruct (member [] l); [|done]. destruct (read_type_id _) as [id|]; [|done].
    destruct (find_case _ _ _) as [[i [[n' rd] d]]|] eqn:Ef; [|done]. apply find_case_In in Ef as (i' & -> & L). simpl.
    rewrite !list_lookup_fmap in L. destruct (cs !! i') as [[[n2 id2] t]|] eqn:Ei; [|done]. simpl in L. injection L as -> -> <- <-.
    unfold de_case_generic. destruct (member n' l) as [j'|]; [|done].
    destruct (de m E t (Some j') (default_of t)) as [w|] eqn:Ew; [|done]. intros [= <-]. simpl.
    rewrite list_lookup_fmap, Ei. simpl. rewrite Forall_forall in I. rewrite Forall_forall in Fa.
    apply elem_of_list_lookup_2 in Ei. apply (I _ Ei (Fa _ Ei) _ _ _ Ew).
  - destruct j as [[]|]; try done. intros (r & Hr & ->)%omap_out_Ok. simpl. eapply de_elements_sound; [|apply resize_length|exact Hr]. by apply I.
  - destruct j as [[]|]; try done. intros (r & Hr & ->)%omap_out_Ok. simpl. eapply de_array_sound; [|exact Hr]. by apply I.
  - destruct j as [[]|]; try done. destruct (decide _) as [El|]; [|done]. intros (r & Hr & ->)%omap_out_Ok. simpl.
    simpl in Fa. apply (proj1 (Forall_id_map _ _)) in Fa. revert l El r Hr. generalize (tuple_of dst) as vs.
    induction ts as [|t ts IH]; intros vs [|j js] El r Hr; simpl in *; try done; [injection Hr as <-; constructor|].
    apply Forall_cons in I as [It I]. apply Forall_cons in Fa as [Ft Fa].
    destruct (de m E t (Some j) _) as [w|] eqn:E1; [|done]. apply omap_out_Ok in Hr as (r' & Hr & ->).
    constructor; [by eapply It|]. eapply (IH I Fa _ js); [lia|exact Hr].
  - destruct j as [[]|]; try done. intros (r & Hr & ->)%omap_out_Ok. simpl. eapply de_set_sound; [|exact Hr|constructor|constructor]. by apply I.
  - destruct j as [[]|]; try done. intros (r & Hr & ->)%omap_out_Ok. simpl. destruct Fa as [Fk Ft]. eapply de_map_sound; [| |exact Hr|constructor|constructor]; [by apply Ik|by apply It].
  - destruct j as [[]|]; try done. intros (r & Hr & ->)%omap_out_Ok. simpl. eapply de_strmap_sound; [|exact Hr|constructor|constructor]. by apply I.
Qed.
End parse_mode.

(** * Patches *)
(** The fields of a struct, one by one. *)
Lemma de_fields_each m E (fs : list (list N * ty * val)) ms vs r :
  de_fields (map (λ '(n, t, d), (n, de m E t, d)) fs) ms vs = Ok r →
  ∀ i n t d, fs !! i = Some (n, t, d) → ∃ v, r !! i = Some v ∧ de m E t (member n ms) (default d (vs !! i)) = Ok v.
Proof.
  revert vs r. induction fs as [|[[n0 t0] d0] fs IH]; intros vs r; [done|]. simpl.
  destruct (de m E t0 (member n0 ms) (default d0 (head vs))) as [w|] eqn:E1; [|done].
  intros (r' & Hr & ->)%omap_out_Ok i n t d. destruct i as [|i]; simpl.
  - intros [= -> -> ->]. exists w. split; [done|]. by destruct vs.
  - intros L. destruct (IH _ _ Hr i n t d L) as (v & Lv & Hv). exists v. split; [done|]. rewrite <-Hv. f_equal. destruct vs; [|done]. by destruct i.
Qed.

Lemma de_missing m E t v v' : patch m = true → is_set t = false → de m E t None v = Ok v' → v' = v.
Proof.
  intros Hp. destruct t; simpl; rewrite ?Hp; simpl; try (by intros _ [= <-]); try done.
  intros _. destruct (vstyle m); [done|by intros [= <-]].
Qed.
Lemma de_struct_inv m E fs j dst v : de m E (TStruct fs) (Some j) dst = Ok v →
  ∃ ms r, j = JObj ms ∧ v = VTuple r ∧ de_fields (map (λ '(n, t, d), (n, de m E t, d)) fs) ms (tuple_of dst) = Ok r.
Proof. cbn [de]. destruct j; try done. intros (r & Hr & ->)%omap_out_Ok. eauto. Qed.

Lemma at_path_cons n p t v r : at_path (n :: p) t v = Some r →
  ∃ fs vs i k t' d v', t = TStruct fs ∧ v = VTuple vs ∧ list_find (λ fd : list N * ty * val, fd.1.1 = n) fs = Some (i, (k, t', d)) ∧
    fs !! i = Some (n, t', d) ∧ vs !! i = Some v' ∧ at_path p t' v' = Some r.
Proof.
  simpl. destruct t as [ | | | | |fs| | | | | | | | ]; try done. destruct v as [ | | | |vs| | | | ]; try done.
  destruct (list_find _ fs) as [[i [[k t'] d]]|] eqn:Ef; [|done].
  destruct (vs !! i) as [v'|] eqn:Ev; [|done]. intros H.
  pose proof Ef as (L & Hk & _)%list_find_Some. simpl in Hk. subst k.
  exists fs, vs, i, n, t', d, v'. by split_and!.
Qed.
Lemma at_path_step n p fs i k t' d vs v' :
  list_find (λ fd : list N * ty * val, fd.1.1 = n) fs = Some (i, (k, t', d)) → vs !! i = Some v' →
  at_path (n :: p) (TStruct fs) (VTuple vs) = at_path p t' v'.
Proof. intros Ef Ev. simpl. by rewrite Ef, Ev. Qed.

Lemma patch_untouched m E p : patch m = true → ∀ t v j v' t' x,
  de m E t (Some j) v = Ok v' → at_path p t v = Some (t', x) → json_at p j = None → is_set t' = false →
  at_path p t v' = Some (t', x).
Proof.
  intros Hp. induction p as [|n p IH]; intros t v j v' t' x D A J S; [done|].
  apply at_path_cons in A as (fs & vs & i & k & t1 & d & v1 & -> & -> & Ef & L & Lv & A).
  apply de_struct_inv in D as (ms & r & -> & -> & D). simpl tuple_of in D.
  destruct (de_fields_each _ _ _ _ _ _ D i _ _ _ L) as (w & Lw & Dw). rewrite Lv in Dw. simpl in Dw.
  rewrite (at_path_step _ _ _ _ _ _ _ _ _ Ef Lw).
  simpl in J. destruct (member n ms) as [j'|] eqn:Em.
  - by eapply IH.
  - rewrite (de_missing m E t1 v1 w Hp); [done| |done].
    destruct p as [|n2 p]; [simpl in A; by injection A as -> ->|]. apply at_path_cons in A as (? & ? & ? & ? & ? & ? & ? & -> & _). done.
Qed.
Lemma patch_mentioned m E p : ∀ t v j v' t' x j',
  de m E t (Some j) v = Ok v' → at_path p t v = Some (t', x) → json_at p j = Some j' →
  ∃ x', at_path p t v' = Some (t', x') ∧ de m E t' (Some j') x = Ok x'.
Proof.
  induction p as [|n p IH]; intros t v j v' t' x j' D A J.
  { simpl in *. injection A as <- <-. injection J as <-. eauto. }
  apply at_path_cons in A as (fs & vs & i & k & t1 & d & v1 & -> & -> & Ef & L & Lv & A).
  apply de_struct_inv in D as (ms & r & -> & -> & D). simpl tuple_of in D.
  destruct (de_fields_each _ _ _ _ _ _ D i _ _ _ L) as (w & Lw & Dw). rewrite Lv in Dw. simpl in Dw.
  rewrite (at_path_step _ _ _ _ _ _ _ _ _ Ef Lw).
  simpl in J. destruct (member n ms) as [j1|] eqn:Em; [|done]. by eapply IH.
Qed.

(** * Without structs, a patch replaces *)
Definition same_reading (m1 m2 : mode) (E : env) (t : ty) : Prop :=
  ∀ j d1 d2 v, de m1 E t (Some j) d1 = Ok v → de m2 E t (Some j) d2 = Ok v.
Lemma no_structs_same m1 m2 E t : no_structs t → same_reading m1 m2 E t.
Proof.
  induction t as [ |bits s| | | |fs I|t I|cs I|t I|n t I|ts I|u t I|u k t Ik It|u t I] using ty_induction;
    intros Hn j d1 d2 v; cbn [de]; try done.
  - by destruct j.
  - destruct j; try done. by destruct (if s then _ else _).
  - by destruct j.
  - by destruct j.
  - by destruct j.
  - specialize (I Hn). assert (j = JNull ∨ j ≠ JNull) as [->|Hj] by (destruct j; auto); [done|].
    intros Hr. assert (omap_out (λ v, VOpt (Some v)) (de m1 E t (Some j) (default_of t)) = Ok v) as (w & Hw & ->)%omap_out_Ok by (by destruct j).
    apply (I _ _ (default_of t)) in Hw. destruct j; try done; by rewrite Hw.
  - specialize (I Hn). destruct j; try done. intros (r & Hr & ->)%omap_out_Ok.
    enough (de_elements (de m2 E t) l (resize (length l) (default_of t) (tuple_of d2)) = Ok r) as -> by done.
    revert Hr. assert (∀ vs1 vs2, length vs1 = length l → length vs2 = length l → de_elements (de m1 E t) l vs1 = Ok r → de_elements (de m2 E t) l vs2 = Ok r) as G.
    { revert r. induction l as [|j l IH]; intros r [|v1 vs1] [|v2 vs2] L1 L2; simpl; try done.
      destruct (de m1 E t (Some j) v1) as [w|] eqn:E1; [|done]. rewrite (I _ _ v2 _ E1). intros (r' & Hr & ->)%omap_out_Ok.
      simpl in *. by rewrite (IH r' vs1 vs2) by (lia || done). }
    apply G; apply resize_length.
  - specialize (I Hn). clear Hn. destruct j; try done. intros (r & Hr & ->)%omap_out_Ok.
    enough (de_array (de m2 E t) n l (tuple_of d2) (default_of t) = Ok r) as -> by done.
    revert n r Hr. generalize (tuple_of d1) as vs1, (tuple_of d2) as vs2. induction l as [|j l IH]; intros vs1 vs2 [|n] r; simpl; try done.
    destruct (de m1 E t (Some j) _) as [w|] eqn:E1; [|done]. rewrite (I _ _ (default (default_of t) (head vs2)) _ E1). intros (r' & Hr & ->)%omap_out_Ok.
    by rewrite (IH _ (tail vs2) _ _ Hr).
  - destruct j; try done. destruct (decide _) as [El|]; [|done]. clear El. intros (r & Hr & ->)%omap_out_Ok.
    enough (de_tuple (map (λ t, (de m2 E t, default_of t)) ts) l (tuple_of d2) = Ok r) as -> by done.
    simpl in Hn. apply (proj1 (Forall_id_map _ _)) in Hn.
    revert l r Hr. generalize (tuple_of d1) as vs1, (tuple_of d2) as vs2. induction ts as [|t ts IH]; intros vs1 vs2 [|j l] r; simpl; try done.
    apply Forall_cons in I as [It I]. apply Forall_cons in Hn as [Ht Hn].
    destruct (de m1 E t (Some j) _) as [w|] eqn:E1; [|done]. rewrite (It Ht _ _ (default (default_of t) (head vs2)) _ E1). intros (r' & Hr & ->)%omap_out_Ok.
    by rewrite (IH I Hn _ (tail vs2) _ _ Hr).
  - specialize (I Hn). destruct j; try done. intros (r & Hr & ->)%omap_out_Ok.
    enough (de_set (de m2 E t) (default_of t) (less E t) l [] = Ok r) as -> by done.
    revert r Hr. generalize (@nil val) as acc. induction l as [|j l IH]; intros acc r; simpl; [done|].
    destruct (de m1 E t (Some j) _) as [w|] eqn:E1; [|done]. rewrite (I _ _ (default_of t) _ E1). apply IH.
  - destruct Hn as [Hk Ht]. specialize (Ik Hk). specialize (It Ht). destruct j; try done. intros (r & Hr & ->)%omap_out_Ok.
    enough (de_map (de m2 E k) (de m2 E t) (default_of k) (default_of t) (less E k) l [] = Ok r) as -> by done.
    revert r Hr. generalize (@nil (val * val)) as acc. induction l as [|j l IH]; intros acc r; simpl; [done|].
    destruct j as [| | | | |[|jk [|jv [|]]]|]; try done.
    destruct (de m1 E k (Some jk) _) as [kk|] eqn:E1; [|done]. rewrite (Ik _ _ (default_of k) _ E1).
    destruct (de m1 E t (Some jv) _) as [w|] eqn:E2; [|done]. rewrite (It _ _ (default_of t) _ E2). apply IH.
  - specialize (I Hn). destruct j; try done. intros (r & Hr & ->)%omap_out_Ok.
    enough (∀ dd, de_strmap (de m2 E t) (moved E t) dd (less E TString) l [] = Ok r) as G by by rewrite G.
    revert r Hr. generalize (@nil (val * val)) as acc, (default_of t) as d0. induction l as [|[k j] l IH]; intros acc d0 r; simpl; [done|].
    destruct (de m1 E t (Some j) d0) as [w|] eqn:E1; [|done]. intros Hr dd. rewrite (I _ _ dd _ E1). by eapply IH.
Qed.
