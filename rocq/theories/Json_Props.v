(** JSON(x), ParseJSON and PatchObjectWithJSON: the properties C49, C50, C51 and C63. *)
From stdpp Require Import list gmap strings.
From Coq Require Import ZArith Sorted.
From Verif Require Base.
From Verif Require Import Json_Model Json_Spec Json_Proofs Json_Proofs2.

(** ** C49: parsing the JSON of an object gives the object back *)
(** In each of the three formats, for any type that can be represented and any value of it, whether the destination is new or
    holds another value. *)
Theorem C49_parse_of_json_is_identity : ∀ (E : env) (f : format) (t : ty) (v : val),
  env_ok E → faithful f t → has_type E t v →
  parse f E t (to_json f E t v) = Ok v ∧
  ∀ old, parse_into f E t (to_json f E t v) old = Ok v.
Proof.
  intros E f t v EO Fa Ty. unfold parse, parse_into, to_json.
  assert (∀ old, de (Mode false (variant_style f)) E t (Some (inner (ser f E t v))) old = Ok v) as G.
  { intros old. by apply (round_trip_all E f EO (Mode false (variant_style f)) t). }
  split; [apply G|exact G].
Qed.

(** Hence different objects have different JSON. *)
Theorem C49_json_is_injective : ∀ (E : env) (f : format) (t : ty) (v w : val),
  env_ok E → faithful f t → has_type E t v → has_type E t w →
  to_json f E t v = to_json f E t w → v = w.
Proof.
  intros E f t v w EO Fa Tv Tw H. destruct (C49_parse_of_json_is_identity E f t v EO Fa Tv) as [P1 _].
  destruct (C49_parse_of_json_is_identity E f t w EO Fa Tw) as [P2 _]. rewrite H, P2 in P1. by injection P1.
Qed.

(** The overload taking std::string: only in the format Current. *)
Theorem C49_parse_string_of_json : ∀ (E : env) (t : ty) (v old : val),
  env_ok E → faithful Current t → has_type E t v → parse_string_into Current E t (to_json Current E t v) old = Ok v.
Proof. intros. unfold parse_string_into. by apply C49_parse_of_json_is_identity. Qed.

(** ** A concrete environment and type *)
Fixpoint str_lt (a b : list N) : bool :=
  match a, b with
  | _, [] => false
  | [], _ :: _ => true
  | x :: a', y :: b' => if decide (x < y)%N then true else if decide (x = y) then str_lt a' b' else false
  end.
Definition val_lt (x y : val) : bool :=
  match x, y with VInt a, VInt b => Z.ltb a b | VStr a, VStr b => str_lt a b | _, _ => false end.
(** Unordered containers are iterated over backwards. *)
Definition E0 : env :=
  Env (λ z, Z.to_N z) (λ d, d) (λ _, val_lt) (λ A _ l, reverse l) (λ _ v, v).

Lemma str_lt_irrefl a : str_lt a a = false.
Proof. induction a as [|x a IH]; simpl; [done|]. destruct (decide (x < x)%N); [lia|]. by destruct (decide (x = x)). Qed.
Lemma str_lt_trans a b c : str_lt a b = true → str_lt b c = true → str_lt a c = true.
Proof.
  revert b c. induction a as [|x a IH]; intros [|y b] [|z c]; simpl; try done.
  destruct (decide (x < y)%N), (decide (y < z)%N), (decide (x < z)%N); try done; try lia.
  - destruct (decide (y = z)); [lia|done].
  - destruct (decide (x = y)); [lia|done].
  - destruct (decide (x = y)), (decide (y = z)), (decide (x = z)); try done; try lia. apply IH.
Qed.
Lemma E0_ok : env_ok E0.
Proof.
  split.
  - intros t x _. destruct x; simpl; try done; [apply Z.ltb_irrefl|apply str_lt_irrefl].
  - intros t x y z _ _ _. destruct x, y, z; simpl; try done.
    + rewrite !Z.ltb_lt. lia.
    + apply str_lt_trans.
  - intros A t l. apply reverse_Permutation.
Qed.

Definition name (s : string) : list N := Base.bs s.
Definition point : ty := TStruct [(name "x", TInt 32 true, VInt 7); (name "y", TInt 32 true, VInt 0)].
Definition shape : ty := TVariant [(name "Point", 9000000000000000001%N, point); (name "Label", 9000000000000000002%N, TStruct [(name "text", TString, VStr [])])].
Definition demo : ty :=
  TStruct [ (name "tags", TSet true TString, VSet []); (name "pts", TVector point, VTuple []); (name "who", TOptional (TInt 8 false), VOpt None);
            (name "shape", shape, VVariant None); (name "by_id", TMap false (TInt 64 true) TString, VMap []);
            (name "by_name", TStrMap true shape, VMap []); (name "w", TTuple [TBool; TDouble], VTuple [VBool false; VDouble 0]) ].
Definition pt (x y : Z) : val := VTuple [VInt x; VInt y].
Definition demo_value : val :=
  VTuple [ VSet [VStr (name "a"); VStr (name "b")]; VTuple [pt 1 2; pt 3 (-4)]; VOpt None;
           VVariant (Some (0, pt 5 6)); VMap [(VInt (-1), VStr (name "m")); (VInt 1, VStr (name "n"))];
           VMap [(VStr (name "k"), VVariant (Some (1, VTuple [VStr (name "hi")]))); (VStr (name "l"), VVariant (Some (0, pt 8 9)))];
           VTuple [VBool true; VDouble 42] ].
Lemma demo_faithful f : faithful f demo.
Proof.
  assert (faithful f point) as P.
  { split; [by apply (bool_decide_unpack _)|]. simpl. repeat apply Forall_cons_2; try (split; lia). apply Forall_nil_2. }
  assert (faithful f shape) as S.
  { split; [|split].
    - by apply (bool_decide_unpack _).
    - destruct f; [split|..]; by apply (bool_decide_unpack _).
    - simpl map. repeat apply Forall_cons_2; [exact P| |apply Forall_nil_2]. split; [by apply (bool_decide_unpack _)|]. simpl. repeat apply Forall_cons_2; done. }
  split; [by apply (bool_decide_unpack _)|]. simpl map.
  repeat apply Forall_cons_2; try apply Forall_nil_2; try exact S; try exact P; try done.
Qed.
Lemma demo_typed : has_type E0 demo demo_value.
Proof.
  unfold demo, demo_value. simpl.
  repeat first [apply Forall2_cons_2 | apply Forall2_nil_2 | apply Forall_cons_2 | apply Forall_nil_2 | done | lia | by eexists |
                apply SSorted_nil | apply SSorted_cons | split]; simpl; lia.
Qed.
Example C49_ex : parse JavaScript E0 demo (to_json JavaScript E0 demo demo_value) = Ok demo_value.
Proof. apply C49_parse_of_json_is_identity; [apply E0_ok|apply demo_faithful|apply demo_typed]. Qed.
(** What the document looks like: the unordered set is written backwards. *)
Example C49_ex_document :
  json_at [name "tags"] (to_json Current E0 demo demo_value) = Some (JArr [JStr (name "b"); JStr (name "a")]) ∧
  json_at [name "shape"] (to_json Current E0 demo demo_value) =
    Some (JObj [(name "Point", JObj [(name "x", JInt 5); (name "y", JInt 6)]); ([], JStr (name "T9000000000000000001"))]).
Proof. split; vm_compute; reflexivity. Qed.

(** Not for all types: an Optional within an Optional that contains an empty one comes back empty. *)
Theorem C49_nested_optional_refuted :
  ¬ ∀ (E : env) (f : format) (t : ty) (v : val), env_ok E → has_type E t v → parse f E t (to_json f E t v) = Ok v.
Proof.
  intros H. specialize (H E0 Current (TOptional (TOptional TBool)) (VOpt (Some (VOpt None))) E0_ok I). discriminate H.
Qed.
(** Not for uninitialized variants: in format Current their JSON can't be parsed. *)
Theorem C49_uninitialized_variant_refuted : ∀ E cs,
  parse Current E (TVariant cs) (to_json Current E (TVariant cs) (VVariant None)) = Throws JSONUninitializedVariantObjectException (VVariant None).
Proof. done. Qed.
(** The overload taking std::string ignores the format it is instantiated with. *)
Theorem C49_string_overload_refuted :
  ¬ ∀ (E : env) (f : format) (t : ty) (v old : val), env_ok E → faithful f t → has_type E t v →
    parse_string_into f E t (to_json f E t v) old = Ok v.
Proof.
  intros H. specialize (H E0 Minimalistic shape (VVariant (Some (0, pt 5 6))) (VVariant None) E0_ok).
  assert (faithful Minimalistic shape) as F.
  { destruct (demo_faithful Minimalistic) as [_ F]. simpl map in F. apply Forall_inv_tail, Forall_inv_tail, Forall_inv_tail, Forall_inv in F. exact F. }
  assert (has_type E0 shape (VVariant (Some (0, pt 5 6)))) as T.
  { simpl. repeat apply Forall2_cons_2; try apply Forall2_nil_2; simpl; lia. }
  specialize (H F T). vm_compute in H. discriminate H.
Qed.

(** ** C50: a patch changes only what it mentions *)
(** A field that is not mentioned keeps its value, at any depth of nested structs.  (Unless it is a set: see below.) *)
Theorem C50_unmentioned_is_untouched_partial : ∀ (E : env) (f : format) (t : ty) (v v' x : val) (j : json) (p : list (list N)) (t' : ty),
  patch_object f E t v j = Ok v' → at_path p t v = Some (t', x) → json_at p j = None → is_set t' = false →
  at_path p t v' = Some (t', x).
Proof. intros E f t v v' x j p t' H. by apply (patch_untouched (Mode true (variant_style f)) E p eq_refl t v j v' t' x H). Qed.
(** A field that is mentioned gets the patched value: its old value patched with the part of the document. *)
Theorem C50_mentioned_is_patched : ∀ (E : env) (f : format) (t : ty) (v v' x : val) (j j' : json) (p : list (list N)) (t' : ty),
  patch_object f E t v j = Ok v' → at_path p t v = Some (t', x) → json_at p j = Some j' →
  ∃ x', at_path p t v' = Some (t', x') ∧ patch_object f E t' x j' = Ok x'.
Proof. intros E f t v v' x j j' p t' H. by apply (patch_mentioned (Mode true (variant_style f)) E p t v j v' t' x j' H). Qed.
(** With no structs or variants inside, a patched value is the parsed value, regardless of the old one. *)
Theorem C50_patch_replaces : ∀ (E : env) (f : format) (t : ty) (v v' : val) (j : json),
  no_structs t → (patch_object f E t v j = Ok v' ↔ parse f E t j = Ok v').
Proof.
  intros E f t v v' j Hn. unfold patch_object, parse, parse_into.
  split; apply (no_structs_same _ _ E t Hn).
Qed.
(** Patching with the complete JSON of another object gives that object. *)
Theorem C50_full_patch : ∀ (E : env) (f : format) (t : ty) (v w : val),
  env_ok E → faithful f t → f ≠ Minimalistic → has_type E t w → patch_object f E t v (to_json f E t w) = Ok w.
Proof.
  intros E f t v w EO Fa Hf Tw. unfold patch_object, to_json.
  by apply (round_trip_all E f EO (Mode true (variant_style f)) t).
Qed.
(** A patch that mentions nothing changes nothing, if the struct has no sets, maps or (in format Current) variants as fields. *)
Definition patchable (t : ty) : Prop := match t with TSet _ _ | TMap _ _ _ | TStrMap _ _ | TVariant _ => False | _ => True end.
Theorem C50_empty_patch_partial : ∀ (E : env) (f : format) (fs : list (list N * ty * val)) (vs : list val),
  length vs = length fs → Forall (λ fd, patchable fd.1.2) fs →
  patch_object f E (TStruct fs) (VTuple vs) (JObj []) = Ok (VTuple vs).
Proof.
  intros E f fs vs L H. unfold patch_object. cbn [de tuple_of].
  enough (de_fields (map (λ '(n, t, d), (n, de (Mode true (variant_style f)) E t, d)) fs) [] vs = Ok vs) as -> by done.
  revert vs L. induction H as [|[[n t] d] fs Ht H IH]; intros [|v vs] L; simpl in *; try done.
  assert (de (Mode true (variant_style f)) E t None v = Ok v) as -> by (by destruct t).
  rewrite IH by lia. done.
Qed.

Definition user : ty :=
  TStruct [ (name "name", TString, VStr []); (name "home", point, pt 7 0); (name "tags", TSet false TString, VSet []); (name "age", TOptional (TInt 8 false), VOpt None)].
Definition user_value : val := VTuple [VStr (name "Joe"); pt 1 2; VSet [VStr (name "t")]; VOpt (Some (VInt 33))].
Definition user_patch : json := JObj [(name "home", JObj [(name "y", JInt 5)]); (name "tags", JArr [JStr (name "u")]); (name "age", JNull)].
Example C50_ex : patch_object Current E0 user user_value user_patch = Ok (VTuple [VStr (name "Joe"); pt 1 5; VSet [VStr (name "u")]; VOpt None]).
Proof. vm_compute. reflexivity. Qed.
Example C50_ex_untouched : at_path [name "home"; name "x"] user user_value = Some (TInt 32 true, VInt 1) ∧ json_at [name "home"; name "x"] user_patch = None.
Proof. split; vm_compute; reflexivity. Qed.

(** A set that is not mentioned is cleared. *)
Theorem C50_unmentioned_set_refuted :
  patch_object Current E0 user user_value (JObj []) = Ok (VTuple [VStr (name "Joe"); pt 1 2; VSet []; VOpt (Some (VInt 33))]).
Proof. vm_compute. reflexivity. Qed.
(** A map that is not mentioned makes the patch fail, after the fields before it have been changed. *)
Definition has_map : ty := TStruct [(name "a", TInt 32 true, VInt 0); (name "m", TStrMap false TBool, VMap [])].
Theorem C50_unmentioned_map_refuted :
  patch_object Current E0 has_map (VTuple [VInt 1; VMap [(VStr (name "k"), VBool true)]]) (JObj [(name "a", JInt 2)]) =
  Throws JSONSchemaException (VTuple [VInt 2; VMap [(VStr (name "k"), VBool true)]]).
Proof. vm_compute. reflexivity. Qed.
(** So does a variant, in format Current. *)
Definition has_variant : ty := TStruct [(name "a", TInt 32 true, VInt 0); (name "v", shape, VVariant None)].
Theorem C50_unmentioned_variant_refuted :
  patch_object Current E0 has_variant (VTuple [VInt 1; VVariant (Some (0, pt 5 6))]) (JObj [(name "a", JInt 2)]) =
  Throws JSONUninitializedVariantObjectException (VTuple [VInt 2; VVariant (Some (0, pt 5 6))]).
Proof. vm_compute. reflexivity. Qed.
(** In a map from strings to structs, given in a patch, the fields missing from an entry are those of the entry before it (numbers are
    not changed by being moved from). *)
Theorem C50_map_entry_inherits_refuted :
  patch_object Current E0 (TStrMap false point) (VMap [])
    (JObj [(name "a", JObj [(name "x", JInt 1); (name "y", JInt 2)]); (name "b", JObj [(name "x", JInt 3)])]) =
  Ok (VMap [(VStr (name "a"), pt 1 2); (VStr (name "b"), pt 3 2)]).
Proof. vm_compute. reflexivity. Qed.

(** ** C51: integers *)
(** If an integer is read at all, the result is in the range of its type and congruent to what was written; it is what was written if that fits,
    and only then. *)
Theorem C51_integers_modulo_partial : ∀ (E : env) (f : format) (bits : N) (signed : bool) (j : json) (old v : val),
  (0 < bits ≤ 64)%N → parse_into f E (TInt bits signed) j old = Ok v →
  ∃ z y, j = JInt z ∧ v = VInt y ∧ in_range bits signed y ∧ (y mod 2 ^ Z.of_N bits = z mod 2 ^ Z.of_N bits)%Z ∧
         (in_range bits signed z ↔ y = z).
Proof.
  intros E f bits signed j old v Hb H. unfold parse_into in H. cbn [de] in H. destruct j as [|b|z|d|s|l|l]; try discriminate H.
  destruct (if signed then _ else _); [|discriminate H]. injection H as <-.
  exists z, (wrap bits signed z). assert (in_range bits signed (wrap bits signed z)) as R by (apply wrap_range; lia).
  split_and!; try done.
  - unfold wrap. destruct (signed && _); [|by rewrite Z.mod_mod by lia].
    rewrite <- (Z.mod_add _ 1) by lia. rewrite <- (Z.mod_mod z) at 2 by lia. f_equal. lia.
  - split; [apply wrap_in_range; lia|]. intros Hz. by rewrite <- Hz.
Qed.
(** 64-bit integers are read exactly, and what does not fit is rejected. *)
Theorem C51_64_bit_integers : ∀ (E : env) (f : format) (signed : bool) (j : json) (old v : val),
  parse_into f E (TInt 64 signed) j old = Ok v ↔ ∃ z, j = JInt z ∧ v = VInt z ∧ in_range 64 signed z.
Proof.
  intros E f signed j old v. unfold parse_into. cbn [de]. split.
  - destruct j as [|b|z|d|s|l|l]; try discriminate. destruct (if signed then _ else _) eqn:Er; [|discriminate]. intros [= <-].
    assert (in_range 64 signed z) as R. { unfold in_range. destruct signed; simpl in Er; apply bool_decide_eq_true_1 in Er; lia. }
    exists z. by rewrite wrap_in_range.
  - intros (z & -> & -> & R). pose proof (in_range_64 64 signed z ltac:(lia) R) as I.
    destruct signed; rewrite I; by rewrite wrap_in_range.
Qed.
(** Narrower ones are truncated. *)
Theorem C51_truncated_refuted : ∀ E f old, parse_into f E (TInt 8 false) (JInt 300) old = Ok (VInt 44) ∧ parse_into f E (TInt 8 true) (JInt 200) old = Ok (VInt (-56)).
Proof. done. Qed.
Example C51_ex : parse_into Current E0 (TInt 8 false) (JInt 255) (VInt 0) = Ok (VInt 255) ∧ in_range 8 false 255.
Proof. split; [done|]. simpl. lia. Qed.

(** ** C63: ParseJSON into an existing object *)
(** What it holds afterwards does not depend on what it held before (format Current). *)
Theorem C63_parse_into_forgets_the_old_value : ∀ (E : env) (t : ty) (j : json) (old1 old2 v : val),
  parse_into Current E t j old1 = Ok v → parse_into Current E t j old2 = Ok v.
Proof. intros E t j old1 old2 v. unfold parse_into. by apply (parse_blind E (Mode false StyleCurrent) eq_refl t eq_refl). Qed.
(** What is parsed, from any document, is a value of the type: integers in range, variants set, sets and maps ordered. *)
Theorem C63_parsed_values_are_well_formed : ∀ (E : env) (t : ty) (j : json) (old v : val),
  env_ok E → (∀ d, to_float E (to_float E d) = to_float E d) → faithful Current t →
  parse_into Current E t j old = Ok v → has_type E t v.
Proof. intros E t j old v EO Fi Fa. unfold parse_into. by apply (parse_sound E (Mode false StyleCurrent) eq_refl EO Fi eq_refl t Fa). Qed.
(** So whatever can be parsed can be written and parsed again. *)
Theorem C63_reparse : ∀ (E : env) (t : ty) (j : json) (old v : val),
  env_ok E → (∀ d, to_float E (to_float E d) = to_float E d) → faithful Current t →
  parse_into Current E t j old = Ok v → parse Current E t (to_json Current E t v) = Ok v.
Proof. intros. apply C49_parse_of_json_is_identity; [done|done|]. by eapply C63_parsed_values_are_well_formed. Qed.
Example C63_ex : parse_into Current E0 point (JObj [(name "y", JInt 1); (name "z", JNull); (name "x", JInt 2)]) (pt 8 8) = Ok (pt 2 1).
Proof. vm_compute. reflexivity. Qed.
(** In these formats an object is taken for a variant only if exactly one of its keys, "" and "$" aside, could name the case, and it names one. *)
Theorem C63_variant_object_names_one_case : ∀ (E : env) (f : format) (cs : list (list N * N * ty)) (ms : list (list N * json)) (old v : val),
  f ≠ Current → parse_into f E (TVariant cs) (JObj ms) old = Ok v →
  ∃ n j, n ∈ cs.*1.*1 ∧ (n, j) ∈ ms ∧ n ≠ [] ∧ n ≠ [36%N] ∧
    ∀ l1 l2, ms = l1 ++ (n, j) :: l2 → ∀ n', n' ∈ (l1 ++ l2).*1 → n' = [] ∨ n' = [36%N].
Proof.
  intros E f cs ms old v Hf. unfold parse_into. cbn [de].
  assert (vstyle (Mode false (variant_style f)) = StyleSimple) as -> by (by destruct f).
  unfold de_variant_simple. destruct (case_keys ms) as [|[n j] [|? ?]] eqn:Ek; [done| |done].
  destruct (find_case n _ 0) as [[i [[n1 rd] d]]|] eqn:Ef; [|done]. intros _.
  assert (Hin : (n, j) ∈ case_keys ms) by (rewrite Ek; left).
  unfold case_keys in Hin. apply elem_of_list_filter in Hin as [[Hn0 Hn1] Hin].
  exists n, j. split_and!; [|done|done|done|].
  - assert (Hfind : ∀ (l : list (list N * (list N * reader * val))) k y, find_case n l k = Some y → n ∈ l.*1).
    { clear. induction l as [|[a b] l IH]; intros k y; simpl; [done|]. case_decide as Hd; [|destruct (find_case n l (S k)) eqn:Ek'; [|done]; intros _; right; by eapply IH].
      intros _. subst. by left. }
    apply Hfind in Ef. rewrite map_map in Ef.
    apply elem_of_list_fmap in Ef as ([a b] & -> & Hab). apply elem_of_list_fmap in Hab as ([[a' b'] c'] & Hx & Hab). simplify_eq/=.
    apply elem_of_list_fmap. exists (a', b'). split; [done|]. apply elem_of_list_fmap. by exists (a', b', c').
  - intros l1 l2 -> n' Hn'. destruct (decide (n' = [])) as [|H0]; [by left|]. destruct (decide (n' = [36%N])) as [|H1]; [by right|]. exfalso.
    unfold case_keys in Ek. rewrite filter_app, filter_cons_True in Ek by done.
    apply elem_of_list_fmap in Hn' as ([? j'] & -> & Hin'). simpl in *.
    apply (f_equal length) in Ek. rewrite app_length in Ek. simpl in Ek.
    apply elem_of_app in Hin' as [Hin'|Hin'];
      (eapply elem_of_list_filter in Hin' || idtac).
    + assert (Hf' : (l, j') ∈ filter (λ m : list N * json, m.1 ≠ [] ∧ m.1 ≠ [36%N]) l1) by (by apply elem_of_list_filter).
      destruct (filter _ l1); [by apply elem_of_nil in Hf'|simpl in Ek; lia].
    + assert (Hf' : (l, j') ∈ filter (λ m : list N * json, m.1 ≠ [] ∧ m.1 ≠ [36%N]) l2) by (by apply elem_of_list_filter).
      destruct (filter _ l2); [by apply elem_of_nil in Hf'|simpl in Ek; lia].
Qed.
Example C63_ambiguous_ex : match parse_into JavaScript E0 shape (JObj [(name "Point", JObj []); (name "Circle", JObj [])]) (VVariant None) with Throws _ _ => true | _ => false end = true.
Proof. vm_compute. reflexivity. Qed.
(** In the formats Minimalistic and JavaScript a variant for which the document has null keeps its old value. *)
Theorem C63_other_formats_refuted :
  ¬ ∀ (E : env) (f : format) (t : ty) (j : json) (old1 old2 v : val), parse_into f E t j old1 = Ok v → parse_into f E t j old2 = Ok v.
Proof.
  intros H. specialize (H E0 Minimalistic shape JNull (VVariant None) (VVariant (Some (0, pt 5 6))) (VVariant None) eq_refl). discriminate H.
Qed.

Print Assumptions C49_parse_of_json_is_identity.
Print Assumptions C49_json_is_injective.
Print Assumptions C49_parse_string_of_json.
Print Assumptions C49_nested_optional_refuted.
Print Assumptions C49_uninitialized_variant_refuted.
Print Assumptions C49_string_overload_refuted.
Print Assumptions C50_unmentioned_is_untouched_partial.
Print Assumptions C50_mentioned_is_patched.
Print Assumptions C50_patch_replaces.
Print Assumptions C50_full_patch.
Print Assumptions C50_empty_patch_partial.
Print Assumptions C50_unmentioned_set_refuted.
Print Assumptions C50_unmentioned_map_refuted.
Print Assumptions C50_unmentioned_variant_refuted.
Print Assumptions C50_map_entry_inherits_refuted.
Print Assumptions C51_integers_modulo_partial.
Print Assumptions C51_64_bit_integers.
Print Assumptions C51_truncated_refuted.
Print Assumptions C63_parse_into_forgets_the_old_value.
Print Assumptions C63_parsed_values_are_well_formed.
Print Assumptions C63_reparse.
Print Assumptions C63_other_formats_refuted.
Print Assumptions C63_variant_object_names_one_case.
