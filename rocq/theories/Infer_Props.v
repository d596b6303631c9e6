(** C73, C74: inferring a schema from JSON documents, utils/json_schema/infer.h. *)
From stdpp Require Import list strings sets.
From Coq Require Import ZArith Lia.
From Verif Require Import Json_Model Infer_Model Infer_Spec Infer_Proofs Infer_Proofs2 Infer_Proofs3.

Section infer.
Variable ignored : str → bool.
Variables (doc : json) (docs : list json).
(** What the schema is inferred from: the documents without the members at the paths to be ignored.
    The names of the members of every object are distinct, and the 32-bit counters do not overflow. *)
Let input := map (stripped ignored []) (doc :: docs).
Hypothesis Hkeys : Forall distinct_keys input.
Hypothesis Hsize : (total input < 2 ^ 32)%N.

(** * C74 *)
(** The schema says exactly what is found in the documents, at every position: which fields there are, their types,
    how many there are of them, and whether they are always there. *)
Theorem C74_exact s : infer_file ignored doc docs = inr s → describes s (map Some input).
Proof. intros H. rewrite infer_file_stripped in H. by apply infer_file_ok in H as [H _]. Qed.

(** A schema is inferred whenever there is one, if the names can be those of fields. *)
Theorem C74_succeeds :
  (∃ s, infer_file ignored doc docs = inr s) ↔ Forall suitable input ∧ ∃ s, describes s (map Some input).
Proof.
  split.
  - intros [s H]. rewrite infer_file_stripped in H. apply infer_file_ok in H as [H H']; eauto.
  - intros [H [s Hs]]. rewrite infer_file_stripped. by eapply infer_file_succeeds.
Qed.
End infer.

(** At most one schema fits, up to the order of fields (and the number of nulls counted). *)
Theorem C74_unique s s' ds : describes s ds → describes s' ds → similar s s'.
Proof. apply describes_similar. Qed.

(** The order of the documents does not matter. *)
Theorem C74_order ignored doc docs doc' docs' s :
  let input := map (stripped ignored []) (doc :: docs) in
  Forall distinct_keys input → (total input < 2 ^ 32)%N →
  doc :: docs ≡ₚ doc' :: docs' → infer_file ignored doc docs = inr s →
  ∃ s', infer_file ignored doc' docs' = inr s' ∧ similar s s'.
Proof.
  intros input Hk Hsz Hperm Hs.
  assert (input ≡ₚ map (stripped ignored []) (doc' :: docs')) as Hp by (by apply fmap_Permutation).
  assert (Forall distinct_keys (map (stripped ignored []) (doc' :: docs'))) as Hk' by (by rewrite <- Hp).
  assert (total (map (stripped ignored []) (doc' :: docs')) = total input) as Hsz'.
  { unfold total. apply total_perm, fmap_Permutation. by symmetry. }
  pose proof (C74_exact ignored doc docs Hk Hsz s Hs) as Hd.
  pose proof (proj1 (C74_succeeds ignored doc docs Hk Hsz) (ex_intro _ s Hs)) as [Hsuit _].
  assert (describes s (map Some (map (stripped ignored []) (doc' :: docs')))) as Hd'.
  { eapply describes_perm; [|exact Hd]. by apply fmap_Permutation. }
  destruct (proj2 (C74_succeeds ignored doc' docs' Hk' ltac:(by rewrite Hsz'))) as [s' Hs'].
  { split; [by rewrite <- Hp|eauto]. }
  exists s'. split; [done|]. eapply C74_unique; [exact Hd'|]. eapply C74_exact; [exact Hk'|by rewrite Hsz'|done].
Qed.

(** * C73 *)
(** Every document parses into the type inferred, provided that where it has empty arrays the type has vectors. *)
Theorem C73_sound E ignored doc docs s t d :
  let input := map (stripped ignored []) (doc :: docs) in
  Forall distinct_keys input → (total input < 2 ^ 32)%N →
  infer_file ignored doc docs = inr s → cpp_type s = CppType t → d ∈ input → empty_arrays_fit t d →
  ∃ v, parse Current E t d = Ok v.
Proof.
  intros input Hk Hsz Hs Ht Hd Hfit. pose proof (C74_exact ignored doc docs Hk Hsz s Hs) as Hdesc.
  apply (types_fit E s _ t Hdesc Ht (Some d)).
  - apply elem_of_list_fmap. eauto.
  - intros j [= <-]. done.
Qed.
(** In particular, with nothing to be ignored, every document with no empty arrays. *)
Theorem C73_no_empty_arrays E doc docs s t d :
  Forall distinct_keys (doc :: docs) → (total (doc :: docs) < 2 ^ 32)%N →
  infer_file (λ _, false) doc docs = inr s → cpp_type s = CppType t → d ∈ doc :: docs → no_empty_arrays d →
  ∃ v, parse Current E t d = Ok v.
Proof.
  intros Hk Hsz Hs Ht Hd Hne. eapply (C73_sound E nothing doc docs); eauto; rewrite ?stripped_nothing_all; auto.
  by apply no_empty_arrays_fit.
Qed.

(** * Examples and counterexamples *)
Definition obj (l : list (str * json)) : json := JObj l.
Definition a : str := [97%N]. Definition b : str := [98%N].
(** {"a":1,"b":["x"]}, {"a":-2,"b":null}, {"a":0.5} *)
Definition doc1 := obj [(a, JInt 1); (b, JArr [JStr [120%N]])].
Definition doc2 := obj [(a, JInt (-2)); (b, JNull)].
Definition doc3 := obj [(a, JDouble 7)].
Example C73_inferred : infer_file (λ _, false) doc1 [doc2; doc3] =
  inr (SObject [(a, SDouble 3 0); (b, SArray (SString 1 0) 1 2)] 3 0).
Proof. vm_compute. reflexivity. Qed.
Example C73_type :
  cpp_type (SObject [(a, SDouble 3 0); (b, SArray (SString 1 0) 1 2)] 3 0) =
  CppType (TStruct [(a, TDouble, VDouble 0); (b, TOptional (TVector TString), VOpt None)]).
Proof. vm_compute. reflexivity. Qed.
Example C73_hypotheses : Forall distinct_keys [doc1; doc2; doc3] ∧ (total [doc1; doc2; doc3] < 2 ^ 32)%N ∧ Forall no_empty_arrays [doc1; doc2; doc3].
Proof.
  split; [|split; [done|]].
  - repeat constructor; try done; set_solver.
  - repeat constructor; done.
Qed.
Example C73_parsed E : parse Current E (TStruct [(a, TDouble, VDouble 0); (b, TOptional (TVector TString), VOpt None)]) doc1 =
  Ok (VTuple [VDouble (of_int E 1); VOpt (Some (VTuple [VStr [120%N]]))]).
Proof. reflexivity. Qed.
(** The other order of lines: the other order of fields. *)
Example C74_ordered : infer_file (λ _, false) (obj [(b, JNull); (a, JInt (-2))]) [doc3; doc1] =
  inr (SObject [(b, SArray (SString 1 0) 1 2); (a, SDouble 3 0)] 3 0).
Proof. vm_compute. reflexivity. Qed.
(** A member to be ignored. *)
Example C74_ignored : infer_file (λ p, bool_decide (p = [46; 97]%N)) (obj [(a, JInt 1); (b, JBool true)]) [obj [(a, JStr []); (b, JBool false)]] =
  inr (SObject [(b, SBool 1 1 0)] 2 0).
Proof. vm_compute. reflexivity. Qed.
(** Different types in different lines, and names not of C++. *)
Example C74_incompatible : infer_file (λ _, false) (obj [(a, JInt 1)]) [obj [(a, JStr [])]] = inl IncompatibleTypes ∧
  infer_file (λ _, false) (obj [([49%N], JInt 1)]) [] = inl InvalidCPPIdentifier.
Proof. split; vm_compute; reflexivity. Qed.

(** From {"a":[]} and {"a":1} an [Optional<uint64_t>] is inferred: into it the first document does not parse.
    So "every document parses into the type inferred from it" is false. *)
Theorem C73_empty_array_refuted : ¬ ∀ E doc docs s t d,
  Forall distinct_keys (doc :: docs) → (total (doc :: docs) < 2 ^ 32)%N →
  infer_file (λ _, false) doc docs = inr s → cpp_type s = CppType t → d ∈ doc :: docs → ∃ v, parse Current E t d = Ok v.
Proof.
  intros H. destruct (H (Env (λ _, 0%N) id (λ _ _ _, false) (λ _ _ l, l) (λ _ v, v)) (obj [(a, JArr [])]) [obj [(a, JInt 1)]]
    (SObject [(a, SInteger true false 1 1)] 2 0) (TStruct [(a, TOptional (TInt 64 false), VOpt None)]) (obj [(a, JArr [])])) as [v Hv].
  - repeat constructor; try done; set_solver.
  - done.
  - vm_compute. reflexivity.
  - vm_compute. reflexivity.
  - set_solver.
  - discriminate Hv.
Qed.
(** From {"a":[null]} no exception is thrown, and the field is declared as of type [std::vector<>], which is not a type. *)
Theorem C73_array_of_nulls_refuted : ¬ ∀ doc docs s,
  Forall distinct_keys (doc :: docs) → (total (doc :: docs) < 2 ^ 32)%N →
  infer_file (λ _, false) doc docs = inr s → ∃ t, cpp_type s = CppType t.
Proof.
  intros H. destruct (H (obj [(a, JArr [JNull])]) [] (SObject [(a, SArray (SNull 1) 1 0)] 1 0)) as [t Ht].
  - repeat constructor; try done; set_solver.
  - done.
  - vm_compute. reflexivity.
  - discriminate Ht.
Qed.
(** The names given to structs are not always distinct: {"a":{"b":{}},"a_b":{}}. *)
Theorem C73_struct_names_refuted : ¬ ∀ doc docs s,
  Forall distinct_keys (doc :: docs) → (total (doc :: docs) < 2 ^ 32)%N →
  infer_file (λ _, false) doc docs = inr s → NoDup (struct_names [83%N] s).
Proof.
  intros H. specialize (H (obj [(a, obj [(b, obj [])]); ([97; 95; 98]%N, obj [])]) []
    (SObject [(a, SObject [(b, SObject [] 1 0)] 1 0); ([97; 95; 98]%N, SObject [] 1 0)] 1 0)).
  assert (NoDup (struct_names [83%N] (SObject [(a, SObject [(b, SObject [] 1 0)] 1 0); ([97; 95; 98]%N, SObject [] 1 0)] 1 0))) as Hn.
  { apply H.
    - repeat constructor; try done; set_solver.
    - done.
    - vm_compute. reflexivity. }
  simpl in Hn. apply NoDup_cons in Hn as [Hn _]. apply Hn. set_solver.
Qed.
(** A key that is a reserved word of C++ is accepted, and the struct printed has a field of this name: {"int":1}. *)
Theorem C73_reserved_word_refuted : ¬ ∀ doc docs fs i n k,
  Forall distinct_keys (doc :: docs) → (total (doc :: docs) < 2 ^ 32)%N →
  infer_file (λ _, false) doc docs = inr (SObject fs i n) → k ∈ fs.*1 → k ∉ map text ["int"; "case"; "class"; "NULL"; "null"; "true"; "false"].
Proof.
  intros H. specialize (H (obj [(text "int", JInt 1)]) [] [(text "int", SInteger true false 1 0)] 1%N 0%N (text "int")).
  apply H; try done.
  - repeat constructor; try done; set_solver.
  - set_solver.
  - set_solver.
Qed.
(** The number of documents without the field, reported as "unset", is wrong if several come before the first with it:
    from {}, {} and {"a":1} one null is counted, not two. *)
Theorem C74_null_count_refuted : ¬ ∀ doc docs fs i n k s u m j z,
  Forall distinct_keys (doc :: docs) → (total (doc :: docs) < 2 ^ 32)%N →
  infer_file (λ _, false) doc docs = inr (SObject fs i n) → (k, s) ∈ fs → s = SInteger u m j z → i = (j + z)%N.
Proof.
  intros H. specialize (H (obj []) [obj []; obj [(a, JInt 1)]] [(a, SInteger true false 1 1)] 3%N 0%N a (SInteger true false 1 1) true false 1%N 1%N).
  assert (3%N = (1 + 1)%N) as Hx; [|discriminate Hx]. apply H; try done.
  - repeat constructor; try done; set_solver.
  - set_solver.
Qed.

Print Assumptions C73_sound.
Print Assumptions C73_no_empty_arrays.
Print Assumptions C73_empty_array_refuted.
Print Assumptions C73_array_of_nulls_refuted.
Print Assumptions C73_struct_names_refuted.
Print Assumptions C73_reserved_word_refuted.
Print Assumptions C74_exact.
Print Assumptions C74_succeeds.
Print Assumptions C74_unique.
Print Assumptions C74_order.
Print Assumptions C74_null_count_refuted.
