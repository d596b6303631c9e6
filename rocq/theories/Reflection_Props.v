(** C76: TypeIDs.  C77: schemas. *)
From Coq Require Import String Ascii.
From stdpp Require Import list strings numbers sets.
From Coq Require Import NArith Lia.
From Verif Require Import Reflection_Model Reflection_Spec Reflection_Proofs Reflection_Proofs2 Reflection_Proofs3.
Local Open Scope list_scope.
Local Open Scope nat_scope.

(** * The types of the project's own tests, and what the tests expect *)
Definition prim_t (p : prim) := TPrim p.
Definition fld (n : string) (t : ctype) : field := Field (lit n) t None.
Definition plain (n : string) (fs : list field) : struct := Struct (lit n) None None fs.
(** typesystem/schema/smoke_test_struct.h 34-112. *)
Definition tA := TStruct 0. Definition tB := TStruct 1. Definition tB2 := TStruct 2. Definition tX := TStruct 3. Definition tY := TStruct 4.
Definition tEmpty := TStruct 5. Definition tC := TStruct 6. Definition tPrimitives := TStruct 7.
Definition tV := TVariant (Some 0%N) [tA; tX; tY].
Definition tV' := TVariant None [tA; tX; tY].
Definition smoke : program :=
  Program
    (λ s, match s with
     | 0 => plain "A" [fld "a" (TPrim Int32)]
     | 1 => Struct (lit "B") (Some 0) None [fld "b" (TPrim Int32)]
     | 2 => Struct (lit "B2") (Some 0) None []
     | 3 => plain "X" [fld "x" (TPrim Int32)]
     | 4 => plain "Y" [fld "e" (TEnum 0)]
     | 5 => plain "Empty" []
     | 6 => plain "C" [fld "e" tEmpty; fld "c" tV; fld "d" tV']
     | 7 => plain "Primitives"
              [fld "a" (TPrim UInt8); fld "b" (TPrim UInt16); fld "c" (TPrim UInt32); fld "d" (TPrim UInt64); fld "e" (TPrim Int8); fld "f" (TPrim Int16);
               fld "g" (TPrim Int32); fld "h" (TPrim Int64); fld "i" (TPrim Char); fld "j" (TPrim Str); fld "k" (TPrim Float); fld "l" (TPrim Double);
               fld "m" (TPrim Bool); fld "n" (TPrim Microseconds); fld "o" (TPrim Milliseconds)]
     | 10 => Struct (lit "Templated_Z") None (Some tX) [fld "foo" (TPrim Int32); fld "bar" tX]
     | 11 => Struct (lit "Templated_Z") None (Some tV) [fld "foo" (TPrim Int32); fld "bar" tV]
     | 12 => Struct (lit "Templated_Z") None (Some (TStruct 20)) [fld "foo" (TPrim Int32); fld "bar" (TStruct 20)]
     | 13 => Struct (lit "Templated_Z") None (Some tEmpty) [fld "foo" (TPrim Int32); fld "bar" tEmpty]
     | 20 => Struct (lit "TemplatedInheriting_Z") (Some 0) (Some tEmpty) [fld "baz" (TPrim Str); fld "meh" tEmpty]
     | 21 => Struct (lit "TemplatedInheriting_Z") (Some 0) (Some tX) [fld "baz" (TPrim Str); fld "meh" tX]
     | 22 => Struct (lit "TemplatedInheriting_Z") (Some 0) (Some tV) [fld "baz" (TPrim Str); fld "meh" tV]
     | 23 => Struct (lit "TemplatedInheriting_Z") (Some 0) (Some (TStruct 13)) [fld "baz" (TPrim Str); fld "meh" (TStruct 13)]
     | 30 => plain "TrickyEvolutionCases"
               [fld "o1" (TOptional (TPrim Str)); fld "o2" (TOptional (TPrim Int32)); fld "o3" (TOptional (TVector (TPrim Str)));
                fld "o4" (TOptional (TVector (TPrim Int32))); fld "o5" (TOptional (TVector tA)); fld "o6" (TPair (TPrim Str) (TOptional tA));
                fld "o7" (TMap (TPrim Str) (TOptional tA))]
     | 40 => plain "FullTest"
               [fld "primitives" tPrimitives; fld "v1" (TVector (TPrim Str)); fld "v2" (TVector tPrimitives); fld "p" (TPair (TPrim Str) tPrimitives);
                fld "o" (TOptional tPrimitives); fld "q" (TVariant None [tA; tB; tB2; tC; tEmpty]); fld "w1" (TStruct 10); fld "w2" (TStruct 11);
                fld "w3" (TStruct 12); fld "w4" (TStruct 21); fld "w5" (TStruct 22); fld "w6" (TStruct 23); fld "tsc" (TStruct 30)]
     | _ => plain "" []
     end%N)
    (λ _, Enum (lit "E") UInt16)
    (λ _, lit "MyFreakingVariant").
(** The TypeIDs in typesystem/schema/golden/smoke_test_struct.h, in the order of that file. *)
Definition golden : list N :=
  [9206969065948310524; 9206911749438269255; 9200817599233955266; 9209827283478105543; 9200000002835747520; 9209980946934124423; 9010000003568589458;
   9208828720332602574; 9227782344077896555; 9227782347108675041; 9202971611369570493; 9228482442669086788; 9209454265127716773; 9209980087718877311;
   9209626390174323094; 9200915781714511302; 9207402181572240291; 9209503190895787129; 9201673071807149456; 9206651538007828258; 9204352959449015213;
   9200642690288147741]%N.
Definition smoke_id (t : ctype) : N := default 0%N (type_id false smoke 100 t).
Definition named (r : record) : bool := match r with RStruct _ _ _ _ _ | RVariant _ _ _ | REnum _ _ _ => true | _ => false end.

(** The types something refers to, all the way down. *)
Fixpoint collect (P : program) (n : nat) (seen todo : list ctype) : list ctype :=
  match n, todo with
  | S n', t :: todo' => if bool_decide (t ∈ seen) then collect P n' seen todo' else collect P n' (t :: seen) (refs P t ++ todo')
  | _, _ => seen
  end.
Lemma in_check (t : ctype) (U : list ctype) : bool_decide (t ∈ U) = true → t ∈ U.
Proof. apply bool_decide_eq_true. Qed.
Lemma closed_check P U : forallb (λ t, forallb (λ x, bool_decide (x ∈ U)) (refs P t)) U = true → closed P U.
Proof.
  intros H t x Ht Hx. rewrite forallb_forall in H. apply elem_of_list_In in Ht. specialize (H t Ht). rewrite forallb_forall in H.
  apply elem_of_list_In in Hx. specialize (H x Hx). by apply bool_decide_eq_true in H.
Qed.
Lemma arrays_check n U : forallb (λ t, match t with TArray _ k => (k <? n)%N | _ => true end) U = true → arrays_below n U.
Proof. intros H t k Ht. rewrite forallb_forall in H. apply elem_of_list_In in Ht. specialize (H _ Ht). by apply N.ltb_lt in H. Qed.
Lemma no_arrays_check U : forallb (λ t, match t with TArray _ k => false | _ => true end) U = true → no_arrays U.
Proof. intros H t k Ht. rewrite forallb_forall in H. apply elem_of_list_In in Ht. by specialize (H _ Ht). Qed.
Lemma injective_check (id : ctype → N) U : bool_decide (NoDup (map id U)) = true → ∀ t t', t ∈ U → t' ∈ U → id t = id t' → t = t'.
Proof.
  intros H. apply bool_decide_eq_true in H. intros t t' Ht Ht' E. induction U as [|u U IH]; [inversion Ht|]. cbn [map] in H. apply NoDup_cons in H as [Hn H].
  apply elem_of_cons in Ht as [-> |Ht]; apply elem_of_cons in Ht' as [-> |Ht']; try done.
  - exfalso. apply Hn. rewrite E. by apply elem_of_list_fmap_1.
  - exfalso. apply Hn. rewrite <- E. by apply elem_of_list_fmap_1.
  - by apply IH.
Qed.
Definition smoke_types : list ctype := collect smoke 1000 [] [TStruct 40].
Example smoke_universe : closed smoke smoke_types ∧ arrays_below (2 ^ 50) smoke_types ∧ no_arrays smoke_types ∧ TStruct 40 ∈ smoke_types ∧ length smoke_types = 51.
Proof.
  split; [apply closed_check; vm_compute; reflexivity|]. split; [apply arrays_check; vm_compute; reflexivity|].
  split; [apply no_arrays_check; vm_compute; reflexivity|]. split; [|vm_compute; reflexivity].
  apply in_check. vm_compute. reflexivity.
Qed.

(** * C76 *)
(** Asking for a TypeID ends with a 64 bit number (other than the one which stands for none), whatever the types are,
    recursive ones included. *)
Theorem C76_defined : ∀ right_to_left P U fuel t, closed P U → arrays_below (2 ^ 50) U → t ∈ U → length U < fuel →
  ∃ id, type_id right_to_left P fuel t = Some id ∧ (id < 2 ^ 64 - 1)%N ∧
    ∀ fuel', length U < fuel' → type_id right_to_left P fuel' t = Some id.
Proof.
  intros rtl P U fuel t HU Ha Ht Hf. destruct (type_id_defined rtl P U HU Ha fuel t Ht Hf) as (id & E & Hn). exists id. split; [done|]. split.
  - destruct (type_id_calculated _ _ _ _ _ E) as [ids ->]. apply calculate_lt. intros e n ->. by eapply Ha.
  - intros fuel' Hf'. rewrite <- E. by apply (type_id_fuel rtl P U HU Ha).
Qed.
(** Whatever TypeIDs a thread has asked for before, in whatever order, it gets those a new thread gets. *)
Theorem C76_history : ∀ right_to_left P U fuel ts, closed P U → arrays_below (2 ^ 50) U → (∀ t, t ∈ ts → t ∈ U) → length U < fuel →
  ∃ s ids, visit (current_type_id right_to_left P fuel) [] ts = Some (s, ids) ∧ Forall2 (λ t id, type_id right_to_left P fuel t = Some id) ts ids.
Proof.
  intros rtl P U fuel ts HU Ha Hts Hf. destruct (history rtl P U HU Ha fuel ts Hf Hts []) as (s & ids & E & H & _); [by intros ? ?|]. by exists s, ids.
Qed.
(** The TypeID is about the definitions: the names, the fields and what they refer to; not about C++ namespaces, the
    order of the definitions, or the program. *)
Theorem C76_same_definitions : ∀ right_to_left P P' U r fuel t, closed P U → same_definitions P P' U r → t ∈ U →
  type_id right_to_left P' fuel (r t) = type_id right_to_left P fuel t.
Proof. intros rtl P P' U r fuel t HU Hs Ht. by apply (type_id_rename rtl P P' U r HU Hs). Qed.
(** Without recursion: from the TypeIDs of what it refers to, and whatever the compiler's order of evaluation. *)
Theorem C76_not_recursive : ∀ P U, closed P U → arrays_below (2 ^ 50) U → not_recursive P U →
  ∃ id : ctype → N, ∀ right_to_left fuel t, t ∈ U → length U < fuel →
    type_id right_to_left P fuel t = Some (id t) ∧ id t = calculate P t (map id (refs P t)).
Proof.
  intros P U HU Ha [rank Hr]. exists (structural_id P rank). intros rtl fuel t Ht Hf. split.
  - by apply (type_id_acyclic rtl P U rank HU Ha Hr).
  - by apply (structural_id_eq P U rank HU Hr).
Qed.
(** Without recursion: types which are alike have the same TypeID, those of two programs and of two compilers, too. *)
Theorem C76_alike : ∀ P P' U U' right_to_left right_to_left' fuel fuel' t t',
  closed P U → closed P' U' → arrays_below (2 ^ 50) U → arrays_below (2 ^ 50) U' → not_recursive P U → not_recursive P' U' →
  t ∈ U → t' ∈ U' → length U < fuel → length U' < fuel' → alike P P' t t' →
  type_id right_to_left P fuel t = type_id right_to_left' P' fuel' t'.
Proof.
  intros P P' U U' rtl rtl' fuel fuel' t t' HU HU' Ha Ha' [rank Hr] [rank' Hr'] Ht Ht' Hf Hf' H.
  rewrite (type_id_acyclic rtl P U rank HU Ha Hr fuel t Ht Hf), (type_id_acyclic rtl' P' U' rank' HU' Ha' Hr' fuel' t' Ht' Hf'). f_equal.
  by apply (alike_id P P' U U' rank rank').
Qed.
(** The kind of a type can be told from its TypeID (arrays aside). *)
Theorem C76_kinds : ∀ right_to_left P fuel t id, type_id right_to_left P fuel t = Some id → (∀ e n, t ≠ TArray e n) →
  (id / 10 ^ 16 = prefix t)%N.
Proof.
  intros rtl P fuel t id E Hn. destruct (type_id_calculated _ _ _ _ _ E) as [ids ->]. apply calculate_prefix. intros e n ->. by destruct (Hn e n).
Qed.
(** Different primitive types: different TypeIDs. *)
Theorem C76_primitives : ∀ right_to_left P fuel fuel' p q id, type_id right_to_left P fuel (TPrim p) = Some id →
  type_id right_to_left P fuel' (TPrim q) = Some id → p = q.
Proof.
  intros rtl P fuel fuel' p q id E E'. destruct (type_id_calculated _ _ _ _ _ E) as [? ->]. destruct (type_id_calculated _ _ _ _ _ E') as [? E2].
  cbn [calculate] in E2. apply N.add_cancel_l in E2. by destruct p, q.
Qed.

(** The TypeIDs of the project's golden file, and those of typesystem/reflection/test.cc 331-336 and 582-583. *)
Example C76_golden : type_id false smoke 100 (TStruct 40) = Some 9200642690288147741%N ∧ type_id true smoke 100 (TStruct 23) = Some 9206651538007828258%N.
Proof. split; vm_compute; reflexivity. Qed.
Definition selfs : program :=
  Program
    (λ s, match s with
     | 0 => plain "SelfContainingA" [fld "v" (TVector (TStruct 0))]
     | 1 => plain "SelfContainingB" [fld "v" (TVector (TStruct 1))]
     | 2 => Struct (lit "SelfContainingC") (Some 0) None [fld "v" (TVector (TStruct 1)); fld "m" (TMap (TPrim Str) (TStruct 2))]
     | 3 => plain "WithArray" [fld "foo" (TPrim UInt32); fld "bar" (TArray (TPrim UInt32) 1)]
     | _ => plain "WithArray" [fld "foo" (TPrim UInt32); fld "bar" (TArray (TPrim UInt32) 2)]
     end%N) (λ _, Enum (lit "E") UInt16) (λ _, lit "V").
Example C76_golden_recursive :
  snd <$> visit (current_type_id false selfs 100) [] [TStruct 0; TVector (TStruct 0); TStruct 1; TVector (TStruct 1); TStruct 2; TMap (TPrim Str) (TStruct 2); TStruct 3; TStruct 4; TStruct 0]
  = Some [9203459442620113853; 9316106052119012411; 9205833655400624647; 9316451506340571627; 9208493534322203273; 9346663043140503218;
          9204926548798288167; 9204926548831842599; 9203459442620113853]%N.
Proof. vm_compute. reflexivity. Qed.
Definition selfs_types : list ctype := collect selfs 1000 [] [TStruct 2; TStruct 3; TStruct 4].
Example C76_recursive_universe : closed selfs selfs_types ∧ arrays_below (2 ^ 50) selfs_types ∧ length selfs_types = 12 ∧ ¬ not_recursive selfs selfs_types.
Proof.
  split; [apply closed_check; vm_compute; reflexivity|]. split; [apply arrays_check; vm_compute; reflexivity|]. split; [vm_compute; reflexivity|].
  intros [rank H].
  assert (rank (TVector (TStruct 1)) < rank (TStruct 1)) by (apply H; apply in_check; vm_compute; reflexivity).
  assert (rank (TStruct 1) < rank (TVector (TStruct 1))) by (apply H; apply in_check; vm_compute; reflexivity). lia.
Qed.
(** The smoke test without recursion: a rank. *)
Fixpoint depth (P : program) (n : nat) (t : ctype) : nat := match n with 0 => 0 | S n' => S (foldr max 0 (map (depth P n') (refs P t))) end.
Lemma rank_check P U n : forallb (λ t, forallb (λ x, Nat.ltb (depth P n x) (depth P n t)) (refs P t)) U = true → not_recursive P U.
Proof.
  intros H. exists (depth P n). intros t x Ht Hx. rewrite forallb_forall in H. apply elem_of_list_In in Ht. specialize (H t Ht). rewrite forallb_forall in H.
  apply elem_of_list_In in Hx. specialize (H x Hx). by apply Nat.ltb_lt in H.
Qed.
Example C76_not_recursive_smoke : not_recursive smoke smoke_types.
Proof. apply (rank_check _ _ 20). vm_compute. reflexivity. Qed.
(** The same definitions, in another namespace and another order. *)
Definition selfs' : program := Program (λ s, structs selfs (s - 10)%N) (enums selfs) (variants selfs).
Example C76_same_struct : alike smoke (Program (λ s, plain "X" [Field (lit "x") (TPrim Int32) (Some (lit "described"))]) (enums smoke) (variants smoke)) tX (TStruct 77).
Proof. constructor; [done|]. repeat constructor. Qed.

(** *** What does not hold *)
Definition crc_twins : program :=
  Program (λ s, match s with 0 => plain "S" [fld "plumless" (TPrim Str)] | _ => plain "S" [fld "buckeroo" (TPrim Str)] end%N)
    (λ e, match e with 0 => Enum (lit "plumless") UInt8 | 1 => Enum (lit "buckeroo") UInt8 | 2 => Enum (lit "E") UInt8 | _ => Enum (lit "E") Int64 end%N) (λ _, []).
(** Field and type names count only by their CRC32: two structs whose fields have different names ("plumless",
    "buckeroo"), and two enums with different names, get the same TypeID. *)
Theorem C76_names_refuted : ¬ (∀ P t t' id, type_id false P 10 t = Some id → type_id false P 10 t' = Some id → label_of P t = label_of P t').
Proof. intros H. specialize (H crc_twins (TStruct 0) (TStruct 1) _ eq_refl ltac:(vm_compute; reflexivity)). vm_compute in H. discriminate H. Qed.
(** Two enums with different names of the same CRC32 get the same TypeID. *)
Theorem C76_enum_names_refuted : ¬ (∀ P e e' id, type_id false P 10 (TEnum e) = Some id → type_id false P 10 (TEnum e') = Some id → e_name (enums P e) = e_name (enums P e')).
Proof. intros H. specialize (H crc_twins 0%N 1%N _ eq_refl ltac:(vm_compute; reflexivity)). vm_compute in H. discriminate H. Qed.
(** The underlying type of an enum does not count: two enums of the same name, one of uint8_t, the other of int64_t. *)
Theorem C76_enum_underlying_refuted :
  ¬ (∀ P e e' id, type_id false P 10 (TEnum e) = Some id → type_id false P 10 (TEnum e') = Some id → e_underlying (enums P e) = e_underlying (enums P e')).
Proof. intros H. specialize (H crc_twins 2%N 3%N _ eq_refl ltac:(vm_compute; reflexivity)). vm_compute in H. discriminate H. Qed.
Definition order_matters : program :=
  Program (λ s, match s with
                | 0 => plain "S" [fld "p" (TPair (TStruct 1) (TStruct 2))]
                | 1 => plain "A" [fld "b" (TVector (TStruct 2))]
                | _ => plain "B" [fld "a" (TVector (TStruct 1))]
                end%N) (λ _, Enum [] UInt8) (λ _, []).
(** The TypeIDs of recursive types depend on the order in which a compiler evaluates the arguments of a constructor
    (`ReflectedType_Pair(CurrentTypeID<A>(), CurrentTypeID<B>())`): another compiler, another TypeID. *)
Theorem C76_compiler_refuted : ¬ (∀ P U fuel t, closed P U → no_arrays U → t ∈ U → length U < fuel → type_id false P fuel t = type_id true P fuel t).
Proof.
  intros H. specialize (H order_matters (collect order_matters 100 [] [TStruct 0]) 20 (TStruct 0)).
  assert (type_id false order_matters 20 (TStruct 0) ≠ type_id true order_matters 20 (TStruct 0)) as Hn by (vm_compute; discriminate).
  apply Hn, H; [apply closed_check; vm_compute; reflexivity|apply no_arrays_check; vm_compute; reflexivity|apply in_check; vm_compute; reflexivity|].
  apply Nat.ltb_lt. vm_compute. reflexivity.
Qed.
(** The size of an array is added without a bound: that of a large array runs into the TypeIDs of vectors. *)
Theorem C76_array_kind_refuted : ¬ (∀ P t n id, (n < 2 ^ 50)%N → type_id false P 10 (TArray t n) = Some id → (id / 10 ^ 16 = 930)%N).
Proof. intros H. specialize (H crc_twins (TPrim Bool) (2 ^ 47)%N _ ltac:(vm_compute; reflexivity) eq_refl). vm_compute in H. discriminate H. Qed.

(** * C77 *)
(** A schema made by adding any types in any order: no exception; exactly the types the structs and variants asked for
    consist of, each described by its own entry, once; the order lists exactly the non-primitive ones, once, a type
    after those it consists of unless they are mutually recursive. *)
Theorem C77_schema : ∀ right_to_left P U fuel asked,
  closed P U → no_arrays U → length U < fuel →
  let id t := default 0%N (type_id right_to_left P fuel t) in
  (∀ t t', t ∈ U → t' ∈ U → id t = id t' → t = t') →
  (∀ t, t ∈ asked → t ∈ U) →
  ∃ m s, foldl (λ ms t, ms ← ms; add_type P id fuel ms t) (Some ([], Schema [] [])) asked = Some (m, s) ∧
  (∀ i r, (i, r) ∈ types s ↔ ∃ t, in_schema P asked t ∧ i = id t ∧ r = entry P id t) ∧
  NoDup (map fst (types s)) ∧
  (∀ i, i ∈ order s ↔ ∃ t, in_schema P asked t ∧ ¬ primitive t ∧ i = id t) ∧
  NoDup (order s) ∧
  (∀ t x, in_schema P asked t → x ∈ deps P t → primitive x ∨ before (id x) (id t) (order s) ∨ reaches P x t).
Proof.
  intros rtl P U fuel asked HU Hn Hf id Hinj Ha. apply (schema_spec P id U HU Hinj Hn); [|done|done].
  intros e He. unfold id. destruct (type_id_defined rtl P U HU) with (fuel := fuel) (t := TEnum e) as (i & E & _); try done.
  { intros t k Hk. by destruct (Hn t k). }
  rewrite E. cbn [default]. destruct (type_id_calculated _ _ _ _ _ E) as [ids ->]. done.
Qed.
(** Everything an entry of the schema refers to has an entry. *)
Theorem C77_closed : ∀ right_to_left P U fuel asked,
  closed P U → no_arrays U → length U < fuel →
  let id t := default 0%N (type_id right_to_left P fuel t) in
  (∀ t t', t ∈ U → t' ∈ U → id t = id t' → t = t') →
  (∀ t, t ∈ asked → t ∈ U) →
  ∃ m s, foldl (λ ms t, ms ← ms; add_type P id fuel ms t) (Some ([], Schema [] [])) asked = Some (m, s) ∧
    ∀ i r j, (i, r) ∈ types s → j ∈ parts r → ∃ r', (j, r') ∈ types s.
Proof.
  intros rtl P U fuel asked HU Hn Hf id Hinj Ha. destruct (C77_schema rtl P U fuel asked HU Hn Hf Hinj Ha) as (m & s & E & Ht & _). fold id in E, Ht.
  exists m, s. split; [done|]. intros i r j Hi Hj. apply Ht in Hi as (t & (a & Haa & Hk & Hr) & -> & ->). rewrite entry_parts in Hj.
  apply elem_of_list_fmap in Hj as (x & -> & Hx). exists (entry P id x). apply Ht. exists x. split; [|done]. exists a. split; [done|]. split; [done|].
  clear -Hr Hx. induction Hr as [t|t y u Hy Hr IH]; [econstructor; [exact Hx|constructor]|]. econstructor; [exact Hy|]. by apply IH.
Qed.
(** The golden file: the same structs, enums and variants in the same order. *)
Example C77_golden :
  (λ ms, List.filter (λ i, match find i (types ms.2) with Some r => named r | _ => false end) (order ms.2)) <$> add_type smoke smoke_id 100 ([], Schema [] []) (TStruct 40)
  = Some golden.
Proof. vm_compute. reflexivity. Qed.
Example C77_hypotheses : ∀ t t', t ∈ smoke_types → t' ∈ smoke_types → smoke_id t = smoke_id t' → t = t'.
Proof. apply injective_check. vm_compute. reflexivity. Qed.

(** *** What does not hold *)
Definition arrays : program :=
  Program (λ s, match s with
                | 0 => plain "S" [fld "a" (TArray (TPrim Int32) 2)]
                | 1 => plain "V" [fld "a" (TArray (TPrim Int32) 2); fld "v" (TVector (TPrim Int32))]
                | _ => plain "" []
                end%N) (λ _, Enum [] UInt8) (λ _, []).
Definition closed_schema (s : schema) : bool := forallb (λ e, forallb (λ j, bool_decide (j ∈ map fst (types s))) (parts e.2)) (types s).
Lemma closed_schema_check s : (∀ i r j, (i, r) ∈ types s → j ∈ parts r → ∃ r', (j, r') ∈ types s) →
  closed_schema s = true.
Proof.
  intros H. apply forallb_forall. intros [i r] Hi. apply forallb_forall. intros j Hj. apply bool_decide_eq_true.
  destruct (H i r j) as [r' Hr']; [by apply elem_of_list_In|by apply elem_of_list_In|]. apply elem_of_list_fmap. by exists (j, r').
Qed.
Definition id_in (P : program) (t : ctype) : N := default 0%N (type_id false P 20 t).
(** An array is registered under the TypeID of the vector (reflection.h 389), while fields refer to it by its own: the
    schema has no entry for the type of the field; a description prints `UNKNOWN_TYPE_…` (schema.h 296-300).  The
    project's test of this is disabled with `#if 0` (smoke_test_struct.h 88-92). *)
Theorem C77_array_missing_refuted : ¬ (∀ P U t, closed P U → length U < 20 →
  (∀ t t', t ∈ U → t' ∈ U → id_in P t = id_in P t' → t = t') → t ∈ U →
  ∃ m s, add_type P (id_in P) 20 ([], Schema [] []) t = Some (m, s) ∧ ∀ i r j, (i, r) ∈ types s → j ∈ parts r → ∃ r', (j, r') ∈ types s).
Proof.
  intros H. set (U := collect arrays 100 [] [TStruct 0]).
  destruct (H arrays U (TStruct 0)) as (m & s & E & Hs).
  - apply closed_check. vm_compute. reflexivity.
  - apply Nat.ltb_lt. vm_compute. reflexivity.
  - apply injective_check. vm_compute. reflexivity.
  - apply in_check. vm_compute. reflexivity.
  - apply closed_schema_check in Hs.
    assert ((λ ms, closed_schema ms.2) <$> add_type arrays (id_in arrays) 20 ([], Schema [] []) (TStruct 0) = Some false) as Hc by (vm_compute; reflexivity).
    rewrite E in Hc. pose proof (eq_trans (eq_sym (f_equal Some Hs)) Hc) as Hd. discriminate Hd.
Qed.
(** Once an array was reflected, the entry of the vector of the same elements is that of the array. *)
Theorem C77_array_for_vector_refuted : ¬ (∀ P U t, closed P U → length U < 20 →
  (∀ t t', t ∈ U → t' ∈ U → id_in P t = id_in P t' → t = t') → t ∈ U →
  ∃ m s, add_type P (id_in P) 20 ([], Schema [] []) t = Some (m, s) ∧ ∀ e, TVector e ∈ U → (id_in P (TVector e), RVector (id_in P (TVector e)) (id_in P e)) ∈ types s).
Proof.
  intros H. set (U := collect arrays 100 [] [TStruct 1]).
  destruct (H arrays U (TStruct 1)) as (m & s & E & Hs).
  - apply closed_check. vm_compute. reflexivity.
  - apply Nat.ltb_lt. vm_compute. reflexivity.
  - apply injective_check. vm_compute. reflexivity.
  - apply in_check. vm_compute. reflexivity.
  - specialize (Hs (TPrim Int32) ltac:(apply in_check; vm_compute; reflexivity)). apply (bool_decide_eq_true_2 _) in Hs.
    assert ((λ ms, bool_decide ((id_in arrays (TVector (TPrim Int32)), RVector (id_in arrays (TVector (TPrim Int32))) (id_in arrays (TPrim Int32))) ∈ types ms.2)) <$> add_type arrays (id_in arrays) 20 ([], Schema [] []) (TStruct 1) = Some false) as Hc by (vm_compute; reflexivity).
    rewrite E in Hc. pose proof (eq_trans (eq_sym (f_equal Some Hs)) Hc) as Hd. discriminate Hd.
Qed.
Definition two_enums : program :=
  Program (λ _, plain "S" [fld "a" (TEnum 0); fld "b" (TEnum 1)]) (λ e, Enum (lit "E") (if N.eqb e 0 then UInt8 else Int64)) (λ _, []).
(** With two enums of one name (of two namespaces) the entry is that of one of them: the other is described with the
    wrong underlying type.  Hence the hypothesis of [C77_schema] that the TypeIDs differ. *)
Theorem C77_collision_refuted : ¬ (∀ P U t, closed P U → no_arrays U → length U < 20 → t ∈ U →
  ∃ m s, add_type P (id_in P) 20 ([], Schema [] []) t = Some (m, s) ∧ ∀ x, reaches P t x → (id_in P x, entry P (id_in P) x) ∈ types s).
Proof.
  intros H. set (U := collect two_enums 100 [] [TStruct 0]).
  destruct (H two_enums U (TStruct 0)) as (m & s & E & Hs).
  - apply closed_check. vm_compute. reflexivity.
  - apply no_arrays_check. vm_compute. reflexivity.
  - apply Nat.ltb_lt. vm_compute. reflexivity.
  - apply in_check. vm_compute. reflexivity.
  - assert (reaches two_enums (TStruct 0) (TEnum 1)) as Hr by (eapply (reaches_step _ _ (TEnum 1)); [apply in_check; vm_compute; reflexivity|apply reaches_refl]).
    specialize (Hs _ Hr). apply (bool_decide_eq_true_2 _) in Hs.
    assert ((λ ms, bool_decide ((id_in two_enums (TEnum 1), entry two_enums (id_in two_enums) (TEnum 1)) ∈ types ms.2)) <$> add_type two_enums (id_in two_enums) 20 ([], Schema [] []) (TStruct 0) = Some false) as Hc by (vm_compute; reflexivity).
    rewrite E in Hc. pose proof (eq_trans (eq_sym (f_equal Some Hs)) Hc) as Hd. discriminate Hd.
Qed.

Print Assumptions C76_defined.
Print Assumptions C76_history.
Print Assumptions C76_same_definitions.
Print Assumptions C76_not_recursive.
Print Assumptions C76_alike.
Print Assumptions C76_kinds.
Print Assumptions C76_primitives.
Print Assumptions C76_names_refuted.
Print Assumptions C76_enum_names_refuted.
Print Assumptions C76_enum_underlying_refuted.
Print Assumptions C76_compiler_refuted.
Print Assumptions C76_array_kind_refuted.
Print Assumptions C77_schema.
Print Assumptions C77_closed.
Print Assumptions C77_array_missing_refuted.
Print Assumptions C77_array_for_vector_refuted.
Print Assumptions C77_collision_refuted.
