(** Model of utils/json_schema/infer.h: inferring a schema from JSON documents, one per line, and printing it as C++ types.

    SIMPL: documents are rapidjson's DOM values, as in [Json_Model] (files and their text are not modelled);
    the sums and histograms of values, which do not influence the schema, are left out;
    a struct type is the list of its fields rather than a name (for the names see [struct_names]);
    bytes above 127 are taken for not letters (std::isalpha is locale-dependent). *)
From stdpp Require Import list strings.
From Coq Require Import ZArith.
From Verif Require Import Json_Model.
From Verif Require Dec.

(** infer.h 148-268: the schema; [i]: instances, [n]: nulls, both [uint32_t].
    [SObject]: field_schema; field_index is the position of the last field with the name. *)
Inductive schema :=
| SUninitialized
| SString (i n : N)
| SInteger (can_be_unsigned can_be_microseconds : bool) (i n : N)
| SDouble (i n : N)
| SBool (values_false values_true n : N)
| SNull (occurrences : N)
| SArray (element : schema) (i n : N)
| SObject (fields : list (str * schema)) (i n : N).

(** infer.h 76-112. *)
Inductive infer_error := IncompatibleTypes | InvalidCPPIdentifier | TopLevelEmptyArray | ArrayOfNullsOrEmptyArrays.
Notation result := (infer_error + schema)%type.
Definition bind {A B} (r : infer_error + A) (f : A → infer_error + B) : infer_error + B :=
  match r with inl e => inl e | inr a => f a end.

(** Addition of [uint32_t]. *)
Definition add32 (a b : N) : N := ((a + b) mod 2 ^ 32)%N.

(** infer.h 326-352, Reduce<Null, Null>, Reduce<T, Null>, Reduce<Null, T>; 292 for Uninitialized. *)
Definition add_nulls (o : N) (s : schema) : schema :=
  match s with
  | SUninitialized => SNull o
  | SString i n => SString i (add32 n o)
  | SInteger u m i n => SInteger u m i (add32 n o)
  | SDouble i n => SDouble i (add32 n o)
  | SBool f t n => SBool f t (add32 n o)
  | SNull o' => SNull (add32 o' o)
  | SArray e i n => SArray e i (add32 n o)
  | SObject fs i n => SObject fs i (add32 n o)
  end.

(** [field_schema[field_index.find(name)]]. *)
Fixpoint last_of {A} (k : str) (l : list (str * A)) : option A :=
  match l with
  | [] => None
  | (k', a) :: l' => match last_of k l' with Some b => Some b | None => if decide (k' = k) then Some a else None end
  end.
Fixpoint collect {A} (l : list (infer_error + A)) : infer_error + list A :=
  match l with
  | [] => inr []
  | r :: l' => bind r (λ a, bind (collect l') (λ as', inr (a :: as')))
  end.

(** infer.h 270-324, CallReduce with its expanders, and the specializations of Reduce (354-463). *)
Fixpoint reduce (l r : schema) {struct l} : result :=
  match l, r with
  | SUninitialized, _ => inr r                                     (* 295-305 *)
  | _, SUninitialized => inr l                                     (* 292 *)
  | SNull o, _ => inr (add_nulls o r)
  | _, SNull o => inr (add_nulls o l)
  | SString i n, SString i' n' => inr (SString (add32 i i') (add32 n n'))        (* 354-375 *)
  | SBool f t n, SBool f' t' n' => inr (SBool (add32 f f') (add32 t t') (add32 n n')) (* 377-386 *)
  | SInteger u m i n, SInteger u' m' i' n' =>                      (* 388-400 *)
      inr (SInteger (u && u') (m && m') (add32 i i') (add32 n n'))
  | SDouble i n, SDouble i' n' | SInteger _ _ i n, SDouble i' n' | SDouble i n, SInteger _ _ i' n' =>
      inr (SDouble (add32 i i') (add32 n n'))                      (* 402-421 *)
  | SObject fs i n, SObject fs' i' n' =>                           (* 423-463 *)
      let reducers := map (λ '(k, s), (k, reduce s)) fs in
      let union_fields := fs.*1 ++ filter (λ k, k ∉ fs.*1) fs'.*1 in
      let field k : infer_error + (str * schema) :=
        bind (match last_of k reducers, last_of k fs' with
              | None, Some s => inr (add_nulls 1 s)
              | Some g, None => g (SNull 1)
              | Some g, Some s => g s
              | None, None => inl IncompatibleTypes (* not a name of either *)
              end) (λ s, inr (k, s)) in
      bind (collect (map field union_fields)) (λ fields, inr (SObject fields (add32 i i') (add32 n n')))
  | SArray e i n, SArray e' i' n' =>                               (* 465-474 *)
      bind (reduce e e') (λ e'', inr (SArray e'' (add32 i i') (add32 n n')))
  | _, _ => inl IncompatibleTypes                                  (* 270-276 *)
  end.

(** infer.h 118-136. *)
Definition is_alpha (c : N) : bool := bool_decide (65 ≤ c ≤ 90 ∨ 97 ≤ c ≤ 122)%N.
Definition valid_identifier (s : str) : bool :=
  match s with
  | [] => false
  | c :: s' =>
      negb (bool_decide (s ∈ [[78; 85; 76; 76]; [110; 117; 108; 108]; [116; 114; 117; 101]; [102; 97; 108; 115; 101]]%N)) && (* NULL null true false *)
      (bool_decide (c = 95%N) || is_alpha c) && forallb (λ c, bool_decide (c = 95%N) || is_alpha c || Dec.is_digit c) s'
  end.

Definition is_empty_array (j : json) : bool := match j with JArr [] => true | _ => false end.
(** infer.h 178-190. *)
Definition year_1980 : Z := 315561600 * 1000000.
Definition year_2250 : Z := 8835984000 * 1000000.
(** infer.h 64-73, TrackPath. *)
Definition member_path (path name : str) : str := path ++ [46%N] ++ name.
Definition element_path (path : str) (i : nat) : str := path ++ [91%N] ++ Dec.dec (N.of_nat i) ++ [93%N].

(** infer.h 476-539, RecursivelyInferSchema. [ignored]: TrackPathIgnoreList::IsIgnored. *)
Fixpoint infer (ignored : str → bool) (path : str) (value : json) {struct value} : result :=
  match value with
  | JObj ms =>
      let fix members (ms : list (str * json)) : infer_error + list (str * schema) :=
        match ms with
        | [] => inr []
        | (key, inner) :: ms' =>
            if is_empty_array inner then members ms'
            else if ignored (member_path path key) then members ms'
            else if valid_identifier key
                 then bind (infer ignored (member_path path key) inner) (λ s, bind (members ms') (λ fs, inr ((key, s) :: fs)))
                 else inl InvalidCPPIdentifier
        end in
      bind (members ms) (λ fs, inr (SObject fs 1 0))
  | JArr [] => inl TopLevelEmptyArray
  | JArr l =>
      let fix elements (i : nat) (element : schema) (l : list json) : result :=
        match l with
        | [] => inr element
        | inner :: l' =>
            if is_empty_array inner then elements (S i) element l'
            else bind (infer ignored (element_path path i) inner) (λ s, bind (reduce element s) (λ e, elements (S i) e l'))
        end in
      bind (elements 0 SUninitialized l) (λ e,
        match e with SUninitialized => inl ArrayOfNullsOrEmptyArrays | _ => inr (SArray e 1 0) end)
  | JStr _ => inr (SString 1 0)
  | JInt z =>
      if is_int64 (JInt z)
      then inr (SInteger (bool_decide (0 ≤ z)%Z) (bool_decide (year_1980 ≤ z < year_2250)%Z) 1 0)
      else inr (SDouble 1 0)
  | JDouble _ => inr (SDouble 1 0)
  | JBool b => inr (if b then SBool 0 1 0 else SBool 1 0 0)
  | JNull => inr (SNull 1)
  end.

(** infer.h 736-756, SchemaFromOneJSONPerLineFile, for a file with the lines [doc :: docs]. *)
Fixpoint infer_more (ignored : str → bool) (schema : schema) (docs : list json) : result :=
  match docs with
  | [] => inr schema
  | doc :: docs' => bind (infer ignored [] doc) (λ s, bind (reduce schema s) (λ s', infer_more ignored s' docs'))
  end.
Definition infer_file (ignored : str → bool) (doc : json) (docs : list json) : result :=
  bind (infer ignored [] doc) (λ s, infer_more ignored s docs).

(** ** infer.h 637-724, SchemaToCurrentStructPrinter *)
(** What [output_type] is: the empty string, something that is not a C++ type, or a type. *)
Inductive printed := NoType | BadType | CppType (t : ty).
Definition maybe_optional (n : N) (t : ty) : printed := CppType (if decide (n = 0%N) then t else TOptional t).
(** 698-712: fields with no type are left out (a comment). *)
Fixpoint struct_fields (l : list (str * printed)) : option (list (str * ty * val)) :=
  match l with
  | [] => Some []
  | (_, NoType) :: l' => struct_fields l'
  | (_, BadType) :: _ => None
  | (k, CppType t) :: l' => match struct_fields l' with Some fs => Some ((k, t, default_of t) :: fs) | None => None end
  end.
Fixpoint cpp_type (s : schema) : printed :=
  match s with
  | SUninitialized | SNull _ => NoType
  | SString _ n => maybe_optional n TString
  | SInteger u m _ n => maybe_optional n (if m then TInt 64 true else if u then TInt 64 false else TInt 64 true) (* 192-195 *)
  | SDouble _ n => maybe_optional n TDouble
  | SBool _ _ n => maybe_optional n TBool
  | SArray e _ n =>                                                (* 674-682 *)
      match cpp_type e with
      | CppType t => maybe_optional n (TVector t)
      | _ => BadType                                               (* std::vector<> *)
      end
  | SObject fs _ n =>                                              (* 684-723 *)
      match struct_fields (map (λ '(k, s), (k, cpp_type s)) fs) with
      | Some fields => maybe_optional n (TStruct fields)
      | None => BadType
      end
  end.
(** The names of the structs declared, in order (675, 685, 694). *)
Fixpoint struct_names (prefix : str) (s : schema) : list str :=
  match s with
  | SArray e _ _ => struct_names (prefix ++ [95; 69; 108; 101; 109; 101; 110; 116]%N) e (* _Element *)
  | SObject fs _ _ => concat (map (λ '(k, s), struct_names (prefix ++ [95%N] ++ k) s) fs) ++ [prefix ++ [95; 79; 98; 106; 101; 99; 116]%N] (* _Object *)
  | _ => []
  end.
