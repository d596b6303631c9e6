(** TypeIDs and schemas: typesystem/reflection/types.h, typesystem/reflection/reflection.h, typesystem/typename.h,
    typesystem/primitive_types.dsl.h, typesystem/schema/schema.h, bricks/util/rol.h. *)
From Coq Require Import String Ascii.
From stdpp Require Import list strings numbers.
From Coq Require Import NArith.
From Verif Require Dec CRC32_Model.
Local Open Scope list_scope.
Local Open Scope nat_scope.

Notation str := (list N) (only parsing).
Fixpoint lit (s : string) : str := match s with EmptyString => [] | String c s' => N_of_ascii c :: lit s' end.

(** ** Types *)
(** primitive_types.dsl.h 37-61. *)
Inductive prim := Bool | UInt8 | UInt16 | UInt32 | UInt64 | Int8 | Int16 | Int32 | Int64 | Char | Str | Float | Double | Microseconds | Milliseconds.
Definition prim_index (p : prim) : N :=
  match p with
  | Bool => 11 | UInt8 => 21 | UInt16 => 22 | UInt32 => 23 | UInt64 => 24 | Int8 => 31 | Int16 => 32 | Int32 => 33 | Int64 => 34
  | Char => 41 | Str => 42 | Float => 51 | Double => 52 | Microseconds => 61 | Milliseconds => 62
  end.
Definition prim_name (p : prim) : str :=
  lit match p with
  | Bool => "bool" | UInt8 => "uint8_t" | UInt16 => "uint16_t" | UInt32 => "uint32_t" | UInt64 => "uint64_t"
  | Int8 => "int8_t" | Int16 => "int16_t" | Int32 => "int32_t" | Int64 => "int64_t" | Char => "char" | Str => "std::string"
  | Float => "float" | Double => "double" | Microseconds => "std::chrono::microseconds" | Milliseconds => "std::chrono::milliseconds"
  end.

(** The C++ types which can be fields.  Structs, enums and the tags of named variants are numbered: one number per type
    of the program; equality of [ctype]s is equality of C++ types ([std::type_index]). *)
Inductive ctype :=
| TPrim (p : prim)
| TEnum (e : N)
| TArray (t : ctype) (n : N)
| TVector (t : ctype)
| TMap (k v : ctype)
| TUnorderedMap (k v : ctype)
| TSet (t : ctype)
| TUnorderedSet (t : ctype)
| TPair (a b : ctype)
| TOptional (t : ctype)
| TVariant (name : option N) (cases : list ctype)
| TStruct (s : N).
(** CURRENT_STRUCT and CURRENT_STRUCT_T (struct.h 133-240): [s_name] is the name in the format `Z`, "S_Z" for a template. *)
Record field := Field { f_name : str; f_type : ctype; f_description : option str }.
Record struct := Struct { s_name : str; s_super : option N; s_inner : option ctype; s_fields : list field }.
Record enum := Enum { e_name : str; e_underlying : prim }.
(** The definitions in a program. *)
Record program := Program { structs : N → struct; enums : N → enum; variants : N → str }.

(** ** Names *)
(** typename.h 379-390. *)
Fixpoint join_names (l : list str) : str :=
  match l with [] => [] | [s] => s | s :: l' => s ++ lit "_" ++ join_names l' end.
(** typename.h 93-267, NameFormat::Z. *)
Fixpoint type_name (P : program) (t : ctype) : str :=
  match t with
  | TPrim p => prim_name p
  | TEnum e => e_name (enums P e)
  | TArray t n => lit "std::array<" ++ type_name P t ++ lit ", " ++ Dec.dec n ++ lit ">"
  | TVector t => lit "std::vector<" ++ type_name P t ++ lit ">"
  | TMap k v => lit "std::map<" ++ type_name P k ++ lit ", " ++ type_name P v ++ lit ">"
  | TUnorderedMap k v => lit "std::unordered_map<" ++ type_name P k ++ lit ", " ++ type_name P v ++ lit ">"
  | TSet t => lit "std::set<" ++ type_name P t ++ lit ">"
  | TUnorderedSet t => lit "std::unordered_set<" ++ type_name P t ++ lit ">"
  | TPair a b => lit "std::pair<" ++ type_name P a ++ lit ", " ++ type_name P b ++ lit ">"
  | TOptional t => lit "Optional<" ++ type_name P t ++ lit ">"
  | TVariant (Some v) _ => variants P v
  | TVariant None cases => lit "Variant_B_" ++ join_names (map (type_name P) cases) ++ lit "_E"
  | TStruct s => s_name (structs P s)
  end.

(** ** TypeIDs *)
(** rol.h 33-36. *)
Definition m64 (x : N) : N := (x mod 2 ^ 64)%N.
Definition rol64 (x : N) (n : N) : N :=
  let n := N.land n 63 in N.lor (m64 (N.shiftl x n)) (N.shiftr x (N.land (64 - n) 63)).
(** types.h 71-95. *)
Definition range : N := (10 ^ 16)%N.
Definition base (prefix : N) : N := (range * prefix)%N.
(** types.h 105. *)
Definition uninitialized : N := (2 ^ 64 - 1)%N.
Notation crc := CRC32_Model.crc32_str.

(** What a type refers to, in the order of reflection.h 141-239 (super class, argument of the template, fields). *)
Definition refs (P : program) (t : ctype) : list ctype :=
  match t with
  | TPrim _ => []
  | TEnum e => [TPrim (e_underlying (enums P e))]
  | TArray t _ | TVector t | TSet t | TUnorderedSet t | TOptional t => [t]
  | TMap a b | TUnorderedMap a b | TPair a b => [a; b]
  | TVariant _ cases => cases
  | TStruct s =>
      let d := structs P s in
      match s_super d with Some b => [TStruct b] | None => [] end ++ match s_inner d with Some t => [t] | None => [] end ++ map f_type (s_fields d)
  end.
(** The TypeID given those of [refs]: types.h 224-303 (and 123-129 for enums).  types.h 188-197 for the expanded name. *)
Definition fields_hash (fs : list field) (ids : list N) (h : N) : N :=
  (fold_left (λ '(h, i) '(f, id), (N.lxor h (N.lxor (rol64 id (i + 17)) (rol64 (crc (f_name f)) (i + 29))), i + 1)) (zip fs ids) (h, 0)).1%N.
Definition cases_hash (ids : list N) (h : N) : N :=
  (fold_left (λ '(h, i) id, (N.lxor h (rol64 id (i * 3 + 17)), i + 1)) ids (h, 0)).1%N.
Definition calculate (P : program) (t : ctype) (ids : list N) : N :=
  let first := nth 0 ids uninitialized in
  let second := nth 1 ids uninitialized in
  match t with
  | TPrim p => base 900 + prim_index p
  | TEnum e => base 901 + crc (e_name (enums P e))
  | TArray _ n => m64 (base 930 + rol64 first 3 mod range + rol64 n 7)
  | TVector _ => base 931 + rol64 first 3 mod range
  | TPair _ _ => base 933 + N.lxor (rol64 first 5) (rol64 second 11) mod range
  | TMap _ _ => base 934 + N.lxor (rol64 first 5) (rol64 second 11) mod range
  | TUnorderedMap _ _ => base 936 + N.lxor (rol64 first 5) (rol64 second 11) mod range
  | TSet _ => base 932 + N.lxor (rol64 first 5) (rol64 first 11) mod range
  | TUnorderedSet _ => base 935 + N.lxor (rol64 first 5) (rol64 first 11) mod range
  | TOptional _ => base 921 + rol64 first 5 mod range
  | TVariant _ _ => base 922 + cases_hash ids (crc (type_name P t)) mod range
  | TStruct s =>
      let d := structs P s in
      let '(super, ids) := match s_super d, ids with Some _, id :: ids' => (id, ids') | _, _ => (1, ids) end in
      let '(name, ids) := match s_inner d, ids with
                          | Some _, id :: ids' => (take (length (s_name d) - 2) (s_name d) ++ lit "_T" ++ Dec.dec id, ids')
                          | _, _ => (s_name d, ids)
                          end in
      base 920 + fields_hash (s_fields d) ids (N.lxor (crc name) (rol64 (N.lxor super 1) 7)) mod range
  end%N.

(** TypeTraverserState::cache_ (reflection.h 251-265) of one top level type; the latest entry for a type counts. *)
Definition cache := list (ctype * N).
#[global] Instance prim_eq_dec : EqDecision prim.
Proof. solve_decision. Defined.
#[global] Instance ctype_eq_dec : EqDecision ctype.
Proof.
  refine (fix go (a b : ctype) {struct a} : Decision (a = b) :=
    match a, b with
    | TPrim p, TPrim q => cast_if (decide (p = q))
    | TEnum e, TEnum e' => cast_if (decide (e = e'))
    | TArray t n, TArray t' n' => cast_if_and (go t t') (decide (n = n'))
    | TVector t, TVector t' => cast_if (go t t')
    | TMap k v, TMap k' v' => cast_if_and (go k k') (go v v')
    | TUnorderedMap k v, TUnorderedMap k' v' => cast_if_and (go k k') (go v v')
    | TSet t, TSet t' => cast_if (go t t')
    | TUnorderedSet t, TUnorderedSet t' => cast_if (go t t')
    | TPair k v, TPair k' v' => cast_if_and (go k k') (go v v')
    | TOptional t, TOptional t' => cast_if (go t t')
    | TVariant n l, TVariant n' l' =>
        cast_if_and (decide (n = n'))
          ((fix gol (l l' : list ctype) {struct l} : Decision (l = l') :=
              match l, l' with
              | [], [] => left eq_refl
              | x :: l, x' :: l' => cast_if_and (go x x') (gol l l')
              | _, _ => right _
              end) l l')
    | TStruct s, TStruct s' => cast_if (decide (s = s'))
    | _, _ => right _
    end); abstract congruence.
Defined.
Fixpoint find {K V} `{EqDecision K} (k : K) (m : list (K * V)) : option V :=
  match m with [] => None | (k', v) :: m' => if decide (k = k') then Some v else find k m' end.

(** Calling a function on the types of a list one after another. *)
Fixpoint visit {S A R} (f : S → A → option (S * R)) (s : S) (l : list A) : option (S * list R) :=
  match l with
  | [] => Some (s, [])
  | x :: l' => '(s, r) ← f s x; '(s, rs) ← visit f s l'; Some (s, r :: rs)
  end.
(** The arguments of a constructor (reflection.h 157, 162, 167) are evaluated in an unspecified order: from the right
    if [right_to_left]. *)
Definition by_arguments (t : ctype) : bool := match t with TMap _ _ | TUnorderedMap _ _ | TPair _ _ => true | _ => false end.
Definition visit_refs {S R} (right_to_left : bool) (f : S → ctype → option (S * R)) (s : S) (P : program) (t : ctype) : option (S * list R) :=
  if right_to_left && by_arguments t then '(s, rs) ← visit f s (rev (refs P t)); Some (s, rev rs) else visit f s (refs P t).
(** reflection.h 301-321, InternalCurrentTypeID; [None] if [fuel] is not enough. *)
Fixpoint internal_id (right_to_left : bool) (P : program) (fuel : nat) (c : cache) (t : ctype) : option (cache * N) :=
  match fuel with
  | 0 => None
  | S fuel' =>
      let id := default uninitialized (find t c) in
      if decide (id = uninitialized)
      then
        let c := (t, base 999 + crc (type_name P t) mod range)%N :: c in                  (* 311-312 *)
        '(c, ids) ← visit_refs right_to_left (internal_id right_to_left P fuel') c P t;
        let id := calculate P t ids in
        Some ((t, id) :: c, id)
      else Some (c, id)
  end.
(** reflection.h 281-298 and 71-76: TypeTraversersThreadLocalState and CurrentTypeID.  A cache per top level type. *)
Definition thread_state := list (ctype * cache).
Definition current_type_id (right_to_left : bool) (P : program) (fuel : nat) (s : thread_state) (t : ctype) : option (thread_state * N) :=
  '(c, id) ← internal_id right_to_left P fuel (default [] (find t s)) t; Some ((t, c) :: s, id).
(** The TypeID of a type in a thread which has not asked for any. *)
Definition type_id (right_to_left : bool) (P : program) (fuel : nat) (t : ctype) : option N := snd <$> internal_id right_to_left P fuel [] t.

(** ** Reflection *)
(** types.h 112-213.  The names of the super class and of the argument of the template are left out: nothing depends on
    them here. *)
Inductive record :=
| RPrimitive (id : N)
| REnum (id : N) (name : str) (underlying : N)
| RArray (id element size : N)
| RVector (id element : N)
| RMap (id key value : N)
| RUnorderedMap (id key value : N)
| RSet (id value : N)
| RUnorderedSet (id value : N)
| RPair (id first second : N)
| ROptional (id inner : N)
| RVariant (id : N) (name : str) (cases : list N)
| RStruct (id : N) (name : str) (super inner : option N) (fields : list (N * str * option str)).
Definition record_id (r : record) : N :=
  match r with
  | RPrimitive id | REnum id _ _ | RArray id _ _ | RVector id _ | RMap id _ _ | RUnorderedMap id _ _ | RSet id _ | RUnorderedSet id _
  | RPair id _ _ | ROptional id _ | RVariant id _ _ | RStruct id _ _ _ _ => id
  end.
#[global] Instance record_eq_dec : EqDecision record.
Proof. solve_decision. Defined.
Section reflector.
Variable P : program.
(** CurrentTypeID: see C76 for its being a function. *)
Variable id : ctype → N.
(** reflection.h 375-495: the record of one type.  389: an array is given the TypeID of the vector. *)
Definition reflected (t : ctype) : record :=
  match t with
  | TPrim _ => RPrimitive (id t)
  | TEnum e => REnum (base 901 + crc (e_name (enums P e)))%N (e_name (enums P e)) (id (TPrim (e_underlying (enums P e))))
  | TArray e n => RArray (id (TVector e)) (id e) n
  | TVector e => RVector (id t) (id e)
  | TMap k v => RMap (id t) (id k) (id v)
  | TUnorderedMap k v => RUnorderedMap (id t) (id k) (id v)
  | TSet e => RSet (id t) (id e)
  | TUnorderedSet e => RUnorderedSet (id t) (id e)
  | TPair a b => RPair (id t) (id a) (id b)
  | TOptional e => ROptional (id t) (id e)
  | TVariant _ cases => RVariant (id t) (type_name P t) (map id cases)
  | TStruct s =>
      let d := structs P s in
      RStruct (id t) (s_name d) (match s_super d with Some b => Some (id (TStruct b)) | None => None end)
        (match s_inner d with Some t => Some (id t) | None => None end)
        (map (λ f, (id (f_type f), f_name f, f_description f)) (s_fields d))
  end.
(** ReflectorImpl::map_ (515-517): [None] for a type being reflected. *)
Definition reflector := list (N * option record).
(** 350-360, ReflectType. *)
Fixpoint reflect (fuel : nat) (m : reflector) (t : ctype) : option reflector :=
  match fuel with
  | 0 => None
  | S fuel' =>
      match find (id t) m with
      | Some _ => Some m
      | None =>
          m ← foldl (λ m r, m ← m; reflect fuel' m r) (Some ((id t, None) :: m)) (refs P t);
          Some ((id t, Some (reflected t)) :: m)
      end
  end.
End reflector.

(** ** Schemas *)
(** schema.h 1456-1460; [types] is the std::map, in the order of insertion, the latest first. *)
Record schema := Schema { types : list (N * record); order : list N }.
(** schema.h 1498-1601: what is visited after the record. *)
Definition parts (r : record) : list N :=
  match r with
  | RPrimitive _ => []
  | REnum _ _ u => [u]
  | RArray _ e _ | RVector _ e | RSet _ e | RUnorderedSet _ e | ROptional _ e => [e]
  | RMap _ k v | RUnorderedMap _ k v | RPair _ k v => [k; v]
  | RVariant _ _ cases => cases
  | RStruct _ _ super _ fields => match super with Some b => [b] | None => [] end ++ map (λ f, f.1.1) fields
  end.
Definition is_primitive (r : record) : bool := match r with RPrimitive _ => true | _ => false end.
(** schema.h 1495-1604, TypeTraverser.  [None]: an exception (or no fuel). *)
Fixpoint traverse (fuel : nat) (m : reflector) (s : schema) (r : record) : option schema :=
  match fuel with
  | 0 => None
  | S fuel' =>
      if decide (record_id r ∈ map fst (types s)) then Some s
      else
        s ← foldl (λ s i, s ← s;
                     match find i m with
                     | Some (Some r') => traverse fuel' m s r'
                     | _ => None                              (* reflection.h 362-369 *)
                     end) (Some (Schema ((record_id r, r) :: types s) (order s))) (parts r);
        Some (if is_primitive r then s else Schema (types s) (order s ++ [record_id r]))
  end.
(** schema.h 1611-1620, AddType: nothing for types other than structs and variants. *)
Definition is_struct_or_variant (t : ctype) : bool := match t with TStruct _ | TVariant _ _ => true | _ => false end.
Definition add_type (P : program) (id : ctype → N) (fuel : nat) (ms : reflector * schema) (t : ctype) : option (reflector * schema) :=
  if is_struct_or_variant t
  then
    m ← reflect P id fuel ms.1 t;
    match find (id t) m with
    | Some (Some r) => s ← traverse fuel m ms.2 r; Some (m, s)
    | _ => None
    end
  else Some ms.
