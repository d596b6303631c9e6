(** What TypeIDs and schemas are expected to be. *)
From Coq Require Import String Ascii.
From stdpp Require Import list strings numbers.
From Coq Require Import NArith.
From Verif Require Import Reflection_Model.
Local Open Scope list_scope.
Local Open Scope nat_scope.

(** The types of a program: finitely many, closed under what they refer to; arrays of sizes that exist. *)
Definition closed (P : program) (U : list ctype) : Prop := ∀ t x, t ∈ U → x ∈ refs P t → x ∈ U.
Definition arrays_below (n : N) (U : list ctype) : Prop := ∀ t k, TArray t k ∈ U → (k < n)%N.

(** What is said about a type by itself, other than the types it refers to. *)
Inductive label :=
| LPrim (p : prim) | LEnum (name : str) | LArray (n : N) | LVector | LMap | LUnorderedMap | LSet | LUnorderedSet | LPair | LOptional
| LVariant (name : option str) | LStruct (name : str) (derived template : bool) (fields : list str).
Definition label_of (P : program) (t : ctype) : label :=
  match t with
  | TPrim p => LPrim p
  | TEnum e => LEnum (e_name (enums P e))
  | TArray _ n => LArray n
  | TVector _ => LVector
  | TMap _ _ => LMap
  | TUnorderedMap _ _ => LUnorderedMap
  | TSet _ => LSet
  | TUnorderedSet _ => LUnorderedSet
  | TPair _ _ => LPair
  | TOptional _ => LOptional
  | TVariant (Some v) _ => LVariant (Some (variants P v))
  | TVariant None _ => LVariant None
  | TStruct s => let d := structs P s in
      LStruct (s_name d) (match s_super d with Some _ => true | None => false end)
        (match s_inner d with Some _ => true | None => false end) (map f_name (s_fields d))
  end.
(** The same definitions in two programs, possibly under other C++ types: [r] tells which. *)
Definition same_definitions (P P' : program) (U : list ctype) (r : ctype → ctype) : Prop :=
  (∀ t, t ∈ U → label_of P' (r t) = label_of P t ∧ refs P' (r t) = map r (refs P t)) ∧
  (∀ t t', t ∈ U → t' ∈ U → r t = r t' → t = t').
(** The same structure all the way down, for types without recursion. *)
Inductive alike (P P' : program) : ctype → ctype → Prop :=
| alike_intro t t' : label_of P t = label_of P' t' → Forall2 (alike P P') (refs P t) (refs P' t') → alike P P' t t'.
Definition not_recursive (P : program) (U : list ctype) : Prop :=
  ∃ rank : ctype → nat, ∀ t x, t ∈ U → x ∈ refs P t → rank x < rank t.

(** The kind of a type is told by the thousands: types.h 52-68. *)
Definition prefix (t : ctype) : N :=
  match t with
  | TPrim _ => 900 | TEnum _ => 901 | TStruct _ => 920 | TOptional _ => 921 | TVariant _ _ => 922 | TArray _ _ => 930 | TVector _ => 931
  | TSet _ => 932 | TPair _ _ => 933 | TMap _ _ => 934 | TUnorderedSet _ => 935 | TUnorderedMap _ _ => 936
  end.

(** ** Schemas *)
(** What the values of a type consist of. *)
Definition deps (P : program) (t : ctype) : list ctype :=
  match t with
  | TStruct s => let d := structs P s in match s_super d with Some b => [TStruct b] | None => [] end ++ map f_type (s_fields d)
  | _ => refs P t
  end.
Inductive reaches (P : program) : ctype → ctype → Prop :=
| reaches_refl t : reaches P t t
| reaches_step t x u : x ∈ deps P t → reaches P x u → reaches P t u.
Definition primitive (t : ctype) : Prop := match t with TPrim _ => True | _ => False end.
Definition before (i j : N) (l : list N) : Prop := ∃ l1 l2, l = l1 ++ i :: l2 ∧ j ∈ l2.
Definition no_arrays (U : list ctype) : Prop := ∀ t n, TArray t n ∉ U.
(** The types asked for which a schema is made of. *)
Definition in_schema (P : program) (asked : list ctype) (t : ctype) : Prop :=
  ∃ a, a ∈ asked ∧ (match a with TStruct _ | TVariant _ _ => True | _ => False end) ∧ reaches P a t.
(** The entry of a type: its kind and name, its parts by their TypeIDs. *)
Definition entry (P : program) (id : ctype → N) (t : ctype) : record :=
  match t with
  | TPrim _ => RPrimitive (id t)
  | TEnum e => REnum (id t) (e_name (enums P e)) (id (TPrim (e_underlying (enums P e))))
  | TArray e n => RArray (id t) (id e) n
  | TVector e => RVector (id t) (id e)
  | TMap k v => RMap (id t) (id k) (id v)
  | TUnorderedMap k v => RUnorderedMap (id t) (id k) (id v)
  | TSet e => RSet (id t) (id e)
  | TUnorderedSet e => RUnorderedSet (id t) (id e)
  | TPair a b => RPair (id t) (id a) (id b)
  | TOptional e => ROptional (id t) (id e)
  | TVariant _ cases => RVariant (id t) (type_name P t) (map id cases)
  | TStruct s => let d := structs P s in
      RStruct (id t) (s_name d) (match s_super d with Some b => Some (id (TStruct b)) | None => None end)
        (match s_inner d with Some i => Some (id i) | None => None end)
        (map (λ f, (id (f_type f), f_name f, f_description f)) (s_fields d))
  end.
