(** Model of typesystem/serialization/json: JSON<FORMAT>(x), ParseJSON<T, FORMAT>(json) and PatchObjectWithJSON.

    The model works on JSON documents (rapidjson's DOM).  The text of a document, written and read
    by rapidjson's Writer and Reader, is modelled separately.  C++ types are
    described by a datatype, values are untyped trees.  The formats Current, Minimalistic and JavaScript are modelled, NewtonsoftFSharp is not.
    A double is its bit pattern; the arithmetic on it is a parameter. *)
From stdpp Require Import list gmap strings.
From Coq Require Import ZArith.
From Verif Require Base Dec.

Notation str := (list N) (only parsing).

(** ** JSON documents: rapidjson::Value.  A number is kept as an integer if it is written as one and fits into
    int64 or uint64, otherwise as a double. *)
Inductive json :=
| JNull | JBool (b : bool) | JInt (z : Z) | JDouble (d : N) | JStr (s : str)
| JArr (l : list json) | JObj (l : list (str * json)).

(** ** Values *)
Inductive val :=
| VBool (b : bool) | VInt (z : Z) | VDouble (d : N) | VStr (s : str)
| VTuple (l : list val)          (* CURRENT_STRUCT, std::pair, std::tuple, std::array, std::vector *)
| VOpt (o : option val)          (* Optional *)
| VVariant (o : option (nat * val)) (* Variant: none, or the number of the case and the object *)
| VSet (l : list val)            (* set, unordered_set: the elements in ascending order *)
| VMap (l : list (val * val)).   (* map, unordered_map: the entries, in ascending order of keys *)

(** ** Types *)
Inductive ty :=
| TBool | TInt (bits : N) (signed : bool) (* also char, enums, milliseconds, microseconds *)
| TDouble | TFloat | TString
| TStruct (fields : list (str * ty * val)) (* name, type, default value; the fields of the base struct come first *)
| TOptional (t : ty)
| TVariant (cases : list (str * N * ty))   (* name, TypeID, type *)
| TVector (t : ty) | TArray (n : nat) (t : ty)
| TTuple (ts : list ty)                    (* std::pair, std::tuple *)
| TSet (unordered : bool) (t : ty)
| TMap (unordered : bool) (k v : ty)       (* K is not std::string *)
| TStrMap (unordered : bool) (v : ty).     (* the key is std::string *)

(** What the model leaves open: conversion of integers to double, of double to float
    (and back), the order of keys (operator<; for an unordered container any fixed order), the order in which
    an unordered container is iterated, and what is left in an object that has been moved from. *)
Record env := Env {
  of_int : Z → N;
  to_float : N → N;
  less : ty → val → val → bool;
  arrange : ∀ {A}, ty → list A → list A;
  moved : ty → val → val
}.

Inductive format := Current | Minimalistic | JavaScript.
(** json.h 180-222. *)
Inductive style := StyleCurrent | StyleSimple.
Definition variant_style (f : format) : style := match f with Current => StyleCurrent | _ => StyleSimple end.

(** ** Serialization *)
(** typeid.h 38-44. *)
Definition type_id_json (id : N) : json := JStr (84%N :: Dec.dec id).

Definition iterate {A} (E : env) (unordered : bool) (t : ty) (l : list A) : list A := if unordered then arrange E t l else l.

(** [Inner] (json.h 146-151): a value marked as absent remains the null rapidjson::Value it was. *)
Definition inner (o : option json) : json := default JNull o.
(** struct.h 47-54: a field marked as absent is left out. *)
Fixpoint ser_fields (fs : list (str * (val → option json))) (vs : list val) : list (str * json) :=
  match fs, vs with
  | (n, f) :: fs', v :: vs' => match f v with Some j => (n, j) :: ser_fields fs' vs' | None => ser_fields fs' vs' end
  | _, _ => []
  end.
Definition ser_tuple (fs : list (val → option json)) (vs : list val) : list json := zip_with (λ f v, inner (f v)) fs vs.
Definition ser_entry (fk fv : val → option json) (e : val * val) : json := JArr [inner (fk e.1); inner (fv e.2)].
Definition key_text (v : val) : str := match v with VStr s => s | _ => [] end.
(** variant.h 56-82: the object under the name of its type, then its TypeID or name. *)
Definition ser_case (f : format) (name : str) (id : N) (j : json) : json :=
  JObj ((name, j) :: match f with Current => [([], type_id_json id)] | JavaScript => [([36%N], JStr name)] | Minimalistic => [] end).

(** [None]: marked as absent (json.h 153-168). *)
Fixpoint ser (f : format) (E : env) (t : ty) (v : val) {struct t} : option json :=
  match t, v with
  | TBool, VBool b => Some (JBool b)                       (* primitives.h 61-67 *)
  | TInt _ _, VInt z => Some (JInt z)                      (* primitives.h 45-67, enum.h 37-42 *)
  | (TDouble | TFloat), VDouble d => Some (JDouble d)
  | TString, VStr s => Some (JStr s)
  | TStruct fs, VTuple vs => Some (JObj (ser_fields (map (λ '(n, t, _), (n, ser f E t)) fs) vs)) (* struct.h 60-89 *)
  | TOptional t, VOpt (Some v) => ser f E t v              (* optional.h 38-61 *)
  | TOptional _, VOpt None => match f with Minimalistic => None | _ => Some JNull end
  | TVariant cs, VVariant (Some (i, v)) =>                 (* variant.h 403-417 *)
      match map (λ '(n, id, t), (n, id, ser f E t)) cs !! i with
      | Some (n, id, g) => Some (ser_case f n id (inner (g v)))
      | None => None
      end
  | TVariant _, VVariant None => match variant_style f with StyleCurrent => Some JNull | StyleSimple => None end
  | (TVector t | TArray _ t), VTuple vs => Some (JArr (map (λ v, inner (ser f E t v)) vs)) (* vector.h 36-45, array.h 36-45 *)
  | TTuple ts, VTuple vs => Some (JArr (ser_tuple (map (ser f E) ts) vs)) (* pair.h 36-46, tuple.h 36-60 *)
  | TSet u t, VSet vs => Some (JArr (map (λ v, inner (ser f E t v)) (iterate E u t vs))) (* set.h 37-47, unordered_set.h *)
  | TMap u k t, VMap es => Some (JArr (map (ser_entry (ser f E k) (ser f E t)) (iterate E u k es))) (* map.h 37-53, unordered_map.h 37-54 *)
  | TStrMap u t, VMap es =>                                (* map.h 55-67, unordered_map.h 56-69 *)
      Some (JObj (map (λ e, (key_text e.1, inner (ser f E t e.2))) (iterate E u TString es)))
  | _, _ => None
  end.
(** json.h 325-330, JSON<J>(x).  The document of a value marked as absent is the initial null. *)
Definition to_json (f : format) (E : env) (t : ty) (v : val) : json := inner (ser f E t v).

(** ** Deserialization *)
Inductive error := JSONSchemaException | JSONUninitializedVariantObjectException | RapidJSONAssertionFailed.
(** An exception leaves behind what has been assigned to the destination so far. *)
Inductive outcome A := Ok (a : A) | Throws (e : error) (a : A).
Arguments Ok {A}. Arguments Throws {A}.
Definition omap_out {A B} (f : A → B) (o : outcome A) : outcome B :=
  match o with Ok a => Ok (f a) | Throws e a => Throws e (f a) end.

Record mode := Mode { patch : bool; vstyle : style }.

(** Default-constructed objects.  (A declared but uninitialized number holds an arbitrary value in C++;
    here zero.  It is always assigned or an exception is thrown, see the theorems.) *)
Fixpoint default_of (t : ty) : val :=
  match t with
  | TBool => VBool false | TInt _ _ => VInt 0 | TDouble | TFloat => VDouble 0 | TString => VStr []
  | TStruct fs => VTuple (map snd fs)
  | TOptional _ => VOpt None | TVariant _ => VVariant None
  | TVector _ => VTuple [] | TArray n t => VTuple (replicate n (default_of t))
  | TTuple ts => VTuple (map default_of ts)
  | TSet _ _ => VSet [] | TMap _ _ _ | TStrMap _ _ => VMap []
  end.

(** static_cast to an integer type of [bits] bits. *)
Definition wrap (bits : N) (signed : bool) (z : Z) : Z :=
  let m := (2 ^ Z.of_N bits)%Z in let r := (z mod m)%Z in
  if signed && bool_decide (m / 2 ≤ r)%Z then (r - m)%Z else r.
Definition is_int64 (j : json) : bool := match j with JInt z => bool_decide (- 2 ^ 63 ≤ z < 2 ^ 63)%Z | _ => false end.
Definition is_uint64 (j : json) : bool := match j with JInt z => bool_decide (0 ≤ z < 2 ^ 64)%Z | _ => false end.

(** std::set::insert: no effect if an equivalent element is there. *)
Fixpoint insert_set (lt : val → val → bool) (x : val) (l : list val) : list val :=
  match l with
  | [] => [x]
  | y :: l' => if lt x y then x :: l else if lt y x then y :: insert_set lt x l' else l
  end.
(** std::map::emplace: no effect if the key is there. *)
Fixpoint insert_map (lt : val → val → bool) (k v : val) (l : list (val * val)) : list (val * val) :=
  match l with
  | [] => [(k, v)]
  | (y, w) :: l' => if lt k y then (k, v) :: l else if lt y k then (y, w) :: insert_map lt k v l' else l
  end.

(** [HasMember(name)] and [Current()[name]]: the first member with the name. *)
Fixpoint member (n : str) (ms : list (str * json)) : option json :=
  match ms with
  | [] => None
  | (k, j) :: ms' => if decide (k = n) then Some j else member n ms'
  end.

(** The last branch of most DoDeserialize functions: the member is missing, or of the wrong type. *)
Definition otherwise (is_patch : bool) (j : option json) (dst : val) : outcome val :=
  match j with
  | None => if is_patch then Ok dst else Throws JSONSchemaException dst
  | Some _ => Throws JSONSchemaException dst
  end.

Notation reader := (option json → val → outcome val) (only parsing).

(** struct.h 99-133: the fields in order. *)
Fixpoint de_fields (fs : list (str * reader * val)) (ms : list (str * json)) (vs : list val) : outcome (list val) :=
  match fs with
  | [] => Ok []
  | (n, rd, d) :: fs' =>
      match rd (member n ms) (default d (head vs)) with
      | Ok v => omap_out (cons v) (de_fields fs' ms (tail vs))
      | Throws e v => Throws e (v :: tail vs)
      end
  end.
(** vector.h 66-77: the elements in order. *)
Fixpoint de_elements (rd : reader) (js : list json) (vs : list val) : outcome (list val) :=
  match js, vs with
  | j :: js', v :: vs' =>
      match rd (Some j) v with
      | Ok v' => omap_out (cons v') (de_elements rd js' vs')
      | Throws e v' => Throws e (v' :: vs')
      end
  | _, _ => Ok vs
  end.
Definition resize (n : nat) (d : val) (vs : list val) : list val := take n (vs ++ replicate n d).
(** array.h 48-58: [Current()[i]] beyond the end is a failed assertion of rapidjson, which throws (rapidjson.h 33-40). *)
Fixpoint de_array (rd : reader) (n : nat) (js : list json) (vs : list val) (d : val) : outcome (list val) :=
  match n with
  | 0 => Ok []
  | S n' =>
      match js with
      | [] => Throws RapidJSONAssertionFailed vs
      | j :: js' => match rd (Some j) (default d (head vs)) with
                    | Ok v => omap_out (cons v) (de_array rd n' js' (tail vs) d)
                    | Throws e v => Throws e (v :: tail vs)
                    end
      end
  end.
(** pair.h 63-74, tuple.h 62-88 (the sizes agree). *)
Fixpoint de_tuple (rds : list (reader * val)) (js : list json) (vs : list val) : outcome (list val) :=
  match rds, js with
  | (rd, d) :: rds', j :: js' =>
      match rd (Some j) (default d (head vs)) with
      | Ok v => omap_out (cons v) (de_tuple rds' js' (tail vs))
      | Throws e v => Throws e (v :: tail vs)
      end
  | _, _ => Ok []
  end.
(** set.h 50-65. *)
Fixpoint de_set (rd : reader) (d : val) (lt : val → val → bool) (js : list json) (acc : list val) : outcome (list val) :=
  match js with
  | [] => Ok acc
  | j :: js' => match rd (Some j) d with
                | Ok v => de_set rd d lt js' (insert_set lt v acc)
                | Throws e _ => Throws e acc
                end
  end.
(** map.h 91-113. *)
Fixpoint de_map (rk rv : reader) (dk dv : val) (lt : val → val → bool) (js : list json) (acc : list (val * val)) : outcome (list (val * val)) :=
  match js with
  | [] => Ok acc
  | JArr [jk; jv] :: js' =>
      match rk (Some jk) dk with
      | Ok k => match rv (Some jv) dv with
                | Ok v => de_map rk rv dk dv lt js' (insert_map lt k v acc)
                | Throws e _ => Throws e acc
                end
      | Throws e _ => Throws e acc
      end
  | _ :: _ => Throws JSONSchemaException acc
  end.
(** map.h 71-89: the variable [v] is declared before the loop, and moved from in each iteration. *)
Fixpoint de_strmap (rv : reader) (mv : val → val) (v : val) (lt : val → val → bool) (ms : list (str * json)) (acc : list (val * val)) : outcome (list (val * val)) :=
  match ms with
  | [] => Ok acc
  | (k, j) :: ms' =>
      match rv (Some j) v with
      | Ok v' => de_strmap rv mv (mv v') lt ms' (insert_map lt (VStr k) v' acc)
      | Throws e _ => Throws e acc
      end
  end.

(** typeid.h 46-58: FromString<uint64_t> of what follows the 'T' (istringstream >> uint64_t, zero if that fails). *)
Definition is_space (c : N) : bool := bool_decide (c = 32 ∨ 9 ≤ c ∧ c ≤ 13)%N.
Fixpoint skip_spaces (s : str) : str := match s with c :: s' => if is_space c then skip_spaces s' else s | [] => [] end.
Fixpoint leading_digits (s : str) : str := match s with c :: s' => if Dec.is_digit c then c :: leading_digits s' else [] | [] => [] end.
Definition read_uint64 (s : str) : N :=
  let s := skip_spaces s in
  let (neg, s) := match s with c :: s' => if decide (c = 45%N) then (true, s') else if decide (c = 43%N) then (false, s') else (false, s) | [] => (false, s) end in
  let n := Dec.horner (leading_digits s) in
  if decide (n < 2 ^ 64)%N then (if neg : bool then (2 ^ 64 - n) mod 2 ^ 64 else n)%N else 0%N.
Definition read_type_id (j : json) : option N :=
  match j with JStr (c :: s) => if decide (c = 84%N) then Some (read_uint64 s) else None | _ => None end.

(** The result of a search in the type list: the number of the case, its name and how to read it.  A later case with an equal key replaces
    an earlier one (the map of deserializers is filled in order, variant.h 204-236). *)
Fixpoint find_case {K} `{EqDecision K} (k : K) (cs : list (K * (str * reader * val))) (i : nat) : option (nat * (str * reader * val)) :=
  match cs with
  | [] => None
  | (k', c) :: cs' => match find_case k cs' (S i) with Some r => Some r | None => if decide (k' = k) then Some (i, c) else None end
  end.
(** variant.h 137-156, JSONVariantCaseGeneric. *)
Definition de_case_generic (is_patch : bool) (ms : list (str * json)) (i : nat) (name : str) (rd : reader) (d : val) (dst : val) : outcome val :=
  match member name ms with
  | Some j => match rd (Some j) d with Ok v => Ok (VVariant (Some (i, v))) | Throws e _ => Throws e dst end
  | None => if is_patch then Ok dst else Throws JSONSchemaException dst
  end.
(** variant.h 263-278, JSONVariantPerStyle<Current>. *)
Definition de_variant_current (is_patch : bool) (cs : list (str * N * reader * val)) (ms : list (str * json)) (dst : val) : outcome val :=
  match member [] ms with
  | None => Throws JSONSchemaException dst
  | Some tj =>
      match read_type_id tj with
      | None => Throws JSONSchemaException dst
      | Some id => match find_case id (map (λ '(n, id, rd, d), (id, (n, rd, d))) cs) 0 with
                   | None => Throws JSONSchemaException dst
                   | Some (i, (n, rd, d)) => de_case_generic is_patch ms i n rd d dst
                   end
      end
  end.
(** variant.h 310-345, JSONVariantPerStyle<Simple>: the only key other than "" and "$" names the case.
    (158-172, JSONVariantCaseMinimalistic.) *)
Definition case_keys (ms : list (str * json)) : list (str * json) := filter (λ m, m.1 ≠ [] ∧ m.1 ≠ [36%N]) ms.
Definition de_variant_simple (cs : list (str * N * reader * val)) (ms : list (str * json)) (dst : val) : outcome val :=
  match case_keys ms with
  | [(n, _)] => match find_case n (map (λ '(n, _, rd, d), (n, (n, rd, d))) cs) 0 with
                | None => Throws JSONSchemaException dst
                | Some (i, (n, rd, d)) => de_case_generic false ms i n rd d dst
                end
  | _ => Throws JSONSchemaException dst
  end.

Definition tuple_of (v : val) : list val := match v with VTuple l => l | _ => [] end.

Fixpoint de (m : mode) (E : env) (t : ty) (j : option json) (dst : val) {struct t} : outcome val :=
  match t with
  | TBool => match j with Some (JBool b) => Ok (VBool b) | _ => otherwise (patch m) j dst end (* primitives.h 141-152 *)
  | TInt bits signed =>                                    (* primitives.h 77-103, 154-178; enum.h 44-66 *)
      match j with
      | Some (JInt z) => if (if signed then is_int64 (JInt z) else is_uint64 (JInt z)) then Ok (VInt (wrap bits signed z))
                         else otherwise (patch m) j dst
      | _ => otherwise (patch m) j dst
      end
  | TDouble =>                                             (* primitives.h 117-127 *)
      match j with
      | Some (JInt z) => Ok (VDouble (of_int E z)) | Some (JDouble d) => Ok (VDouble d)
      | _ => otherwise (patch m) j dst
      end
  | TFloat =>                                              (* primitives.h 105-115 *)
      match j with
      | Some (JInt z) => Ok (VDouble (to_float E (of_int E z))) | Some (JDouble d) => Ok (VDouble (to_float E d))
      | _ => otherwise (patch m) j dst
      end
  | TString => match j with Some (JStr s) => Ok (VStr s) | _ => otherwise (patch m) j dst end (* primitives.h 129-139 *)
  | TStruct fs =>                                          (* struct.h 118-133 *)
      match j with
      | Some (JObj ms) => omap_out VTuple (de_fields (map (λ '(n, t, d), (n, de m E t, d)) fs) ms (tuple_of dst))
      | _ => otherwise (patch m) j dst
      end
  | TOptional t =>                                         (* optional.h 85-104 *)
      match j with
      | None => if patch m then Ok dst else Ok (VOpt None)
      | Some JNull => Ok (VOpt None)
      | Some _ => omap_out (λ v, VOpt (Some v)) (de m E t j (default_of t))
      end
  | TVariant cs =>                                         (* variant.h 419-431 *)
      match j with
      | None | Some JNull => match vstyle m with
                             | StyleCurrent => Throws JSONUninitializedVariantObjectException dst
                             | StyleSimple => Ok dst
                             end
      | Some (JObj ms) =>
          let rds := map (λ '(n, id, t), (n, id, de m E t, default_of t)) cs in
          match vstyle m with
          | StyleCurrent => de_variant_current (patch m) rds ms dst
          | StyleSimple => de_variant_simple rds ms dst
          end
      | _ => otherwise (patch m) j dst
      end
  | TVector t =>                                           (* vector.h 60-77 *)
      match j with
      | Some (JArr js) => omap_out VTuple (de_elements (de m E t) js (resize (length js) (default_of t) (tuple_of dst)))
      | _ => otherwise (patch m) j dst
      end
  | TArray n t =>                                          (* array.h 48-58 *)
      match j with
      | Some (JArr js) => omap_out VTuple (de_array (de m E t) n js (tuple_of dst) (default_of t))
      | _ => otherwise (patch m) j dst
      end
  | TTuple ts =>                                           (* pair.h 63-74, tuple.h 75-88 *)
      match j with
      | Some (JArr js) => if decide (length js = length ts)
                          then omap_out VTuple (de_tuple (map (λ t, (de m E t, default_of t)) ts) js (tuple_of dst))
                          else otherwise (patch m) j dst
      | _ => otherwise (patch m) j dst
      end
  | TSet u t =>                                            (* set.h 50-65, unordered_set.h 50-66: cleared first *)
      match j with
      | Some (JArr js) => omap_out VSet (de_set (de m E t) (default_of t) (less E t) js [])
      | _ => otherwise (patch m) j (VSet [])
      end
  | TMap u k t =>                                          (* map.h 91-113, unordered_map.h: JSONPatchMode<J> with J = void is false *)
      match j with
      | Some (JArr js) => omap_out VMap (de_map (de m E k) (de m E t) (default_of k) (default_of t) (less E k) js [])
      | _ => otherwise false j dst
      end
  | TStrMap u t =>                                         (* map.h 71-89, unordered_map.h *)
      match j with
      | Some (JObj ms) => omap_out VMap (de_strmap (de m E t) (moved E t) (default_of t) (less E TString) ms [])
      | _ => otherwise false j dst
      end
  end.

(** json.h 344-352, ParseJSON<T, J>(const char*, T&): CheckIntegrity does nothing, no type defines CheckIntegrityImpl. *)
Definition parse_into (f : format) (E : env) (t : ty) (j : json) (dst : val) : outcome val := de (Mode false (variant_style f)) E t (Some j) dst.
(** 354-362, the overloads for std::string and Chunk call the one above without passing J on. *)
Definition parse_string_into (f : format) (E : env) (t : ty) (j : json) (dst : val) : outcome val := parse_into Current E t j dst.
(** 386-402, T ParseJSON<T, J>(...). *)
Definition parse (f : format) (E : env) (t : ty) (j : json) : outcome val := parse_into f E t j (default_of t).
(** 364-373, PatchObjectWithJSON<T, J>. *)
Definition patch_object (f : format) (E : env) (t : ty) (v : val) (j : json) : outcome val := de (Mode true (variant_style f)) E t (Some j) v.
