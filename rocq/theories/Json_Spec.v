(** What is assumed about types and values in the JSON theorems, and what they speak of. *)
From stdpp Require Import list gmap strings.
From Coq Require Import ZArith Sorted.
From Verif Require Import Json_Model.

(** The values of an integer type. *)
Definition in_range (bits : N) (signed : bool) (z : Z) : Prop :=
  if signed then (- 2 ^ (Z.of_N bits - 1) ≤ z < 2 ^ (Z.of_N bits - 1))%Z else (0 ≤ z < 2 ^ Z.of_N bits)%Z.

(** The values of a type: integers within their range, floats that are single-precision, initialized variants,
    ordered sets and maps without duplicate keys. *)
Fixpoint has_type (E : env) (t : ty) (v : val) {struct t} : Prop :=
  match t, v with
  | TBool, VBool _ => True
  | TInt bits signed, VInt z => in_range bits signed z
  | TDouble, VDouble _ => True
  | TFloat, VDouble d => to_float E d = d
  | TString, VStr _ => True
  | TStruct fs, VTuple vs => Forall2 (λ (P : val → Prop) v, P v) (map (λ '(_, t, _), has_type E t) fs) vs
  | TOptional t, VOpt o => match o with Some v => has_type E t v | None => True end
  | TVariant cs, VVariant (Some (i, v)) =>
      match map (λ '(_, _, t), has_type E t) cs !! i with Some P => P v | None => False end
  | TVector t, VTuple vs => Forall (has_type E t) vs
  | TArray n t, VTuple vs => length vs = n ∧ Forall (has_type E t) vs
  | TTuple ts, VTuple vs => Forall2 (λ (P : val → Prop) v, P v) (map (has_type E) ts) vs
  | TSet _ t, VSet vs => Forall (has_type E t) vs ∧ StronglySorted (λ a b, less E t a b = true) vs
  | TMap _ k t, VMap es =>
      Forall (λ e, has_type E k e.1 ∧ has_type E t e.2) es ∧ StronglySorted (λ a b, less E k a.1 b.1 = true) es
  | TStrMap _ t, VMap es =>
      Forall (λ e, (∃ s, e.1 = VStr s) ∧ has_type E t e.2) es ∧ StronglySorted (λ a b, less E TString a.1 b.1 = true) es
  | _, _ => False
  end.

(** Comparison of keys is irreflexive and transitive; an unordered container is iterated over completely. *)
Record env_ok (E : env) : Prop := {
  less_irreflexive : ∀ t x, has_type E t x → less E t x x = false;
  less_transitive : ∀ t x y z, has_type E t x → has_type E t y → has_type E t z →
                    less E t x y = true → less E t y z = true → less E t x z = true;
  arrange_permutes : ∀ A t (l : list A), arrange E t l ≡ₚ l
}.

(** The types that are faithfully represented in JSON: distinct field names; distinct TypeIDs (for the style of format Current) or
    distinct, not empty and not "$" names (for the others) of the cases of a variant; no Optional immediately within an Optional. *)
Definition optional (t : ty) : bool := match t with TOptional _ => true | _ => false end.
Fixpoint faithful (f : format) (t : ty) {struct t} : Prop :=
  match t with
  | TBool | TDouble | TFloat | TString => True
  | TInt bits _ => (0 < bits ≤ 64)%N
  | TStruct fs => NoDup (map (λ '(n, _, _), n) fs) ∧ Forall id (map (λ '(_, t, _), faithful f t) fs)
  | TOptional t => optional t = false ∧ faithful f t
  | TVariant cs =>
      Forall (λ n : list N, n ≠ [] ∧ n ≠ [36%N]) (map (λ '(n, _, _), n) cs) ∧
      (match f with
       | Current => NoDup (map (λ '(_, id, _), id) cs) ∧ Forall (λ id, (id < 2 ^ 64)%N) (map (λ '(_, id, _), id) cs)
       | _ => NoDup (map (λ '(n, _, _), n) cs)
       end) ∧
      Forall id (map (λ '(_, _, t), faithful f t) cs)
  | TVector t | TArray _ t | TSet _ t | TStrMap _ t => faithful f t
  | TTuple ts => Forall id (map (faithful f) ts)
  | TMap _ k t => faithful f k ∧ faithful f t
  end.

(** The part of a value at a path of field names, through nested structs, with its type; the part of a JSON document at the same path. *)
Fixpoint at_path (p : list (list N)) (t : ty) (v : val) : option (ty * val) :=
  match p with
  | [] => Some (t, v)
  | n :: p' =>
      match t, v with
      | TStruct fs, VTuple vs =>
          match list_find (λ fd : list N * ty * val, fd.1.1 = n) fs with
          | Some (i, (_, t', _)) => match vs !! i with Some v' => at_path p' t' v' | None => None end
          | None => None
          end
      | _, _ => None
      end
  end.
Fixpoint json_at (p : list (list N)) (j : json) : option json :=
  match p with
  | [] => Some j
  | n :: p' => match j with
               | JObj ms => match member n ms with Some j' => json_at p' j' | None => None end
               | _ => None
               end
  end.

(** Types with no struct and no variant inside. *)
Fixpoint no_structs (t : ty) : Prop :=
  match t with
  | TBool | TInt _ _ | TDouble | TFloat | TString => True
  | TStruct _ | TVariant _ => False
  | TOptional t | TVector t | TArray _ t | TSet _ t | TStrMap _ t => no_structs t
  | TTuple ts => Forall id (map no_structs ts)
  | TMap _ k t => no_structs k ∧ no_structs t
  end.
Definition is_set (t : ty) : bool := match t with TSet _ _ => true | _ => false end.
