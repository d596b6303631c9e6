(** * What a schema matches *)
From stdpp Require Import list.
From Verif Require Import Nlp_Model.

Section Spec.
Context (F : nat → value → value) (P : nat → value → bool) (query : list term).
Definition unit_if {A} (l : list A) : list value := match l with [] => [] | _ => [VUnit] end.
(** All ways in which [b] matches the terms from [i] up to [j], in order. What is without data ([Unit]) is found or not, once. In a sequence, the second part
    takes as much as there is first; for each split, what is written on the left goes first with [>>] and what is written on the right with [<<]. *)
Fixpoint results (b : block) (i j : nat) : list value :=
  match b with
  | Keyword w => match query !! i with Some t => if decide (j = i + 1 ∧ normalized t = w) then [VUnit] else [] | None => [] end
  | Dictionary f => match query !! i with Some t => if decide (j = i + 1) then option_list (fields t f) else [] | None => [] end
  | None_ => if decide (i = j) then [VUnit] else []
  | Void b => unit_if (results b i j)
  | Or a b =>
      let t := emitted a in let u := emitted b in
      if decide (t = TUnit ∧ u = TUnit) then unit_if (results a i j ++ results b i j)
      else (or_value t u t <$> results a i j) ++ (or_value t u u <$> results b i j)
  | And a b => v ← results a i j; w ← results b i j; [cat (emitted a) (emitted b) v w]
  | Seq d a b =>
      let t := emitted a in let u := emitted b in
      let splits := seq i (S j - i) in
      if decide (t = TUnit ∧ u = TUnit) then unit_if (m ← splits; _ ← results a i m; results b m j)
      else if decide (t = TUnit) then m ← splits; _ ← results a i m; results b m j
      else if decide (u = TUnit) then m ← splits; _ ← results b m j; results a i m
      else match d with
        | L2R => m ← splits; v ← results a i m; w ← results b m j; [cat t u v w]
        | R2L => m ← splits; w ← results b m j; v ← results a i m; [cat t u v w]
        end
  | Map_ _ f b => F f <$> results b i j
  | Filter p b => filter (λ v, P p v) (results b i j)
  end.

(** The same without the order: the terms from [i] up to [j] match [b], with [v]. *)
Inductive matches : block → nat → nat → value → Prop :=
| matches_keyword i t : query !! i = Some t → matches (Keyword (normalized t)) i (i + 1) VUnit
| matches_dictionary i t f v : query !! i = Some t → fields t f = Some v → matches (Dictionary f) i (i + 1) v
| matches_none i : matches None_ i i VUnit
| matches_void b i j v : matches b i j v → matches (Void b) i j VUnit
| matches_or_unit_left a b i j v : emitted a = TUnit → emitted b = TUnit → matches a i j v → matches (Or a b) i j VUnit
| matches_or_unit_right a b i j v : emitted a = TUnit → emitted b = TUnit → matches b i j v → matches (Or a b) i j VUnit
| matches_or_left a b i j v : ¬ (emitted a = TUnit ∧ emitted b = TUnit) → matches a i j v → matches (Or a b) i j (or_value (emitted a) (emitted b) (emitted a) v)
| matches_or_right a b i j v : ¬ (emitted a = TUnit ∧ emitted b = TUnit) → matches b i j v → matches (Or a b) i j (or_value (emitted a) (emitted b) (emitted b) v)
| matches_and a b i j v w : matches a i j v → matches b i j w → matches (And a b) i j (cat (emitted a) (emitted b) v w)
| matches_seq d a b i m j v w : i ≤ m ≤ j → emitted a ≠ TUnit → emitted b ≠ TUnit → matches a i m v → matches b m j w →
    matches (Seq d a b) i j (cat (emitted a) (emitted b) v w)
| matches_seq_unit_left d a b i m j v w : i ≤ m ≤ j → emitted a = TUnit → emitted b ≠ TUnit → matches a i m v → matches b m j w → matches (Seq d a b) i j w
| matches_seq_unit_right d a b i m j v w : i ≤ m ≤ j → emitted a ≠ TUnit → emitted b = TUnit → matches a i m v → matches b m j w → matches (Seq d a b) i j v
| matches_seq_units d a b i m j v w : i ≤ m ≤ j → emitted a = TUnit → emitted b = TUnit → matches a i m v → matches b m j w → matches (Seq d a b) i j VUnit
| matches_map t f b i j v : matches b i j v → matches (Map_ t f b) i j (F f v)
| matches_filter p b i j v : matches b i j v → P p v = true → matches (Filter p b) i j v.
End Spec.

(** No function of Map gives a Unit. *)
Fixpoint no_unit_maps (b : block) : Prop :=
  match b with
  | Keyword _ | Dictionary _ | None_ => True
  | Void b | Filter _ b => no_unit_maps b
  | Or a b | And a b | Seq _ a b => no_unit_maps a ∧ no_unit_maps b
  | Map_ t _ b => t ≠ TUnit ∧ no_unit_maps b
  end.
(** The Maps and Filters in a block *)
Fixpoint functions (b : block) : list (block * nat) :=
  match b with
  | Keyword _ | Dictionary _ | None_ => []
  | Void b => functions b
  | Or a b | And a b | Seq _ a b => functions a ++ functions b
  | Map_ t f c => (type_of b, f) :: functions c
  | Filter p c => (type_of b, p) :: functions c
  end.
(** The caller's callback is called with each of the list, in order, until it throws. *)
Fixpoint each {S : Type} (l : list value) (k : value → S → S * option exn) : S → S * option exn :=
  match l with [] => ret | v :: l => andthen (k v) (each l k) end.

(** The same letter, but for its case *)
Definition capital (c : nat) : Prop := 65 ≤ c ≤ 90.
Definition same_letter (c d : nat) : Prop := c = d ∨ (capital c ∧ d = c + 32) ∨ (capital d ∧ c = d + 32).

(** A value is of a type. What is in a Variant is of one of its types, and is not a Variant itself. *)
Inductive fits : value → ty → Prop :=
| fits_unit : fits VUnit TUnit
| fits_data n k : fits (VData n) (TData k)
| fits_tuple l ts : Forall2 fits l ts → fits (VTuple l) (TTuple ts)
| fits_variant v t ts : t ∈ ts → (∀ us, t ≠ TVariant us) → fits v t → fits (VVariant v) (TVariant ts).
(** The functions of the Maps give values of the types they are for. *)
Fixpoint maps_fit (F : nat → value → value) (b : block) : Prop :=
  match b with
  | Keyword _ | Dictionary _ | None_ => True
  | Void b | Filter _ b => maps_fit F b
  | Or a b | And a b | Seq _ a b => maps_fit F a ∧ maps_fit F b
  | Map_ t f b => (∀ v, fits v (emitted b) → fits (F f v) t) ∧ maps_fit F b
  end.
(** What is in a Variant, or the value itself *)
Definition contents (v : value) : value := match v with VVariant v => v | v => v end.
