(** What an inferred schema says about the documents it was inferred from. *)
From stdpp Require Import list strings.
From Coq Require Import ZArith.
From Verif Require Import Json_Model Infer_Model.

(** One position of the documents (the whole, or a field of an object, or the elements of an array) is described by
    what is found there in each: [None] for nothing.  An empty array is as good as nothing: its elements have no type. *)
Notation found := (list (option json)) (only parsing).

Definition lacking (ds : found) : Prop := ∃ o, o ∈ ds ∧ (o = None ∨ o = Some JNull).
(** What is found and is not null. *)
Definition given (ds : found) : list json := omap (λ o, match o with Some JNull | None => None | Some j => Some j end) ds.
(** A member of an object. *)
Definition field (n : str) (ms : list (str * json)) : option json :=
  match member n ms with Some j => if is_empty_array j then None else Some j | None => None end.
Definition objects (ds : found) : list (list (str * json)) := omap (λ j, match j with JObj ms => Some ms | _ => None end) (given ds).
(** The elements of all the arrays. *)
Definition elements (ds : found) : found :=
  map Some (filter (λ j, is_empty_array j = false) (concat (omap (λ j, match j with JArr l => Some l | _ => None end) (given ds)))).

Definition int64 (z : Z) : Prop := (- 2 ^ 63 ≤ z < 2 ^ 63)%Z.
(** 1980-01-01 and 2250-01-01, in microseconds. *)
Definition plausible_time (z : Z) : Prop := (315561600000000 ≤ z < 8835984000000000)%Z.
Definition how_many (b : bool) (l : list json) : N :=
  N.of_nat (length (filter (λ j, match j with JBool b' => bool_decide (b' = b) | _ => false end = true) l)).

(** The schema [s] says exactly what is found at a position. *)
Fixpoint describes (s : schema) (ds : found) {struct s} : Prop :=
  let all_given (P : json → Prop) := given ds ≠ [] ∧ Forall P (given ds) in
  let counts (i n : N) := i = N.of_nat (length (given ds)) ∧ (n ≠ 0%N ↔ lacking ds) in
  match s with
  | SUninitialized => ds = []
  | SNull o => ds ≠ [] ∧ given ds = [] ∧ o ≠ 0%N
  | SString i n => all_given (λ j, ∃ t, j = JStr t) ∧ counts i n
  | SInteger u m i n =>
      all_given (λ j, ∃ z, j = JInt z ∧ int64 z) ∧ counts i n ∧
      (u = true ↔ ∀ z, JInt z ∈ given ds → (0 ≤ z)%Z) ∧ (m = true ↔ ∀ z, JInt z ∈ given ds → plausible_time z)
  | SDouble i n =>
      all_given (λ j, (∃ z, j = JInt z) ∨ ∃ d, j = JDouble d) ∧ counts i n ∧
      ∃ j, j ∈ given ds ∧ ¬ ∃ z, j = JInt z ∧ int64 z
  | SBool f t n =>
      all_given (λ j, ∃ b, j = JBool b) ∧ (n ≠ 0%N ↔ lacking ds) ∧
      f = how_many false (given ds) ∧ t = how_many true (given ds)
  | SArray e i n =>
      all_given (λ j, ∃ l, j = JArr l) ∧ counts i n ∧ elements ds ≠ [] ∧ describes e (elements ds)
  | SObject fs i n =>
      all_given (λ j, ∃ ms, j = JObj ms) ∧ counts i n ∧
      NoDup fs.*1 ∧ (∀ k, k ∈ fs.*1 ↔ ∃ ms, ms ∈ objects ds ∧ is_Some (field k ms)) ∧
      Forall id (map (λ '(k, s), describes s (map (field k) (objects ds))) fs)
  end.

(** No object with two members of the same name. *)
Fixpoint distinct_keys (j : json) : Prop :=
  match j with
  | JObj ms => NoDup ms.*1 ∧ Forall id (map (λ '(_, j), distinct_keys j) ms)
  | JArr l => Forall id (map distinct_keys l)
  | _ => True
  end.
(** A name a field can have in C++ (other than the reserved words the code does not know): a letter or an underscore,
    then letters, underscores and digits; the four words are "NULL", "null", "true", "false". *)
Definition ascii (c : Ascii.ascii) : N := Ascii.N_of_ascii c.
Fixpoint text (s : String.string) : list N :=
  match s with String.EmptyString => [] | String.String c s' => ascii c :: text s' end.
Definition letters : list N := text "abcdefghijklmnopqrstuvwxyzABCDEFGHIJKLMNOPQRSTUVWXYZ_".
Definition digits : list N := text "0123456789".
Definition identifier (k : list N) : Prop :=
  (∃ c k', k = c :: k' ∧ c ∈ letters ∧ ∀ c', c' ∈ k' → c' ∈ letters ∨ c' ∈ digits) ∧
  k ≠ text "NULL" ∧ k ≠ text "null" ∧ k ≠ text "true" ∧ k ≠ text "false".
(** Every name is that of a field in C++, and no array consists of empty arrays only.
    (Empty arrays are skipped, so is the name a field with an empty array has.) *)
Fixpoint suitable (j : json) : Prop :=
  match j with
  | JObj ms => Forall (λ '(k, j), is_empty_array j = false → identifier k) ms ∧ Forall id (map (λ '(_, j), is_empty_array j = false → suitable j) ms)
  | JArr l => Exists (λ j, is_empty_array j = false) l ∧ Forall id (map (λ j, is_empty_array j = false → suitable j) l)
  | _ => True
  end.
(** The number of values in a document. *)
Fixpoint size (j : json) : N :=
  match j with
  | JObj ms => 1 + foldr N.add 0 (map (λ '(_, j), size j) ms)
  | JArr l => 1 + foldr N.add 0 (map size l)
  | _ => 1
  end%N.

Definition total (ds : list json) : N := foldr N.add 0%N (map size ds).

(** The documents without the members at the paths to be ignored. *)
Fixpoint stripped (ignored : str → bool) (path : str) (j : json) : json :=
  match j with
  | JObj ms =>
      let fix members (ms : list (str * json)) :=
        match ms with
        | [] => []
        | (k, j) :: ms' => if ignored (member_path path k) then members ms' else (k, stripped ignored (member_path path k) j) :: members ms'
        end in
      JObj (members ms)
  | JArr l =>
      let fix elements (i : nat) (l : list json) :=
        match l with [] => [] | j :: l' => stripped ignored (element_path path i) j :: elements (S i) l' end in
      JArr (elements 0 l)
  | _ => j
  end.

(** Every empty array of the document is, by the type, where a vector is expected. *)
Fixpoint empty_arrays_fit (t : ty) (j : json) {struct t} : Prop :=
  (is_empty_array j = true → ∃ u, t = TVector u ∨ t = TOptional (TVector u)) ∧
  match t, j with
  | TOptional t', _ => empty_arrays_fit t' j
  | TVector t', JArr l => Forall (empty_arrays_fit t') l
  | TStruct fs, JObj ms =>
      Forall id (map (λ '(k, t', _), match member k ms with Some j' => empty_arrays_fit t' j' | None => True end) fs)
  | _, _ => True
  end.
Fixpoint no_empty_arrays (j : json) : Prop :=
  match j with
  | JObj ms => Forall id (map (λ '(_, j), no_empty_arrays j) ms)
  | JArr l => l ≠ [] ∧ Forall id (map no_empty_arrays l)
  | _ => True
  end.

(** Schemas that differ by the order of fields (and in how many nulls were counted) only. *)
Fixpoint similar (s s' : schema) {struct s} : Prop :=
  let zero (n n' : N) := n = 0%N ↔ n' = 0%N in
  match s, s' with
  | SUninitialized, SUninitialized => True
  | SNull _, SNull _ => True
  | SString i n, SString i' n' => i = i' ∧ zero n n'
  | SInteger u m i n, SInteger u' m' i' n' => u = u' ∧ m = m' ∧ i = i' ∧ zero n n'
  | SDouble i n, SDouble i' n' => i = i' ∧ zero n n'
  | SBool f t n, SBool f' t' n' => f = f' ∧ t = t' ∧ zero n n'
  | SArray e i n, SArray e' i' n' => i = i' ∧ zero n n' ∧ similar e e'
  | SObject fs i n, SObject fs' i' n' =>
      i = i' ∧ zero n n' ∧ NoDup fs.*1 ∧ NoDup fs'.*1 ∧ fs.*1 ≡ₚ fs'.*1 ∧
      Forall id (map (λ '(k, s), ∃ s', (k, s') ∈ fs' ∧ similar s s') fs)
  | _, _ => False
  end.
