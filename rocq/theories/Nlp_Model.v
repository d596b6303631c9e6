(** * Model of [nlp/nlp.h] and [nlp/nlp_schema_begin.inl]

    A schema block is a tree, as its type is; what is C++ code in a schema (the functions of Map and Filter) is a number that stands for it. Evaluation is in
    continuation-passing style with exceptions, as in the code; the state is whatever the caller's callback has. *)
From stdpp Require Import list.

(** emitted_t *)
Inductive ty := TUnit | TData (n : nat) | TTuple (l : list ty) | TVariant (l : list ty).
Fixpoint ty_eq (a b : ty) {struct a} : bool :=
  let fix tys_eq l k := match l, k with [], [] => true | x :: l, y :: k => ty_eq x y && tys_eq l k | _, _ => false end in
  match a, b with TUnit, TUnit => true | TData m, TData n => bool_decide (m = n) | TTuple l, TTuple k => tys_eq l k | TVariant l, TVariant k => tys_eq l k | _, _ => false end.
Lemma ty_eq_spec : ∀ a b, ty_eq a b = true ↔ a = b.
Proof.
  fix go 1. intros a b. destruct a as [|m|l|l], b as [|n|k|k]; simpl; try done.
  - rewrite bool_decide_eq_true. split; congruence.
  - transitivity (l = k); [|split; congruence]. revert k. induction l as [|x l IH]; intros [|y k]; try done. rewrite andb_true_iff, IH, (go x y). split; [by intros [-> ->]|by intros [= -> ->]].
  - transitivity (l = k); [|split; congruence]. revert k. induction l as [|x l IH]; intros [|y k]; try done. rewrite andb_true_iff, IH, (go x y). split; [by intros [-> ->]|by intros [= -> ->]].
Qed.
Global Instance ty_eq_dec : EqDecision ty.
Proof. intros a b. destruct (ty_eq a b) eqn:E; [left; by apply ty_eq_spec|right; intros H%ty_eq_spec; congruence]. Defined.
Inductive value := VUnit | VData (n : nat) | VTuple (l : list value) | VVariant (v : value).
(** AnnotatedQueryTerm, 84-90, and what is derived from it: the normalized term and the optional fields *)
Record term := Term { normalized : list nat; fields : nat → option value }.

Inductive direction := L2R | R2L.
Inductive block :=
| Keyword (w : list nat)                          (* inl 67-81 *)
| Dictionary (f : nat)                            (* inl 37-65: DictionaryAnnotation *)
| None_                                           (* inl 8-20: None *)
| Void (b : block)                                (* 111-132, 558-562 *)
| Or (a b : block)                                (* 134-266, 534-540 *)
| And (a b : block)                               (* 268-286, 526-532 *)
| Seq (d : direction) (a b : block)               (* 288-454, 542-556 *)
| Map_ (out : ty) (f : nat) (b : block)           (* 456-476, 564-571; As is one of these, inl 92-94 *)
| Filter (p : nat) (b : block).                   (* 478-498, 573-578 *)
Global Instance direction_eq_dec : EqDecision direction. Proof. solve_decision. Defined.
Global Instance block_eq_dec : EqDecision block. Proof. solve_decision. Defined.

(** inl 105-106: Maybe, GreedyMaybe *)
Definition Maybe (b : block) : block := Or None_ b.
Definition GreedyMaybe (b : block) : block := Or b None_.

(** tuple.h 53-82: wrapped_into_tuple_t, tuple_cat_t *)
Definition wrapped_ty (t : ty) : list ty := match t with TTuple l => l | t => [t] end.
Definition wrapped (t : ty) (v : value) : list value := match t, v with TTuple _, VTuple l => l | _, v => [v] end.
Definition cat (a b : ty) (v w : value) : value := VTuple (wrapped a v ++ wrapped b w).
(** 201-258: which of the three Ors it is, and what it emits; the order of the types in TypeListUnion is left out. *)
Definition alternatives (t : ty) : list ty := match t with TVariant l => l | t => [t] end.
Definition or_ty (a b : ty) : ty := if decide (a = b) then a else TVariant (alternatives a ++ filter (λ t, t ∉ alternatives a) (alternatives b)).
Definition or_value (a b t : ty) (v : value) : value := if decide (a = b) then v else match t with TVariant _ => v | _ => VVariant v end.
Fixpoint emitted (b : block) : ty :=
  match b with
  | Keyword _ | None_ | Void _ => TUnit
  | Dictionary f => TData f
  | Or a b => or_ty (emitted a) (emitted b)
  | And a b => TTuple (wrapped_ty (emitted a) ++ wrapped_ty (emitted b))
  | Seq _ a b => match emitted a, emitted b with
      | TUnit, TUnit => TUnit | TUnit, t => t | t, TUnit => t
      | t, u => TTuple (wrapped_ty t ++ wrapped_ty u)
      end
  | Map_ out _ _ => out
  | Filter _ b => emitted b
  end.

(** The type of a block: the functions of Map and Filter are std::functions, so that they are no part of it (461, 482). *)
Fixpoint type_of (b : block) : block :=
  match b with
  | Keyword w => Keyword w | Dictionary f => Dictionary f | None_ => None_
  | Void b => Void (type_of b) | Or a b => Or (type_of a) (type_of b) | And a b => And (type_of a) (type_of b)
  | Seq d a b => Seq d (type_of a) (type_of b) | Map_ t _ b => Map_ t 0 (type_of b) | Filter _ b => Filter 0 (type_of b)
  end.

(** Exceptions: the structs defined in the EvalImpl of a block's type (121, 182, 399), and those of the caller *)
Inductive exn := Signal (b : block) | User (n : nat).
Global Instance exn_eq_dec : EqDecision exn. Proof. solve_decision. Defined.
Section Eval.
Context {S : Type}.
Notation M := (S → S * option exn).
Definition ret : M := λ s, (s, None).
Definition throw (e : exn) : M := λ s, (s, Some e).
Definition andthen (m n : M) : M := λ s, match m s with (s, None) => n s | r => r end.
(** [try { m } catch (const Signal&) { h }] *)
Definition try_ (m : M) (e : exn) (h : M) : M := λ s, match m s with (s, Some e') => if decide (e' = e) then h s else (s, Some e') | r => r end.
Fixpoint for_ (n i : nat) (f : nat → M) : M := match n with O => ret | Datatypes.S n => andthen (f i) (for_ n (Datatypes.S i) f) end.
Context (F : nat → value → value) (P : nat → value → bool) (query : list term).

(** EvalImpl *)
Fixpoint eval (b : block) (i j : nat) (emit : value → M) : M :=
  match b with
  | Keyword w => (* inl 74-76 *)
      match query !! i with Some t => if decide (j = i + 1 ∧ normalized t = w) then emit VUnit else ret | None => ret end
  | Dictionary f => (* inl 57-59 *)
      match query !! i with Some t => match fields t f with Some v => if decide (j = i + 1) then emit v else ret | None => ret end | None => ret end
  | None_ => (* inl 13-15 *) if decide (j = i) then emit VUnit else ret
  | Void b => (* 117-131 *)
      let e := Signal (Void (type_of b)) in try_ (eval b i j (λ _, andthen (emit VUnit) (throw e))) e ret
  | Or a b =>
      match emitted a, emitted b with
      | TUnit, TUnit => (* 182-189 *)
          let e := Signal (Or (type_of a) (type_of b)) in
          try_ (andthen (eval a i j (λ _, throw e)) (eval b i j (λ _, throw e))) e (emit VUnit)
      | t, u => (* 145-151, 162-168 *)
          andthen (eval a i j (λ v, emit (or_value t u t v))) (eval b i j (λ v, emit (or_value t u u v)))
      end
  | And a b => (* 275-285 *)
      eval a i j (λ v, eval b i j (λ w, emit (cat (emitted a) (emitted b) v w)))
  | Seq d a b =>
      match emitted a, emitted b with
      | TUnit, TUnit => (* 399-411 *)
          let e := Signal (Seq d (type_of a) (type_of b)) in
          try_ (for_ (Datatypes.S j - i) i (λ m, eval a i m (λ _, eval b m j (λ _, andthen (emit VUnit) (throw e))))) e ret
      | TUnit, _ => (* 376-385 *) for_ (Datatypes.S j - i) i (λ m, eval a i m (λ _, eval b m j emit))
      | _, TUnit => (* 354-365 *) for_ (Datatypes.S j - i) i (λ m, eval b m j (λ _, eval a i m emit))
      | t, u =>
          match d with
          | L2R => (* 307-318 *) for_ (Datatypes.S j - i) i (λ m, eval a i m (λ v, eval b m j (λ w, emit (cat t u v w))))
          | R2L => (* 331-342 *) for_ (Datatypes.S j - i) i (λ m, eval b m j (λ w, eval a i m (λ v, emit (cat t u v w))))
          end
      end
  | Map_ _ f b => (* 466-475 *) eval b i j (λ v, emit (F f v))
  | Filter p b => (* 487-496 *) eval b i j (λ v, if P p v then emit v else ret)
  end.
End Eval.

(** 633-642: MatchQueryIntoVector *)
Definition match_into_vector F P (query : list term) (b : block) : list value :=
  (eval F P query b 0 (length query) (λ v s, (s ++ [v], None)) []).1.
(** 644-662: JustMatchQuery *)
Definition just_match F P (query : list term) (b : block) : option value :=
  match eval F P query b 0 (length query) (λ v _, (Some v, Some (User 0))) None with (s, Some (User O)) => s | _ => None end.

(** 581-584: DefaultAnnotateQueryTerm, 604-611, 614-631: AnnotateQuery: of one term; [dict]: what DictionaryAnnotation adds (inl 43-50), [custom]: CustomAnnotation. *)
Definition to_lower (w : list nat) : list nat := (λ c, if decide (65 <= c <= 90) then c + 32 else c) <$> w.
Definition set_field (f : nat) (v : value) (t : term) : term := Term (normalized t) (λ g, if decide (g = f) then Some v else fields t g).
Definition annotate (custom : option (list nat → term → term)) (dict : list (list nat * nat * value)) (w : list nat) : term :=
  let t := Term (to_lower w) (λ _, None) in
  let t := match custom with Some c => c w t | None => t end in
  foldl (λ u e, if decide (e.1.1 = normalized t) then set_field e.1.2 e.2 u else u) t dict.

(** ** Making the blocks: 526-578. The impl of each is a function-local static, so that there is one for each type of block (and of its operands): the first one made. [statics]: the functions those of Map and Filter have. *)
Definition statics := list (block * nat).
Fixpoint find_static (b : block) (r : statics) : option nat := match r with [] => None | (k, f) :: r => if decide (k = b) then Some f else find_static b r end.
(** Operands are made from left to right; in [|] and [&] that is up to the compiler. *)
Fixpoint make (b : block) (r : statics) : block * statics :=
  match b with
  | Keyword _ | Dictionary _ | None_ => (b, r)
  | Void b => let '(b, r) := make b r in (Void b, r)
  | Or a b => let '(a, r) := make a r in let '(b, r) := make b r in (Or a b, r)
  | And a b => let '(a, r) := make a r in let '(b, r) := make b r in (And a b, r)
  | Seq d a b => let '(a, r) := make a r in let '(b, r) := make b r in (Seq d a b, r)
  | Map_ t f b => let '(b, r) := make b r in
      match find_static (type_of (Map_ t f b)) r with Some g => (Map_ t g b, r) | None => (Map_ t f b, (type_of (Map_ t f b), f) :: r) end
  | Filter p b => let '(b, r) := make b r in
      match find_static (type_of (Filter p b)) r with Some q => (Filter q b, r) | None => (Filter p b, (type_of (Filter p b), p) :: r) end
  end.
Fixpoint make_all (l : list block) (r : statics) : list block :=
  match l with [] => [] | b :: l => let '(b, r) := make b r in b :: make_all l r end.
