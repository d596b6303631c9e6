(** * What variants have to be *)
From stdpp Require Import gmap list.
From Verif Require Import Variant_Model.

(** An object is what its type says if every variant in it, at any depth, holds nothing or something of a type in its list. *)
Inductive well_typed : obj → Prop :=
| struct_well_typed n v : well_typed (OStruct n v)
| empty_well_typed n ts : well_typed (OVariant n ts None)
| variant_well_typed n ts o : type_of o ∈ ts → well_typed o → well_typed (OVariant n ts (Some o)).

(** What a variant with the types [ts] holds when it has been constructed from, or assigned, [src]: outer [None]: the program does not compile; then [None]: it
    throws. *)
Definition gives (name : nat) (ts : list ty) (src : obj) : option (option (option obj)) :=
  if decide (type_of src = TVariant name ts) then Some (Some (match src with OVariant _ _ o => o | _ => None end))      (* as the other *)
  else if decide (type_of src ∈ ts) then Some (Some (Some src))                                                        (* the object *)
  else match src with
  | OStruct _ _ => None
  | OVariant _ _ None => Some (Some None)
  | OVariant _ _ (Some o) => Some (if decide (type_of o ∈ ts) then Some (Some o) else None)                            (* the object of the other *)
  end.
(** What has been moved from *)
Definition emptied (o : obj) : obj := match o with OVariant n ts _ => OVariant n ts None | OStruct _ _ => o end.

(** X is the type of the object, or one it derives from. *)
Definition is_a (inherits : nat → nat → bool) (o : obj) (X : ty) : bool :=
  bool_decide (type_of o = X) || match type_of o, X with TStruct n, TStruct b => inherits n b | _, _ => false end.

(** The operations: [None]: the program does not compile, or there is no such variable or object. *)
Definition does (inherits : nat → nat → bool) (o : op) (w : state) : option (answer * state) :=
  let variant p f := match get w p with Some (OVariant n ts held) => f n ts held | _ => None end in
  let from n ts src k :=
    '(h, o) ← match src with Temporary o => Some (Rvalue, o) | At h p => o ← get w p; Some (h, o) end;
    r ← gives n ts o;
    match r with
    | None => Some (Throws Incompatible, w)
    | Some held => Some (Unit, k held (match src, h with At _ q, Rvalue => set w q (emptied o) | _, _ => w end))
    end in
  match o with
  | Default x n ts => Some (Unit, <[x := OVariant n ts None]> w)
  | Construct x n ts src => from n ts src (λ held w, <[x := OVariant n ts held]> w)
  | Assign p src => variant p (λ n ts _, from n ts src (λ held w, set w p (OVariant n ts held)))
  | AssignNull p => variant p (λ n ts _, Some (Unit, set w p (OVariant n ts None)))
  | Emplace p o => variant p (λ n ts _, if decide (type_of o ∈ ts) then Some (Unit, set w p (OVariant n ts (Some o))) else None)
  | IsSet p => variant p (λ _ _ held, Some (Is (match held with Some _ => true | None => false end), w))
  | Visit p => variant p (λ _ _ held, Some (match held with Some o => Object o | None => Throws Uninitialized end, w))
  | ExistsT p X => variant p (λ _ _ held, Some (Is (match held with Some o => is_a inherits o X | None => false end), w))
  | ValueT p X => variant p (λ _ _ held,
      Some (match held with Some o => if is_a inherits o X then Object o else Throws NoValue | None => Throws NoValue end, w))
  | Drop x => match w !! x with Some _ => Some (Unit, delete x w) | None => None end
  end.
Fixpoint does_all inherits (os : list op) (w : state) : option (list answer * state) :=
  match os with [] => Some ([], w) | o :: os => '(a, w1) ← does inherits o w; '(l, w2) ← does_all inherits os w1; Some (a :: l, w2) end.

(** What is passed to a variant is itself what its type says. *)
Definition sane (o : op) : Prop :=
  match o with Construct _ _ _ (Temporary o) | Assign _ (Temporary o) | Emplace _ o => well_typed o | _ => True end.
(** No variant is constructed from a const lvalue of a variant type that is in its list. *)
Fixpoint no_const_inner inherits (os : list op) (w : state) : Prop :=
  match os with
  | [] => True
  | o :: os =>
      match o with
      | Construct _ name ts (At ConstLvalue p) => ∀ n us held, get w p = Some (OVariant n us held) → TVariant n us ≠ TVariant name ts → TVariant n us ∉ ts
      | _ => True end ∧
      match does inherits o w with Some (_, w') => no_const_inner inherits os w' | None => True end
  end.
