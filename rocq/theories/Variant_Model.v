(** * Model of [typesystem/variant.h] and [bricks/template/rtti_dynamic_call.h]

    Variants, with types checked at compile time, that contain structs or other variants. A variant owns its object through a unique_ptr, so objects are
    trees. A struct is a number and its type; what moving from a struct leaves in it is left out (it stays as it is). *)
From stdpp Require Import gmap list.

(** Types: structs, and [VariantImpl<NAME, TypeListImpl<...>>]. *)
Inductive ty := TStruct (n : nat) | TVariant (name : nat) (ts : list ty).
Fixpoint ty_dec (a b : ty) {struct a} : {a = b} + {a ≠ b}.
Proof.
  refine (match a, b with
  | TStruct m, TStruct n => match decide (m = n) with left e => left _ | right e => right _ end
  | TVariant m ts, TVariant n us => match decide (m = n), List.list_eq_dec ty_dec ts us with left e, left e' => left _ | _, _ => right _ end
  | _, _ => right _ end); congruence.
Defined.
Global Instance ty_eq_dec : EqDecision ty := ty_dec.

Inductive obj := OStruct (n : nat) (v : Z) | OVariant (name : nat) (ts : list ty) (object_ : option obj).
Definition type_of (o : obj) : ty := match o with OStruct n _ => TStruct n | OVariant n ts _ => TVariant n ts end.
Notation state := (gmap nat obj).      (* the variants of the program *)

Inductive exn := Incompatible | Uninitialized | NoValue | Unlisted.
Inductive result (A : Type) := Ok (a : A) | Throw (e : exn) | Ill.      (* Ill: does not compile *)
Arguments Ok {A} a.
Arguments Throw {A} e.
Arguments Ill {A}.
Global Instance result_ret : MRet result := λ A a, Ok a.
Global Instance result_bind : MBind result := λ A B f m, match m with Ok a => f a | Throw e => Throw e | Ill => Ill end.

(** rtti_dynamic_call.h 150-251: the handler is looked up by the type of the object; there is one for each type in the list. *)
Definition dispatch {A} (ts : list ty) (o : obj) (f : obj → result A) : result A :=
  if decide (type_of o ∈ ts) then f o else Throw Unlisted.
(** 226-242: Call *)
Definition call {A} (ts : list ty) (object_ : option obj) (f : obj → result A) : result A :=
  match object_ with Some o => dispatch ts o f | None => Throw Uninitialized end.

(** The copy constructors: of a struct; of a variant, 147 with 349-357 and TypeAwareClone, 290-315 *)
Fixpoint copy (o : obj) : result obj :=
  match o with
  | OStruct n v => Ok o
  | OVariant n ts object_ =>
      match object_ with
      | Some o => if decide (type_of o ∈ ts) then                   (* rhs.Call(cloner), the handler found *)
                    if decide (type_of o ∈ ts) then o' ← copy o; Ok (OVariant n ts (Some o')) else Throw Incompatible
                  else Throw Unlisted
      | None => Ok (OVariant n ts None)
      end
  end.
(** 349-357: CopyFrom, with TypeAwareClone, 290-315; the result is what object_ becomes *)
Definition copy_from (ts : list ty) (rhs : obj) : result (option obj) :=
  match rhs with
  | OVariant _ ts' (Some o) => dispatch ts' o (λ o, if decide (type_of o ∈ ts) then o' ← copy o; Ok (Some o') else Throw Incompatible)
  | OVariant _ _ None => Ok None
  | OStruct _ _ => Ill
  end.
(** 359-367: MoveFrom, with TypeAwareMove, 317-347; and what is left of rhs *)
Definition move_from (ts : list ty) (rhs : obj) : result (option obj * obj) :=
  match rhs with
  | OVariant n ts' (Some o) => dispatch ts' o (λ o, if decide (type_of o ∈ ts) then Ok (Some o, OVariant n ts' None) else Throw Incompatible)
  | OVariant _ _ None => Ok (None, rhs)
  | OStruct _ _ => Ill
  end.
(** What the default move constructor, 154, leaves and takes *)
Definition take_from (rhs : obj) : obj := match rhs with OVariant n ts _ => OVariant n ts None | OStruct _ _ => rhs end.
Definition object_of (rhs : obj) : option obj := match rhs with OVariant _ _ o => o | OStruct _ _ => None end.

Inductive how := ConstLvalue | Lvalue | Rvalue.
(** [std::make_unique<X>(std::forward<X>(input))] *)
Definition make_unique (h : how) (rhs : obj) : result (option obj * obj) :=
  match h with Rvalue => Ok (Some rhs, take_from rhs) | _ => o ← copy rhs; Ok (Some o, rhs) end.

(** Constructing a [VariantImpl<name, ts>], 139-187; the overload taken depends on the type of the argument and on whether it is const or an rvalue:
    - its own type: the copy constructor, 147, or the move constructor, 154;
    - another variant: the template for const lvalues, 148-151; it is more specialized than the one for the types in the list, 181-185, which is therefore
      taken for non-const lvalues and for rvalues only if the type of the argument is in the list; 165-167 otherwise for rvalues, and 148-151 for lvalues;
    - a struct: 181-185, if it is in the list. *)
Definition construct (name : nat) (ts : list ty) (h : how) (rhs : obj) : result (option obj * obj) :=
  if decide (type_of rhs = TVariant name ts) then
    match h with Rvalue => Ok (object_of rhs, take_from rhs) | _ => o ← copy_from ts rhs; Ok (o, rhs) end
  else
  match rhs, h with
  | OStruct _ _, _ => if decide (type_of rhs ∈ ts) then make_unique h rhs else Ill
  | OVariant _ _ _, ConstLvalue => o ← copy_from ts rhs; Ok (o, rhs)
  | OVariant _ _ _, Lvalue => if decide (type_of rhs ∈ ts) then make_unique h rhs else o ← copy_from ts rhs; Ok (o, rhs)
  | OVariant _ _ _, Rvalue => if decide (type_of rhs ∈ ts) then make_unique h rhs else move_from ts rhs
  end.
(** Assigning, 191-210: to what is not of the type of the variant nor in the list, a variant is made by the constructor, and moved. *)
Definition assign (name : nat) (ts : list ty) (h : how) (rhs : obj) : result (option obj * obj) :=
  if decide (type_of rhs = TVariant name ts) then
    match h with Rvalue => Ok (object_of rhs, take_from rhs) | _ => o ← copy_from ts rhs; Ok (o, rhs) end
  else if decide (type_of rhs ∈ ts) then make_unique h rhs
  else construct name ts h rhs.

(** 249-286: [X] may be a type the object's derives from. [inherits] is what dynamic_cast knows. *)
Definition dynamic_cast (inherits : nat → nat → bool) (o : obj) (X : ty) : bool :=
  match o, X with OStruct n _, TStruct b => bool_decide (n = b) || inherits n b | _, _ => bool_decide (type_of o = X) end.
Definition variant_exists inherits (object_ : option obj) (X : ty) : bool :=
  match object_ with Some o => dynamic_cast inherits o X | None => false end.
Definition variant_value inherits (object_ : option obj) (X : ty) : result obj :=
  match object_ with Some o => if dynamic_cast inherits o X then Ok o else Throw NoValue | None => Throw NoValue end.

(** Where an object is: in variable x, [Value<T1>(x)], [Value<T2>(Value<T1>(x))], ... *)
Fixpoint get_at (o : obj) (p : list ty) {struct p} : option obj :=
  match p with
  | [] => Some o
  | T :: p => match o with OVariant _ _ (Some o') => if decide (type_of o' = T) then get_at o' p else None | _ => None end
  end.
Fixpoint set_at (o : obj) (p : list ty) (new : obj) {struct p} : obj :=
  match p with
  | [] => new
  | T :: p => match o with OVariant n ts (Some o') => if decide (type_of o' = T) then OVariant n ts (Some (set_at o' p new)) else o | _ => o end
  end.
Record place := Place { variable : nat; path : list ty }.
Definition get (s : state) (p : place) : option obj := o ← s !! variable p; get_at o (path p).
Definition set (s : state) (p : place) (new : obj) : state :=
  match s !! variable p with Some o => <[variable p := set_at o (path p) new]> s | None => s end.

Inductive source := Temporary (o : obj) | At (h : how) (p : place).
Inductive op :=
| Default (x name : nat) (ts : list ty)                     (* Variant<...> x; *)
| Construct (x name : nat) (ts : list ty) (src : source)    (* Variant<...> x(src); *)
| Assign (p : place) (src : source)                         (* p = src *)
| AssignNull (p : place)                                    (* p = nullptr *)
| Emplace (p : place) (o : obj)                             (* p.Construct<T>(...), which makes o *)
| IsSet (p : place)                                         (* Exists(p) *)
| Visit (p : place)                                         (* p.Call(f): what f is called with *)
| ExistsT (p : place) (X : ty)                              (* Exists<X>(p) *)
| ValueT (p : place) (X : ty)                               (* Value<X>(p) *)
| Drop (x : nat).
Inductive answer := Unit | Throws (e : exn) | Is (b : bool) | Object (o : obj).

Definition read (s : state) (src : source) : option (how * obj) :=
  match src with Temporary o => Some (Rvalue, o) | At h p => o ← get s p; Some (h, o) end.
(** What is left of the source *)
Definition leave (s : state) (src : source) (rest : obj) : state := match src with At Rvalue p => set s p rest | _ => s end.

Definition exec (inherits : nat → nat → bool) (o : op) (s : state) : option (answer * state) :=
  let variant p f := match get s p with Some (OVariant n ts object_) => f n ts object_ | _ => None end in
  match o with
  | Default x n ts => Some (Unit, <[x := OVariant n ts None]> s)
  | Construct x n ts src => '(h, rhs) ← read s src;
      match construct n ts h rhs with
      | Ok (object_, rest) => Some (Unit, <[x := OVariant n ts object_]> (leave s src rest)) | Throw e => Some (Throws e, s) | Ill => None end
  | Assign p src => variant p (λ n ts _, '(h, rhs) ← read s src;
      match assign n ts h rhs with
      | Ok (object_, rest) => Some (Unit, set (leave s src rest) p (OVariant n ts object_)) | Throw e => Some (Throws e, s) | Ill => None end)
  | AssignNull p => variant p (λ n ts _, Some (Unit, set s p (OVariant n ts None)))
  | Emplace p o => variant p (λ n ts _, if decide (type_of o ∈ ts) then Some (Unit, set s p (OVariant n ts (Some o))) else None)
  | IsSet p => variant p (λ _ _ object_, Some (Is (match object_ with Some _ => true | None => false end), s))
  | Visit p => variant p (λ _ ts object_, match call ts object_ Ok with Ok o => Some (Object o, s) | Throw e => Some (Throws e, s) | Ill => None end)
  | ExistsT p X => variant p (λ _ _ object_, Some (Is (variant_exists inherits object_ X), s))
  | ValueT p X => variant p (λ _ _ object_, match variant_value inherits object_ X with Ok o => Some (Object o, s) | Throw e => Some (Throws e, s) | Ill => None end)
  | Drop x => match s !! x with Some _ => Some (Unit, delete x s) | None => None end
  end.
Fixpoint exec_all inherits (os : list op) (s : state) : option (list answer * state) :=
  match os with [] => Some ([], s) | o :: os => '(a, s1) ← exec inherits o s; '(l, s2) ← exec_all inherits os s1; Some (a :: l, s2) end.
