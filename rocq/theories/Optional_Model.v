(** * Model of [typesystem/optional.h]

    Optional and ImmutableOptional of types that are not POD (a unique_ptr and a pointer), with the objects they own on a heap; and those of POD
    types (a value and a flag). The objects themselves are numbers: what is in an object of type T, and that copying it may throw, is left out.
    Using an object after its end, freeing it twice, or reading a value that has never been written is [UB]. *)
From stdpp Require Import gmap.

(** ** Types that are not POD *)
(** Where an object is: owned by some Optional, or by the program. *)
Inductive addr := Heap (a : nat) | Ext (e : nat).
Record opt := Opt { owned : option nat; ptr : option addr }.       (* owned_optional_object_, optional_object_: 112-113, 441-442 *)
Record state := State {
  heap : gmap nat Z;               (* what make_unique has made *)
  next : nat;
  ext : gmap nat Z;                (* the program's objects *)
  vars : gmap nat opt }.           (* the Optionals and ImmutableOptionals *)
Definition init : state := State ∅ 0 ∅ ∅.

Inductive answer := Unit | Throws | Is (b : bool) | Val (v : Z).
Inductive result (A : Type) := Ok (a : A) | UB.
Arguments Ok {A} a.
Arguments UB {A}.
Definition M (A : Type) : Type := state → result (A * state).
Global Instance M_ret : MRet M := λ A a s, Ok (a, s).
Global Instance M_bind : MBind M := λ A B f m s, match m s with Ok (a, s') => f a s' | UB => UB end.

(** What the standard library does. *)
Definition alloc (v : Z) : M nat := λ s, Ok (next s, State (<[next s := v]> (heap s)) (S (next s)) (ext s) (vars s)).
Definition free (a : nat) : M () := λ s, match heap s !! a with Some _ => Ok (tt, State (delete a (heap s)) (next s) (ext s) (vars s)) | None => UB end.
Definition load (p : addr) : M Z := λ s, match p with
  | Heap a => match heap s !! a with Some v => Ok (v, s) | None => UB end
  | Ext e => match ext s !! e with Some v => Ok (v, s) | None => UB end end.
Definition store (p : addr) (v : Z) : M () := λ s, match p with
  | Heap a => match heap s !! a with Some _ => Ok (tt, State (<[a := v]> (heap s)) (next s) (ext s) (vars s)) | None => UB end
  | Ext e => match ext s !! e with Some _ => Ok (tt, State (heap s) (next s) (<[e := v]> (ext s)) (vars s)) | None => UB end end.
Definition var (x : nat) : M opt := λ s, match vars s !! x with Some o => Ok (o, s) | None => UB end.
Definition set_var (x : nat) (o : opt) : M () := λ s, Ok (tt, State (heap s) (next s) (ext s) (<[x := o]> (vars s))).
Definition drop_var (x : nat) : M () := λ s, Ok (tt, State (heap s) (next s) (ext s) (delete x (vars s))).
(** unique_ptr::reset: the new pointer is stored, then the old object is deleted. *)
Definition up_reset (x : nat) (p : option nat) : M () :=
  o ← var x; set_var x (Opt p (ptr o));; match owned o with Some a => free a | None => mret tt end.
(** unique_ptr::release *)
Definition up_release (x : nat) : M (option nat) :=
  o ← var x; set_var x (Opt None (ptr o));; mret (owned o).
(** [optional_object_ = p] *)
Definition point (x : nat) (p : option addr) : M () := o ← var x; set_var x (Opt (owned o) p).
(** [optional_object_ = owned_optional_object_.get()] *)
Definition point_own (x : nat) : M () := o ← var x; point x (Heap <$> owned o).

(** 101 and 422: ExistsImpl *)
Definition exists_ (x : nat) : M bool := o ← var x; mret (match ptr o with Some _ => true | None => false end).
(** 103-109 and 424-438: ValueImpl, up to the dereferencing; [None]: NoValueOfTypeException *)
Definition value (x : nat) : M (option addr) := o ← var x; mret (ptr o).

(** The constructors of both, 87-99 and 309-324 *)
Definition construct_null (x : nat) : M () := set_var x (Opt None None).
Definition construct_bare (x e : nat) : M () := set_var x (Opt None (Some (Ext e))).
Definition construct_value (x : nat) (v : Z) : M () := a ← alloc v; set_var x (Opt (Some a) (Some (Heap a))).
(** 325-332, 344-351: from a const Optional& or a const ImmutableOptional& *)
Definition construct_copy (x y : nat) : M () :=
  set_var x (Opt None None);;
  b ← exists_ y;
  (if b : bool then p ← value y; match p with Some p => v ← load p; a ← alloc v; up_reset x (Some a) | None => mret tt end
   else up_reset x None);;
  point_own x.
(** 353-357: = nullptr *)
Definition assign_null (x : nat) : M () := up_reset x None;; point x None.
(** 334-342 *)
Definition construct_move (x y : nat) : M () :=
  set_var x (Opt None None);;
  b ← exists_ y;
  (if b : bool then r ← up_release y; up_reset x r;; assign_null y else up_reset x None);;
  point_own x.
(** 359-377: = const T&, = T&& *)
Definition assign_value (x : nat) (v : Z) : M () :=
  o ← var x;
  match owned o with
  | None => a ← alloc v; up_reset x (Some a)
  | Some a => store (Heap a) v
  end;;
  point_own x.
(** 379-383: = T* *)
Definition assign_bare (x e : nat) : M () := up_reset x None;; point x (Some (Ext e)).
(** 385-389: = unique_ptr&&, to an object the caller has made *)
Definition assign_unique (x : nat) (v : Z) : M () := a ← alloc v; up_reset x (Some a);; point_own x.
(** 391-399, 412-420: = const Optional&, = const ImmutableOptional& *)
Definition assign_copy (x y : nat) : M () :=
  b ← exists_ y;
  (if b : bool then p ← value y; match p with Some p => v ← load p; a ← alloc v; up_reset x (Some a) | None => mret tt end
   else up_reset x None);;
  point_own x.
(** 401-410: = Optional&& *)
Definition assign_move (x y : nat) : M () :=
  b ← exists_ y;
  (if b : bool then r ← up_release y; up_reset x r;; assign_null y else up_reset x None);;
  point_own x.
(** ImmutableOptional has the move constructor that the compiler makes: the unique_ptr is moved, the pointer is copied. *)
Definition immutable_move (x y : nat) : M () :=
  r ← up_release y; o ← var y; set_var x (Opt r (ptr o)).
(** The destructors *)
Definition destroy (x : nat) : M () := o ← var x; drop_var x;; match owned o with Some a => free a | None => mret tt end.

Inductive op :=
| Null (x : nat)                       (* Optional<T> x; or x(nullptr) *)
| Make (x : nat) (v : Z)               (* Optional<T> x(v), or from a unique_ptr *)
| Bare (x e : nat)                     (* Optional<T> x(FromBarePointer(), &e) *)
| Copy (x y : nat)                     (* Optional<T> x(y) *)
| Move (x y : nat)                     (* Optional<T> x(std::move(y)) *)
| MoveImmutable (x y : nat)            (* ImmutableOptional<T> x(std::move(y)) *)
| SetNull (x : nat)                    (* x = nullptr *)
| SetValue (x : nat) (v : Z)           (* x = v *)
| SetFrom (x y : nat)                  (* x = Value(y) *)
| SetUnique (x : nat) (v : Z)          (* x = std::make_unique<T>(v) *)
| SetBare (x e : nat)                  (* x = &e *)
| SetCopy (x y : nat)                  (* x = y *)
| SetMove (x y : nat)                  (* x = std::move(y) *)
| Write (x : nat) (v : Z)              (* Value(x) = v *)
| Exists_ (x : nat)                    (* Exists(x) *)
| Value_ (x : nat)                     (* Value(x) *)
| Destroy (x : nat)                    (* x goes out of scope *)
| Object (e : nat) (v : Z)             (* an object of the program's is made, or written to *)
| NoObject (e : nat).                  (* and destroyed *)

Definition exec (o : op) : M answer :=
  match o with
  | Null x => construct_null x;; mret Unit
  | Make x v => construct_value x v;; mret Unit
  | Bare x e => construct_bare x e;; mret Unit
  | Copy x y => construct_copy x y;; mret Unit
  | Move x y => construct_move x y;; mret Unit
  | MoveImmutable x y => immutable_move x y;; mret Unit
  | SetNull x => assign_null x;; mret Unit
  | SetValue x v => assign_value x v;; mret Unit
  | SetFrom x y => p ← value y; match p with Some p => v ← load p; assign_value x v;; mret Unit | None => mret Throws end
  | SetUnique x v => assign_unique x v;; mret Unit
  | SetBare x e => assign_bare x e;; mret Unit
  | SetCopy x y => assign_copy x y;; mret Unit
  | SetMove x y => assign_move x y;; mret Unit
  | Write x v => p ← value x; match p with Some p => store p v;; mret Unit | None => mret Throws end
  | Exists_ x => b ← exists_ x; mret (Is b)
  | Value_ x => p ← value x; match p with Some p => v ← load p; mret (Val v) | None => mret Throws end
  | Destroy x => destroy x;; mret Unit
  | Object e v => λ s, Ok (Unit, State (heap s) (next s) (<[e := v]> (ext s)) (vars s))
  | NoObject e => λ s, Ok (Unit, State (heap s) (next s) (delete e (ext s)) (vars s))
  end.
Fixpoint exec_all (os : list op) : M (list answer) :=
  match os with [] => mret [] | o :: os => a ← exec o; l ← exec_all os; mret (a :: l) end.

(** ** POD types *)
Record pod := Pod { pod_value : option Z; pod_exists : bool }.      (* value_ and exists_, 78-79, 300-301; [None]: never written *)
Definition pod_null : pod := Pod (Some 0%Z) false.                 (* 63, 217-219: value_() is zero *)
Definition pod_make (v : Z) : pod := Pod (Some v) true.            (* 65, 221; 246-258: = T *)
(** Reading a value that has never been written is undefined behaviour. *)
Definition pod_read (p : pod) : result Z := match pod_value p with Some v => Ok v | None => UB end.
(** 223-226, 260-264: copies *)
Definition pod_copy (y : pod) : result pod := match pod_read y with Ok v => Ok (Pod (Some v) (pod_exists y)) | UB => UB end.
(** 228-232, 266-271: moves; the second component is what becomes of the other *)
Definition pod_move (y : pod) : result (pod * pod) :=
  match pod_read y with Ok v => Ok (Pod (Some v) (pod_exists y), Pod (pod_value y) false) | UB => UB end.
(** 234-239, 273-279: from an ImmutableOptional; [old]: value_ before, [None] for the constructor *)
Definition pod_from_immutable (old : option Z) (y : pod) : result pod :=
  if pod_exists y then match pod_read y with Ok v => Ok (Pod (Some v) true) | UB => UB end else Ok (Pod old false).
(** 241-244: = nullptr *)
Definition pod_clear (x : pod) : pod := Pod (pod_value x) false.
(** 69-75, 283-298: ValueImpl *)
Definition pod_get (x : pod) : result answer := if pod_exists x then match pod_read x with Ok v => Ok (Val v) | UB => UB end else Ok Throws.

Notation pods := (gmap nat pod).
Inductive pod_op :=
| PNull (x : nat)                      (* Optional<int> x; *)
| PMake (x : nat) (v : Z)              (* Optional<int> x(v), or an ImmutableOptional *)
| PCopy (x y : nat)                    (* Optional<int> x(y) *)
| PMove (x y : nat)                    (* Optional<int> x(std::move(y)) *)
| PFrom (x y : nat)                    (* Optional<int> x(y), y an ImmutableOptional *)
| PSetNull (x : nat)                   (* x = nullptr *)
| PSetValue (x : nat) (v : Z)          (* x = v *)
| PSetCopy (x y : nat)                 (* x = y *)
| PSetMove (x y : nat)                 (* x = std::move(y) *)
| PSetFrom (x y : nat)                 (* x = y, y an ImmutableOptional *)
| PWrite (x : nat) (v : Z)             (* Value(x) = v *)
| PExists (x : nat)
| PValue (x : nat).
Definition pod_exec (o : pod_op) (m : pods) : result (answer * pods) :=
  let with_ x f := match m !! x with Some p => f p | None => UB end in
  let put x r := match r with Ok p => Ok (Unit, <[x := p]> m) | UB => UB end in
  match o with
  | PNull x => put x (Ok pod_null)
  | PMake x v | PSetValue x v => put x (Ok (pod_make v))
  | PCopy x y | PSetCopy x y => with_ y (λ q, put x (pod_copy q))
  | PMove x y => with_ y (λ q, match pod_move q with Ok (p, q') => Ok (Unit, <[y := q']> (<[x := p]> m)) | UB => UB end)
  | PSetMove x y => with_ y (λ q, match pod_move q with Ok (p, q') => Ok (Unit, <[y := q']> (<[x := p]> m)) | UB => UB end)
  | PFrom x y => with_ y (λ q, put x (pod_from_immutable None q))
  | PSetFrom x y => with_ x (λ p, with_ y (λ q, put x (pod_from_immutable (pod_value p) q)))
  | PSetNull x => with_ x (λ p, put x (Ok (pod_clear p)))
  | PWrite x v => with_ x (λ p, if pod_exists p then put x (Ok (Pod (Some v) true)) else Ok (Throws, m))
  | PExists x => with_ x (λ p, Ok (Is (pod_exists p), m))
  | PValue x => with_ x (λ p, match pod_get p with Ok a => Ok (a, m) | UB => UB end)
  end.
Fixpoint pod_exec_all (os : list pod_op) (m : pods) : result (list answer * pods) :=
  match os with
  | [] => Ok ([], m)
  | o :: os => match pod_exec o m with
      | Ok (a, m1) => match pod_exec_all os m1 with Ok (l, m2) => Ok (a :: l, m2) | UB => UB end | UB => UB end
  end.

(** ** Comparisons, 116-206 and 445-535: [T]'s operators are parameters. *)
Section Compare.
Context {T : Type} (eq ne lt gt le ge : T → T → bool).
(** 118-145, 447-474 *)
Definition oo_eq (x y : option T) : bool := match x, y with Some v, Some w => eq v w | None, None => true | _, _ => false end.
Definition oo_ne x y : bool := negb (oo_eq x y).
Definition oo_lt (x y : option T) : bool := match y with None => false | Some w => match x with None => true | Some v => lt v w end end.
Definition oo_gt x y : bool := oo_lt y x.
Definition oo_le x y : bool := negb (oo_lt y x).
Definition oo_ge x y : bool := negb (oo_lt x y).
(** 149-206, 478-535 *)
Definition ov_eq (x : option T) (v : T) : bool := match x with Some w => eq w v | None => false end.
Definition vo_eq (v : T) (x : option T) : bool := match x with Some w => eq v w | None => false end.
Definition ov_ne (x : option T) (v : T) : bool := match x with Some w => ne w v | None => true end.
Definition vo_ne (v : T) (x : option T) : bool := match x with Some w => ne v w | None => true end.
Definition ov_lt (x : option T) (v : T) : bool := match x with Some w => lt w v | None => true end.
Definition vo_lt (v : T) (x : option T) : bool := match x with Some w => lt v w | None => false end.
Definition ov_gt (x : option T) (v : T) : bool := match x with Some w => gt w v | None => false end.
Definition vo_gt (v : T) (x : option T) : bool := match x with Some w => gt v w | None => true end.
Definition ov_le (x : option T) (v : T) : bool := match x with Some w => le w v | None => true end.
Definition vo_le (v : T) (x : option T) : bool := match x with Some w => le v w | None => false end.
Definition ov_ge (x : option T) (v : T) : bool := match x with Some w => ge w v | None => false end.
Definition vo_ge (v : T) (x : option T) : bool := match x with Some w => ge v w | None => true end.
End Compare.
