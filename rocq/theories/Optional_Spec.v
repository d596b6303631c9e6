(** * What Optional and ImmutableOptional have to be *)
From stdpp Require Import gmap.
From Verif Require Import Optional_Model.

(** An optional has nothing, or a value of its own, or refers to an object of the program's; [Moved]: nobody may rely on what it has. *)
Inductive contents := Nothing | Own (v : Z) | Refers (e : nat) | Moved.
Record world := World { objects : gmap nat Z; optionals : gmap nat contents }.
Definition empty_world : world := World ∅ ∅.

(** What is seen through an optional; outer [None]: one may not look. *)
Definition look (w : world) (c : contents) : option (option Z) :=
  match c with Nothing => Some None | Own v => Some (Some v) | Refers e => Some <$> objects w !! e | Moved => None end.
Definition keep (w : world) (x : nat) (c : contents) : world := World (objects w) (<[x := c]> (optionals w)).
Definition own (v : option Z) : contents := match v with Some v => Own v | None => Nothing end.

(** What an operation does, and returns; [None]: the program may not do it now (use what does not exist, or has been moved from or destroyed;
    construct what exists).  Copies are copies of the value; what has been moved from has nothing. *)
Definition does (o : op) (w : world) : option (answer * world) :=
  let get x := optionals w !! x in
  let new x c := match get x with None => Some (Unit, keep w x c) | Some _ => None end in
  let set x c := match get x with Some _ => Some (Unit, keep w x c) | None => None end in
  match o with
  | Null x => new x Nothing
  | Make x v => new x (Own v)
  | Bare x e => new x (Refers e)
  | Copy x y => c ← get y; v ← look w c; new x (own v)
  | Move x y => c ← get y; v ← look w c; '(a, w') ← new x (own v); Some (a, keep w' y Nothing)
  | MoveImmutable x y => c ← get y; match c with Moved => None | _ => '(a, w') ← new x c; Some (a, keep w' y Moved) end
  | SetNull x => set x Nothing
  | SetValue x v => set x (Own v)
  | SetFrom x y => c ← get y; v ← look w c; match v with Some v => set x (Own v) | None => _ ← get x; Some (Throws, w) end
  | SetUnique x v => set x (Own v)
  | SetBare x e => set x (Refers e)
  | SetCopy x y => c ← get y; v ← look w c; set x (own v)
  | SetMove x y => c ← get y; v ← look w c; '(a, w') ← set x (own v); Some (a, keep w' y Nothing)
  | Write x v => c ← get x; match c with
      | Nothing => Some (Throws, w) | Own _ => Some (Unit, keep w x (Own v))
      | Refers e => match objects w !! e with Some _ => Some (Unit, World (<[e := v]> (objects w)) (optionals w)) | None => None end
      | Moved => None end
  | Exists_ x => c ← get x; match c with Nothing => Some (Is false, w) | Moved => None | _ => Some (Is true, w) end
  | Value_ x => c ← get x; v ← look w c; Some (match v with Some v => Val v | None => Throws end, w)
  | Destroy x => match get x with Some _ => Some (Unit, World (objects w) (delete x (optionals w))) | None => None end
  | Object e v => Some (Unit, World (<[e := v]> (objects w)) (optionals w))
  | NoObject e => Some (Unit, World (delete e (objects w)) (optionals w))
  end.
Fixpoint does_all (os : list op) (w : world) : option (list answer * world) :=
  match os with [] => Some ([], w) | o :: os => '(a, w1) ← does o w; '(l, w2) ← does_all os w1; Some (a :: l, w2) end.

(** Nothing is moved by [=] or a constructor of Optional from an optional that refers to an object of the program's. *)
Fixpoint moves_own (os : list op) (w : world) : Prop :=
  match os with
  | [] => True
  | o :: os =>
      match o with Move _ y | SetMove _ y => ∀ e, optionals w !! y ≠ Some (Refers e) | _ => True end ∧
      match does o w with Some (_, w') => moves_own os w' | None => True end
  end.

(** Those of POD types. *)
Definition pod_does (o : pod_op) (w : gmap nat (option Z)) : option (answer * gmap nat (option Z)) :=
  let new x v := match w !! x with None => Some (Unit, <[x := v]> w) | Some _ => None end in
  let set x v := match w !! x with Some _ => Some (Unit, <[x := v]> w) | None => None end in
  match o with
  | PNull x => new x None
  | PMake x v => new x (Some v)
  | PCopy x y | PFrom x y => c ← w !! y; new x c
  | PMove x y => c ← w !! y; '(a, w') ← new x c; Some (a, <[y := None]> w')
  | PSetNull x => set x None
  | PSetValue x v => set x (Some v)
  | PSetCopy x y | PSetFrom x y => c ← w !! y; set x c
  | PSetMove x y => c ← w !! y; '(a, w') ← set x c; Some (a, <[y := None]> w')
  | PWrite x v => c ← w !! x; match c with Some _ => set x (Some v) | None => Some (Throws, w) end
  | PExists x => c ← w !! x; Some (Is (match c with Some _ => true | None => false end), w)
  | PValue x => c ← w !! x; Some (match c with Some v => Val v | None => Throws end, w)
  end.
Fixpoint pod_does_all (os : list pod_op) (w : gmap nat (option Z)) : option (list answer * gmap nat (option Z)) :=
  match os with [] => Some ([], w) | o :: os => '(a, w1) ← pod_does o w; '(l, w2) ← pod_does_all os w1; Some (a :: l, w2) end.
(** No Optional is made from an ImmutableOptional that has nothing. *)
Fixpoint never_from_nothing (os : list pod_op) (w : gmap nat (option Z)) : Prop :=
  match os with
  | [] => True
  | o :: os => match o with PFrom _ y => w !! y ≠ Some None | _ => True end ∧ match pod_does o w with Some (_, w') => never_from_nothing os w' | None => True end
  end.

(** The order of optionals: nothing comes first. *)
Inductive opt_lt {T} (lt : T → T → Prop) : option T → option T → Prop :=
| nothing_lt v : opt_lt lt None (Some v)
| value_lt v w : lt v w → opt_lt lt (Some v) (Some w).
