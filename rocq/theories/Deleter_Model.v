(** * Model of [bricks/util/accumulative_scoped_deleter.h] *)
From stdpp Require Import gmap list.

(** The variables (and temporaries) of the class, the callbacks that have been captured, and those that have been called.  A callback is a
    number; those of one run are 0, 1, 2, ... in the order in which they are passed to a constructor.  Not modelled: callbacks that throw, that
    are null, or that touch the object that is calling them (25-105 has no provision for any of these). *)
Record state := State {
  objects : gmap nat (bool * list nat);     (* SHOULD_DELETE, and captured_ (100) *)
  made : nat;                               (* how many callbacks there have been *)
  called : list nat }.                      (* in the order of the calls *)
Definition init : state := State ∅ 0 [].

Inductive op :=
| Default (x : nat) (b : bool)              (* 43: x is constructed empty *)
| Make (x : nat) (b : bool)                 (* 44: x is constructed from a new callback *)
| MoveCtor (x : nat) (b : bool) (y : nat)   (* 46-49: x is constructed from std::move(y) *)
| MoveAssign (x y : nat)                    (* 50-55: x = std::move(y) *)
| Reset (x : nat)                           (* 64: x = nullptr *)
| Append (x y : nat)                        (* 67-74: x += std::move(y) *)
| Plus (z x y : nat)                        (* 78-85: z is the value of x + std::move(y) *)
| Destroy (x : nat).                        (* 61 *)

(** 88-96, ReleaseCaptured: from the last one to the first one. *)
Definition release (b : bool) (l : list nat) (called : list nat) : list nat := if b then called ++ rev l else called.

(** [None]: there is no such object, or there is one already, or the behaviour is undefined. *)
Definition step (o : op) (s : state) : option state :=
  let m := objects s in
  match o with
  | Default x b => if m !! x then None else Some (State (<[x := (b, [])]> m) (made s) (called s))
  | Make x b => if m !! x then None else Some (State (<[x := (b, [made s])]> m) (S (made s)) (called s))
  | MoveCtor x b y =>
      '(c, l) ← m !! y; if m !! x then None else Some (State (<[x := (b, l)]> (<[y := (c, [])]> m)) (made s) (called s))
  | MoveAssign x y =>                       (* 52: release; 53: swap, with what is empty by now.  If x is y, both are empty *)
      '(b, l) ← m !! x; 
      let m' := <[x := (b, [])]> m in
      '(c, k) ← m' !! y; Some (State (<[x := (b, k)]> (<[y := (c, [])]> m')) (made s) (release b l (called s)))
  | Reset x => '(b, l) ← m !! x; Some (State (<[x := (b, [])]> m) (made s) (release b l (called s)))
  | Append x y =>
      '(b, l) ← m !! x; '(c, k) ← m !! y;
      if decide (x = y) then                (* 69-71: the loop appends to the vector that it iterates over, unless there is nothing *)
        match l with [] => Some s | _ => None end
      else Some (State (<[y := (c, [])]> (<[x := (b, l ++ k)]> m)) (made s) (called s))
  | Plus z x y =>                           (* 81-83; y may be x, which is empty when it is appended for the second time *)
      '(b, l) ← m !! x;
      let m' := <[x := (b, [])]> m in
      '(c, k) ← m' !! y;
      if m !! z then None else Some (State (<[z := (b || c, l ++ k)]> (<[y := (c, [])]> m')) (made s) (called s))
  | Destroy x => '(b, l) ← m !! x; Some (State (delete x m) (made s) (release b l (called s)))
  end.
Definition run (os : list op) (s : state) : option state := foldl (λ s o, s ≫= step o) (Some s) os.
