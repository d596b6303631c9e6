(** * What AccumulativeScopedDeleter has to do *)
From stdpp Require Import gmap list.
From Verif Require Import Deleter_Model.

Definition reach (s : state) : Prop := ∃ os, run os init = Some s.

(** The callbacks object [x] would call if it were destroyed now, first to last as they were added. *)
Definition holds_in_order (s : state) (x : nat) (l : list nat) : Prop := ∃ b, objects s !! x = Some (b, l).
Definition deleting (s : state) (x : nat) : Prop := ∃ l, objects s !! x = Some (true, l).

(** All the objects of a program are of the default kind, SHOULD_DELETE = true. *)
Definition default_kind (o : op) : Prop :=
  match o with Default _ b | Make _ b | MoveCtor _ b _ => b = true | _ => True end.

(** Sums of temporaries, [ (a + b) + (c + ...) ], each a new object made of a callback.  The names of the temporaries are given. *)
Inductive expr := Leaf (x : nat) | Sum (z : nat) (l r : expr).
Definition name (e : expr) : nat := match e with Leaf x => x | Sum z _ _ => z end.
Fixpoint names (e : expr) : list nat := match e with Leaf x => [x] | Sum z l r => z :: names l ++ names r end.
(** The leaves, from left to right as the expression is written. *)
Fixpoint leaves (e : expr) : list nat := match e with Leaf x => [x] | Sum _ l r => leaves l ++ leaves r end.
(** The operations of evaluating the sum, once the leaves are there.  C++ may evaluate operands in any order; which callback is made first is
    thus not known, and the leaves may be made in any order below. *)
Fixpoint sums (e : expr) : list op :=
  match e with Leaf _ => [] | Sum z l r => sums l ++ sums r ++ [Plus z (name l) (name r)] end.
