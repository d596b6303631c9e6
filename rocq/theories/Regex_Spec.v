(** * The groups of a regular expression *)
From stdpp Require Import list.
From Verif Require Import Regex_Model.

(** What a regular expression is made of, as far as groups go: characters (operators among them), characters after a backslash, groups with a name (an empty one is
    none), [(?:...)] and [(?=...)] *)
Inductive item := Lit (c : nat) | Esc (c : nat) | Group (name : list nat) (l : list item) | Plain (l : list item) | Ahead (l : list item).
Fixpoint text1 (i : item) : list nat :=
  let fix text l := match l with [] => [] | i :: l => text1 i ++ text l end in
  match i with
  | Lit c => [c]
  | Esc c => [92; c]
  | Group [] l => 40 :: text l ++ [41]
  | Group n l => 40 :: 63 :: 60 :: n ++ 62 :: text l ++ [41]
  | Plain l => 40 :: 63 :: 58 :: text l ++ [41]
  | Ahead l => 40 :: 63 :: 61 :: text l ++ [41]
  end.
Fixpoint text (l : list item) : list nat := match l with [] => [] | i :: l => text1 i ++ text l end.
(** The groups that capture, by where they open: their names *)
Fixpoint captures1 (i : item) : list (list nat) :=
  let fix captures l := match l with [] => [] | i :: l => captures1 i ++ captures l end in
  match i with Lit _ | Esc _ => [] | Group n l => n :: captures l | Plain l | Ahead l => captures l end.
Fixpoint captures (l : list item) : list (list nat) := match l with [] => [] | i :: l => captures1 i ++ captures l end.
(** The same without names *)
Fixpoint unnamed1 (i : item) : item :=
  let fix unnamed l := match l with [] => [] | i :: l => unnamed1 i :: unnamed l end in
  match i with Group _ l => Group [] (unnamed l) | Plain l => Plain (unnamed l) | Ahead l => Ahead (unnamed l) | i => i end.
Fixpoint unnamed (l : list item) : list item := match l with [] => [] | i :: l => unnamed1 i :: unnamed l end.
(** Before [k]: no backslash after a backslash, no question mark after a parenthesis other than as above, and names are words. *)
Fixpoint ok1 (i : item) (k : list nat) : Prop :=
  let fix ok l k := match l with [] => True | i :: l => ok1 i (text l ++ k) ∧ ok l k end in
  match i with
  | Lit c => c ≠ 40 ∧ c ≠ 92
  | Esc c => c ≠ 92 ∧ (c = 40 → head k ≠ Some 63)
  | Group n l => Forall is_word n ∧ (n = [] → head (text l ++ [41]) ≠ Some 63) ∧ ok l (41 :: k)
  | Plain l | Ahead l => ok l (41 :: k)
  end.
Fixpoint ok (l : list item) (k : list nat) : Prop := match l with [] => True | i :: l => ok1 i (text l ++ k) ∧ ok l k end.
