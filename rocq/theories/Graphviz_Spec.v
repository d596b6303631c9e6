(** * What a graph in DOT says *)
From stdpp Require Import gmap list.
From Verif Require Import Graphviz_Model.

(** What is between quotes: up to the first quote that is not after a backslash, and what comes after it. *)
Fixpoint quoted (l : list nat) : option (list nat * list nat) :=
  match l with
  | [] => None
  | 34 :: l => Some ([], l)
  | 92 :: c :: l => match quoted l with Some (s, r) => Some (c :: s, r) | None => None end
  | c :: l => match quoted l with Some (s, r) => Some (c :: s, r) | None => None end
  end.
(** The nodes are numbered from 1, with their labels, and the edges are between the numbers of their nodes. *)
Definition says (nodes : list nat) (edges : list (nat * nat)) (h : heap) (t : list text_line) : Prop :=
  ∃ ns es, t = ns ++ es ∧ length ns = length nodes ∧ length es = length edges ∧
    (∀ i v, nodes !! i = Some v → ∃ l, ns !! i = Some (NodeLine (S i) l) ∧ ∀ r, quoted (l ++ 34 :: r) = Some (from_option label [] (h !! v), r)) ∧
    (∀ k u v, edges !! k = Some (u, v) → ∃ i j, es !! k = Some (EdgeLine (S i) (S j)) ∧ nodes !! i = Some u ∧ nodes !! j = Some v).
