(** * Model of [bricks/dot/graphviz.h]

    A node is the address of its Impl; what is in it is its label and its order_key, of which the latter stays there after AsDOT. The lines of the text are what is
    modelled: parameters, groups, the title and the words around are left out. *)
From stdpp Require Import gmap list.

(** 46-55: Escape; 34 is the quote and 92 the backslash. *)
Definition escape (s : list nat) : list nat := s ≫= λ c, if decide (c = 34 ∨ c = 92) then [92; c] else [c].
(** 57-65: Node::Impl; [order_key] of a node that has not been in a graph is whatever was in its memory. *)
Record impl := Impl { order_key : nat; label : list nat }.
Notation heap := (gmap nat impl).
Definition key (h : heap) (v : nat) : nat := from_option order_key 0 (h !! v).
Definition set_key (v k : nat) (h : heap) : heap := alter (λ x, Impl k (label x)) v h.
Inductive text_line := NodeLine (index : nat) (label : list nat) | EdgeLine (from into : nat).
(** 188-192: order_key = ++order_key, and the node put into node_index, which is ordered by order_key; it is given as the keys that are in it. *)
Fixpoint keys (n : nat) (nodes : list nat) (h : heap) : heap :=
  match nodes with [] => h | v :: l => keys (S n) l (set_key v (S n) h) end.
(** 193-196: the index of each entry: its place in the order of the keys *)
Definition node_index (h : heap) (nodes : list nat) : gmap nat nat :=
  let m : gset nat := list_to_set (key h <$> nodes) in
  set_to_map (λ k, (k, S (size (filter (λ k', k' < k) m)))) m.
(** node_index[...]: 0 for what is not there. What this adds to the map has no influence on what is found later, as it is zero as well. *)
Definition at_ (h : heap) (m : gmap nat nat) (v : nat) : nat := default 0 (m !! key h v).
(** 185-241: AsDOT; each node is in [nodes] once (or else the keys are changed while they are in the map). *)
Definition as_dot (nodes : list nat) (edges : list (nat * nat)) (h : heap) : list text_line * heap :=
  let h := keys 0 nodes h in
  let m := node_index h nodes in
  (((λ v, NodeLine (at_ h m v) (escape (from_option label [] (h !! v)))) <$> nodes) ++ ((λ e, EdgeLine (at_ h m e.1) (at_ h m e.2)) <$> edges), h).
