(** * What chunks are: strings, and a set of strings *)
From stdpp Require Import gmap list.
From Verif Require Import Chunk_Model.

(** The order of strings, by their bytes *)
Inductive before : list nat → list nat → Prop :=
| before_end x l : before [] (x :: l)
| before_here x y l l' : x < y → before (x :: l) (y :: l')
| before_later x l l' : before l l' → before (x :: l) (x :: l').

(** The string each object stands for, those given to the database, the objects that come from there, and those it has been given. *)
Record strings := Strings { text : gmap nat (list nat); stored : list (list nat); unique : list nat; given : list nat }.
Definition none : strings := Strings ∅ [] [] [].
Definition the (s : strings) (v : nat) : list nat := default [] (text s !! v).
Definition write (v : nat) (t : list nat) (s : strings) : strings := Strings (<[v := t]> (text s)) (stored s) (filter (λ u, u ≠ v) (unique s)) (given s).
Definition write_unique (v : nat) (t : list nat) (s : strings) : strings := Strings (<[v := t]> (text s)) (stored s) (v :: unique s) (given s).
(** The bytes at [s] *)
Definition read (m : memory) (s n : nat) : list nat := m <$> seq s n.
Fixpoint without (p l : list nat) : option (list nat) :=
  match p, l with [], l => Some l | x :: p, y :: l => if decide (x = y) then without p l else None | _ :: _, [] => None end.
Definition does (m : memory) (o : op) (s : strings) : strings * bool :=
  match o with
  | Assign v a n => (write v (read m a n) s, true)
  | Copy v w => (if decide (w ∈ unique s) then write_unique v (the s w) s else write v (the s w) s, true)
  | Expunge v p r => match without (the s p) (the s v) with Some t => (write r t s, true) | None => (s, false) end
  | Intern v u => (write_unique u (the s v) (Strings (text s) (the s v :: stored s) (unique s) (v :: given s)), true)
  | Find v u => if decide (the s v ∈ stored s) then (write_unique u (the s v) s, true) else (s, false)
  end.
Fixpoint does_all (m : memory) (p : list op) (s : strings) : strings * list bool :=
  match p with [] => (s, []) | o :: p => let '(s, b) := does m o s in let '(s, bs) := does_all m p s in (s, b :: bs) end.
(** An object that has been given to the database is not changed any more; to replace it by what the database has for it is all right. *)
Definition careful_op (o : op) (s : strings) : Prop :=
  match o with Assign v _ _ | Copy v _ | Expunge _ _ v => v ∉ given s | Intern v u | Find v u => u ∉ given s ∨ u = v end.
Fixpoint careful (m : memory) (p : list op) (s : strings) : Prop :=
  match p with [] => True | o :: p => careful_op o s ∧ careful m p (does m o s).1 end.
