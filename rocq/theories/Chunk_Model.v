(** * Model of [bricks/strings/chunk.h]

    The memory strings are in does not change while there are chunks of it (the comment in 45-47 asks for that); where it is, is left out: every address can be
    read. HashFunction (145-156) is a function of the bytes, so that chunks the comparator (162-164) finds equal are in the same bucket; how the map is laid out
    is left out, and so is that 154 casts what can be a negative double to size_t. CURRENT_ASSERTs print and go on (port.h 284-291). *)
From stdpp Require Import gmap list.
Local Open Scope Z_scope.

(** The value of each byte, as an unsigned char *)
Notation memory := (nat → nat).
(** 173-174: S, N *)
Record chunk := Chunk { S_ : nat; N_ : nat }.
Global Instance chunk_eq_dec : EqDecision chunk. Proof. solve_decision. Defined.
(** 74: Chunk(); [""] is at 0. *)
Definition empty_chunk : chunk := Chunk 0 0.
(** memcmp: of the first bytes that differ, as unsigned chars *)
Fixpoint memcmp (m : memory) (a b n : nat) : Z :=
  match n with O => 0 | S n => if decide (m a = m b) then memcmp m (S a) (S b) n else Z.of_nat (m a) - Z.of_nat (m b) end.
(** 113: operator std::string *)
Definition string_of (m : memory) (c : chunk) : list nat := (λ i, m (S_ c + i)%nat) <$> seq 0 (N_ c).
(** 106-111: operator[] *)
Definition at_ (m : memory) (c : chunk) (i : nat) : nat := m (S_ c + i)%nat.
(** 116: HasPrefix *)
Definition has_prefix (m : memory) (c p : chunk) : bool := bool_decide (N_ p <= N_ c)%nat && bool_decide (memcmp m (S_ c) (S_ p) (N_ p) = 0).
(** 120-127: ExpungePrefix; what is assigned to [result] if it returns true *)
Definition expunge_prefix (m : memory) (c p : chunk) : option chunk :=
  if has_prefix m c p then Some (Chunk (S_ c + N_ p) (N_ c - N_ p)) else None.
(** 129-143: LexicographicalCompare *)
Definition compare (m : memory) (l r : chunk) : Z :=
  let d := memcmp m (S_ l) (S_ r) (min (N_ l) (N_ r)) in
  if decide (d ≠ 0) then d else if decide (N_ l < N_ r)%nat then -1 else if decide (N_ r < N_ l)%nat then 1 else 0.
(** 169: operator== with an std::string, which is at [s], of length [n] *)
Definition is_string (m : memory) (c : chunk) (s n : nat) : bool := bool_decide (N_ c = n) && bool_decide (memcmp m (S_ c) s (N_ c) = 0).

(** 182-207: UniqueChunk, compared by where it points to *)
Definition unique_eq (a b : chunk) : bool := bool_decide (S_ a = S_ b).
Definition unique_lt (a b : chunk) : bool := bool_decide (S_ a < S_ b)%nat.

(** The Chunk and UniqueChunk objects of the program, by number; the map of ChunkDB, 240: each key and the object that is pointed to. *)
Record state := State { vars : gmap nat chunk; map_ : list (chunk * nat) }.
Definition init : state := State ∅ [].
Definition var (s : state) (v : nat) : chunk := default empty_chunk (vars s !! v).
(** map.find, with EqualityComparator (162-164) *)
Fixpoint lookup_ (m : memory) (c : chunk) (l : list (chunk * nat)) : option nat :=
  match l with [] => None | (k, v) :: l => if decide (compare m k c = 0) then Some v else lookup_ m c l end.

Inductive op :=
| Assign (v s n : nat)          (* a Chunk of the [n] bytes at [s], by any of 75-84, 95-104 *)
| Copy (v w : nat)              (* [v = w] *)
| Expunge (v p r : nat)         (* [v.ExpungePrefix(p, r)] *)
| Intern (v u : nat)            (* [u = db[v]], 217-226 *)
| Find (v u : nat).             (* [db.Find(v, u)], 229-237 *)
(** The new state, and what ExpungePrefix or Find returns; true for the others. *)
Definition step (m : memory) (o : op) (s : state) : state * bool :=
  match o with
  | Assign v a n => (State (<[v := Chunk a n]> (vars s)) (map_ s), true)
  | Copy v w => (State (<[v := var s w]> (vars s)) (map_ s), true)
  | Expunge v p r => match expunge_prefix m (var s v) (var s p) with Some c => (State (<[r := c]> (vars s)) (map_ s), true) | None => (s, false) end
  | Intern v u => match lookup_ m (var s v) (map_ s) with
      | Some w => (State (<[u := var s w]> (vars s)) (map_ s), true)
      | None => (State (<[u := var s v]> (vars s)) ((var s v, v) :: map_ s), true)
      end
  | Find v u => match lookup_ m (var s v) (map_ s) with Some w => (State (<[u := var s w]> (vars s)) (map_ s), true) | None => (s, false) end
  end.
Fixpoint run (m : memory) (p : list op) (s : state) : state * list bool :=
  match p with [] => (s, []) | o :: p => let '(s, b) := step m o s in let '(s, bs) := run m p s in (s, b :: bs) end.
