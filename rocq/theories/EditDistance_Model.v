(** Model of /repo/bricks/strings/distance.h. *)
From Verif Require Import Base.

(** [static_cast<size_t>(-1)], used both for "not computed yet" and as "infinity". *)
Definition SIZE_MAX : N := (2 ^ 64 - 1)%N.
Definition size_add (a b : N) : N := ((a + b) mod 2 ^ 64)%N.

(** distance.h 45, 85: the memo table, a [vector<vector<size_t>>] filled with -1. *)
Definition table : Type := nat -> nat -> N.
Definition empty_table : table := fun _ _ => SIZE_MAX.
Definition put (D : table) (i j : nat) (v : N) : table :=
  fun i' j' => if (Nat.eqb i' i && Nat.eqb j' j)%bool then v else D i' j'.

Section Distance.
Variables a b : bytes.

(** distance.h 50-64, [SlowImpl::Compute(i, j)]; [i + j] decreases in every call, [fuel] is i + j + 1.
    (The order in which C++ evaluates the three calls is unspecified; the diagonal one first here.) *)
Fixpoint slow (fuel : nat) (i j : nat) (D : table) : N * table :=
  match fuel with
  | O => (0%N, D)
  | S f =>
      if N.eqb (D i j) SIZE_MAX then
        match i, j with
        | O, _ => (N.of_nat j, put D i j (N.of_nat j))
        | _, O => (N.of_nat i, put D i j (N.of_nat i))
        | S i', S j' =>
            if N.eqb (nth i' a 0%N) (nth j' b 0%N)
            then let (r, D1) := slow f i' j' D in (r, put D1 i j r)
            else let (r1, D1) := slow f i' j' D in
                 let (r2, D2) := slow f i j' D1 in
                 let (r3, D3) := slow f i' j D2 in
                 let r := size_add 1 (N.min r1 (N.min r2 r3)) in
                 (r, put D3 i j r)
        end
      else (D i j, D)
  end.
(** distance.h 37-68, [SlowEditDistance]. *)
Definition slow_edit_distance : N :=
  fst (slow (S (length a + length b)) (length a) (length b) empty_table).

Variable max_offset : nat.
(** distance.h 87: [d = j + max_offset - i], an unsigned number: [None] when it wraps around (it is then
    larger than [2 * max_offset] as long as strings and offset are below 2^62). *)
Definition offset_of (i j : nat) : option nat :=
  if Nat.leb i (j + max_offset) then Some (j + max_offset - i) else None.

(** distance.h 86-106, [FastImpl::Compute(i, j)]; the table is indexed by [i] and [d]. *)
Fixpoint fast (fuel : nat) (i j : nat) (D : table) : N * table :=
  match fuel with
  | O => (0%N, D)
  | S f =>
      match offset_of i j with
      | Some d =>
          if Nat.leb d (max_offset * 2) then
            if N.eqb (D i d) SIZE_MAX then
              match i, j with
              | O, _ => (N.of_nat j, put D i d (N.of_nat j))
              | _, O => (N.of_nat i, put D i d (N.of_nat i))
              | S i', S j' =>
                  if N.eqb (nth i' a 0%N) (nth j' b 0%N)
                  then let (r, D1) := fast f i' j' D in (r, put D1 i d r)
                  else let (r1, D1) := fast f i' j' D in
                       let (r2, D2) := fast f i j' D1 in
                       let (r3, D3) := fast f i' j D2 in
                       let r := size_add 1 (N.min r1 (N.min r2 r3)) in
                       (r, put D3 i d r)
              end
            else (D i d, D)
          else (SIZE_MAX, D)
      | None => (SIZE_MAX, D)
      end
  end.
(** distance.h 74-112, [FastEditDistance]. *)
Definition fast_edit_distance : N :=
  fst (fast (S (length a + length b)) (length a) (length b) empty_table).
End Distance.
