(** * Specification vocabulary for C89 *)
From stdpp Require Import gmap list.
From Verif Require Import TermSignal_Model.

Inductive reach (b0 : bool) : state → Prop :=
| reach_init : reach b0 (init b0)
| reach_step s a s' : reach b0 s → step a s = Some s' → reach b0 s'.

(** The waiting thread alone: its own steps, and the end of its 25 ms; how many of these steps are the latter. *)
Inductive alone : nat → nat → state → state → Prop :=
| alone_none s : alone 0 0 s s
| alone_step n k s s1 s2 : wait_step s = Some s1 → alone n k s1 s2 → alone (S n) k s s2
| alone_timeout n k s s1 s2 : step Timeout s = Some s1 → alone n k s1 s2 → alone (S n) (S k) s s2.

(** In the middle of a call to WaitUntil. *)
Definition waiting (s : state) : Prop := pc s ≠ WOut ∧ ∀ b, pc s ≠ WReturned b.

(** How many scopes of a signal are open after these operations. *)
Definition count (x : nat) (ops : list bulk_op) : Z :=
  foldr (λ o n, match o with
                | Open y => if decide (x = y) then (n + 1)%Z else n
                | Close y => if decide (x = y) then (n - 1)%Z else n end) 0%Z ops.
(** Scopes are closed after they have been opened; and a signal has at most one scope at a time. *)
Definition one_scope_each (ops : list bulk_op) : Prop := ∀ n x, (0 ≤ count x (take n ops) ≤ 1)%Z.
