(** * What number a text stands for *)
From Coq Require Import ZArith Reals.
From stdpp Require Import list.
Local Open Scope Z_scope.

(** After [acc]; [unit] is the worth of the last digit if there was a point. *)
Fixpoint reading (acc : R) (unit : option R) (l : list Z) : R :=
  match l with
  | [] => acc
  | c :: l =>
      if decide (c = 46) then reading acc (Some 1%R) l
      else match unit with
        | None => reading (acc * 10 + IZR (c - 48))%R None l
        | Some u => reading (acc + IZR (c - 48) * (u / 10))%R (Some (u / 10)%R) l
        end
  end.
Definition number (l : list Z) : R :=
  match l with 45 :: l => - reading 0 None l | 43 :: l => reading 0 None l | l => reading 0 None l end%R.
(** No zeros in front of the first digit, other than one before the point *)
Definition no_leading_zero (l : list Z) : Prop := ∀ c l', l = 48 :: c :: l' → c = 46.
