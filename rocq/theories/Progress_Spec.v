(** * A terminal, and what is to be seen on it *)
From Coq Require Import ZArith.
From stdpp Require Import list.
From Verif Require Import Progress_Model.
Local Open Scope Z_scope.

(** A character and how it looks: the codes since the last reset *)
Definition cell : Type := Z * list Z.
Definition blank : cell := (32, []).
(** The screen is [height] rows, from [top] on; rows that have been scrolled off it keep their numbers. Rows are wide enough. *)
Record terminal := Terminal { screen : Z → nat → cell; row : Z; col : nat; style : list Z; top : Z }.
Definition restyle (st : list Z) (code : Z) : list Z := if decide (code = 0) then [] else st ++ [code].
Definition put (t : terminal) (c : Z) : terminal :=
  Terminal (λ r k, if decide (r = row t ∧ k = col t) then (c, style t) else screen t r k) (row t) (S (col t)) (style t) (top t).
Definition act (height : Z) (t : terminal) (k : token) : terminal :=
  match k with
  | Char c => put t c
  | Back => Terminal (screen t) (row t) (pred (col t)) (style t) (top t)
  | Newline => Terminal (screen t) (row t + 1) 0 (style t) (Z.max (top t) (row t + 1 - height + 1))
  | Up n => Terminal (screen t) (Z.max (top t) (row t - n)) (col t) (style t) (top t)
  | Down n => Terminal (screen t) (Z.min (top t + height - 1) (row t + n)) (col t) (style t) (top t)
  | Sgr c => Terminal (screen t) (row t) (col t) (restyle (style t) c) (top t)
  end.
Definition prints (height : Z) (t : terminal) (l : list token) : terminal := foldl (act height) t l.

(** How a status looks *)
Fixpoint looks (st : list Z) (s : status) : list cell :=
  match s with
  | [] => []
  | Text l :: s => ((λ c, (c, st)) <$> l) ++ looks st s
  | Style c :: s => looks (restyle st c) s
  end.
Definition shows (s : status) (k : nat) : cell := nth k (looks [] s) blank.

(** The status each line has been given last *)
Definition latest1 (l : list status) (o : op) : list status := match o with Create => l ++ [[]] | Update i s => <[i := s]> l end.
Definition latest (os : list op) : list status := foldl latest1 [] os.

(** The terminal before anything is printed: nothing on the row of the cursor or below *)
Definition ready (height : Z) (t : terminal) : Prop :=
  style t = [] ∧ col t = 0%nat ∧ top t <= row t < top t + height ∧ ∀ r k, row t <= r → screen t r k = blank.
(** On [t], all as on [t0] but for the statuses from the row of [t0] on, and the cursor is below them. *)
Definition displays (t0 : terminal) (ss : list status) (t : terminal) : Prop :=
  row t = row t0 + Z.of_nat (length ss) ∧ col t = 0%nat ∧ style t = [] ∧
  (∀ r k, r < row t0 → screen t r k = screen t0 r k) ∧
  (∀ i s k, ss !! i = Some s → screen t (row t0 + Z.of_nat i) k = shows s k) ∧
  (∀ r k, row t0 + Z.of_nat (length ss) <= r → screen t r k = blank).

(** On [t], all as on [t0] but for [s] from the cursor of [t0] on, and the cursor is after it. *)
Definition displays_at (t0 : terminal) (s : status) (t : terminal) : Prop :=
  row t = row t0 ∧ col t = (col t0 + length (looks [] s))%nat ∧ style t = [] ∧
  ∀ r k, screen t r k = if decide (r = row t0 ∧ (col t0 <= k)%nat) then shows s (k - col t0) else screen t0 r k.

(** Each line's thread gives it a status ([ERead]) and then prints it: the statuses that are not printed yet, and those that have been *)
Definition printed1 (l : list (option status) * list status) (e : event) : list (option status) * list status :=
  match e with
  | ERead i s => (<[i := Some s]> l.1, l.2)
  | EPrint i => (<[i := None]> l.1, match l.1 !! i with Some (Some s) => <[i := s]> l.2 | _ => l.2 end)
  | ECount => l
  | ENewline => (l.1 ++ [None], l.2 ++ [[]])
  end.
Definition printed (ss : list status) (es : list event) : list status := (foldl printed1 (replicate (length ss) None, ss) es).2.
