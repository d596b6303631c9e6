(** What a collection of HTTP headers is, independently of the code: a list of
    names and values in order of first insertion; names are the same when they
    are spelled the same up to case and [-]/[_]. *)
From stdpp Require Import list.
From Coq Require Import NArith.

Definition lower (c : N) : N := if decide (65 <= c ∧ c <= 90)%N then (c + 32)%N else c.
Definition fold_char (c : N) : N := if decide (c = 45)%N then 95%N else lower c.
Definition same_name (a b : list N) : Prop := (fold_char <$> a) = (fold_char <$> b).
Global Instance same_name_dec a b : Decision (same_name a b) := list_eq_dec (fold_char <$> a) (fold_char <$> b).

Notation spec_headers := (list (list N * list N)) (only parsing).

(** The value under a name, with the name as first spelled. *)
Definition spec_get (n : list N) (l : spec_headers) : option (list N * list N) :=
  list_find (λ e, same_name e.1 n) l ≫= λ r, Some r.2.
Definition spec_change (n : list N) (f : list N → list N) (l : spec_headers) : spec_headers :=
  match spec_get n l with
  | Some _ => (λ e, if decide (same_name e.1 n) then (e.1, f e.2) else e) <$> l
  | None => l ++ [(n, f [])]
  end.
(** Repeated values are joined by a comma; empty ones are ignored. *)
Definition spec_join (old new : list N) : list N :=
  match old, new with
  | [], _ => new
  | _, [] => old
  | _, _ => old ++ [44; 32]%N ++ new
  end.
Definition spec_set (n v : list N) (l : spec_headers) : spec_headers :=
  match n with [] => l | _ => spec_change n (λ old, spec_join old v) l end.
Definition spec_assign (n v : list N) (l : spec_headers) : spec_headers := spec_change n (λ _, v) l.
Definition spec_remove (n : list N) (l : spec_headers) : spec_headers := filter (λ e, ¬ same_name e.1 n) l.
