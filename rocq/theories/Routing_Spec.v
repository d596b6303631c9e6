(** What routing should do, independently of the loops of the code.

    A route table is a partial function from (path, number of arguments) to handlers. *)
From stdpp Require Import list.

Definition slashes (n : nat) : list N := replicate n 47%N.

(** A path a route can be registered for, as far as slashes are concerned: ["/"], or one that begins
    but does not end with a slash. *)
Definition good_base (b : list N) : Prop :=
  b = [47%N] ∨ (head b = Some 47%N ∧ last b ≠ Some 47%N).

(** [decomposition p base comps]: the URL path [p] is [base] followed by the components
    [comps], with one or more slashes before each component, and any number at the end. *)
Inductive decomposition : list N → list N → list (list N) → Prop :=
| dec_base base n : good_base base → decomposition (base ++ slashes n) base []
| dec_more q base comps a n :
    decomposition q base comps → last q = Some 47%N → a ≠ [] → 47%N ∉ a →
    decomposition (q ++ a ++ slashes n) base (comps ++ [a]).
