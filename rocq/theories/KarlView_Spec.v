(** * Specification vocabulary for what Karl shows (C88) *)
From stdpp Require Import gmap list sorting.
From Coq Require Import ZArith.
From Verif Require Import Karl_Model KarlView_Model.

(** The states that a sequence of operations leads to, from an empty stream. *)
Definition after (ops : list op) : kstream := foldl (λ s o, apply o s) (KStream [] ∅) ops.
(** The keepalives of one service. *)
Definition of_code (x : nat) (l : list entry) : list entry := filter (λ e, e_code e = x) l.
Definition quiet_on (x : nat) (ops : list op) : Prop := ∀ e, Publish e ∈ ops → e_code e ≠ x.

(** The keepalives from one moment to another, both included. *)
Definition window (from to : Z) (l : list entry) : list entry := filter (λ e, (from ≤ e_us e ∧ e_us e ≤ to)%Z) l.

(** What the fleet view is to show of a codename: the last keepalive in the window; whose services is at a location: the one that was
    heard from there last. *)
Definition known_at (W : list entry) (d : loc) : option nat := e_code <$> last (filter (λ e, e_loc e = d) W).
Definition shown (T now : Z) (claires : gmap nat (loc * rstate)) (W : list entry) (x : nat) (e : entry) (service : nat) : blob :=
  Blob service
       (match claires !! x with Some c => At c.1 | None => Zombie x end)
       (bool_decide (now - e_us e < T)%Z) (e_us e)
       (omap (known_at W) (e_deps e)) (filter (λ d, known_at W d = None) (e_deps e)) (e_data e).
