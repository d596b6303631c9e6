(** * Specification vocabulary for Karl (C87, C88) *)
From stdpp Require Import gmap list.
From Coq Require Import ZArith.
From Verif Require Import Karl_Model.

(** The executions from a given start, in which every action meets [ok]: what has happened, and the state. *)
Inductive run (T : Z) (ok : action → state → Prop) (s0 : state) : list event → state → Prop :=
| run_start : run T ok s0 [] s0
| run_step tr s a ev s' : run T ok s0 tr s → ok a s → step T a s = Some (ev, s') → run T ok s0 (tr ++ ev) s'.

(** The requests of one service come one after another: a new one only after the last one has been processed. *)
Definition serial (a : action) (s : state) : Prop :=
  match a with
  | Keepalive _ x | Delete _ x => ∀ h p, handlers s !! h = Some p → name_of p ≠ x
  | _ => True
  end.
(** No service is active when Karl's constructor gets to looking for the ones that are. *)
Definition quiet_boot (a : action) (s : state) : Prop := a = Boot → ∀ x, claires s !! x ≠ Some Active.
(** Karl's thread takes no time: time passes only while it sleeps, and not past its deadline. *)
Definition prompt (a : action) (s : state) : Prop :=
  match a with
  | Tick d =>
      flag s = false ∧ stop s = false ∧
      match upd s with UWaiting _ (Some u) => (time s + d ≤ u)%Z | UWaiting _ None => True | _ => False end
  | _ => True
  end.
Definition both (p q : action → state → Prop) (a : action) (s : state) : Prop := p a s ∧ q a s.

(** The registry knows when it has heard from the service the last time, or is in the middle of working on it. *)
Definition watched (x : nat) (s : state) : Prop :=
  is_Some (cache s !! x) ∨ (∃ h t, handlers s !! h = Some (K2 x t)) ∨ (∃ now l r, upd s = UTxn now l r ∧ x ∈ l).

(** [n] steps of Karl's thread in a row. *)
Inductive updates (T : Z) : nat → state → state → Prop :=
| updates_none s : updates T 0 s s
| updates_more n s ev s1 s2 : update T s = Some (ev, s1) → updates T n s1 s2 → updates T (S n) s s2.
