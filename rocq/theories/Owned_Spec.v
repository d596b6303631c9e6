(** What C20, C21 and C22 need: executions, uses that do not abandon a registration, fairness. *)
From stdpp Require Import list.
From Verif Require Import Owned_Model.

Section Spec.
  Context {C : Type}.
  Implicit Types s : state C.

  Inductive reachable_from (ok : state C → action C → Prop) (s : state C) : state C → Prop :=
  | here : reachable_from ok s s
  | there s' a s'' : reachable_from ok s s' → ok s' a → exec s' a = Some s'' → reachable_from ok s s''.
  Definition anything (s : state C) (a : action C) : Prop := True.
  Notation reachable := (reachable_from anything initial).

  (** Handle [h] refers to instance [i]. *)
  Definition refers (s : state C) (h i : nat) : Prop := p_actual_instance (handles s h) = Some i.
  (** It is a borrower of it: Borrowed<>, BorrowedWithCallback<> or BorrowedOfGuaranteedLifetime<>, not the Owned<>. *)
  Definition borrower (s : state C) (h i : nat) : Prop := refers s h i ∧ container (handles s h) = None.

  (** Uses that keep the count right: no move assignment to a handle which still refers to something (itself, for example), and no borrower
      made from an rvalue of Owned<>. *)
  Definition careful (s : state C) (a : action C) : Prop :=
    match a with
    | MoveConstruct _ g _ => container (handles s g) = None
    | MoveAssign h g _ => p_actual_instance (handles s h) = None ∧ container (handles s g) = None
    | _ => True
    end.

  Record execution (run : nat → state C) (acts : nat → option (action C)) : Prop := Execution {
    starts : run 0 = initial;
    follows : ∀ n, match acts n with Some a => exec (run n) a = Some (run (S n)) | None => run (S n) = run n end }.
  (** The thread in the destructor is run when it can be, and so is a thread about to notify. *)
  Definition fair (run : nat → state C) (acts : nat → option (action C)) : Prop :=
    (∀ n i, dtor (insts (run n) i) ≠ Alive → dtor (insts (run n) i) ≠ Sleeping → dtor (insts (run n) i) ≠ Destroyed → ∃ m, n ≤ m ∧ acts m = Some (Continue i)) ∧
    (∀ n h, releasing (handles (run n) h) ≠ None → ∃ m, n ≤ m ∧ acts m = Some (ReleaseNotify h)).
End Spec.
Notation reachable := (reachable_from anything initial).
