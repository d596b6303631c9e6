(** What a user expects of the storage containers, independently of how they
    are implemented: a container is a table, an operation changes the table. *)
From stdpp Require Import gmap.
From Coq Require Import ZArith.
From Verif Require Import StorageContainers_Model.

Section TableSpec.
  Context {K T P : Type} `{Countable K} (get_key : T -> K) (patch_with : P -> T -> T).

  (** Dictionary: one entry per key. *)
  Definition dictionary_after (t : gmap K T) (op : dict_op K T P) : gmap K T :=
    match op with
    | DAdd o => <[get_key o := o]> t
    | DErase k => delete k t
    | DPatch k p => alter (patch_with p) k t
    end.

  (** The key a journalled mutation touches, and when. *)
  Definition touches (k : K) (e : mutation K T P) : option Z :=
    match e with
    | Updated us o => if decide (get_key o = k) then Some us else None
    | Deleted us k' => if decide (k' = k) then Some us else None
    | Patched us k' _ => if decide (k' = k) then Some us else None
    end.
  (** The time of the last mutation that touched [k]. *)
  Fixpoint last_touch (k : K) (log : list (mutation K T P)) : option Z :=
    match log with
    | [] => None
    | e :: rest => match last_touch k rest with Some us => Some us | None => touches k e end
    end.

  (** What adding [o] journals: deletions of exactly the conflicting keys,
      without repetition, then the update; each mutation carries its own clock
      reading, in order. *)
  Definition add_log (conflicts : K -> Prop) (clk : nat -> Z) (n : nat) (o : T)
    (log : list (mutation K T P)) (n' : nat) : Prop :=
    ∃ dels : list K,
      NoDup dels ∧ (∀ k, k ∈ dels ↔ conflicts k) ∧
      log = imap (λ j k, Deleted (clk (n + j)) k) dels ++ [Updated (clk (n + length dels)) o] ∧
      n' = S (n + length dels).

  (** What erasing journals: at most one deletion, of the one key designated. *)
  Definition erase_log (which : K -> Prop) (clk : nat -> Z) (n : nat)
    (log : list (mutation K T P)) (n' : nat) : Prop :=
    n' = S n ∧
    ((log = [] ∧ ∀ k, ¬ which k) ∨
     (∃ k, log = [Deleted (clk n) k] ∧ ∀ k', which k' ↔ k' = k)).
End TableSpec.

Section MatrixSpec.
  Context {R C T : Type} `{Countable R} `{Countable C}.
  Context (get_row : T -> R) (get_col : T -> C).
  Notation key_of o := (get_row o, get_col o).

  (** OneToOne: adding removes every entry of the same row or column. *)
  Definition one_to_one_after (t : gmap (R * C) T) (op : o2o_op R C T) : gmap (R * C) T :=
    match op with
    | OAdd o => <[key_of o := o]> (filter (λ e, e.1.1 ≠ get_row o ∧ e.1.2 ≠ get_col o) t)
    | OErase k => delete k t
    | OEraseRow r => filter (λ e, e.1.1 ≠ r) t
    | OEraseCol c => filter (λ e, e.1.2 ≠ c) t
    end.

  (** OneToMany: adding removes every entry of the same column. *)
  Definition one_to_many_after (t : gmap (R * C) T) (op : o2m_op R C T) : gmap (R * C) T :=
    match op with
    | MAdd o => <[key_of o := o]> (filter (λ e, e.1.2 ≠ get_col o) t)
    | MErase k => delete k t
    | MEraseCol c => filter (λ e, e.1.2 ≠ c) t
    end.

  (** ManyToMany: no conflicts. *)
  Definition many_to_many_after (t : gmap (R * C) T) (op : m2m_op R C T) : gmap (R * C) T :=
    match op with
    | NAdd o => <[key_of o := o]> t
    | NErase k => delete k t
    end.

  (** The other entries of the table that cannot coexist with [o]. *)
  Definition o2o_conflicts (o : T) (t : gmap (R * C) T) (k : R * C) : Prop :=
    is_Some (t !! k) ∧ k ≠ key_of o ∧ (k.1 = get_row o ∨ k.2 = get_col o).
  Definition o2m_conflicts (o : T) (t : gmap (R * C) T) (k : R * C) : Prop :=
    is_Some (t !! k) ∧ k ≠ key_of o ∧ k.2 = get_col o.

  (** A view indexed by one coordinate lists exactly the entries of the table,
      each under its coordinate, and refers to live objects only. *)
  Definition lists_by {A} `{Countable A} (coord : R * C -> A) (t : gmap (R * C) T)
    (v : gmap A (option T)) : Prop :=
    ∀ a x, v !! a = Some x ↔ ∃ k o, t !! k = Some o ∧ coord k = a ∧ x = Some o.

  (** A two-level view lists exactly the entries of the table; no empty inner
      level is listed. *)
  Definition lists_by2 {A B} `{Countable A} `{Countable B} (at_ : A -> B -> R * C)
    (t : gmap (R * C) T) (v : gmap A (gmap B (option T))) : Prop :=
    (∀ a b x, (∃ inner, v !! a = Some inner ∧ inner !! b = Some x) ↔
              ∃ o, t !! at_ a b = Some o ∧ x = Some o) ∧
    (∀ a, v !! a ≠ Some ∅).
End MatrixSpec.
