(** * Specification vocabulary for command line flags (C86): what a command line means *)
From Coq Require Import String.
From stdpp Require Import gmap list.
From Verif Require Import Base Dec Flags_Model.
Local Open Scope list_scope.

(** [a] is ["-name"], ["--name"], ["-name=value"] or ["--name=value"]. *)
Definition flag_arg (a name : bytes) (v : option bytes) : Prop :=
  (∃ d, (d = bs "-" ∨ d = bs "--") ∧ a = d ++ name ++ match v with Some v => bs "=" ++ v | None => [] end) ∧
  61%N ∉ name ∧ head name ≠ Some 45%N.

Section Command.
  Context (registered : gmap bytes kind).
  (** Names of flags are C++ identifiers; this is what matters of it. *)
  Definition names_ok : Prop := ∀ n k, registered !! n = Some k → 61%N ∉ n ∧ head n ≠ Some 45%N.

  Definition bool_word (s : bytes) : Prop :=
    s ∈ map bs ["0"; "false"; "False"; "no"; "No"; "1"; "true"; "True"; "yes"; "Yes"]%string.

  (** The arguments [args] set these flags to the values with these texts, in this order, and leave these parameters. *)
  Inductive command : list bytes → list (bytes * bytes) → list bytes → Prop :=
  | command_end : command [] [] []
  | command_param a args sets params :
      head a ≠ Some 45%N → command args sets params → command (a :: args) sets (a :: params)
  | command_equals a name v k args sets params :
      flag_arg a name (Some v) → name ≠ bs "help" → registered !! name = Some k →
      command args sets params → command (a :: args) ((name, v) :: sets) params
  | command_space a name v k args sets params :
      flag_arg a name None → name ≠ bs "help" → registered !! name = Some k → (k = KBool → bool_word v) →
      command args sets params → command (a :: v :: args) ((name, v) :: sets) params
  | command_true a name args sets params :
      flag_arg a name None → name ≠ bs "help" → registered !! name = Some KBool →
      (∀ v, head args = Some v → ¬ bool_word v) →
      command args sets params → command (a :: args) ((name, bs "1") :: sets) params.

  (** The flags are set one after another; every text must be one of a value of the type. *)
  Fixpoint assign (sets : list (bytes * bytes)) (st : gmap bytes value) : option (gmap bytes value) :=
    match sets with
    | [] => Some st
    | (name, s) :: r => k ← registered !! name; v ← parse_value k s; assign r (<[name := v]> st)
    end.
End Command.

(** The text of a value. *)
Inductive text_of : kind → bytes → value → Prop :=
| text_string s : text_of KString s (VString s)
| text_false s : s ∈ map bs ["0"; "false"; "False"; "no"; "No"]%string → text_of KBool s (VBool false)
| text_true s : s ∈ map bs ["1"; "true"; "True"; "yes"; "Yes"]%string → text_of KBool s (VBool true)
| text_int bits z : (- 2 ^ (bits - 1) ≤ z < 2 ^ (bits - 1))%Z → text_of (KInt bits) (zdec z) (VInt z)
| text_uint bits z : (0 ≤ z < 2 ^ bits)%Z → text_of (KUInt bits) (zdec z) (VInt z).
