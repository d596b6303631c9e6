(** What a user of fncas relies on: the function is written once, as straight-line code over
    some type of numbers (a [fncas::term_t] can be neither compared nor converted, so the code cannot branch on one).
    Running this code on numbers is the native evaluation of the function; running it on
    [term_t]-s records it. *)
From Coq Require Import List Arith Bool.
Import ListNotations.
From Verif Require Import Fncas_Model.

Section Programs.
Context (A : arith).
Notation T := (num A).

(** An instruction, with operands given by the number of the instruction that computed them. *)
Inductive instr :=
| IConst (c : T)               (* a literal *)
| IVar (i : nat)               (* x[i] *)
| IOp (o : mop) (a b : nat)
| IFun (f : mfun) (a : nat)
| INeg (a : nat)               (* -a *)
| IDefault.                    (* an element of a new vector of a given size *)

(** Operands are earlier results, parameters are within the dimension. *)
Definition instr_ok (dim k : nat) (i : instr) : Prop :=
  match i with
  | IConst _ | IDefault => True
  | IVar v => v < dim
  | IOp _ a b => a < k /\ b < k
  | IFun _ a | INeg a => a < k
  end.
Definition program_ok (dim : nat) (p : list instr) : Prop :=
  forall k i, nth_error p k = Some i -> instr_ok dim k i.

(** The code run on numbers: the results of all the instructions. *)
Definition native_step (x results : list T) (i : instr) : T :=
  let operand a := nth a results (c0 A) in
  match i with
  | IConst c => c
  | IVar v => nth v x (c0 A)
  | IOp o a b => apply_operation A o (operand a) (operand b)
  | IFun f a => apply_function A f (operand a)
  | INeg a => a_opp A (operand a)
  | IDefault => c0 A           (* std::vector<double>(n) is filled with zeroes *)
  end.
Fixpoint native_from (x : list T) (p : list instr) (results : list T) : list T :=
  match p with
  | [] => results
  | i :: p' => native_from x p' (results ++ [native_step x results i])
  end.
(** The result of the instruction number [k] at the point [x]. *)
Definition native (x : list T) (p : list instr) (k : nat) : T := nth k (native_from x p []) (c0 A).

(** The same code run on [term_t]-s, with [xs] the elements of the [variables_vector_t]. *)
Definition record_step (m : memory A) (xs results : list nat) (i : instr) : memory A * nat :=
  let operand a := nth a results 0 in
  match i with
  | IConst c => value_node A m c
  | IVar v => (m, nth v xs 0)
  | IOp o a b => op_node A m o (operand a) (operand b)
  | IFun f a => fun_node A m f (operand a)
  | INeg a => neg_node A m (operand a)
  | IDefault => default_node A m
  end.
Fixpoint record_from (m : memory A) (xs : list nat) (p : list instr) (results : list nat) : memory A * list nat :=
  match p with
  | [] => (m, results)
  | i :: p' => let (m, r) := record_step m xs results i in record_from m xs p' (results ++ [r])
  end.
Definition recorded (dim : nat) (p : list instr) : memory A * list nat :=
  let (m, xs) := new_x A dim in record_from m xs p [].

(** The instruction [k] takes part in the computation of the result [f]. *)
Inductive needs (p : list instr) (f : nat) : nat -> Prop :=
| needs_itself : needs p f f
| needs_left o k a b : needs p f k -> nth_error p k = Some (IOp o a b) -> needs p f a
| needs_right o k a b : needs p f k -> nth_error p k = Some (IOp o a b) -> needs p f b
| needs_argument g k a : needs p f k -> nth_error p k = Some (IFun g a) -> needs p f a
| needs_negated k a : needs p f k -> nth_error p k = Some (INeg a) -> needs p f a.
End Programs.
Arguments IConst {A}. Arguments IVar {A}. Arguments IOp {A}. Arguments IFun {A}. Arguments INeg {A}. Arguments IDefault {A}.
