(** fncas over the real numbers: where a recorded function is differentiable. *)
From Coq Require Import List Arith.
Import ListNotations.
From Verif Require Import Fncas_Model Fncas_Spec.
From Coq Require Import Reals.
Open Scope R_scope.

(** The functions of <cmath>, on the real numbers. *)
Definition real_math (f : mfun) : R -> R :=
  match f with
  | Fncas_Model.sqrt => R_sqrt.sqrt
  | Fncas_Model.exp => Rtrigo_def.exp
  | Fncas_Model.log => Rpower.ln
  | Fncas_Model.sin => Rtrigo_def.sin
  | Fncas_Model.cos => Rtrigo_def.cos
  | Fncas_Model.tan => Rtrigo1.tan
  | Fncas_Model.asin => Ratan.asin
  | Fncas_Model.acos => Ratan.acos
  | Fncas_Model.atan => Ratan.atan
  | Fncas_Model.sqr | Fncas_Model.unit_step | Fncas_Model.ramp => fun x => x   (* these are not in <cmath> *)
  end.
Definition reals : arith :=
  Arith R Rplus Rminus Rmult Rdiv Ropp real_math
    (fun a b => if Req_EM_T a b then true else false)
    (fun a b => if Rle_dec a b then true else false)
    (fun a b => if Rlt_dec a b then true else false)
    0 1 2 4 (1 / 2) (-1).

(** Where each function is differentiable; fncas does not differentiate [unit_step]. *)
Definition differentiable (f : mfun) (y : R) : Prop :=
  match f with
  | Fncas_Model.sqrt | Fncas_Model.log => 0 < y
  | Fncas_Model.tan => Rtrigo_def.cos y <> 0
  | Fncas_Model.asin | Fncas_Model.acos => -1 < y < 1
  | Fncas_Model.ramp => y <> 0
  | Fncas_Model.unit_step => False
  | _ => True
  end.
(** The instruction [k] of [p] is differentiable in its operands at the point [x]. *)
Definition smooth (p : list (instr reals)) (x : list R) (k : nat) : Prop :=
  match nth_error p k with
  | Some (IOp Fncas_Model.divide a b) => native reals x p b <> 0
  | Some (IFun f a) => differentiable f (native reals x p a)
  | _ => True
  end.

(** The point [x] with the coordinate [i] moved to [t]. *)
Fixpoint moved (x : list R) (i : nat) (t : R) : list R :=
  match x, i with
  | [], _ => []
  | _ :: x', O => t :: x'
  | y :: x', S i' => y :: moved x' i' t
  end.
(** [d] is the partial derivative of the result [f] of [p] by the variable [i] at [x]. *)
Definition partial_derivative (p : list (instr reals)) (f i : nat) (x : list R) (d : R) : Prop :=
  derivable_pt_lim (fun t => native reals (moved x i t) p f) (nth i x 0) d.
