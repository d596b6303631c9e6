(** * Specification vocabulary for the optimizers (C90) *)
From Coq Require Import List Bool Arith ZArith QArith Qabs SpecFloat.
From Verif Require Import Optimize_Model.
Import ListNotations.

(** What is used of the arithmetic.  Both hold of IEEE doubles (NaN included: comparisons with it are false). *)
Record ordered (A : arith) : Prop := {
  lt_irrefl : forall a, lt A a a = false;
  lt_trans : forall a b c, lt A a b = true -> lt A b c = true -> lt A a c = true;
  neg_neg : forall a, neg A (neg A a) = a;
  neg_lt : forall a b, lt A (neg A a) (neg A b) = lt A b a;
  normal_neg : forall a, normal A (neg A a) = normal A a }.
(** Of normal numbers and of the difference of two numbers, also true of IEEE doubles. *)
Record lawful (A : arith) : Prop := {
  law_ordered : ordered A;
  lt_cotrans : forall a b m, normal A m = true -> lt A a b = true -> lt A a m = true \/ lt A m b = true;
  sub_sound : forall a b, lt A a b = true -> lt A (sub A a b) (zero A) = true }.

(** [b] is a better value than [a], in the direction of the optimization. *)
Definition better (A : arith) (d : direction) (a b : num A) : Prop :=
  match d with Minimize => lt A b a = true | Maximize => lt A a b = true end.

(** A sequence of values none of which is worse than the one before: each is the same or better. *)
Fixpoint improving (A : arith) (d : direction) (l : list (num A)) : Prop :=
  match l with
  | a :: ((b :: _) as l') => (b = a \/ better A d a b) /\ improving A d l'
  | _ => True
  end.

(** ** Two arithmetics *)
(** The rationals: exact. *)
Definition Qlt_b (a b : Q) : bool := negb (Qle_bool b a).
Definition rationals : arith :=
  Arith Q Qlt_b Qplus Qminus Qmult Qdiv Qopp Qabs (fun x => x) (fun _ => true) 0 1 (1 # 10 ^ 100) (1 # 10 ^ 6).
(** The doubles: IEEE 754 binary64, from Coq's standard library. *)
Definition prec : Z := 53.
Definition emax : Z := 1024.
Definition of_Z (n : Z) : spec_float := binary_normalize prec emax n 0 false.
(** std::isnormal(x) || x == 0.0: the implicit bit of the mantissa is there. *)
Definition ieee_normal (x : spec_float) : bool :=
  match x with S754_zero _ => true | S754_finite _ m _ => Z.eqb (Zpos (digits2_pos m)) prec | _ => false end.
Definition ieee : arith :=
  Arith spec_float SFltb (SFadd prec emax) (SFsub prec emax) (SFmul prec emax) (SFdiv prec emax) SFopp SFabs (SFsqrt prec emax) ieee_normal
    (S754_zero false) (of_Z 1) (S754_finite false 7880401239278896 (-385)) (SFdiv prec emax (of_Z 1) (of_Z (10 ^ 6))).

(** ** The parameters by default (optimize.h 410-414, 471, 544-552, 691-699); nobody stops early. *)
Definition lit (p q : Z) : spec_float := SFdiv prec emax (of_Z p) (of_Z q).
Definition e_25 : spec_float := S754_finite false 8711228593176025 (-136).
Definition defaults (max : nat) : params ieee :=
  Params ieee max 3 (lit 1 2) (lit 4 5) 100 (lit 1 (10 ^ 8)) e_25 e_25 2 (fun _ _ _ => false).
Definition default_steps : list spec_float := [lit 1 100; lit 1 20; lit 1 5].
