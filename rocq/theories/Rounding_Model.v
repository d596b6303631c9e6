(** * Model of [bricks/strings/rounding.h]

    Doubles are taken to be real numbers, and log, pow, multiplication and addition to be exact; uint64_t and int are integers (with at most 15 digits, as the code
    asserts, nothing is out of their range). *)
From Coq Require Import ZArith Reals.
From stdpp Require Import list.
Local Open Scope Z_scope.

(** std::ceil *)
Definition ceil (x : R) : Z := - Int_part (- x).
(** 52: dim *)
Definition dim (v : R) : Z := ceil (ln v / ln 10 + / 10 ^ 10)%R.
(** 56: integerized *)
Definition integerized (v : R) (n : nat) : Z := Int_part (v * powerRZ 10 (Z.of_nat n - dim v) + / 2)%R.
(** 79-90: the loop, and digit_index after it *)
Fixpoint digits (n : nat) (mod_ i digit_index : Z) : list Z * Z :=
  match n with
  | O => ([], digit_index)
  | S n =>
      let mod_ := mod_ / 10 in
      let out := (if decide (digit_index = 0) then [46] else []) ++ [48 + (i / mod_) mod 10] in
      let i := i mod mod_ in
      let digit_index := digit_index - 1 in
      if decide (digit_index <= 0 ∧ i = 0) then (out, digit_index) else let '(o, x) := digits n mod_ i digit_index in (out ++ o, x)
  end.
(** 53, 58-64: mod and digit_index before the loop *)
Definition start (n : nat) (i d : Z) : Z * Z := if decide (10 ^ Z.of_nat n <= i) then (10 ^ Z.of_nat n * 10, d + 1) else (10 ^ Z.of_nat n, d).
(** 72-93 *)
Definition unsigned (n : nat) (i d : Z) : list Z :=
  let '(mod_, digit_index) := start n i d in
  let head := if decide (digit_index < 0) then [48; 46] ++ replicate (Z.to_nat (- digit_index)) 48 else if decide (digit_index = 0) then [48] else [] in
  let '(o, digit_index) := digits n mod_ i digit_index in
  head ++ o ++ replicate (Z.to_nat digit_index) 48.
(** 38-98: RoundDoubleToString *)
Definition round_positive (v : R) (n : nat) (negative plus_sign : bool) : list Z :=
  if Rlt_dec v (/ 10 ^ 16) then [48] else
  (if negative then [45] else if decide (0 < integerized v n ∧ plus_sign = true) then [43] else []) ++ unsigned n (integerized v n) (dim v).
Definition round (v : R) (n : nat) (plus_sign : bool) : list Z :=
  if Rlt_dec v 0 then round_positive (- v) n true plus_sign else round_positive v n false plus_sign.
