(** SHA-256 as in FIPS 180-4 (sections 4.1.2, 4.2.2, 5.1.1, 5.2.1, 5.3.3, 6.2), on strings of bits. *)
From stdpp Require Import list numbers.
From Coq Require Import NArith.

Definition word_sum (l : list N) : N := (foldr N.add 0 l mod 2 ^ 32)%N.
(** 4.1.2.  The bits of words are numbered from the least significant one. *)
Definition ROTR (n : N) (x : N) : N := N.lor (N.shiftr x n) (N.shiftl x (32 - n) mod 2 ^ 32).
Definition SHR (n : N) (x : N) : N := N.shiftr x n.
Definition xor3 (x y z : N) : N := N.lxor x (N.lxor y z).
Definition Ch (x y z : N) : N := N.lxor (N.land x y) (N.land (N.ldiff (2 ^ 32 - 1) x) z).
Definition Maj (x y z : N) : N := xor3 (N.land x y) (N.land x z) (N.land y z).
Definition Sigma0 (x : N) : N := xor3 (ROTR 2 x) (ROTR 13 x) (ROTR 22 x).
Definition Sigma1 (x : N) : N := xor3 (ROTR 6 x) (ROTR 11 x) (ROTR 25 x).
Definition sigma0 (x : N) : N := xor3 (ROTR 7 x) (ROTR 18 x) (SHR 3 x).
Definition sigma1 (x : N) : N := xor3 (ROTR 17 x) (ROTR 19 x) (SHR 10 x).

(** The first [n] primes, found among the numbers up to 311. *)
Definition is_prime (p : nat) : bool := bool_decide (2 ≤ p) && forallb (λ d, negb (bool_decide (p mod d = 0))) (seq 2 (p - 2)).
Definition primes (n : nat) : list N := map N.of_nat (take n (List.filter is_prime (seq 0 312))).
(** The largest number the cube of which is at most [x], below [2^n]. *)
Fixpoint cube_root_below (n : nat) (r x : N) : N :=
  match n with
  | 0 => r
  | S n' => let r' := (r + 2 ^ N.of_nat n')%N in cube_root_below n' (if (r' * r' * r' <=? x)%N then r' else r) x
  end.
(** 4.2.2: the first 32 bits of the fractional parts of the cube roots of the first 64 primes. *)
Definition K : list N := map (λ p, cube_root_below 64 0 (p * 2 ^ 96) mod 2 ^ 32)%N (primes 64).
(** 5.3.3: the first 32 bits of the fractional parts of the square roots of the first 8 primes. *)
Definition H0 : list N := map (λ p, N.sqrt (p * 2 ^ 64) mod 2 ^ 32)%N (primes 8).

(** 6.2.2, step 1: the message schedule. *)
Definition next_word (W : list N) : N :=
  let t := length W in
  word_sum [sigma1 (nth (t - 2) W 0%N); nth (t - 7) W 0%N; sigma0 (nth (t - 15) W 0%N); nth (t - 16) W 0%N].
Definition schedule (M : list N) : list N := Nat.iter 48 (λ W, W ++ [next_word W]) M.
(** Step 3. *)
Definition step (W : list N) (v : N * N * N * N * N * N * N * N) (t : nat) : N * N * N * N * N * N * N * N :=
  let '(a, b, c, d, e, f, g, h) := v in
  let T1 := word_sum [h; Sigma1 e; Ch e f g; nth t K 0%N; nth t W 0%N] in
  let T2 := word_sum [Sigma0 a; Maj a b c] in
  (word_sum [T1; T2], a, b, c, word_sum [d; T1], e, f, g).
(** Steps 2 and 4. *)
Definition compress (H M : list N) : list N :=
  match H with
  | [h0; h1; h2; h3; h4; h5; h6; h7] =>
      let '(a, b, c, d, e, f, g, h) := fold_left (step (schedule M)) (seq 0 64) (h0, h1, h2, h3, h4, h5, h6, h7) in
      [word_sum [a; h0]; word_sum [b; h1]; word_sum [c; h2]; word_sum [d; h3];
       word_sum [e; h4]; word_sum [f; h5]; word_sum [g; h6]; word_sum [h; h7]]
  | _ => H
  end.

(** 5.1.1: padding.  [zeros l] is the least [k] such that [l + 1 + k] is 448 modulo 512. *)
Definition zeros (l : nat) : nat := (448 + 512 - (l + 1) mod 512) mod 512.
(** The bits of a number below [2^n], the most significant one first. *)
Definition bits (n : nat) (x : N) : list bool := map (λ i, N.testbit x (N.of_nat i)) (rev (seq 0 n)).
Definition pad (m : list bool) : list bool := m ++ [true] ++ replicate (zeros (length m)) false ++ bits 64 (N.of_nat (length m)).
Definition number (l : list bool) : N := fold_left (λ n b, 2 * n + (if b : bool then 1 else 0))%N l 0%N.

(** The list cut into pieces of length [n]. *)
Fixpoint cut {A} (fuel n : nat) (l : list A) : list (list A) :=
  match fuel with
  | 0 => []
  | S fuel' => match l with [] => [] | _ => take n l :: cut fuel' n (drop n l) end
  end.
Definition pieces {A} (n : nat) (l : list A) : list (list A) := cut (length l) n l.
(** 5.2.1, 6.2.2: blocks of 512 bits, each of 16 words. *)
Definition words (block : list bool) : list N := map number (pieces 32 block).
Definition digest (m : list bool) : list N := fold_left compress (map words (pieces 512 (pad m))) H0.

(** The message as bits: "the input bytes are considered as bits strings, where the first bit is the most significant bit of the byte". *)
Definition message (s : list N) : list bool := concat (map (bits 8) s).
(** Lowercase hexadecimal digits, the most significant one first. *)
Definition hex_digit (d : N) : N := if (d <? 10)%N then (48 + d)%N else (97 + (d - 10))%N.
Definition hex (w : N) : list N := map (λ i, hex_digit ((w / 16 ^ i) mod 16)%N) [7; 6; 5; 4; 3; 2; 1; 0]%N.
