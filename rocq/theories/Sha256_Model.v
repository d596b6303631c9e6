(** Model of bricks/util/sha256.h, and of the implementation it uses, 3rdparty/stephan-brumme/sha256.h.

    Bytes are [N] below 256, [uint32_t] and [uint64_t] are [N] with arithmetic modulo 2^32 and 2^64; the machine is little-endian. *)
From stdpp Require Import list numbers.
From Coq Require Import NArith.

Notation byte_string := (list N) (only parsing).
Definition m32 (x : N) : N := (x mod 2 ^ 32)%N.
Definition m64 (x : N) : N := (x mod 2 ^ 64)%N.
Definition add32 (x y : N) : N := m32 (x + y).
Definition shl32 (x c : N) : N := m32 (N.shiftl x c).
Definition not32 (x : N) : N := N.lxor x (N.ones 32).
Infix "⊕" := add32 (at level 50, left associativity).

(** sha256.h 50-53. *)
Definition rotate (a c : N) : N := N.lor (N.shiftr a c) (shl32 a (32 - c)).
(** 55-68. *)
Definition swap (x : N) : N :=
  N.lor (N.lor (N.lor (N.shiftr x 24) (N.land (N.shiftr x 8) 0x0000FF00)) (N.land (shl32 x 8) 0x00FF0000)) (shl32 x 24).
(** 71-76. *)
Definition f1 (e f g : N) : N :=
  let term1 := N.lxor (N.lxor (rotate e 6) (rotate e 11)) (rotate e 25) in
  let term2 := N.lxor (N.land e f) (N.land (not32 e) g) in
  term1 ⊕ term2.
(** 78-83. *)
Definition f2 (a b c : N) : N :=
  let term1 := N.lxor (N.lxor (rotate a 2) (rotate a 13)) (rotate a 22) in
  let term2 := N.lor (N.land (N.lor a b) c) (N.land a b) in
  term1 ⊕ term2.

(** The constants in 257-378, in order. *)
Definition constants : list N :=
  [ 0x428a2f98; 0x71374491; 0xb5c0fbcf; 0xe9b5dba5; 0x3956c25b; 0x59f111f1; 0x923f82a4; 0xab1c5ed5;
    0xd807aa98; 0x12835b01; 0x243185be; 0x550c7dc3; 0x72be5d74; 0x80deb1fe; 0x9bdc06a7; 0xc19bf174;
    0xe49b69c1; 0xefbe4786; 0x0fc19dc6; 0x240ca1cc; 0x2de92c6f; 0x4a7484aa; 0x5cb0a9dc; 0x76f988da;
    0x983e5152; 0xa831c66d; 0xb00327c8; 0xbf597fc7; 0xc6e00bf3; 0xd5a79147; 0x06ca6351; 0x14292967;
    0x27b70a85; 0x2e1b2138; 0x4d2c6dfc; 0x53380d13; 0x650a7354; 0x766a0abb; 0x81c2c92e; 0x92722c85;
    0xa2bfe8a1; 0xa81a664b; 0xc24b8b70; 0xc76c51a3; 0xd192e819; 0xd6990624; 0xf40e3585; 0x106aa070;
    0x19a4c116; 0x1e376c08; 0x2748774c; 0x34b0bcb5; 0x391c0cb3; 0x4ed8aa4a; 0x5b9cca4f; 0x682e6ff3;
    0x748f82ee; 0x78a5636f; 0x84c87814; 0x8cc70208; 0x90befffa; 0xa4506ceb; 0xbef9a3f7; 0xc67178f2 ]%N.

(** The variables a, b, c, d, e, f, g, h. *)
Definition vars : Type := N * N * N * N * N * N * N * N.

(** One of the eight groups of lines, such as 256-264, [r] from 0 to 7.
    SIMPL: the groups differ in the constants and the words only. *)
Definition eight_lines (words : list N) (r : nat) (s : vars) : vars :=
  let k j := nth (8 * r + j) constants 0%N in let w j := nth (8 * r + j) words 0%N in
  let '(a, b, c, d, e, f, g, h) := s in
  let x := h ⊕ f1 e f g ⊕ k 0 ⊕ w 0 in let y := f2 a b c in let d := d ⊕ x in let h := x ⊕ y in
  let x := g ⊕ f1 d e f ⊕ k 1 ⊕ w 1 in let y := f2 h a b in let c := c ⊕ x in let g := x ⊕ y in
  let x := f ⊕ f1 c d e ⊕ k 2 ⊕ w 2 in let y := f2 g h a in let b := b ⊕ x in let f := x ⊕ y in
  let x := e ⊕ f1 b c d ⊕ k 3 ⊕ w 3 in let y := f2 f g h in let a := a ⊕ x in let e := x ⊕ y in
  let x := d ⊕ f1 a b c ⊕ k 4 ⊕ w 4 in let y := f2 e f g in let h := h ⊕ x in let d := x ⊕ y in
  let x := c ⊕ f1 h a b ⊕ k 5 ⊕ w 5 in let y := f2 d e f in let g := g ⊕ x in let c := x ⊕ y in
  let x := b ⊕ f1 g h a ⊕ k 6 ⊕ w 6 in let y := f2 c d e in let f := f ⊕ x in let b := x ⊕ y in
  let x := a ⊕ f1 f g h ⊕ k 7 ⊕ w 7 in let y := f2 b c d in let e := e ⊕ x in let a := x ⊕ y in
  (a, b, c, d, e, f, g, h).

(** One turn of the loops such as 278-282, [i] being the number of words so far. *)
Definition extend_by_one (words : list N) : list N :=
  let i := length words in let w j := nth (i - j) words 0%N in
  words ++ [w 16 ⊕ N.lxor (N.lxor (rotate (w 15) 7) (rotate (w 15) 18)) (N.shiftr (w 15) 3) ⊕
            w 7 ⊕ N.lxor (N.lxor (rotate (w 2) 17) (rotate (w 2) 19)) (N.shiftr (w 2) 10)].
Definition extend (words : list N) : list N := Nat.iter 8 extend_by_one words.

(** Reading a little-endian uint32_t. *)
Fixpoint load_words (data : byte_string) : list N :=
  match data with
  | b0 :: b1 :: b2 :: b3 :: data' => (b0 + 256 * (b1 + 256 * (b2 + 256 * b3)))%N :: load_words data'
  | _ => []
  end.

(** 233-390, processBlock.  [data]: 64 bytes. *)
Definition process_block (hash : list N) (data : byte_string) : list N :=
  let words := map swap (load_words data) in                                       (* 246-255 *)
  match hash with
  | [a; b; c; d; e; f; g; h] =>
      let s := (a, b, c, d, e, f, g, h) in
      let s := eight_lines words 0 s in
      let s := eight_lines words 1 s in
      let words := extend words in let s := eight_lines words 2 s in
      let words := extend words in let s := eight_lines words 3 s in
      let words := extend words in let s := eight_lines words 4 s in
      let words := extend words in let s := eight_lines words 5 s in
      let words := extend words in let s := eight_lines words 6 s in
      let words := extend words in let s := eight_lines words 7 s in
      let '(a', b', c', d', e', f', g', h') := s in
      [a ⊕ a'; b ⊕ b'; c ⊕ c'; d ⊕ d'; e ⊕ e'; f ⊕ f'; g ⊕ g'; h ⊕ h']              (* 381-389 *)
  | _ => hash
  end.

(** 461-468: the members.  [buffer]: all the 64 bytes of m_buffer, whatever they are. *)
Record sha256 := Sha256 { num_bytes : N; buffer_size : nat; buffer : byte_string; hash : list N }.
Definition block_size : nat := 64.

(** 215-229.  The contents of the buffer are arbitrary. *)
Definition reset (buffer : byte_string) : sha256 :=
  Sha256 0 0 buffer [0x6a09e667; 0xbb67ae85; 0x3c6ef372; 0xa54ff53a; 0x510e527f; 0x9b05688c; 0x1f83d9ab; 0x5be0cd19]%N.

(** 130-137 and 161-166: bytes go into the buffer one by one, as long as there is room. *)
Fixpoint fill (size : nat) (buffer data : byte_string) : nat * byte_string * byte_string :=
  match data with
  | [] => (size, buffer, [])
  | b :: data' => if bool_decide (size < block_size) then fill (S size) (<[size := b]> buffer) data' else (size, buffer, data)
  end.
(** 152-158: whole blocks; [n] bounds the number of turns. *)
Fixpoint whole_blocks (n : nat) (num_bytes : N) (hash : list N) (data : byte_string) : N * list N * byte_string :=
  match n with
  | 0 => (num_bytes, hash, data)
  | S n' => if bool_decide (block_size ≤ length data)
            then whole_blocks n' (m64 (num_bytes + 64)) (process_block hash (take block_size data)) (drop block_size data)
            else (num_bytes, hash, data)
  end.
(** 126-167, add. *)
Definition add (s : sha256) (data : byte_string) : sha256 :=
  let '(size, buf, data) := if bool_decide (0 < buffer_size s) then fill (buffer_size s) (buffer s) data else (buffer_size s, buffer s, data) in
  let '(num, h, size) := if bool_decide (size = block_size) then (m64 (num_bytes s + 64), process_block (hash s) buf, 0) else (num_bytes s, hash s, size) in
  match data with
  | [] => Sha256 num size buf h
  | _ =>
      let '(num, h, data) := whole_blocks (length data) num h data in
      let '(size, buf, _) := fill size buf data in
      Sha256 num size buf h
  end.

(** 421-427: [extra] is uninitialized, [junk]. *)
Definition put (l : byte_string) (i : nat) (bs : byte_string) : byte_string := take i l ++ bs ++ drop (i + length bs) l.
Definition process_buffer (junk : byte_string) (s : sha256) : sha256 :=
  let size := buffer_size s in
  let padded := size * 8 + 1 in
  let lower := padded mod 512 in
  let padded := if bool_decide (lower ≤ 448) then padded + (448 - lower) else padded + (512 + 448 - lower) in
  let padded := padded / 8 in
  let '(buf, extra) := if bool_decide (size < block_size) then (<[size := 128%N]> (buffer s), junk) else (buffer s, <[0 := 128%N]> junk) in
  let buf := put buf (size + 1) (replicate (block_size - (size + 1)) 0%N) in           (* 430-431 *)
  let i := Nat.max (size + 1) block_size in
  let extra := put extra (i - block_size) (replicate (padded - i) 0%N) in              (* 432-433 *)
  let bits := m64 (8 * (num_bytes s + N.of_nat size)) in
  let length8 := map (λ k, N.land (N.shiftr bits k) 0xFF) [56; 48; 40; 32; 24; 16; 8; 0]%N in (* 443-451 *)
  let '(buf, extra) := if bool_decide (padded < block_size) then (put buf padded length8, extra) else (buf, put extra (padded - block_size) length8) in
  let h := process_block (hash s) buf in
  let h := if bool_decide (block_size < padded) then process_block h extra else h in
  Sha256 (num_bytes s) size buf h.

(** 171, dec2hex. *)
Definition dec2hex : byte_string := [48; 49; 50; 51; 52; 53; 54; 55; 56; 57; 97; 98; 99; 100; 101; 102]%N.
(** 184-195. *)
Definition hex_word (w : N) : byte_string :=
  map (λ k, nth (N.to_nat (N.land (N.shiftr w k) 15)) dec2hex 0%N) [28; 24; 20; 16; 12; 8; 4; 0]%N.
(** 169-204, getHash: the hash is restored, the padding remains in the buffer. *)
Definition get_hash (junk : byte_string) (s : sha256) : byte_string * sha256 :=
  let s' := process_buffer junk s in
  (concat (map hex_word (hash s')), Sha256 (num_bytes s') (buffer_size s') (buffer s') (hash s)).

(** bricks/util/sha256.h 32-34, current::SHA256; 211-213 for the constructor. *)
Definition SHA256 (buffer junk : byte_string) (input : byte_string) : byte_string := (get_hash junk (add (reset buffer) input)).1.
