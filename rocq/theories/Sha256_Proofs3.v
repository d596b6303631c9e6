(** SHA-256: the buffer. *)
From stdpp Require Import list numbers.
From Coq Require Import NArith Lia.
From Verif Require Import Sha256_Model Sha256_Spec Sha256_Proofs Sha256_Proofs2.
Local Opaque H0 process_block N.pow.

(** What the object holds after the bytes [msg]. *)
Definition holds (st : sha256) (msg : list N) : Prop :=
  ∃ q full rest, msg = full ++ rest ∧ length full = q * 64 ∧ length rest < 64 ∧
    num_bytes st = m64 (N.of_nat (q * 64)) ∧ hash st = fold_left process_block (pieces 64 full) H0 ∧
    buffer_size st = length rest ∧ take (length rest) (buffer st) = rest ∧ length (buffer st) = 64.

Lemma reset_holds buf : length buf = 64 → holds (reset buf) [].
Proof. intros H. exists 0, [], []. rewrite <- (H0_reset buf). repeat split; [simpl; lia|done]. Qed.

(** Filling the buffer. *)
Lemma fill_spec data : ∀ size buf, length buf = 64 → size ≤ 64 →
  ∃ n buf', fill size buf data = (size + n, buf', drop n data) ∧ n = Nat.min (length data) (64 - size) ∧
    length buf' = 64 ∧ take (size + n) buf' = take size buf ++ take n data.
Proof.
  induction data as [|b data IH]; intros size buf Hbuf Hsize; cbn [fill].
  - exists 0, buf. rewrite Nat.add_0_r, app_nil_r. done.
  - unfold block_size. destruct (bool_decide_reflect (size < 64)) as [Hlt|Hge].
    + destruct (IH (S size) (<[size := b]> buf)) as (n & buf' & E & Hn & Hl & Ht); [by rewrite insert_length|lia|].
      exists (S n), buf'. rewrite Nat.add_succ_r. cbn [drop take length]. rewrite E. split; [done|]. split; [lia|]. split; [done|].
      replace (S (size + n)) with (S size + n) by lia. rewrite Ht.
      rewrite (take_S_r (<[size := b]> buf) size b) by (apply list_lookup_insert; lia).
      rewrite take_insert by lia. by rewrite <- app_assoc.
    + exists 0, buf. rewrite Nat.add_0_r. cbn [drop take]. rewrite app_nil_r. split; [done|]. split; [lia|]. done.
Qed.
Lemma m64_add a b : m64 (m64 a + b) = m64 (a + b).
Proof. unfold m64. by rewrite N.add_mod_idemp_l. Qed.
Lemma whole_blocks_spec n : ∀ num h data, length data ≤ n →
  ∃ q full rest, data = full ++ rest ∧ length full = q * 64 ∧ length rest < 64 ∧
    whole_blocks n (m64 num) h data = (m64 (num + N.of_nat (q * 64)), fold_left process_block (pieces 64 full) h, rest).
Proof.
  induction n as [|n IH]; intros num h data Hn; cbn [whole_blocks].
  - exists 0, [], data. split; [done|]. split; [done|]. split; [lia|]. by rewrite N.add_0_r.
  - unfold block_size. destruct (bool_decide_reflect (64 ≤ length data)) as [Hge|Hlt].
    + destruct (IH (num + 64)%N (process_block h (take 64 data)) (drop 64 data)) as (q & full & rest & Hd & Hf & Hr & E); [rewrite drop_length; lia|].
      exists (S q), (take 64 data ++ full), rest. split; [by rewrite <- app_assoc, <- Hd, take_drop|].
      split; [rewrite app_length, take_length; lia|]. split; [done|]. rewrite m64_add, E.
      rewrite pieces_app by (rewrite ?take_length; lia). cbn [fold_left]. f_equal. f_equal. f_equal. lia.
    + exists 0, [], data. split; [done|]. split; [done|]. split; [lia|]. by rewrite N.add_0_r.
Qed.
Lemma add_holds st msg data : holds st msg → holds (add st data) (msg ++ data).
Proof.
  intros (q & full & rest & -> & Hf & Hr & Hnum & Hh & Hs & Hb & Hl). unfold add.
  assert (∃ n buf', (if bool_decide (0 < buffer_size st) then fill (buffer_size st) (buffer st) data else (buffer_size st, buffer st, data))
                    = (length rest + n, buf', drop n data) ∧ n ≤ length data ∧ length rest + n ≤ 64 ∧
                    (length rest + n < 64 → n = length data ∨ length rest = 0 ∧ n = 0) ∧
                    length buf' = 64 ∧ take (length rest + n) buf' = rest ++ take n data) as (n & buf' & E & Hn & Hn' & Hn'' & Hl' & Ht).
  { rewrite Hs. destruct (bool_decide_reflect (0 < length rest)) as [Hp|Hz].
    - destruct (fill_spec data (length rest) (buffer st)) as (n & buf' & E & Hn & Hl' & Ht); [done|lia|].
      exists n, buf'. rewrite Hb in Ht. split; [done|]. repeat split; try done; lia.
    - exists 0, (buffer st). rewrite Nat.add_0_r. cbn [drop take]. rewrite app_nil_r. repeat split; try done; lia. }
  rewrite E. clear E. change block_size with 64.
  assert (∃ q1 full1 rest1, full ++ rest ++ take n data = full1 ++ rest1 ∧ length full1 = q1 * 64 ∧ length rest1 < 64 ∧ take (length rest1) buf' = rest1 ∧
            (n = length data ∨ length rest1 = 0) ∧
            (if bool_decide (length rest + n = 64) then (m64 (num_bytes st + 64), process_block (hash st) buf', 0) else (num_bytes st, hash st, length rest + n))
            = (m64 (N.of_nat (q1 * 64)), fold_left process_block (pieces 64 full1) H0, length rest1))
    as (q1 & full1 & rest1 & Eall & Hf1 & Hr1 & Hb1 & Hor & E).
  { destruct (bool_decide_reflect (length rest + n = 64)) as [H64|H64].
    - exists (S q), (full ++ buf'), []. rewrite H64, take_ge in Ht by lia. rewrite app_nil_r, <- Ht. split; [done|].
      split; [rewrite app_length; lia|]. split; [simpl; lia|]. split; [done|]. split; [by right|].
      rewrite (pieces_app_many 64 q) by (done || lia). rewrite fold_left_app, <- Hh, <- (app_nil_r buf'), pieces_app by (done || lia). cbn [fold_left pieces length cut app].
      rewrite Hnum, m64_add. rewrite app_nil_r. cbn. f_equal. f_equal. f_equal. lia.
    - exists q, full, (rest ++ take n data). split; [done|]. rewrite app_length, take_length, Nat.min_l by done.
      repeat split; try done; [lia| |by rewrite Hnum, Hh]. destruct (Hn'' ltac:(lia)) as [?|[? ?]]; [by left|right; lia]. }
  rewrite E. clear E.
  assert ((full ++ rest) ++ data = full1 ++ rest1 ++ drop n data) as ->.
  { rewrite <- (take_drop n data) at 1. rewrite !app_assoc. rewrite <- Eall. by rewrite !app_assoc. }
  destruct (drop n data) as [|d data'] eqn:Ed.
  - rewrite app_nil_r. exists q1, full1, rest1. done.
  - destruct Hor as [Hor|Hor]; [rewrite Hor, drop_all in Ed; done|].
    destruct rest1; [|done]. cbn [app length].
    destruct (whole_blocks_spec (S (length data')) (N.of_nat (q1 * 64)) (fold_left process_block (pieces 64 full1) H0) (d :: data')) as (q2 & full2 & rest2 & Hd & Hf2 & Hr2 & E); [done|].
    rewrite E. destruct (fill_spec rest2 0 buf') as (k & buf2 & E2 & Hk & Hl2 & Ht2); [done|lia|].
    rewrite Nat.min_l in Hk by lia. subst k. rewrite take_0, firstn_all in Ht2. cbn [Nat.add app] in *. rewrite E2.
    exists (q1 + q2), (full1 ++ full2), rest2. cbn [num_bytes hash buffer_size buffer].
    split; [by rewrite Hd, app_assoc|]. split; [rewrite app_length; lia|]. split; [done|]. split; [f_equal; lia|].
    split; [by rewrite (pieces_app_many 64 q1), fold_left_app by (done || lia)|]. done.
Qed.

(** The padding. *)
Lemma length8_m64 x : length8 (m64 x) = length8 x.
Proof.
  unfold length8. cbn [map].
  assert (∀ k, (k + 8 ≤ 64)%N → N.land (N.shiftr (m64 x) k) 255 = N.land (N.shiftr x k) 255) as H.
  { intros k Hk. apply N.bits_inj. intros j. rewrite !N.land_spec. change 255%N with (N.ones 8). destruct (N.ltb_spec j 8).
    - rewrite !N.shiftr_spec'. unfold m64. by rewrite N.mod_pow2_bits_low by lia.
    - rewrite N.ones_spec_high by done. by rewrite !andb_false_r. }
  rewrite !H by lia. done.
Qed.
Lemma put_end (l : list N) i bs : length l = i + length bs → put l i bs = take i l ++ bs.
Proof. intros H. unfold put. rewrite (drop_ge l) by lia. by rewrite app_nil_r. Qed.
Lemma put_take (l : list N) i bs : i ≤ length l → take i (put l i bs) = take i l.
Proof. intros H. unfold put. rewrite take_app_alt; [done|]. rewrite take_length. lia. Qed.
Lemma put_length (l : list N) i bs : i + length bs ≤ length l → length (put l i bs) = length l.
Proof. intros H. unfold put. rewrite !app_length, take_length, drop_length. lia. Qed.
Lemma put_take_through (l : list N) i bs j : i + length bs ≤ length l → j = i + length bs → take j (put l i bs) = take i l ++ bs.
Proof. intros H ->. unfold put. rewrite app_assoc, take_app_alt; [done|]. rewrite app_length, take_length. lia. Qed.
Lemma take_insert_last (l : list N) i b : i < length l → take (i + 1) (<[i := b]> l) = take i l ++ [b].
Proof. intros H. rewrite Nat.add_1_r, (take_S_r _ _ b) by (by apply list_lookup_insert). by rewrite take_insert by lia. Qed.
Lemma length8_length x : length (length8 x) = 8. Proof. done. Qed.

Lemma process_buffer_spec junk st msg : length junk = 64 → holds st msg →
  hash (process_buffer junk st) = fold_left process_block (pieces 64 (pad_bytes msg)) H0 ∧
  num_bytes (process_buffer junk st) = num_bytes st ∧ buffer_size (process_buffer junk st) = buffer_size st ∧
  take (buffer_size st) (buffer (process_buffer junk st)) = take (buffer_size st) (buffer st) ∧ length (buffer (process_buffer junk st)) = 64.
Proof.
  intros Hj (q & full & rest & -> & Hf & Hr & Hnum & Hh & Hs & Hb & Hl).
  set (r := length rest) in *.
  assert (pad_bytes (full ++ rest) = full ++ rest ++ [128%N] ++ replicate ((119 - r) mod 64) 0%N ++ length8 (N.of_nat (8 * (q * 64 + r)))) as Hpad.
  { unfold pad_bytes. rewrite app_length, Hf. fold r. unfold zero_bytes. replace ((q * 64 + r) mod 64) with r by (rewrite Nat.add_comm, Nat.mod_add, Nat.mod_small; lia).
    by rewrite <- app_assoc. }
  rewrite Hpad, (pieces_app_many 64 q), fold_left_app by (done || lia). rewrite <- Hh.
  assert (length8 (m64 (8 * (num_bytes st + N.of_nat r))) = length8 (N.of_nat (8 * (q * 64 + r)))) as H8.
  { rewrite length8_m64, Hnum, <- (length8_m64 (N.of_nat _)), <- (length8_m64 (8 * _)). f_equal. unfold m64.
    rewrite <- (N.mul_mod_idemp_r 8) by done. rewrite N.add_mod_idemp_l by done. rewrite N.mul_mod_idemp_r by done. f_equal. lia. }
  unfold process_buffer. rewrite Hs. unfold block_size.
  rewrite (bool_decide_eq_true_2 (r < 64)) by done. rewrite (Nat.mod_small (r * 8 + 1)) by lia.
  fold (length8 (m64 (8 * (num_bytes st + N.of_nat r)))). rewrite H8. set (L := length8 _) in *. assert (length L = 8) as HL by done. clearbody L. clear H8 Hpad.
  set (buf1 := <[r:=128%N]> (buffer st)). assert (length buf1 = 64) as Hl1 by (unfold buf1; by rewrite insert_length).
  assert (take (r + 1) buf1 = rest ++ [128%N]) as Ht1 by (unfold buf1; rewrite take_insert_last by lia; by rewrite Hb).
  set (buf2 := put buf1 (r + 1) (replicate (64 - (r + 1)) 0%N)).
  assert (buf2 = rest ++ [128%N] ++ replicate (63 - r) 0%N) as Hbuf2.
  { unfold buf2. rewrite put_end by (rewrite replicate_length; lia). rewrite Ht1, <- app_assoc. do 3 f_equal. lia. }
  assert (length buf2 = 64) as Hl2 by (rewrite Hbuf2, !app_length, replicate_length; simpl; fold r; lia).
  assert (take r buf2 = rest) as Ht2 by (rewrite Hbuf2; by apply take_app).
  clearbody buf2. clear buf1 Hl1 Ht1.
  destruct (decide (r ≤ 55)) as [H55|H55].
  - assert ((if bool_decide (r * 8 + 1 ≤ 448) then r * 8 + 1 + (448 - (r * 8 + 1)) else r * 8 + 1 + (512 + 448 - (r * 8 + 1))) / 8 = 56) as ->.
    { rewrite bool_decide_eq_true_2 by lia. by replace (r * 8 + 1 + (448 - (r * 8 + 1))) with (56 * 8) by lia. }
    rewrite (bool_decide_eq_true_2 (56 < 64)), (bool_decide_eq_false_2 (64 < 56)) by lia. cbn [num_bytes hash buffer_size buffer].
    assert (put buf2 56 L = rest ++ [128%N] ++ replicate ((119 - r) mod 64) 0%N ++ L) as Hp.
    { rewrite put_end by lia. rewrite Hbuf2. replace ((119 - r) mod 64) with (55 - r) by (replace (119 - r) with (55 - r + 1 * 64) by lia; rewrite Nat.mod_add, Nat.mod_small; lia).
      replace (63 - r) with ((55 - r) + 8) by lia. rewrite replicate_add. rewrite !app_assoc. f_equal. rewrite take_app_alt; [done|].
      rewrite !app_length, replicate_length. simpl. fold r. lia. }
    split; [|split; [done|split; [done|split; [|by rewrite put_length by lia]]]].
    + rewrite <- Hp. rewrite <- (app_nil_r (put _ _ _)), pieces_app by (rewrite ?put_length; lia). by rewrite app_nil_r.
    + rewrite Hb, Hp. by apply take_app.
  - assert ((if bool_decide (r * 8 + 1 ≤ 448) then r * 8 + 1 + (448 - (r * 8 + 1)) else r * 8 + 1 + (512 + 448 - (r * 8 + 1))) / 8 = 120) as ->.
    { rewrite bool_decide_eq_false_2 by lia. by replace (r * 8 + 1 + (512 + 448 - (r * 8 + 1))) with (120 * 8) by lia. }
    rewrite (bool_decide_eq_false_2 (120 < 64)), (bool_decide_eq_true_2 (64 < 120)) by lia. cbn [num_bytes hash buffer_size buffer].
    rewrite Nat.max_r by lia. change (64 - 64) with 0. change (120 - 64) with 56.
    split; [|split; [done|split; [done|split; [|done]]]]; [|by rewrite Hb, Ht2].
    rewrite (Nat.mod_small (119 - r)) by lia. replace (119 - r) with ((63 - r) + 56) by lia. rewrite replicate_add.
    replace (rest ++ [128%N] ++ (replicate (63 - r) 0%N ++ replicate 56 0%N) ++ L) with (buf2 ++ (replicate 56 0%N ++ L) ++ []) by (rewrite Hbuf2, app_nil_r, <- !app_assoc; done).
    assert (put (put junk 0 (replicate 56 0%N)) 56 L = replicate 56 0%N ++ L) as ->.
    { rewrite put_end by (rewrite put_length; rewrite ?replicate_length; lia).
      rewrite (put_take_through _ _ _ 56) by (rewrite ?replicate_length; lia). by rewrite take_0. }
    rewrite !pieces_app by (done || rewrite ?app_length, ?replicate_length; lia). rewrite pieces_nil. cbn [fold_left]. reflexivity.
Qed.

(** Hexadecimal digits. *)
Lemma hex_digits : ∀ d, (d < 16)%N → nth (N.to_nat d) dec2hex 0%N = hex_digit d.
Proof.
  intros d Hd. assert (forallb (λ n, N.eqb (nth n dec2hex 0%N) (hex_digit (N.of_nat n))) (seq 0 16) = true) as H by (vm_compute; reflexivity).
  rewrite forallb_forall in H. specialize (H (N.to_nat d)). rewrite N2Nat.id in H. apply N.eqb_eq, H, in_seq. lia.
Qed.
Lemma hex_word_hex w : hex_word w = hex w.
Proof.
  assert (∀ k, nth (N.to_nat (N.land (N.shiftr w (4 * k)) 15)) dec2hex 0%N = hex_digit ((w / 16 ^ k) mod 16)) as H.
  { intros k. change 15%N with (N.ones 4). rewrite N.land_ones, N.shiftr_div_pow2, N.pow_mul_r. change (2 ^ 4)%N with 16%N.
    apply hex_digits. by apply N.mod_lt. }
  unfold hex_word, hex. cbn [map]. rewrite <- !H. reflexivity.
Qed.
Definition sha256_hex (msg : list N) : list N := concat (map hex (digest (message msg))).
Lemma get_hash_spec junk st msg : length junk = 64 → holds st msg → Forall is_byte msg →
  (get_hash junk st).1 = sha256_hex msg ∧ holds (get_hash junk st).2 msg.
Proof.
  intros Hj Hh Hb. destruct (process_buffer_spec junk st msg Hj Hh) as (H1 & H2 & H3 & H4 & H5).
  unfold get_hash. cbn [fst snd]. split.
  - unfold sha256_hex. destruct (digest_bytes msg Hb) as [-> _]. rewrite <- H1. f_equal. apply map_ext. apply hex_word_hex.
  - destruct Hh as (q & full & rest & -> & Hf & Hr & Hnum & Hh & Hs & Hb' & Hl). exists q, full, rest. cbn [num_bytes hash buffer_size buffer].
    rewrite H2, H3. repeat split; try done. rewrite <- Hs, H4, Hs. done.
Qed.
