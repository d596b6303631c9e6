(** SHA-256: bytes and bits, the buffer. *)
From stdpp Require Import list numbers.
From Coq Require Import NArith Lia.
From Verif Require Import Sha256_Model Sha256_Spec Sha256_Proofs.

Definition is_byte (b : N) : Prop := (b < 256)%N.

(** ** Big-endian words *)
Lemma tb b x i : is_byte b → N.testbit (b + 256 * x) i = if (i <? 8)%N then N.testbit b i else N.testbit x (i - 8).
Proof.
  unfold is_byte. intros Hb. destruct (N.ltb_spec i 8) as [Hi|Hi].
  - rewrite <- (N.mod_pow2_bits_low (b + 256 * x) 8 i) by done. f_equal. change (2 ^ 8)%N with 256%N.
    rewrite N.mul_comm, N.mod_add by done. by apply N.mod_small.
  - rewrite <- (N.shiftr_spec' (b + 256 * x) 8 (i - 8)), N.shiftr_div_pow2 at 1 || idtac.
    replace (N.testbit (b + 256 * x) i) with (N.testbit (N.shiftr (b + 256 * x) 8) (i - 8)) by (rewrite N.shiftr_spec'; f_equal; lia).
    rewrite N.shiftr_div_pow2. change (2 ^ 8)%N with 256%N. f_equal. rewrite N.mul_comm, N.div_add by done. rewrite N.div_small by done. done.
Qed.
Lemma byte_high b i : is_byte b → (8 ≤ i)%N → N.testbit b i = false.
Proof.
  intros Hb Hi. unfold is_byte in Hb. rewrite <- (N.mod_small b (2 ^ 8)) by done. by apply N.mod_pow2_bits_high.
Qed.
Lemma m32_testbit x i : N.testbit (m32 x) i = if (i <? 32)%N then N.testbit x i else false.
Proof.
  unfold m32. destruct (N.ltb_spec i 32); [by apply N.mod_pow2_bits_low|by apply N.mod_pow2_bits_high].
Qed.
Lemma shiftl_testbit x c i : N.testbit (N.shiftl x c) i = if (i <? c)%N then false else N.testbit x (i - c).
Proof. destruct (N.ltb_spec i c); [by apply N.shiftl_spec_low|by apply N.shiftl_spec_high']. Qed.
Lemma mask_testbit k i : N.testbit (N.shiftl 255 k) i = if (i <? k)%N then false else (i - k <? 8)%N.
Proof.
  rewrite shiftl_testbit. destruct (N.ltb_spec i k); [done|]. change 255%N with (N.ones 8).
  destruct (N.ltb_spec (i - k) 8); [by apply N.ones_spec_low|by apply N.ones_spec_high].
Qed.
Lemma swap_bytes b0 b1 b2 b3 : is_byte b0 → is_byte b1 → is_byte b2 → is_byte b3 →
  swap (b0 + 256 * (b1 + 256 * (b2 + 256 * b3))) = (b3 + 256 * (b2 + 256 * (b1 + 256 * b0)))%N.
Proof.
  intros H0 H1 H2 H3. apply N.bits_inj. intros i. unfold swap, shl32.
  change 0x0000FF00%N with (N.shiftl 255 8). change 0x00FF0000%N with (N.shiftl 255 16).
  rewrite !N.lor_spec, !N.land_spec, !N.shiftr_spec', !m32_testbit, !mask_testbit, !shiftl_testbit, !tb by done.
  assert (i < 8 ∨ 8 ≤ i < 16 ∨ 16 ≤ i < 24 ∨ 24 ≤ i < 32 ∨ 32 ≤ i)%N as Hi by lia.
  destruct Hi as [Hi|[Hi|[Hi|[Hi|Hi]]]];
    repeat match goal with
    | |- context [N.ltb ?a ?b] =>
      first [ rewrite (proj2 (N.ltb_lt a b)) by lia | rewrite (proj2 (N.ltb_ge a b)) by lia ]; cbv iota
    end;
    rewrite ?orb_false_r, ?orb_false_l, ?andb_false_r, ?andb_true_r, ?andb_false_l; try done;
    rewrite ?(byte_high b0), ?(byte_high b1), ?(byte_high b2), ?(byte_high b3) by (done || lia); rewrite ?orb_false_r, ?orb_false_l; try done;
    try (f_equal; lia).
Qed.
Fixpoint be_words (data : list N) : list N :=
  match data with
  | b0 :: b1 :: b2 :: b3 :: data' => (b3 + 256 * (b2 + 256 * (b1 + 256 * b0)))%N :: be_words data'
  | _ => []
  end.
Lemma words_of_be n : ∀ data, length data = 4 * n → Forall is_byte data → words_of data = be_words data ∧ length (words_of data) = n.
Proof.
  induction n as [|n IH]; intros data Hlen Hb; [by destruct data|].
  do 4 (destruct data as [|? data]; [simpl in Hlen; lia|]). unfold words_of. cbn [load_words map be_words length].
  repeat (apply Forall_cons_1 in Hb as [? Hb]). destruct (IH data) as [E1 E2]; [simpl in Hlen; lia|done|].
  rewrite swap_bytes by done. unfold words_of in E1, E2. split; [by rewrite E1|]. f_equal. done.
Qed.

(** ** Bits *)
Lemma number_bits8 b : is_byte b → number (bits 8 b) = b.
Proof.
  intros Hb. assert (forallb (λ n, N.eqb (number (bits 8 (N.of_nat n))) (N.of_nat n)) (seq 0 256) = true) as H by (vm_compute; reflexivity).
  rewrite forallb_forall in H. specialize (H (N.to_nat b)). rewrite N2Nat.id in H. apply N.eqb_eq, H, in_seq. unfold is_byte in Hb. lia.
Qed.
Lemma fold_number l : ∀ n, fold_left (λ n b, 2 * n + (if b : bool then 1 else 0))%N l n = (n * 2 ^ N.of_nat (length l) + number l)%N.
Proof.
  unfold number. induction l as [|b l IH]; intros n; cbn [fold_left length]; [simpl; lia|]. rewrite IH, (IH (_ + _)%N).
  rewrite Nat2N.inj_succ, N.pow_succ_r'. lia.
Qed.
Lemma number_app l l' : number (l ++ l') = (number l * 2 ^ N.of_nat (length l') + number l')%N.
Proof. unfold number at 1. rewrite fold_left_app. apply fold_number. Qed.
Lemma bits_length n x : length (bits n x) = n.
Proof. unfold bits. by rewrite map_length, rev_length, seq_length. Qed.
Lemma message_cons b s : message (b :: s) = bits 8 b ++ message s. Proof. done. Qed.
Lemma message_app s s' : message (s ++ s') = message s ++ message s'.
Proof. unfold message. by rewrite map_app, concat_app. Qed.
Lemma message_length s : length (message s) = 8 * length s.
Proof. induction s as [|b s IH]; [done|]. rewrite message_cons, app_length, bits_length, IH. simpl. lia. Qed.

Lemma cut_fuel {A} n f : ∀ f' (l : list A), 0 < n → length l ≤ f → length l ≤ f' → cut f n l = cut f' n l.
Proof.
  induction f as [|f IH]; intros f' l Hn H H'.
  - destruct l; [|simpl in H; lia]. by destruct f'.
  - destruct f' as [|f']; [destruct l; [done|simpl in H'; lia]|]. cbn [cut]. destruct l as [|a l]; [done|].
    f_equal. assert (length (drop n (a :: l)) < length (a :: l)) by (rewrite drop_length; simpl; lia). apply IH; lia.
Qed.
Lemma pieces_app {A} n (a l : list A) : 0 < n → length a = n → pieces n (a ++ l) = a :: pieces n l.
Proof.
  intros Hn Ha. unfold pieces. destruct a as [|x a]; [simpl in Ha; lia|]. change ((x :: a) ++ l) with (x :: (a ++ l)). cbn [length cut].
  change (x :: a ++ l) with ((x :: a) ++ l). rewrite take_app_alt, drop_app_alt by done. f_equal. apply cut_fuel; rewrite ?app_length; lia.
Qed.
Lemma pieces_nil {A} n : pieces n (@nil A) = []. Proof. done. Qed.
Lemma pieces_app_many {A} n q : ∀ a l : list A, 0 < n → length a = q * n → pieces n (a ++ l) = pieces n a ++ pieces n l.
Proof.
  induction q as [|q IH]; intros a l Hn Ha; [by destruct a|].
  rewrite <- (take_drop n a). rewrite <- app_assoc. rewrite !(pieces_app n (take n a)) by (rewrite ?take_length; lia). cbn [app]. f_equal.
  apply IH; [done|]. rewrite drop_length. lia.
Qed.

Lemma words_message n : ∀ data, length data = 4 * n → Forall is_byte data → words (message data) = be_words data.
Proof.
  unfold words. induction n as [|n IH]; intros data Hlen Hb; [by destruct data|].
  do 4 (destruct data as [|? data]; [simpl in Hlen; lia|]). cbn [be_words].
  repeat (apply Forall_cons_1 in Hb as [? Hb]). rewrite !message_cons.
  rewrite (app_assoc (bits 8 n3)), (app_assoc (bits 8 n2)), (app_assoc (bits 8 n1)) || idtac.
  rewrite !app_assoc. rewrite pieces_app; [|lia|rewrite !app_length, !bits_length; done].
  cbn [map]. f_equal; [|apply IH; [simpl in Hlen; lia|done]].
  rewrite !number_app, !bits_length, !number_bits8 by done. change (2 ^ N.of_nat 8)%N with 256%N. lia.
Qed.
Lemma blocks_message q : ∀ data, length data = q * 64 → pieces 512 (message data) = map message (pieces 64 data).
Proof.
  induction q as [|q IH]; intros data Hlen; [by destruct data|].
  rewrite <- (take_drop 64 data). rewrite message_app. rewrite pieces_app; [|lia|rewrite message_length, take_length; lia].
  rewrite (pieces_app 64) by (rewrite ?take_length; lia). cbn [map]. f_equal. apply IH. rewrite drop_length. lia.
Qed.
Lemma pieces_forall q : ∀ data, length data = q * 64 → Forall is_byte data → Forall (λ b, length b = 64 ∧ Forall is_byte b) (pieces 64 data).
Proof.
  induction q as [|q IH]; intros data Hlen Hb; [destruct data; [constructor|done]|].
  rewrite <- (take_drop 64 data). rewrite pieces_app by (rewrite ?take_length; lia). apply List.Forall_cons.
  - split; [rewrite take_length; lia|by apply Forall_take].
  - apply IH; [rewrite drop_length; lia|by apply Forall_drop].
Qed.

(** ** Padding *)
Definition length8 (b : N) : list N := map (λ k, N.land (N.shiftr b k) 0xFF) [56; 48; 40; 32; 24; 16; 8; 0]%N.
Definition zero_bytes (l : nat) : nat := (119 - l mod 64) mod 64.
Definition pad_bytes (s : list N) : list N := s ++ [128%N] ++ replicate (zero_bytes (length s)) 0%N ++ length8 (N.of_nat (8 * length s)).
Lemma land255_testbit x k j : (j < 8)%N → N.testbit (N.land (N.shiftr x k) 255) j = N.testbit x (j + k).
Proof.
  intros H. rewrite N.land_spec, N.shiftr_spec'. change 255%N with (N.ones 8). rewrite N.ones_spec_low by done. by rewrite andb_true_r.
Qed.
Lemma length8_message x : message (length8 x) = bits 64 x.
Proof.
  unfold length8, message. cbn [map concat]. unfold bits. cbn [seq rev app map N.of_nat Pos.of_succ_nat Pos.succ].
  rewrite !land255_testbit by done. reflexivity.
Qed.
Lemma zeros_bytes l : zeros (8 * l) = 7 + 8 * zero_bytes l.
Proof.
  unfold zeros, zero_bytes. pose proof (Nat.div_mod_eq l 64) as Hl. pose proof (Nat.mod_upper_bound l 64 ltac:(lia)) as Hr.
  set (q := l / 64) in *. set (r := l mod 64) in *. rewrite Hl.
  replace ((8 * (64 * q + r) + 1) mod 512) with (8 * r + 1) by (replace (8 * (64 * q + r) + 1) with (8 * r + 1 + q * 512) by lia; rewrite Nat.mod_add, Nat.mod_small; lia).
  destruct (decide (r ≤ 55)).
  - replace (448 + 512 - (8 * r + 1)) with (447 - 8 * r + 1 * 512) by lia. rewrite Nat.mod_add, Nat.mod_small by lia.
    replace (119 - r) with (55 - r + 1 * 64) by lia. rewrite Nat.mod_add, Nat.mod_small by lia. lia.
  - rewrite !Nat.mod_small by lia. lia.
Qed.
Lemma replicate_message n : message (replicate n 0%N) = replicate (8 * n) false.
Proof. induction n as [|n IH]; [done|]. cbn [replicate]. rewrite message_cons, IH. replace (8 * S n) with (8 + 8 * n) by lia. by rewrite replicate_add. Qed.
Lemma pad_message s : pad (message s) = message (pad_bytes s).
Proof.
  unfold pad, pad_bytes. rewrite message_length, !message_app, replicate_message, length8_message, zeros_bytes. f_equal.
Qed.
Lemma pad_bytes_length s : length (pad_bytes s) = ((length s + 72) / 64) * 64.
Proof.
  unfold pad_bytes, length8, zero_bytes. rewrite !app_length, replicate_length, map_length. simpl length.
  pose proof (Nat.div_mod_eq (length s) 64) as Hl. pose proof (Nat.mod_upper_bound (length s) 64 ltac:(lia)) as Hr.
  set (q := length s / 64) in *. set (r := length s mod 64) in *. rewrite Hl.
  destruct (decide (r ≤ 55)).
  - replace (119 - r) with (55 - r + 1 * 64) by lia. rewrite Nat.mod_add, Nat.mod_small by lia.
    replace (64 * q + r + 72) with ((r + 8) + (q + 1) * 64) by lia. rewrite Nat.div_add, Nat.div_small by lia. lia.
  - rewrite Nat.mod_small by lia. replace (64 * q + r + 72) with ((r - 56) + (q + 2) * 64) by lia. rewrite Nat.div_add, Nat.div_small by lia. lia.
Qed.
Lemma length8_bytes x : Forall is_byte (length8 x).
Proof.
  apply Forall_forall. intros b Hb. apply in_map_iff in Hb as (k & <- & _). unfold is_byte.
  change 255%N with (N.ones 8). rewrite N.land_ones. by apply N.mod_lt.
Qed.
Lemma pad_bytes_bytes s : Forall is_byte s → Forall is_byte (pad_bytes s).
Proof.
  intros H. unfold pad_bytes. rewrite !Forall_app. split; [done|]. split; [repeat constructor|]. split; [|apply length8_bytes].
  apply Forall_forall. intros x Hx. by apply elem_of_list_In, elem_of_replicate in Hx as [-> _].
Qed.

Lemma fold_blocks bs : ∀ H, Forall (λ b, length b = 64 ∧ Forall is_byte b) bs → length H = 8 → Forall is_word H →
  fold_left process_block bs H = fold_left compress (map words (map message bs)) H ∧ length (fold_left process_block bs H) = 8 ∧ Forall is_word (fold_left process_block bs H).
Proof.
  induction bs as [|b bs IH]; intros H Hb HH HH'; [done|]. cbn [fold_left map]. apply Forall_cons_1 in Hb as [[Hlen Hb] Hbs].
  destruct (words_of_be 16 b) as [Hw Hw']; [done|done|].
  destruct (process_block_compress H b) as (Hp & Hp1 & Hp2); [done|done|done|].
  rewrite (words_message 16) by done. rewrite <- Hw, <- Hp. apply IH; done.
Qed.
Lemma H0_words : length H0 = 8 ∧ Forall is_word H0.
Proof. rewrite (H0_reset []). split; [done|]. repeat constructor. Qed.
Lemma digest_bytes s : Forall is_byte s → digest (message s) = fold_left process_block (pieces 64 (pad_bytes s)) H0 ∧ Forall is_word (digest (message s)).
Proof.
  intros Hs. unfold digest. rewrite pad_message. erewrite blocks_message by apply pad_bytes_length.
  destruct (fold_blocks (pieces 64 (pad_bytes s)) H0) as (H1 & H2 & H3).
  - eapply pieces_forall; [apply pad_bytes_length|by apply pad_bytes_bytes].
  - apply H0_words.
  - apply H0_words.
  - rewrite <- H1. done.
Qed.
