From stdpp Require Import list strings.
From Coq Require Import ZArith.
From Verif Require Base Dec Strings_Model Strings_Props.
From Verif Require Import Http_Model Http_Spec Http_Proofs.

Lemma normalize_fold c : normalize_char c = fold_char c.
Proof. unfold normalize_char, fold_char, to_lower. repeat destruct (decide _); lia. Qed.
Lemma header_name_equals_spec a b : header_name_equals a b = true ↔ same_name a b.
Proof.
  unfold header_name_equals, same_name. rewrite bool_decide_eq_true.
  rewrite (map_ext normalize_char fold_char normalize_fold a), (map_ext normalize_char fold_char normalize_fold b). done.
Qed.
Lemma header_name_equals_false a b : ¬ same_name a b → header_name_equals a b = false.
Proof. intros H. destruct (header_name_equals a b) eqn:E; [|done]. by apply header_name_equals_spec in E. Qed.

Lemma split_line_plain l r : plain l → split_line (l ++ CR :: LF :: r) = Some (l, r).
Proof.
  induction 1 as [|c l (H0 & H1 & H2) H IH]; cbn [app split_line].
  - rewrite decide_False by done. by rewrite decide_True by done.
  - rewrite decide_False by done. rewrite decide_False by (by intros [-> _]). by rewrite IH.
Qed.
Lemma meaning_line p l r : plain l → meaning p (l ++ CR :: LF :: r) =
  match on_line l p with
  | NextLine p' => meaning p' r
  | ReadChunk n p' => if decide (n ≤ length r) then meaning (on_chunk (take n r) p') (drop n r) else Failed SocketClosed
  | ReadBody n => if decide (n ≤ length r) then message p (take n r) else Failed SocketClosed
  | Finish o => o
  end.
Proof. intros H. rewrite meaning_unfold. by rewrite split_line_plain. Qed.

(** * The first line *)
Lemma word_plain s : word s → plain s.
Proof. intros [_ H]. eapply Forall_impl; [exact H|]. simpl. intros c (? & ? & ?). split_and!; lia. Qed.
Lemma not_space_false c : c ≠ 32%N → ¬ (9 ≤ c ∧ c ≤ 13)%N → Strings_Model.is_space c = false.
Proof. intros H1 H2. unfold Strings_Model.is_space. apply orb_false_iff. split; [by apply N.eqb_neq|]. apply andb_false_iff. rewrite !N.leb_gt. lia. Qed.
Lemma fields_word w c r : Forall (λ c, Strings_Model.is_space c = false) w → Strings_Model.is_space c = true →
  Strings_Props.fields Strings_Model.is_space (w ++ c :: r) = w :: Strings_Props.fields Strings_Model.is_space r.
Proof. intros H Hc. induction H as [|x w Hx H IH]; cbn [app Strings_Props.fields]; [by rewrite Hc|]. by rewrite Hx, IH. Qed.
Lemma split_words a b c : word a → word b →
  ∃ r, Strings_Model.split Strings_Model.is_space false (a ++ [32%N] ++ b ++ [32%N] ++ c) = a :: b :: r.
Proof.
  intros [Na Ha] [Nb Hb]. rewrite Strings_Props.split_fields. cbn [app].
  rewrite fields_word; [|eapply Forall_impl; [exact Ha|]; simpl; intros x (? & ? & ?); by apply not_space_false|done].
  rewrite fields_word; [|eapply Forall_impl; [exact Hb|]; simpl; intros x (? & ? & ?); by apply not_space_false|done].
  unfold Strings_Props.keepf. destruct a as [|a0 a]; [done|]. destruct b as [|b0 b]; [done|]. cbn. by eexists.
Qed.
Definition after_first (a b : list N) : parsed := Parsed true a b [] None false false [].
Lemma first_line_meaning a b c s : word a → word b → plain c →
  meaning nothing_parsed (a ++ [32%N] ++ b ++ [32%N] ++ c ++ crlf ++ s) = meaning (after_first a b) s.
Proof.
  intros Ha Hb Hc. replace (a ++ [32%N] ++ b ++ [32%N] ++ c ++ crlf ++ s) with ((a ++ [32%N] ++ b ++ [32%N] ++ c) ++ CR :: LF :: s) by (by rewrite <- !(assoc_L (++))).
  rewrite meaning_line.
  - unfold on_line. cbn [nothing_parsed first_line_parsed]. destruct (a ++ [32%N] ++ b ++ [32%N] ++ c) as [|x l] eqn:E; [by destruct a|].
    f_equal. unfold first_line. rewrite <- E. destruct (split_words a b c Ha Hb) as [r ->]. done.
  - unfold plain. apply Forall_app. split; [by apply word_plain|]. apply Forall_app. split; [by repeat constructor|]. apply Forall_app. split; [by apply word_plain|].
    apply Forall_app. split; [by repeat constructor|done].
Qed.

(** * Headers *)
Lemma split_colon_spec k v : 58%N ∉ k → split_colon (k ++ 58%N :: v) = Some (k, v).
Proof.
  induction k as [|c k IH]; intros H; cbn [app split_colon]; [done|]. apply not_elem_of_cons in H as [H1 H2]. rewrite decide_False by done. by rewrite IH.
Qed.
Lemma strip_left_id s : (∀ c, head s = Some c → ¬ blank c) → strip_left s = s.
Proof.
  destruct s as [|c s]; intros H; [done|]. cbn [strip_left]. unfold space_or_tab. rewrite bool_decide_eq_false_2; [done|]. exact (H c eq_refl).
Qed.
Lemma strip_spec s : (∀ c, head s = Some c → ¬ blank c) → (∀ c, last s = Some c → ¬ blank c) → strip (32%N :: s) = s.
Proof.
  intros H1 H2. unfold strip. change (strip_left (32%N :: s)) with (strip_left s). rewrite (strip_left_id s H1).
  assert (strip_left (reverse s) = reverse s) as ->; [|apply reverse_involutive]. apply strip_left_id. intros c Hc. apply H2. destruct s as [|x s] using rev_ind; [done|].
  rewrite reverse_snoc in Hc. simpl in Hc. by rewrite last_snoc.
Qed.

(** What a header changes. *)
Definition is_length (h : list N * list N) : bool := header_name_equals h.1 kContentLength.
Definition is_override (h : list N * list N) : bool := header_name_equals h.1 kMethodOverride.
Definition is_chunked (h : list N * list N) : bool := header_name_equals h.1 kTransferEncoding && header_name_equals h.2 kChunked.
Definition add_header (p : parsed) (h : list N * list N) : parsed :=
  Parsed (first_line_parsed p) (if is_override h then map to_upper h.2 else method p) (raw_path p) (headers p ++ [h])
         (if is_length h then Some (atoi_size h.2) else body_length p) (is_chunked h || chunked_transfer_encoding p)
         (receiving_body_in_chunks p) (chunks p).
Definition too_large (h : list N * list N) : bool := is_length h && bool_decide (kMaxPayload < atoi_size h.2)%N.
Lemma names_differ a : header_name_equals a kContentLength = true → header_name_equals a kMethodOverride = false ∧ header_name_equals a kTransferEncoding = false.
Proof. intros H%header_name_equals_spec. split; apply header_name_equals_false; intros H'; unfold same_name in *; rewrite H in H'; discriminate. Qed.
Lemma names_differ2 a : header_name_equals a kMethodOverride = true → header_name_equals a kTransferEncoding = false.
Proof. intros H%header_name_equals_spec. apply header_name_equals_false; intros H'; unfold same_name in *; rewrite H in H'; discriminate. Qed.
Lemma header_line_spec h p : header_ok h → header_line (h.1 ++ [58; 32]%N ++ h.2) p = if too_large h then Finish (Failed PayloadTooLarge) else NextLine (add_header p h).
Proof.
  intros (H1 & H2 & H3 & H4 & H5). unfold header_line. change (h.1 ++ [58; 32]%N ++ h.2) with (h.1 ++ 58%N :: 32%N :: h.2). rewrite split_colon_spec by done. rewrite strip_spec by done.
  unfold too_large, add_header, is_length, is_override, is_chunked. destruct h as [k v]. cbn [fst snd].
  destruct (header_name_equals k kContentLength) eqn:E1.
  - destruct (names_differ _ E1) as [-> ->]. cbn [andb orb]. destruct (decide (kMaxPayload < atoi_size v)%N) as [Hd|Hd].
    + by rewrite bool_decide_eq_true_2.
    + by rewrite bool_decide_eq_false_2.
  - cbn [andb]. destruct (header_name_equals k kMethodOverride) eqn:E2.
    + by rewrite (names_differ2 _ E2).
    + destruct (_ && _); done.
Qed.
Lemma headers_meaning hs p s : Forall header_ok hs → Forall (λ h, too_large h = false) hs → first_line_parsed p = true → receiving_body_in_chunks p = false →
  meaning p (concat (map header_text hs) ++ s) = meaning (foldl add_header p hs) s.
Proof.
  intros H. revert p. induction H as [|h hs Hh H IH]; intros p Hl F R; [done|]. apply Forall_cons in Hl as [Hl1 Hl]. cbn [map concat foldl].
  replace ((header_text h ++ concat (map header_text hs)) ++ s) with ((h.1 ++ [58; 32]%N ++ h.2) ++ CR :: LF :: concat (map header_text hs) ++ s)
    by (unfold header_text; by rewrite <- !(assoc_L (++))).
  rewrite meaning_line.
  - unfold on_line. rewrite F, R. destruct (h.1 ++ [58; 32]%N ++ h.2) as [|x l] eqn:E; [by destruct (h.1)|]. rewrite <- E, header_line_spec, Hl1 by done. by apply IH.
  - destruct Hh as (H1 & _ & H3 & _). unfold plain. apply Forall_app. split; [done|]. apply Forall_app. split; [by repeat constructor|done].
Qed.
Lemma foldl_fields hs p : let q := foldl add_header p hs in
  first_line_parsed q = first_line_parsed p ∧ raw_path q = raw_path p ∧ headers q = headers p ++ hs ∧
  receiving_body_in_chunks q = receiving_body_in_chunks p ∧ chunks q = chunks p ∧
  chunked_transfer_encoding q = (existsb is_chunked hs || chunked_transfer_encoding p) ∧
  (Forall (λ h, is_override h = false) hs → method q = method p) ∧
  (Forall (λ h, is_length h = false) hs → body_length q = body_length p) ∧
  (∀ n, Exists (λ h, is_length h = true) hs → Forall (λ h, is_length h = true → atoi_size h.2 = n) hs → body_length q = Some n).
Proof.
  revert p. induction hs as [|h hs IH] using rev_ind; intros p; cbn zeta.
  - simpl. rewrite app_nil_r. split_and!; try done. intros n H. by apply Exists_nil in H.
  - rewrite foldl_app. cbn [foldl]. specialize (IH p). cbn zeta in IH. destruct IH as (I1 & I2 & I3 & I4 & I5 & I6 & I7 & I8 & I9).
    rewrite existsb_app. cbn [existsb]. generalize dependent (foldl add_header p hs). intros q I1 I2 I3 I4 I5 I6 I7 I8 I9.
    unfold add_header. cbn [first_line_parsed method raw_path headers body_length chunked_transfer_encoding receiving_body_in_chunks chunks].
    split_and!; try done.
    + by rewrite I3, <- (assoc_L (++)).
    + rewrite I6. destruct (is_chunked h), (existsb is_chunked hs), (chunked_transfer_encoding p); done.
    + intros [H1 H2]%Forall_app. apply Forall_cons in H2 as [-> _]. auto.
    + intros [H1 H2]%Forall_app. apply Forall_cons in H2 as [-> _]. auto.
    + intros n He [H1 H2]%Forall_app. apply Forall_cons in H2 as [H2 _]. destruct (is_length h) eqn:E.
      * by rewrite H2.
      * apply I9; [|done]. apply Exists_app in He as [He|He]; [done|]. apply Exists_cons in He as [He|He]; [by rewrite He in E|by apply Exists_nil in He].
Qed.
Lemma not_named name hs : no_header name hs → Forall (λ h : list N * list N, header_name_equals h.1 name = false) hs.
Proof. intros H. eapply Forall_impl; [exact H|]. intros h Hh. by apply header_name_equals_false. Qed.

(** * Numbers *)
Lemma digit_in_10 c : Dec.is_digit c = true → digit_in 10 c = Some (c - 48)%N.
Proof.
  unfold Dec.is_digit, digit_in, digit_value. rewrite andb_true_iff, !N.leb_le. intros [H1 H2]. rewrite decide_True by done. by rewrite decide_True by lia.
Qed.
Lemma digits_10 s a : Forall (λ c, Dec.is_digit c = true) s → digits 10 s (Some a) = Some (fold_left (λ a b, (a * 10 + (b - 48))%N) s a).
Proof. intros H. revert a. induction H as [|c s Hc H IH]; intros a; [done|]. cbn [digits]. rewrite digit_in_10 by done. cbn [default]. by rewrite IH. Qed.
Lemma atoi_dec n : (n ≤ kMaxPayload)%N → atoi_size (Dec.dec n) = n.
Proof.
  intros Hn. unfold atoi_size, strtol. pose proof (Dec.dec_is_digit n) as Hd. destruct (Dec.dec n) as [|c r] eqn:E; [by apply Dec.dec_nonempty in E|].
  apply Forall_cons in Hd as [Hc Hd]. cbn [skip_spaces].
  assert (48 ≤ c ∧ c ≤ 57)%N as Hr. { unfold Dec.is_digit in Hc. rewrite andb_true_iff, !N.leb_le in Hc. done. }
  assert (is_space c = false) as ->. { apply not_space_false; lia. }
  rewrite decide_False by lia. rewrite decide_False by lia. rewrite decide_False by done. cbn [digits]. rewrite digit_in_10 by done. rewrite digits_10 by done. cbn [default].
  change (fold_left _ r (0 * 10 + (c - 48))%N) with (Dec.horner (c :: r)). rewrite <- E, Dec.horner_dec.
  cbn [default from_option id]. unfold id. unfold kMaxPayload in Hn. assert (0 ≤ Z.of_N n ≤ 16777216)%Z as Hz by lia.
  assert (clamp (Z.of_N n) = Z.of_N n) as ->. { unfold clamp. change (2 ^ 63)%Z with 9223372036854775808%Z. lia. }
  unfold to_int. change (2 ^ 31)%Z with 2147483648%Z. change (2 ^ 32)%Z with 4294967296%Z. change (2 ^ 64)%Z with 18446744073709551616%Z.
  rewrite (Z.mod_small (Z.of_N n + 2147483648)) by lia. rewrite Z.mod_small by lia. lia.
Qed.

(** ** Hexadecimal numbers *)
Lemma digit_in_16 d : (d < 16)%N → digit_in 16 (hex_digit d) = Some d.
Proof.
  intros H. unfold digit_in, digit_value, hex_digit. destruct (decide (d < 10)%N).
  - rewrite decide_True by lia. rewrite decide_True by lia. f_equal. lia.
  - rewrite decide_False by lia. rewrite decide_False by lia. rewrite decide_True by lia. rewrite decide_True by lia. f_equal. lia.
Qed.
Lemma hex_loop_spec f : ∀ n acc, (n < 16 ^ N.of_nat (S f))%N → ∃ c r, hex_loop (S f) n acc = c :: r ∧
  (∀ a, digits 16 (c :: r) (Some a) = digits 16 acc (Some (a * 16 ^ N.of_nat (length (c :: r) - length acc) + n)%N)) ∧ length acc < length (c :: r) ∧
  (∀ P : N → Prop, (∀ d, (d < 16)%N → P (hex_digit d)) → Forall P acc → Forall P (c :: r)).
Proof.
  induction f as [|f IH]; intros n acc Hn; cbn [hex_loop].
  - assert (n < 16)%N as Hn' by (simpl in Hn; lia). rewrite (N.div_small n 16) by done. rewrite (N.mod_small n 16) by done.
    rewrite decide_True by done. eexists _, _. split; [done|]. split_and!; [|simpl; lia|].
    + intros a. cbn [digits]. rewrite digit_in_16 by done. cbn [default length]. replace (S (length acc) - length acc) with 1 by lia. by rewrite N.pow_1_r.
    + intros P HP HA. constructor; [by apply HP|done].
  - destruct (decide (n / 16 = 0)%N) as [Hz|Hz].
    + assert (n < 16)%N as Hn'. { apply N.div_small_iff in Hz; lia. } rewrite (N.mod_small n 16) by done.
      eexists _, _. split; [done|]. split_and!; [|simpl; lia|].
      * intros a. cbn [digits]. rewrite digit_in_16 by done. cbn [default length]. replace (S (length acc) - length acc) with 1 by lia. by rewrite N.pow_1_r.
      * intros P HP HA. constructor; [by apply HP|done].
    + destruct (IH (n / 16)%N (hex_digit (n mod 16) :: acc)) as (c & r & E & Hd & Hl & HF).
      { apply N.div_lt_upper_bound; [lia|]. rewrite <- N.pow_succ_r' . by rewrite <- Nat2N.inj_succ. }
      change (hex_loop (S f) (n / 16) (hex_digit (n mod 16) :: acc)) with
        (match S f with 0 => hex_digit (n mod 16) :: acc | S f => let acc' := hex_digit ((n / 16) mod 16) :: hex_digit (n mod 16) :: acc in if decide (n / 16 / 16 = 0)%N then acc' else hex_loop f (n / 16 / 16) acc' end) in E.
      exists c, r. split; [exact E|]. split_and!; [|simpl in Hl |- *; lia|].
      * intros a. rewrite Hd. cbn [digits]. rewrite digit_in_16 by (apply N.mod_lt; lia). cbn [default]. f_equal. f_equal.
        assert (length (c :: r) - length acc = S (length (c :: r) - length (hex_digit (n mod 16) :: acc))) as -> by (simpl in Hl |- *; lia).
        rewrite Nat2N.inj_succ, N.pow_succ_r'. pose proof (N.div_mod n 16 ltac:(lia)) as Dm. cbn [from_option id]. unfold id. generalize dependent (n / 16)%N. generalize (n mod 16)%N. intros. nia.
      * intros P HP HA. apply HF; [done|]. constructor; [|done]. apply HP. apply N.mod_lt. lia.
Qed.
Lemma hex_spec n : ∃ c r, hex n = c :: r ∧ digits 16 (c :: r) None = Some n ∧ Forall (λ x, ∃ d, (d < 16)%N ∧ x = hex_digit d) (c :: r).
Proof.
  unfold hex. destruct (hex_loop_spec (N.to_nat (N.log2 n)) n []) as (c & r & E & Hd & Hl & HF).
  { rewrite Nat2N.inj_succ, N2Nat.id. destruct (decide (n = 0)%N) as [->|Hn]; [done|]. eapply N.lt_le_trans; [apply N.log2_spec; lia|].
    apply N.pow_le_mono_l. lia. }
  exists c, r. split; [done|]. specialize (Hd 0%N). cbn [digits] in Hd. rewrite N.mul_0_l, N.add_0_l in Hd.
  assert (Forall (λ x, ∃ d, (d < 16)%N ∧ x = hex_digit d) (c :: r)) as F. { apply HF; [|by constructor]. intros d ?. by exists d. }
  split; [|done]. pose proof F as F'. apply Forall_cons in F' as [(d & Hd16 & ->) _]. cbn [digits]. rewrite digit_in_16 by done. cbn [digits] in Hd. rewrite digit_in_16 in Hd by done. done.
Qed.
Lemma hex_digit_range d : (d < 16)%N → (48 ≤ hex_digit d ∧ hex_digit d ≤ 70)%N.
Proof. intros H. unfold hex_digit. destruct (decide _); lia. Qed.
Lemma stoi_hex n : (n < 2 ^ 31)%N → stoi16 (hex n) = Number (Z.of_N n).
Proof.
  intros Hn. destruct (hex_spec n) as (c & r & -> & Hd & HF). unfold stoi16, strtol.
  pose proof HF as HF'. apply Forall_cons in HF' as [(d & Hd16 & Hc) HF']. pose proof (hex_digit_range d Hd16) as Hr. rewrite <- Hc in Hr.
  cbn [skip_spaces]. assert (is_space c = false) as ->. { apply not_space_false; lia. }
  rewrite decide_False by lia. rewrite decide_False by lia. rewrite decide_True by done.
  assert (skip_0x (c :: r) = c :: r) as ->.
  { unfold skip_0x. destruct r as [|x [|y r]]; [done|done|]. rewrite decide_False; [done|]. intros [_ Hx]. apply Forall_cons in HF' as [(e & He & ->) _].
    pose proof (hex_digit_range e He). lia. }
  rewrite Hd. rewrite decide_True; [done|lia].
Qed.
Lemma hex_plain n : plain (hex n).
Proof.
  destruct (hex_spec n) as (c & r & -> & _ & HF). eapply Forall_impl; [exact HF|]. simpl. intros x (d & Hd & ->). pose proof (hex_digit_range d Hd). lia.
Qed.
