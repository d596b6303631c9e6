(** Specification of base64 and lemmas for C37, C38. *)
From Coq Require Import String.
From Verif Require Import Base Base64_Model.
Local Open Scope list_scope.

(** ** Specification: RFC 4648, section 4.  Three bytes are four groups of six bits; the last group of one
    or two bytes is filled up with zero bits, and '=' signs make up for the missing characters. *)
Definition rfc_char (ty : b64type) (x : N) : byte :=
  if N.ltb x 26 then 65 + x                    (* A..Z *)
  else if N.ltb x 52 then 97 + (x - 26)        (* a..z *)
  else if N.ltb x 62 then 48 + (x - 52)        (* 0..9 *)
  else match ty, N.eqb x 62 with
       | Canonical, true => 43 (* + *) | Canonical, false => 47 (* / *)
       | URL, true => 45 (* - *)       | URL, false => 95 (* _ *)
       end%N.
Fixpoint rfc_encode (ty : b64type) (s : bytes) : bytes :=
  match s with
  | a :: b :: c :: rest =>
      let v := (a * 65536 + b * 256 + c)%N in
      rfc_char ty (v / 262144) :: rfc_char ty (v / 4096 mod 64) :: rfc_char ty (v / 64 mod 64) ::
      rfc_char ty (v mod 64) :: rfc_encode ty rest
  | [a; b] => let v := (a * 65536 + b * 256)%N in
              [rfc_char ty (v / 262144); rfc_char ty (v / 4096 mod 64); rfc_char ty (v / 64 mod 64); 61%N]
  | [a] => let v := (a * 65536)%N in [rfc_char ty (v / 262144); rfc_char ty (v / 4096 mod 64); 61%N; 61%N]
  | [] => []
  end.

(** ** Proofs. *)
Lemma bytes3_ind (P : bytes -> Prop) : P [] -> (forall a, P [a]) -> (forall a b, P [a; b]) ->
  (forall a b c r, P r -> P (a :: b :: c :: r)) -> forall s, P s.
Proof.
  intros H0 H1 H2 H3 s. enough (H : forall n s, (List.length s <= n)%nat -> P s) by (eapply H; apply le_n).
  induction n as [|n IH]; intros r Hr.
  - destruct r; [exact H0|cbn in Hr; lia].
  - destruct r as [|a [|b [|c r]]]; auto. apply H3, IH. cbn in Hr. lia.
Qed.

Lemma enc_char_rfc ty x : (x < 64)%N -> enc_char ty x = rfc_char ty x.
Proof.
  intros H.
  assert (Hall : forallb (fun n => N.eqb (enc_char Canonical (N.of_nat n)) (rfc_char Canonical (N.of_nat n)) &&
     N.eqb (enc_char URL (N.of_nat n)) (rfc_char URL (N.of_nat n))) (seq 0 64) = true) by (vm_compute; reflexivity).
  rewrite forallb_forall in Hall. specialize (Hall (N.to_nat x)). rewrite in_seq, andb_true_iff, !N.eqb_eq, N2Nat.id in Hall.
  destruct Hall as [H1 H2]; [lia|]. destruct ty; assumption.
Qed.

Lemma dec_char ty x : (x < 64)%N ->
  nth_error decode_map (N.to_nat (rfc_char ty x)) = Some x /\ is_valid_char ty (rfc_char ty x) = true /\
  N.eqb (rfc_char ty x) pad_char = false.
Proof.
  intros H.
  assert (Hall : forallb (fun n => forallb (fun ty => let c := rfc_char ty (N.of_nat n) in
     match nth_error decode_map (N.to_nat c) with Some d => N.eqb d (N.of_nat n) | None => false end &&
     is_valid_char ty c && negb (N.eqb c pad_char)) [Canonical; URL]) (seq 0 64) = true) by (vm_compute; reflexivity).
  rewrite forallb_forall in Hall. specialize (Hall (N.to_nat x)). rewrite in_seq in Hall.
  rewrite forallb_forall in Hall. specialize (Hall ltac:(lia) ty). rewrite N2Nat.id in Hall.
  cbv zeta in Hall. rewrite !andb_true_iff in Hall. destruct Hall as [[H1 H2] H3]; [destruct ty; cbn; auto|].
  destruct (nth_error _ _); [|discriminate]. apply N.eqb_eq in H1 as ->. apply negb_true_iff in H3. auto.
Qed.

Lemma u16_mod x : u16 x = (x mod 65536)%N.
Proof. unfold u16. change 65535%N with (N.ones 16). now rewrite N.land_ones. Qed.
Lemma land63 x : N.land x 63 = (x mod 64)%N.
Proof. change 63%N with (N.ones 6). now rewrite N.land_ones. Qed.
Lemma land255 x : N.land x 255 = (x mod 256)%N.
Proof. change 255%N with (N.ones 8). now rewrite N.land_ones. Qed.

Ltac Zify.zify_post_hook ::= Z.to_euclidean_division_equations.

Ltac bits := rewrite ?land63, ?land255, ?u16_mod, ?N.shiftr_div_pow2, ?N.shiftl_mul_pow2;
  change (2 ^ 0)%N with 1%N; change (2 ^ 2)%N with 4%N; change (2 ^ 4)%N with 16%N; change (2 ^ 6)%N with 64%N; change (2 ^ 8)%N with 256%N.

Lemma cons_eq {A} (x y : A) l m : x = y -> l = m -> x :: l = y :: m.
Proof. congruence. Qed.

(** Bytes that have been put in the buffer, most recent first. *)
Lemma enc_loop3 ty buf a b c rest : (a < 256)%N -> (b < 256)%N -> (c < 256)%N ->
  exists buf', enc_loop ty buf 0 (a :: b :: c :: rest) = firstn 4 (rfc_encode ty [a; b; c]) ++ enc_loop ty buf' 0 rest.
Proof.
  intros Ha Hb Hc. eexists. cbn [enc_loop enc_drain N.add fst snd].
  change (0 + 8)%N with 8%N. change (8 - 6)%N with 2%N. change (6 <=? 8)%N with true. change (6 <=? 2)%N with false. cbn [fst snd].
  change (2 + 8)%N with 10%N. change (10 - 6)%N with 4%N. change (6 <=? 10)%N with true. change (6 <=? 4)%N with false. cbn [fst snd].
  change (4 + 8)%N with 12%N. change (12 - 6)%N with 6%N. change (6 - 6)%N with 0%N. change (6 <=? 12)%N with true. change (6 <=? 6)%N with true. cbn [fst snd].
  cbn [app rfc_encode firstn]. bits.
  rewrite !enc_char_rfc by (apply N.mod_lt; discriminate).
  apply cons_eq; [f_equal; lia|]. apply cons_eq; [f_equal; lia|]. apply cons_eq; [f_equal; lia|]. apply cons_eq; [f_equal; lia|]. reflexivity.
Qed.

Lemma enc_loop2 ty buf a b : (a < 256)%N -> (b < 256)%N ->
  enc_loop ty buf 0 [a; b] = firstn 3 (rfc_encode ty [a; b]).
Proof.
  intros Ha Hb. cbn [enc_loop enc_drain N.add fst snd].
  change (0 + 8)%N with 8%N. change (8 - 6)%N with 2%N. change (6 <=? 8)%N with true. change (6 <=? 2)%N with false. cbn [fst snd].
  change (2 + 8)%N with 10%N. change (10 - 6)%N with 4%N. change (6 <=? 10)%N with true. change (6 <=? 4)%N with false. cbn [fst snd].
  change (0 <? 4)%N with true. cbn [app rfc_encode firstn]. bits.
  rewrite !enc_char_rfc by (apply N.mod_lt; discriminate).
  apply cons_eq; [f_equal; lia|]. apply cons_eq; [f_equal; lia|]. apply cons_eq; [f_equal; lia|]. reflexivity.
Qed.

Lemma enc_loop1 ty buf a : (a < 256)%N -> enc_loop ty buf 0 [a] = firstn 2 (rfc_encode ty [a]).
Proof.
  intros Ha. cbn [enc_loop enc_drain N.add fst snd].
  change (0 + 8)%N with 8%N. change (8 - 6)%N with 2%N. change (6 <=? 8)%N with true. change (6 <=? 2)%N with false. cbn [fst snd].
  change (0 <? 2)%N with true. cbn [app rfc_encode firstn]. bits.
  rewrite !enc_char_rfc by (apply N.mod_lt; discriminate).
  apply cons_eq; [f_equal; lia|]. apply cons_eq; [f_equal; lia|]. reflexivity.
Qed.

(** Number of '=' signs. *)
Definition pads (n : nat) : nat := (3 - n mod 3) mod 3.

Lemma rfc_length ty s : List.length (rfc_encode ty s) = enc_size (List.length s).
Proof.
  induction s as [| | |a b c r IH] using bytes3_ind; try reflexivity.
  cbn [rfc_encode List.length]. rewrite IH. unfold enc_size.
  replace (S (S (S (List.length r)))) with (List.length r + 1 * 3) by lia.
  rewrite Nat.div_add, Nat.mod_add by discriminate. lia.
Qed.

Lemma enc_loop_rfc ty s : bytes_ok s -> forall buf,
  enc_loop ty buf 0 s ++ repeat pad_char (pads (List.length s)) = rfc_encode ty s.
Proof.
  induction s as [|a|a b|a b c r IH] using bytes3_ind; intros Hok buf.
  - reflexivity.
  - inversion_clear Hok as [|? ? Ha _]. rewrite enc_loop1 by assumption. reflexivity.
  - inversion_clear Hok as [|? ? Ha Hok']. inversion_clear Hok' as [|? ? Hb _].
    rewrite enc_loop2 by assumption. reflexivity.
  - inversion_clear Hok as [|? ? Ha H1]. inversion_clear H1 as [|? ? Hb H2]. inversion_clear H2 as [|? ? Hc H3].
    destruct (enc_loop3 ty buf a b c r Ha Hb Hc) as [buf' ->].
    replace (pads (List.length (a :: b :: c :: r))) with (pads (List.length r)).
    2:{ unfold pads. cbn [List.length]. replace (S (S (S (List.length r)))) with (List.length r + 1 * 3) by lia.
        now rewrite Nat.mod_add. }
    rewrite <- app_assoc, (IH H3). reflexivity.
Qed.

Lemma encode_rfc ty s : bytes_ok s -> b64_encode ty s = Ok (rfc_encode ty s).
Proof.
  intros H. unfold b64_encode. pose proof (enc_loop_rfc ty s H 0%N) as He.
  pose proof (rfc_length ty s) as Hl. rewrite <- He in Hl. rewrite app_length, repeat_length in Hl.
  destruct (Nat.ltb_spec (enc_size (List.length s)) (List.length (enc_loop ty 0 0 s))); [lia|].
  f_equal. rewrite <- He. do 2 f_equal. lia.
Qed.

(** Decoding. *)
Lemma dec_step debug ty size buf nbits out x rest : (x < 64)%N ->
  dec_loop debug ty size buf nbits out (rfc_char ty x :: rest) =
  let buf' := u16 (N.shiftl buf 6 + x) in
  if N.leb 8 (nbits + 6)
  then if Nat.ltb (List.length out) size
       then dec_loop debug ty size buf' (nbits + 6 - 8) (out ++ [N.land (N.shiftr buf' (nbits + 6 - 8)) 255]) rest
       else UB
  else dec_loop debug ty size buf' (nbits + 6) out rest.
Proof.
  intros Hx. destruct (dec_char ty x Hx) as (H1 & H2 & H3). cbn [dec_loop].
  rewrite H3, H2, andb_false_r, H1. reflexivity.
Qed.

Lemma last_byte p q x : (((q * 64 + p) mod 65536 * 64 + x) mod 65536 / 1 mod 256 = (p mod 4 * 64 + x) mod 256)%N.
Proof.
  assert (H1 : forall r, ((r * 64 + x) mod 65536 / 1 mod 256 = (r mod 4 * 64 + x) mod 256)%N) by (intros; lia).
  rewrite H1. do 3 f_equal. lia.
Qed.

Lemma dec_rfc debug ty s : bytes_ok s -> forall size buf out,
  (List.length out + List.length s <= size <= List.length out + 3 * (enc_size (List.length s)) / 4)%nat ->
  (pads (List.length s) = 0%nat -> size = (List.length out + List.length s)%nat) ->
  dec_loop debug ty size buf 0 out (rfc_encode ty s) = Ok (out ++ s).
Proof.
  induction s as [|a|a b|a b c r IH] using bytes3_ind; intros Hok size buf out Hsz Hp.
  - cbn [rfc_encode dec_loop List.length] in *. rewrite Hp by reflexivity.
    now rewrite Nat.add_0_r, Nat.sub_diag.
  - inversion_clear Hok as [|? ? Ha _]. cbn [rfc_encode List.length] in *.
    rewrite dec_step by (try apply N.mod_lt; lia). change (8 <=? 0 + 6)%N with false. cbv iota zeta.
    rewrite dec_step by (apply N.mod_lt; lia). change (8 <=? 0 + 6 + 6)%N with true. change (0 + 6 + 6 - 8)%N with 4%N. cbv iota zeta.
    destruct (Nat.ltb_spec (List.length out) size); [|lia].
    cbn [dec_loop]. change (N.eqb 61 pad_char) with true. cbv iota. do 2 f_equal. bits. f_equal. lia.
  - inversion_clear Hok as [|? ? Ha Hok']. inversion_clear Hok' as [|? ? Hb _]. cbn [rfc_encode List.length] in *.
    rewrite dec_step by (try apply N.mod_lt; lia). change (8 <=? 0 + 6)%N with false. cbv iota zeta.
    rewrite dec_step by (apply N.mod_lt; lia). change (8 <=? 0 + 6 + 6)%N with true. change (0 + 6 + 6 - 8)%N with 4%N. cbv iota zeta.
    destruct (Nat.ltb_spec (List.length out) size); [|lia].
    rewrite dec_step by (apply N.mod_lt; lia). change (8 <=? 4 + 6)%N with true. change (4 + 6 - 8)%N with 2%N. cbv iota zeta.
    rewrite app_length. cbn [List.length]. destruct (Nat.ltb_spec (List.length out + 1) size); [|lia].
    cbn [dec_loop]. change (N.eqb 61 pad_char) with true. cbv iota. rewrite <- app_assoc. cbn [app]. do 2 f_equal.
    bits. apply cons_eq; [lia|]. apply cons_eq; [lia|reflexivity].
  - inversion_clear Hok as [|? ? Ha H1]. inversion_clear H1 as [|? ? Hb H2]. inversion_clear H2 as [|? ? Hc H3].
    cbn [rfc_encode List.length] in *.
    assert (Hd : enc_size (S (S (S (List.length r)))) = (4 + enc_size (List.length r))%nat).
    { unfold enc_size. replace (S (S (S (List.length r)))) with (List.length r + 1 * 3) by lia.
      rewrite Nat.div_add, Nat.mod_add by discriminate. lia. }
    assert (Hpp : pads (S (S (S (List.length r)))) = pads (List.length r)).
    { unfold pads. replace (S (S (S (List.length r)))) with (List.length r + 1 * 3) by lia. now rewrite Nat.mod_add. }
    rewrite Hd in Hsz. rewrite Hpp in Hp.
    assert (Hq : (3 * (4 + enc_size (List.length r)) / 4 = 3 + 3 * enc_size (List.length r) / 4)%nat).
    { replace (3 * (4 + enc_size (List.length r)))%nat with (3 * enc_size (List.length r) + 3 * 4)%nat by lia.
      rewrite Nat.div_add by discriminate. lia. }
    rewrite Hq in Hsz. clear Hq Hd Hpp.
    rewrite dec_step by (try apply N.mod_lt; lia). change (8 <=? 0 + 6)%N with false. cbv iota zeta.
    rewrite dec_step by (apply N.mod_lt; lia). change (8 <=? 0 + 6 + 6)%N with true. change (0 + 6 + 6 - 8)%N with 4%N. cbv iota zeta.
    destruct (Nat.ltb_spec (List.length out) size); [|lia].
    rewrite dec_step by (apply N.mod_lt; lia). change (8 <=? 4 + 6)%N with true. change (4 + 6 - 8)%N with 2%N. cbv iota zeta.
    rewrite app_length. cbn [List.length]. destruct (Nat.ltb_spec (List.length out + 1) size); [|lia].
    rewrite dec_step by (apply N.mod_lt; lia). change (8 <=? 2 + 6)%N with true. change (2 + 6 - 8)%N with 0%N. cbv iota zeta.
    rewrite !app_length. cbn [List.length]. destruct (Nat.ltb_spec (List.length out + 1 + 1) size); [|lia].
    rewrite <- !app_assoc. cbn [app].
    match goal with |- dec_loop _ _ _ _ _ (out ++ [?x; ?y; ?z]) _ = _ =>
      replace x with a; [replace y with b; [replace z with c|]|] end.
    + rewrite IH; [now rewrite <- app_assoc|exact H3| |]; rewrite app_length; cbn [List.length]; lia.
    + clear Hsz Hp IH. bits. rewrite last_byte. lia.
    + clear Hsz Hp IH. bits. lia.
    + clear Hsz Hp IH. bits. lia.
Qed.

Lemma decode_rfc debug ty s : bytes_ok s -> b64_decode debug ty (rfc_encode ty s) = Ok s.
Proof.
  intros H. unfold b64_decode. rewrite rfc_length. apply (dec_rfc debug ty s H _ 0%N []); cbn [List.length]; [split; [|lia]|].
  - unfold enc_size. destruct (Nat.eqb_spec (List.length s mod 3) 0); lia.
  - unfold pads, enc_size. intros Hp. destruct (Nat.eqb_spec (List.length s mod 3) 0); lia.
Qed.

