(** Properties C37, C38 (bricks/util/base64.h).  The specification [rfc_encode] is at the top of Base64_Proofs.v. *)
From Coq Require Import String.
From Verif Require Import Base Base64_Model Base64_Proofs.
Local Open Scope list_scope.
Ltac Zify.zify_post_hook ::= Z.to_euclidean_division_equations.

(** C37: the encoding is the one of RFC 4648 (no write goes past the end of the result). *)
Theorem C37_encode_is_rfc4648 :
  forall ty s, bytes_ok s -> b64_encode ty s = Ok (rfc_encode ty s).
Proof. exact encode_rfc. Qed.
Print Assumptions C37_encode_is_rfc4648.

(** C37: decoding inverts encoding, in either build, for either alphabet. *)
Theorem C37_decode_inverts_encode :
  forall debug ty s, bytes_ok s ->
    exists e, b64_encode ty s = Ok e /\ b64_decode debug ty e = Ok s.
Proof. intros debug ty s H. exists (rfc_encode ty s). split; [now apply encode_rfc|now apply decode_rfc]. Qed.
Print Assumptions C37_decode_inverts_encode.

(** C37: length and characters of the encoding. *)
Theorem C37_shape_of_encoding :
  forall ty s e, bytes_ok s -> b64_encode ty s = Ok e ->
    List.length e = (4 * ((List.length s + 2) / 3))%nat /\
    exists body k, e = body ++ repeat 61%N k /\ (k <= 2)%nat /\
      Forall (fun c => In c (bs "ABCDEFGHIJKLMNOPQRSTUVWXYZabcdefghijklmnopqrstuvwxyz0123456789") \/
                       In c (match ty with Canonical => bs "+/" | URL => bs "-_" end)) body.
Proof.
  intros ty s e H He. pose proof (encode_rfc ty s H) as Hr. rewrite Hr in He. injection He as <-. split.
  - rewrite rfc_length. unfold enc_size. destruct (Nat.eqb_spec (List.length s mod 3) 0); lia.
  - clear Hr.
    assert (Hchar : forall x, (x < 64)%N -> In (rfc_char ty x) (bs "ABCDEFGHIJKLMNOPQRSTUVWXYZabcdefghijklmnopqrstuvwxyz0123456789") \/
                       In (rfc_char ty x) (match ty with Canonical => bs "+/" | URL => bs "-_" end)).
    { intros x Hx.
      assert (Hall : forallb (fun n => forallb (fun ty => let c := rfc_char ty (N.of_nat n) in
         existsb (N.eqb c) (bs "ABCDEFGHIJKLMNOPQRSTUVWXYZabcdefghijklmnopqrstuvwxyz0123456789") ||
         existsb (N.eqb c) (match ty with Canonical => bs "+/" | URL => bs "-_" end)) [Canonical; URL]) (seq 0 64) = true) by (vm_compute; reflexivity).
      rewrite forallb_forall in Hall. specialize (Hall (N.to_nat x)). rewrite in_seq, forallb_forall in Hall.
      specialize (Hall ltac:(lia) ty). rewrite N2Nat.id in Hall. cbv zeta in Hall. rewrite orb_true_iff, !existsb_exists in Hall.
      destruct Hall as [(y & Hy & Heq)|(y & Hy & Heq)]; [destruct ty; cbn; auto|left|right]; apply N.eqb_eq in Heq as ->; exact Hy. }
    induction s as [|a|a b|a b c r IH] using bytes3_ind.
    + exists [], 0%nat. repeat split; [lia|constructor].
    + inversion_clear H as [|? ? Ha _]. cbn [rfc_encode].
      match goal with |- exists _ _, [?x; ?y; _; _] = _ /\ _ => exists [x; y], 2%nat end.
      split; [reflexivity|]. split; [lia|].
      repeat (apply Forall_cons; [apply Hchar; try (apply N.mod_lt; discriminate); lia|]). constructor.
    + inversion_clear H as [|? ? Ha H']. inversion_clear H' as [|? ? Hb _]. cbn [rfc_encode].
      match goal with |- exists _ _, [?x; ?y; ?z; _] = _ /\ _ => exists [x; y; z], 1%nat end.
      split; [reflexivity|]. split; [lia|].
      repeat (apply Forall_cons; [apply Hchar; try (apply N.mod_lt; discriminate); lia|]). constructor.
    + inversion_clear H as [|? ? Ha H1]. inversion_clear H1 as [|? ? Hb H2]. inversion_clear H2 as [|? ? Hc H3].
      destruct (IH H3) as (body & k & He & Hk & Hf). cbn [rfc_encode]. rewrite He.
      match goal with |- exists _ _, ?x :: ?y :: ?z :: ?w :: _ = _ /\ _ => exists (x :: y :: z :: w :: body), k end.
      split; [reflexivity|]. split; [exact Hk|].
      repeat (apply Forall_cons; [apply Hchar; try (apply N.mod_lt; discriminate); lia|]). exact Hf.
Qed.
Print Assumptions C37_shape_of_encoding.

(** C37: distinct inputs have distinct encodings. *)
Theorem C37_encode_injective :
  forall ty s1 s2 e, bytes_ok s1 -> bytes_ok s2 -> b64_encode ty s1 = Ok e -> b64_encode ty s2 = Ok e -> s1 = s2.
Proof.
  intros ty s1 s2 e H1 H2 E1 E2. rewrite encode_rfc in E1, E2 by assumption. injection E1 as <-. injection E2 as E2.
  pose proof (decode_rfc true ty s1 H1) as D1. pose proof (decode_rfc true ty s2 H2) as D2. rewrite E2 in D2. congruence.
Qed.
Print Assumptions C37_encode_injective.

Example C37_demo : b64_encode Canonical (bs "Man, M" ++ [255%N]) = Ok (bs "TWFuLCBN/w==") /\
  b64_encode URL (bs "Man, M" ++ [255%N]) = Ok (bs "TWFuLCBN_w==") /\
  b64_decode false URL (bs "TWFuLCBN_w==") = Ok (bs "Man, M" ++ [255%N]).
Proof. vm_compute. auto. Qed.

(** ** C38. *)

(** The characters the decoder looks at: those before the first '='. *)
Fixpoint before_pad (s : bytes) : bytes :=
  match s with [] => [] | c :: r => if N.eqb c 61 then [] else c :: before_pad r end.

Definition in_alphabet (ty : b64type) (c : byte) : Prop :=
  In c (bs "ABCDEFGHIJKLMNOPQRSTUVWXYZabcdefghijklmnopqrstuvwxyz0123456789") \/
  In c (match ty with Canonical => bs "+/" | URL => bs "-_" end).

Lemma valid_iff ty c : is_valid_char ty c = true <-> in_alphabet ty c.
Proof.
  split.
  - intros H. assert (Hlt : (c < 128)%N) by (unfold is_valid_char, is_alnum in H; destruct ty; lia).
    assert (Hall : forallb (fun n => forallb (fun ty => let c := N.of_nat n in
         negb (is_valid_char ty c) ||
         existsb (N.eqb c) (bs "ABCDEFGHIJKLMNOPQRSTUVWXYZabcdefghijklmnopqrstuvwxyz0123456789") ||
         existsb (N.eqb c) (match ty with Canonical => bs "+/" | URL => bs "-_" end)) [Canonical; URL]) (seq 0 128) = true) by (vm_compute; reflexivity).
    rewrite forallb_forall in Hall. specialize (Hall (N.to_nat c)). rewrite in_seq, forallb_forall in Hall.
    specialize (Hall ltac:(lia) ty). rewrite N2Nat.id in Hall. cbv zeta in Hall. rewrite H in Hall. cbn [negb orb] in Hall.
    rewrite orb_true_iff, !existsb_exists in Hall.
    destruct Hall as [(y & Hy & Heq)|(y & Hy & Heq)]; [destruct ty; cbn; auto|left|right]; apply N.eqb_eq in Heq as ->; exact Hy.
  - intros [H|H].
    + assert (Hall : forallb (fun c => is_alnum c) (bs "ABCDEFGHIJKLMNOPQRSTUVWXYZabcdefghijklmnopqrstuvwxyz0123456789") = true) by (vm_compute; reflexivity).
      rewrite forallb_forall in Hall. unfold is_valid_char. now rewrite (Hall c H).
    + destruct ty; cbn in H; destruct H as [<-|[<-|[]]]; reflexivity.
Qed.

Lemma map_len c : (c < 128)%N -> exists d, nth_error decode_map (N.to_nat c) = Some d.
Proof.
  intros H. destruct (nth_error decode_map (N.to_nat c)) eqn:Hn; [eauto|]. apply nth_error_None in Hn. cbn in Hn. lia.
Qed.

Lemma dec_loop_total debug ty size input : forall buf nbits out k,
  (8 * N.of_nat (List.length out) + nbits = 6 * N.of_nat k)%N -> (nbits < 8)%N -> (size = 3 * (k + List.length input) / 4)%nat ->
  Forall (fun c => (c < 128)%N) (before_pad input) \/ debug = true ->
  if debug && negb (forallb (is_valid_char ty) (before_pad input))
  then dec_loop debug ty size buf nbits out input = Throw tt
  else exists r, dec_loop debug ty size buf nbits out input = Ok r.
Proof.
  induction input as [|c rest IH]; intros buf nbits out k Hk Hn Hs Hc.
  - cbn [before_pad forallb negb]. rewrite andb_false_r. cbn. eauto.
  - cbn [dec_loop before_pad List.length] in *. unfold pad_char. destruct (N.eqb c 61) eqn:Hp.
    { cbn [forallb negb]. rewrite andb_false_r. eauto. }
    cbn [forallb]. destruct (debug && negb (is_valid_char ty c)) eqn:Hv.
    { apply andb_true_iff in Hv as [-> Hv]. apply negb_true_iff in Hv. rewrite Hv. reflexivity. }
    assert (Hlt : (c < 128)%N).
    { destruct Hc as [Hc| ->]; [inversion Hc; assumption|]. cbn in Hv. apply negb_false_iff in Hv.
      unfold is_valid_char, is_alnum in Hv. destruct ty; lia. }
    destruct (map_len c Hlt) as [d ->].
    assert (Hv' : debug && negb (is_valid_char ty c && forallb (is_valid_char ty) (before_pad rest)) =
                  debug && negb (forallb (is_valid_char ty) (before_pad rest))).
    { destruct debug; [|reflexivity]. cbn in *. apply negb_false_iff in Hv. now rewrite Hv. }
    rewrite Hv'. cbv zeta.
    assert (Hc' : Forall (fun c => (c < 128)%N) (before_pad rest) \/ debug = true) by (destruct Hc as [Hc|]; [left; inversion Hc; assumption|auto]).
    destruct (N.leb_spec 8 (nbits + 6)).
    + assert (Hsz : (List.length out < size)%nat) by lia.
      destruct (Nat.ltb_spec (List.length out) size); [|lia].
      apply (IH _ _ _ (S k)); [rewrite app_length; cbn [List.length]; lia|lia| |exact Hc'].
      rewrite Hs. do 2 f_equal. lia.
    + apply (IH _ _ _ (S k)); [lia|lia| |exact Hc']. rewrite Hs. do 2 f_equal. lia.
Qed.

(** C38, debug build: for every input string the decoder throws iff a character before the first '=' is
    outside the alphabet, and never accesses memory out of bounds.  Partial: characters after the first '='
    are not looked at, and release builds do not check (see the refutations below). *)
Theorem C38_debug_build_rejects_invalid_partial :
  forall ty s,
    (b64_decode true ty s = Throw tt <-> ~ Forall (in_alphabet ty) (before_pad s)) /\
    b64_decode true ty s <> UB.
Proof.
  intros ty s. pose proof (dec_loop_total true ty (3 * List.length s / 4) s 0 0 [] 0) as H.
  cbn [List.length andb] in H. specialize (H eq_refl eq_refl eq_refl (or_intror eq_refl)).
  fold (b64_decode true ty s) in H.
  assert (Hb : forallb (is_valid_char ty) (before_pad s) = true <-> Forall (in_alphabet ty) (before_pad s)).
  { rewrite forallb_forall, Forall_forall. split; intros Hx c Hc; apply valid_iff; auto. }
  destruct (forallb (is_valid_char ty) (before_pad s)) eqn:Hf; cbn [negb] in H.
  - destruct H as [r ->]. split; [split; [discriminate|]|discriminate]. intros Hn. exfalso. apply Hn, Hb. reflexivity.
  - rewrite H. split; [split; [|reflexivity]|discriminate]. intros _ Hn. apply Hb in Hn. discriminate.
Qed.
Print Assumptions C38_debug_build_rejects_invalid_partial.

(** C38, any build: no out-of-bounds access if all characters before the first '=' are ASCII. *)
Theorem C38_in_bounds_for_ascii_partial :
  forall debug ty s, Forall (fun c => (c < 128)%N) (before_pad s) -> b64_decode debug ty s <> UB.
Proof.
  intros debug ty s Ha. pose proof (dec_loop_total debug ty (3 * List.length s / 4) s 0 0 [] 0 eq_refl eq_refl eq_refl (or_introl Ha)) as H.
  fold (b64_decode debug ty s) in H. destruct (debug && _); [now rewrite H|]. destruct H as [r ->]. discriminate.
Qed.
Print Assumptions C38_in_bounds_for_ascii_partial.

(** C38 is false of release builds: garbage is decoded to something, the other alphabet is accepted, and a
    byte >= 128 reads past the end of the table. *)
Theorem C38_release_build_refuted :
  (exists r, b64_decode false Canonical (bs "*!*!") = Ok r) /\
  b64_decode false Canonical (bs "__--") = b64_decode false Canonical (bs "//++") /\
  b64_decode false Canonical [200%N] = UB.
Proof. vm_compute. eauto. Qed.
Print Assumptions C38_release_build_refuted.

(** C38 is false of debug builds for characters after a '=': they are ignored. *)
Theorem C38_after_pad_refuted : b64_decode true Canonical (bs "QQ==*garbage") = Ok (bs "A").
Proof. vm_compute. auto. Qed.
Print Assumptions C38_after_pad_refuted.

Example C38_demo : b64_decode true Canonical (bs "QU*=") = Throw tt /\ b64_decode true URL (bs "QUI=") = Ok (bs "AB").
Proof. vm_compute. auto. Qed.
