(** Property C70: the length of UTF-8 text. *)
From Coq Require Import String.
From Verif Require Import Base Dec Strings_Model.
From Coq Require Import Lia.
Local Open Scope list_scope.
Local Open Scope N_scope.

(** The encoding of a code point (RFC 3629). *)
Definition utf8 (c : N) : bytes :=
  if c <? 128 then [c]
  else if c <? 2048 then [192 + c / 64; 128 + c mod 64]
  else if c <? 65536 then [224 + c / 4096; 128 + c / 64 mod 64; 128 + c mod 64]
  else [240 + c / 262144; 128 + c / 4096 mod 64; 128 + c / 64 mod 64; 128 + c mod 64].
Definition code_point (c : N) : Prop := c < 1114112.

Lemma byte_cases : (forallb (fun b => if N.land b 192 =? 128 then (128 <=? b) && (b <? 192) else (b <? 128) || (192 <=? b)) (map N.of_nat (seq 0 256)) = true)%N.
Proof. vm_compute. reflexivity. Qed.
Lemma continuation b : b < 256 -> (N.land b 192 =? 128) = (128 <=? b) && (b <? 192).
Proof.
  intros Hb. pose proof byte_cases as H. rewrite forallb_forall in H.
  assert (Hin : In b (map N.of_nat (seq 0 256))).
  { apply in_map_iff. exists (N.to_nat b). split; [apply N2Nat.id|]. apply in_seq. lia. }
  specialize (H b Hin). cbv beta in H.
  destruct (N.land b 192 =? 128); [now rewrite H|]. symmetry. apply orb_true_iff in H as [H%N.ltb_lt|H%N.leb_le].
  - now rewrite (proj2 (N.leb_gt 128 b)) by lia.
  - rewrite (proj2 (N.ltb_ge b 192)) by lia. apply andb_false_r.
Qed.
Lemma lead b s : b < 128 \/ 192 <= b < 256 -> b <> 0 -> utf8_length (b :: s) = S (utf8_length s).
Proof.
  intros Hb H0. cbn [utf8_length]. rewrite (proj2 (N.eqb_neq b 0)) by exact H0. rewrite continuation by lia.
  destruct Hb as [Hb|Hb].
  - now rewrite (proj2 (N.leb_gt 128 b)) by lia.
  - rewrite (proj2 (N.ltb_ge b 192)) by lia. now rewrite andb_false_r.
Qed.
Lemma cont b s : 128 <= b < 192 -> utf8_length (b :: s) = utf8_length s.
Proof.
  intros Hb. cbn [utf8_length]. rewrite (proj2 (N.eqb_neq b 0)) by lia. rewrite continuation by lia.
  rewrite (proj2 (N.leb_le 128 b)), (proj2 (N.ltb_lt b 192)) by lia. reflexivity.
Qed.
Lemma utf8_one c s : code_point c -> c <> 0 -> utf8_length (utf8 c ++ s) = S (utf8_length s).
Proof.
  intros Hc H0. unfold utf8, code_point in *.
  assert (Hm : forall x, 128 <= 128 + x mod 64 < 192).
  { intros x. pose proof (N.mod_lt x 64 ltac:(discriminate)) as H. revert H. generalize (x mod 64). intros y. lia. }
  destruct (N.ltb_spec c 128); [cbn [app]; rewrite lead; [reflexivity|now left|exact H0]|].
  destruct (N.ltb_spec c 2048) as [H1|H1]; [|destruct (N.ltb_spec c 65536) as [H2|H2]]; cbn [app].
  - assert (Hd : c / 64 < 64) by (apply N.div_lt_upper_bound; [discriminate|lia]).
    revert Hd. generalize (c / 64). intros d Hd. rewrite lead by lia. now rewrite cont by apply Hm.
  - assert (Hd : c / 4096 < 32) by (apply N.div_lt_upper_bound; [discriminate|lia]).
    revert Hd. generalize (c / 4096). intros d Hd. rewrite lead by lia. now rewrite !cont by apply Hm.
  - assert (Hd : c / 262144 < 16) by (apply N.div_lt_upper_bound; [discriminate|lia]).
    revert Hd. generalize (c / 262144). intros d Hd. rewrite lead by lia. now rewrite !cont by apply Hm.
Qed.

(** C70. The length of text without NUL is the number of its characters. *)
Theorem C70_utf8_length : forall cs, Forall (fun c => code_point c /\ c <> 0) cs ->
  utf8_length (flat_map utf8 cs) = length cs.
Proof.
  induction 1 as [|c cs [Hc H0] _ IH]; [reflexivity|]. cbn [flat_map length]. rewrite utf8_one by assumption. now rewrite IH.
Qed.
(** C70. Lengths add up, whatever the bytes. *)
Theorem C70_lengths_add_up : forall a b, ~ In 0 a -> utf8_length (a ++ b) = (utf8_length a + utf8_length b)%nat.
Proof.
  induction a as [|c a IH]; intros b Ha; [reflexivity|]. cbn [app utf8_length].
  destruct (N.eqb_spec c 0) as [->|]; [exfalso; apply Ha; now left|]. rewrite IH; [lia|]. intros H. apply Ha. now right.
Qed.
Example C70_example : utf8_length (flat_map utf8 [72; 233; 8364; 128512]) = 4%nat /\
  flat_map utf8 [72; 233; 8364; 128512] = [72; 195; 169; 226; 130; 172; 240; 159; 152; 128].
Proof. split; vm_compute; reflexivity. Qed.
(** A NUL character ends the count, although a [std::string] may hold one. *)
Theorem C70_nul_refuted : ~ (forall cs, Forall code_point cs -> utf8_length (flat_map utf8 cs) = length cs).
Proof.
  intros H. assert (E : utf8_length (flat_map utf8 [72; 0; 72]) = length [72; 0; 72]).
  { apply H. repeat (apply Forall_cons; [reflexivity|]). apply Forall_nil. }
  discriminate E.
Qed.

Print Assumptions C70_utf8_length.
Print Assumptions C70_lengths_add_up.
Print Assumptions C70_nul_refuted.
