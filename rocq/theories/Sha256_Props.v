(** C75: SHA-256 is the one of the standard. *)
From Coq Require Import NArith Lia String Ascii.
From stdpp Require Import list numbers.
From Verif Require Import Sha256_Model Sha256_Spec Sha256_Proofs Sha256_Proofs2 Sha256_Proofs3.
Local Open Scope list_scope.
Local Open Scope nat_scope.
Local Opaque H0 K process_block N.pow.

(** The hash of every byte string, however long, is the one of the standard, in lowercase hexadecimal digits, whatever
    was in the memory of the buffers. *)
Theorem C75_sha256 buffer extra input : length buffer = 64 → length extra = 64 → Forall (λ b, b < 256)%N input →
  SHA256 buffer extra input = concat (map hex (digest (message input))).
Proof.
  intros Hb He Hi. unfold SHA256. apply (get_hash_spec extra (add (reset buffer) input) input); [done| |done].
  apply (add_holds _ []). by apply reset_holds.
Qed.

(** An object that is given bytes by portions and asked for the hash now and then. *)
Inductive call := Add (data : list N) | GetHash (extra : list N).
Fixpoint answers (st : sha256) (calls : list call) : list (list N) :=
  match calls with
  | [] => []
  | Add data :: calls' => answers (add st data) calls'
  | GetHash extra :: calls' => let '(h, st') := get_hash extra st in h :: answers st' calls'
  end.
(** What the answers have to be: at each question, the hash of all the bytes given so far. *)
Fixpoint expected (given : list N) (calls : list call) : list (list N) :=
  match calls with
  | [] => []
  | Add data :: calls' => expected (given ++ data) calls'
  | GetHash _ :: calls' => concat (map hex (digest (message given))) :: expected given calls'
  end.
Definition fine (c : call) : Prop := match c with Add data => Forall (λ b, b < 256)%N data | GetHash extra => length extra = 64 end.
Theorem C75_portions buffer calls : length buffer = 64 → Forall fine calls → answers (reset buffer) calls = expected [] calls.
Proof.
  intros Hb. generalize (reset_holds buffer Hb), (Forall_nil_2 is_byte). generalize (reset buffer), (@nil N) as given.
  induction calls as [|[data|extra] calls IH]; intros st given Hst Hg Hc; [done| |]; apply Forall_cons_1 in Hc as [Hf Hc]; cbn [answers expected].
  - apply IH; [by apply add_holds| |done]. by apply Forall_app.
  - destruct (get_hash_spec extra st given Hf Hst Hg) as [H1 H2]. destruct (get_hash extra st) as [h st']. cbn [fst snd] in H1, H2.
    rewrite H1. f_equal. by apply IH.
Qed.
(** In particular, how the bytes are cut into portions does not matter. *)
Theorem C75_cut buffer extra portions : length buffer = 64 → length extra = 64 → Forall (Forall (λ b, b < 256)%N) portions →
  (get_hash extra (fold_left add portions (reset buffer))).1 = SHA256 buffer extra (concat portions).
Proof.
  intros Hb He Hp. rewrite C75_sha256 by (done || by apply Forall_concat).
  assert (∀ st given, holds st given → Forall is_byte given → (get_hash extra (fold_left add portions st)).1 = concat (map hex (digest (message (given ++ concat portions))))) as H.
  { induction portions as [|p portions IH]; intros st given Hst Hg; cbn [fold_left concat].
    - rewrite app_nil_r. by apply get_hash_spec.
    - apply Forall_cons_1 in Hp as [Hp Hps]. rewrite app_assoc. apply IH; [done|by apply add_holds|by apply Forall_app]. }
  apply (H _ []); [by apply reset_holds|done].
Qed.

(** ** The specification: the constants are the roots they are said to be, the padding is the shortest one. *)
Lemma cube_root_below_spec x : ∀ n r, (r * r * r <= x)%N → (x < (r + 2 ^ N.of_nat n) * (r + 2 ^ N.of_nat n) * (r + 2 ^ N.of_nat n))%N →
  let c := cube_root_below n r x in (c * c * c <= x < (c + 1) * (c + 1) * (c + 1))%N.
Proof.
  induction n as [|n IH]; intros r H1 H2; [exact (conj H1 H2)|]. cbn [cube_root_below]. rewrite Nat2N.inj_succ, N.pow_succ_r' in H2.
  set (p := (2 ^ N.of_nat n)%N) in *. destruct (N.leb_spec ((r + p) * (r + p) * (r + p)) x).
  - apply IH; [done|]. fold p. replace (r + p + p)%N with (r + 2 * p)%N by lia. done.
  - apply IH; [done|]. fold p. done.
Qed.
(** [⌊2^32 ∛p⌋] and [⌊2^32 √p⌋]: the lower 32 bits are the first 32 bits of the fractional parts. *)
Theorem C75_roots p : (0 < p < 2 ^ 96)%N →
  let c := cube_root_below 64 0 (p * 2 ^ 96) in (c * c * c <= p * (2 ^ 32 * 2 ^ 32 * 2 ^ 32) < (c + 1) * (c + 1) * (c + 1))%N ∧
  let s := N.sqrt (p * 2 ^ 64) in (s * s <= p * (2 ^ 32 * 2 ^ 32) < (s + 1) * (s + 1))%N.
Proof.
  intros Hp c. replace (2 ^ 32 * 2 ^ 32 * 2 ^ 32)%N with (2 ^ 96)%N by (rewrite <- !N.pow_add_r; done).
  replace (2 ^ 32 * 2 ^ 32)%N with (2 ^ 64)%N by (rewrite <- !N.pow_add_r; done). split.
  - apply cube_root_below_spec; [lia|]. rewrite !N.add_0_l. change (N.of_nat 64) with 64%N.
    replace (2 ^ 64 * 2 ^ 64 * 2 ^ 64)%N with (2 ^ 96 * 2 ^ 96)%N by (rewrite <- !N.pow_add_r; done). apply N.mul_lt_mono_pos_r; [|lia].
    apply N.neq_0_lt_0, N.pow_nonzero. done.
  - intros s. pose proof (N.sqrt_spec (p * 2 ^ 64) ltac:(lia)) as H. cbv zeta in H. fold s in H. rewrite <- !N.add_1_r in H. done.
Qed.
Theorem C75_zeros l : (l + 1 + zeros l) mod 512 = 448 ∧ ∀ k, (l + 1 + k) mod 512 = 448 → zeros l ≤ k.
Proof.
  unfold zeros. pose proof (Nat.mod_upper_bound (l + 1) 512 ltac:(lia)) as Hr.
  assert (∀ k, (l + 1 + k) mod 512 = ((l + 1) mod 512 + k) mod 512) as Hm by (intros k; rewrite Nat.add_mod_idemp_l; lia).
  rewrite !Hm. setoid_rewrite Hm. clear Hm. set (r := (l + 1) mod 512) in *. clearbody r. destruct (decide (r ≤ 448)).
  - replace (448 + 512 - r) with (448 - r + 1 * 512) by lia. rewrite Nat.mod_add, (Nat.mod_small (448 - r)) by lia. split.
    + replace (r + (448 - r)) with 448 by lia. done.
    + intros k Hk. destruct (decide (448 - r ≤ k)); [done|]. rewrite Nat.mod_small in Hk by lia. lia.
  - rewrite (Nat.mod_small (448 + 512 - r)) by lia. split.
    + replace (r + (448 + 512 - r)) with (448 + 1 * 512) by lia. rewrite Nat.mod_add by lia. done.
    + intros k Hk. destruct (decide (448 + 512 - r ≤ k)); [done|]. exfalso.
      destruct (decide (r + k < 512)); [rewrite Nat.mod_small in Hk by lia; lia|].
      replace (r + k) with (r + k - 512 + 1 * 512) in Hk by lia. rewrite Nat.mod_add, Nat.mod_small in Hk by lia. lia.
Qed.
Transparent H0 K process_block N.pow.

(** ** Examples: those of the standard. *)
Definition bytes (s : string) : list N := map N_of_ascii (list_ascii_of_string s).
Definition garbage : list N := replicate 64 165%N.
Example C75_abc : SHA256 garbage garbage (bytes "abc") = bytes "ba7816bf8f01cfea414140de5dae2223b00361a396177a9cb410ff61f20015ad".
Proof. vm_compute. reflexivity. Qed.
Example C75_empty : SHA256 garbage garbage [] = bytes "e3b0c44298fc1c149afbf4c8996fb92427ae41e4649b934ca495991b7852b855".
Proof. vm_compute. reflexivity. Qed.
Definition two_blocks : list N := bytes "abcdbcdecdefdefgefghfghighijhijkijkljklmklmnlmnomnopnopq".
Example C75_two_blocks : SHA256 garbage garbage two_blocks = bytes "248d6a61d20638b8e5c026930c3e6039a33ce45964ff2167f6ecedd419db06c1".
Proof. vm_compute. reflexivity. Qed.
Example C75_hypotheses : length garbage = 64 ∧ Forall (λ b, b < 256)%N two_blocks ∧
  Forall fine [Add two_blocks; GetHash garbage; Add (bytes "abc"); GetHash garbage] ∧ (0 < 311 < 2 ^ 96)%N.
Proof. repeat split; repeat constructor. Qed.
Example C75_asked_twice : answers (reset garbage) [Add (bytes "a"); GetHash garbage; Add (bytes "bc"); GetHash garbage] !! 1 = Some (SHA256 garbage garbage (bytes "abc")).
Proof. vm_compute. reflexivity. Qed.

Print Assumptions C75_sha256.
Print Assumptions C75_portions.
Print Assumptions C75_cut.
Print Assumptions C75_roots.
Print Assumptions C75_zeros.
