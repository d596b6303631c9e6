(** Decimal text of integers as produced by iostreams / [std::to_string] and read back by
    [FromString]/[>>] on plain digit strings.  Library code (not in /repo), used by several models. *)
From Verif Require Import Base.

Ltac Zify.zify_post_hook ::= Z.div_mod_to_equations.

(** Digits, least significant first. [fuel] = bit size + 1 is always enough. *)
Fixpoint dec_rev (fuel : nat) (n : N) : list N :=
  match fuel with
  | O => []
  | S f => if (n <? 10)%N then [n] else (n mod 10)%N :: dec_rev f (n / 10)%N
  end.

Definition dec (n : N) : bytes := map (fun d => (d + 48)%N) (rev (dec_rev (S (N.size_nat n)) n)).

Definition is_digit (b : byte) : bool := ((48 <=? b) && (b <=? 57))%N.

Definition horner (s : bytes) : N := fold_left (fun a b => (a * 10 + (b - 48))%N) s 0%N.

Definition undec (s : bytes) : option N :=
  match s with
  | [] => None
  | _ => if forallb is_digit s then Some (horner s) else None
  end.

Definition zdec (z : Z) : bytes :=
  if (z <? 0)%Z then 45%N :: dec (Z.to_N (- z)) else dec (Z.to_N z).

Definition zundec (s : bytes) : option Z :=
  match s with
  | 45%N :: s' => option_map (fun n => (- Z.of_N n)%Z) (undec s')
  | _ => option_map Z.of_N (undec s)
  end.

(** [std::setfill('0') << std::setw(w) << n] for n >= 0. *)
Definition pad (w : nat) (n : N) : bytes := repeat 48%N (w - length (dec n)) ++ dec n.

(** ** Facts *)
Lemma size_nat_pow n : (n < 2 ^ N.of_nat (N.size_nat n))%N.
Proof.
  destruct n as [|p]; [cbn; lia|].
  cbn [N.size_nat]. induction p as [p IH|p IH|]; cbn [Pos.size_nat].
  - rewrite Nat2N.inj_succ, N.pow_succ_r'. lia.
  - rewrite Nat2N.inj_succ, N.pow_succ_r'. lia.
  - cbn. lia.
Qed.

Fixpoint value_rev (l : list N) : N :=
  match l with [] => 0%N | d :: l' => (d + 10 * value_rev l')%N end.

Lemma dec_rev_S f n :
  dec_rev (S f) n = if (n <? 10)%N then [n] else (n mod 10)%N :: dec_rev f (n / 10)%N.
Proof. reflexivity. Qed.

Lemma dec_rev_value fuel : forall n, (n < 2 ^ N.of_nat fuel)%N -> value_rev (dec_rev (S fuel) n) = n.
Proof.
  induction fuel as [|f IH]; intros n Hn.
  - cbn in Hn. cbn [dec_rev]. assert (n = 0)%N as -> by (change (2 ^ N.of_nat 0)%N with 1%N in Hn; lia). reflexivity.
  - rewrite dec_rev_S. destruct (N.ltb_spec n 10) as [H|H]; [cbn; lia|].
    cbn [value_rev]. rewrite IH; [lia|].
    rewrite Nat2N.inj_succ, N.pow_succ_r' in Hn. lia.
Qed.

Lemma dec_rev_lt10 fuel : forall n, Forall (fun d => (d < 10)%N) (dec_rev fuel n).
Proof.
  induction fuel as [|f IH]; intros n; cbn; [constructor|].
  destruct (N.ltb_spec n 10); constructor; auto. lia.
Qed.

Lemma horner_rev l : Forall (fun d => (d < 10)%N) l ->
  horner (map (fun d => (d + 48)%N) (rev l)) = value_rev l.
Proof.
  unfold horner. induction 1 as [|d l Hd _ IH]; [reflexivity|].
  cbn [rev value_rev]. rewrite map_app, fold_left_app, IH. cbn. lia.
Qed.

Lemma horner_dec n : horner (dec n) = n.
Proof.
  unfold dec. rewrite horner_rev by apply dec_rev_lt10. apply dec_rev_value, size_nat_pow.
Qed.

Lemma dec_is_digit n : Forall (fun b => is_digit b = true) (dec n).
Proof.
  unfold dec. apply Forall_map. rewrite Forall_forall. intros d Hd. apply in_rev in Hd.
  pose proof (dec_rev_lt10 (S (N.size_nat n)) n) as H. rewrite Forall_forall in H.
  specialize (H d Hd). unfold is_digit. lia.
Qed.

Lemma dec_nonempty n : dec n <> [].
Proof.
  unfold dec. cbn [dec_rev]. destruct (n <? 10)%N; cbn; [discriminate|].
  rewrite map_app. cbn. intros H. apply app_eq_nil in H. destruct H; discriminate.
Qed.

Lemma forallb_Forall {A} (f : A -> bool) l : forallb f l = true <-> Forall (fun x => f x = true) l.
Proof. rewrite forallb_forall, Forall_forall. reflexivity. Qed.

Lemma undec_dec n : undec (dec n) = Some n.
Proof.
  unfold undec. pose proof (dec_nonempty n). destruct (dec n) eqn:E; [congruence|rewrite <- E].
  rewrite (proj2 (forallb_Forall _ _) (dec_is_digit n)). now rewrite horner_dec.
Qed.

Lemma dec_inj n m : dec n = dec m -> n = m.
Proof. intros H. rewrite <- (horner_dec n), H. apply horner_dec. Qed.

Lemma dec_head_digit n : exists b r, dec n = b :: r /\ is_digit b = true.
Proof.
  pose proof (dec_nonempty n). pose proof (dec_is_digit n) as Hd. destruct (dec n) as [|b r]; [congruence|].
  inversion Hd; subst. eauto.
Qed.

Lemma zundec_zdec z : zundec (zdec z) = Some z.
Proof.
  unfold zdec, zundec. destruct (Z.ltb_spec z 0).
  - rewrite undec_dec. cbn. f_equal. lia.
  - pose proof (dec_head_digit (Z.to_N z)) as (b & r & Hb & Hd).
    assert (H45 : b <> 45%N) by (intros ->; discriminate).
    rewrite Hb.
    assert (Hm : forall X (x y : X), match b with 45%N => x | _ => y end = y).
    { intros X x y. destruct b as [|p]; [reflexivity|].
      repeat (destruct p as [p|p|]; try reflexivity). exfalso; apply H45; reflexivity. }
    rewrite Hm. rewrite <- Hb, undec_dec. cbn. f_equal. lia.
Qed.

Lemma zdec_head_not z : forall b r, zdec z = b :: r -> is_digit b = true \/ b = 45%N.
Proof.
  unfold zdec. intros b r. destruct (z <? 0)%Z.
  - intros [= <- <-]. now right.
  - destruct (dec_head_digit (Z.to_N z)) as (b' & r' & -> & Hd). intros [= <- <-]. now left.
Qed.

Definition is_num (b : byte) : bool := is_digit b || N.eqb b 45.

Lemma zdec_is_num z : Forall (fun b => is_num b = true) (zdec z).
Proof.
  assert (H : forall n, Forall (fun b => is_num b = true) (dec n)).
  { intros n. eapply Forall_impl; [|apply dec_is_digit]. intros b Hb. unfold is_num. now rewrite Hb. }
  unfold zdec. destruct (z <? 0)%Z; [constructor; [reflexivity|]|]; apply H.
Qed.

Lemma zdec_inj a b : zdec a = zdec b -> a = b.
Proof. intros H. pose proof (zundec_zdec a) as Ha. rewrite H, zundec_zdec in Ha. congruence. Qed.

(** Padding. *)
Lemma horner_zeros k s : horner (repeat 48%N k ++ s) = horner s.
Proof. unfold horner. rewrite fold_left_app. f_equal. induction k as [|k IH]; [reflexivity|]. cbn. exact IH. Qed.

Lemma pad_is_digit w n : Forall (fun b => is_digit b = true) (pad w n).
Proof.
  unfold pad. apply Forall_app. split; [|apply dec_is_digit].
  rewrite Forall_forall. intros b Hb. apply repeat_spec in Hb. now subst.
Qed.

Lemma horner_pad w n : horner (pad w n) = n.
Proof. unfold pad. rewrite horner_zeros. apply horner_dec. Qed.

Lemma pad_nonempty w n : pad w n <> [].
Proof. unfold pad. intros H. apply app_eq_nil in H. destruct H as [_ H]. now apply dec_nonempty in H. Qed.

Lemma undec_pad w n : undec (pad w n) = Some n.
Proof.
  unfold undec. pose proof (pad_nonempty w n). destruct (pad w n) eqn:E; [congruence|rewrite <- E].
  rewrite (proj2 (forallb_Forall _ _) (pad_is_digit w n)). now rewrite horner_pad.
Qed.

Lemma dec_rev_length fuel : forall n w, (n < 10 ^ N.of_nat (S w))%N -> length (dec_rev fuel n) <= S w.
Proof.
  induction fuel as [|f IH]; intros n w Hn; cbn [dec_rev]; [cbn; lia|].
  destruct (N.ltb_spec n 10); cbn [length]; [lia|].
  destruct w as [|w].
  - change (10 ^ N.of_nat 1)%N with 10%N in Hn. lia.
  - apply le_n_S. apply IH. rewrite Nat2N.inj_succ, N.pow_succ_r' in Hn. lia.
Qed.

Lemma dec_length n w : (n < 10 ^ N.of_nat w)%N -> 0 < w -> length (dec n) <= w.
Proof.
  intros H Hw. unfold dec. rewrite map_length, rev_length. destruct w as [|w]; [lia|].
  now apply dec_rev_length.
Qed.

Lemma pad_length w n : (n < 10 ^ N.of_nat w)%N -> 0 < w -> length (pad w n) = w.
Proof.
  intros H Hw. unfold pad. rewrite app_length, repeat_length.
  pose proof (dec_length n w H Hw). lia.
Qed.
