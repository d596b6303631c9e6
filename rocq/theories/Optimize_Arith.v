(** * The two arithmetics are ordered *)
From Coq Require Import List Bool Arith Lia ZArith QArith Qabs SpecFloat Lqa.
From Verif Require Import Optimize_Model Optimize_Spec.
Import ListNotations.

Lemma Qlt_b_true a b : Qlt_b a b = true <-> a < b.
Proof.
  unfold Qlt_b. destruct (Qle_bool b a) eqn:E.
  - apply Qle_bool_iff in E. split; [discriminate|]. intros H. exfalso. lra.
  - split; [intros _|reflexivity]. apply Qnot_le_lt. intros H. apply Qle_bool_iff in H. congruence.
Qed.
Lemma rationals_ordered : ordered rationals.
Proof.
  split; cbn -[Qlt_b Qopp].
  - intros a. destruct (Qlt_b a a) eqn:E; [|reflexivity]. apply Qlt_b_true in E. lra.
  - intros a b c. rewrite !Qlt_b_true. lra.
  - intros [n d]. unfold Qopp. cbn. rewrite Z.opp_involutive. reflexivity.
  - intros a b. apply eq_true_iff_eq. rewrite !Qlt_b_true. lra.
  - reflexivity.
Qed.
Lemma rationals_lawful : lawful rationals.
Proof.
  split; [exact rationals_ordered| |]; cbn -[Qlt_b Qopp Qminus].
  - intros a b m _. rewrite !Qlt_b_true. intros H. destruct (Qlt_le_dec a m); [left|right]; lra.
  - intros a b. rewrite !Qlt_b_true. lra.
Qed.

(** The order of the doubles, as one of triples of integers. *)
Definition key (x : spec_float) : Z * Z * Z :=
  match x with
  | S754_infinity true => (-2, 0, 0) | S754_finite true m e => (-1, -e, Zneg m) | S754_zero _ => (0, 0, 0)
  | S754_finite false m e => (1, e, Zpos m) | S754_infinity false => (2, 0, 0) | S754_nan => (0, 0, 0)
  end%Z.
Definition lex (a b : Z * Z * Z) : Prop :=
  let '(a1, a2, a3) := a in let '(b1, b2, b3) := b in (a1 < b1 \/ a1 = b1 /\ (a2 < b2 \/ a2 = b2 /\ a3 < b3))%Z.
Lemma SFltb_key x y : SFltb x y = true <-> x <> S754_nan /\ y <> S754_nan /\ lex (key x) (key y).
Proof.
  unfold SFltb, SFcompare.
  destruct x as [s1|s1| |s1 m1 e1]; destruct y as [s2|s2| |s2 m2 e2]; try (destruct s1); try (destruct s2);
    cbn [key lex]; try (split; [discriminate|intros (H1 & H2 & H3); try congruence; lia]);
    try (split; [intros _; repeat split; try discriminate; lia|reflexivity]).
  - destruct (Z.compare_spec e1 e2).
    + change (Pos.compare_cont Eq m1 m2) with (Pos.compare m1 m2). destruct (Pos.compare_spec m1 m2); cbn;
        (split; [try discriminate; intros _; repeat split; try discriminate; lia|intros (_ & _ & H1); try reflexivity; lia]).
    + split; [discriminate|]. intros (_ & _ & H1). lia.
    + split; [intros _; repeat split; try discriminate; lia|reflexivity].
  - destruct (Z.compare_spec e1 e2).
    + change (Pos.compare_cont Eq m1 m2) with (Pos.compare m1 m2). destruct (Pos.compare_spec m1 m2); cbn;
        (split; [try discriminate; intros _; repeat split; try discriminate; lia|intros (_ & _ & H1); try reflexivity; lia]).
    + split; [intros _; repeat split; try discriminate; lia|reflexivity].
    + split; [discriminate|]. intros (_ & _ & H1). lia.
Qed.
Lemma key_opp x : key (SFopp x) = let '(a, b, c) := key x in (- a, - b, - c)%Z.
Proof. destruct x as [[|]|[|]| |[|] m e]; cbn; repeat f_equal; lia. Qed.
Lemma ieee_ordered : ordered ieee.
Proof.
  split; cbn [lt neg normal ieee num].
  - intros a. destruct (SFltb a a) eqn:E; [|reflexivity]. apply SFltb_key in E as (_ & _ & E). unfold lex in E. destruct (key a) as [[? ?] ?]. lia.
  - intros a b c. rewrite !SFltb_key. intros (H1 & H2 & H3) (_ & H4 & H5). split; [exact H1|]. split; [exact H4|].
    unfold lex in *. destruct (key a) as [[? ?] ?], (key b) as [[? ?] ?], (key c) as [[? ?] ?]. lia.
  - intros [s|s| |s m e]; cbn; rewrite ?negb_involutive; reflexivity.
  - intros a b. apply eq_true_iff_eq. rewrite !SFltb_key, !key_opp. unfold lex. destruct (key a) as [[? ?] ?], (key b) as [[? ?] ?].
    assert (forall x, SFopp x <> S754_nan <-> x <> S754_nan) as N by (intros [[|]|[|]| |[|] ? ?]; cbn; split; congruence).
    rewrite !N. split; intros (H1 & H2 & H3); repeat split; try assumption; lia.
  - intros [s|s| |s m e]; reflexivity.
Qed.
