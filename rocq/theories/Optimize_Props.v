(** * C90: the optimizers *)
From Coq Require Import List Bool Arith Lia ZArith QArith SpecFloat.
From Verif Require Import Optimize_Model Optimize_Spec Optimize_Proofs Optimize_Arith.
Import ListNotations.

Lemma restore_done A d o r : restore A d o = Done A r -> exists r0, o = Done A r0 /\
  value A (final A r) = signed A d (value A (final A r0)) /\ at_point A (final A r) = at_point A (final A r0) /\
  iterations A r = iterations A r0 /\ progress A r = progress A r0.
Proof. destruct o as [[c i p]|]; cbn; [|discriminate]. intros [= <-]. eexists. repeat split. Qed.

(** ** GradientDescentOptimizer *)
(** The result is a point with the value of the function there, which is that at the start or better; the progress that is tracked begins with
    the start, and from each value to the next, and to the result, nothing becomes worse; and the limit on the number of steps is kept.  This
    holds in any ordered arithmetic: of IEEE doubles, with NaN and all ([ieee_ordered]). *)
Theorem C90_descent_is_monotone A d P steps f g start r :
  ordered A -> gradient_descent A d P steps f g start = Done A r ->
  value A (final A r) = f (at_point A (final A r)) /\
  (value A (final A r) = f start \/ better A d (f start) (value A (final A r))) /\
  improving A d (progress A r) /\ improving A d (f start :: progress A r) /\
  (forall v, last (f start :: progress A r) v = value A (final A r) \/ better A d (last (f start :: progress A r) v) (value A (final A r))) /\
  (iterations A r <= max_steps A P)%nat /\ (length (progress A r) <= S (iterations A r))%nat.
Proof.
  intros OA E. unfold gradient_descent in E. apply restore_done in E as (r0 & E & Ev & Ep & Ei & Eg).
  apply (gd_loop_spec A OA) in E; [|reflexivity|exact I]. destruct E as (H1 & (l & H2 & H2a & H2b) & H3 & H4 & H5).
  cbn in H2, H4, H5. unfold honest in H1.
  assert (value A (final A r) = f (at_point A (final A r))) as V.
  { rewrite Ev, Ep, H1. apply signed_signed. exact OA. }
  rewrite Eg, Ei. split; [exact V|]. rewrite V, Ep. rewrite H2 in *. clear r Ev Ep Ei Eg V.
  cbn [at_point] in *. set (w := f (at_point A (final A r0))) in *.
  assert (improving A d l /\ improving A d (f start :: l) /\
    (forall v, w = last (f start :: l) v \/ better A d (last (f start :: l) v) w)) as (I1 & I2 & I3).
  { destruct l as [|a l].
    - unfold w. rewrite (H2a eq_refl). cbn. auto.
    - assert (a = f start) as -> by exact (H2b a l eq_refl).
      assert (forall m x, improving A d (m ++ [x]) -> improving A d m) as Cut.
      { clear. induction m as [|y m IH]; intros x; cbn [app]; [intros _; exact I|]. destruct m as [|z m]; [intros _; exact I|].
        intros [H1 H2]. split; [exact H1|]. exact (IH x H2). }
      assert (forall m y x v, improving A d ((y :: m) ++ [x]) -> x = last (y :: m) v \/ better A d (last (y :: m) v) x) as End.
      { clear. induction m as [|z m IH]; intros y x v; cbn [app].
        - intros [H _]. exact H.
        - intros [_ H]. exact (IH z x v H). }
      assert (improving A d (f start :: l)) as I1.
      { destruct H3 as [H3|(l0 & _ & H3)]; [exact (Cut _ _ H3)|exact H3]. }
      split; [exact I1|]. split; [split; [left; reflexivity|exact I1]|]. intros v.
      change (last (f start :: f start :: l) v) with (last (f start :: l) v).
      destruct H3 as [H3|(l0 & H3 & _)]; [exact (End _ _ _ v H3)|]. left. rewrite H3. symmetry. apply last_last. }
  split.
  { destruct (improving_ends A OA d (f start) l (last (f start :: l) (f start)) I2 eq_refl) as [H|H];
      destruct (I3 (f start)) as [K|K].
    - left. congruence.
    - right. rewrite H in K. exact K.
    - right. rewrite K. exact H.
    - right. eapply better_trans; eassumption. }
  split; [exact I1|]. split; [exact I2|]. split.
  { intros v. destruct (I3 v); [left; auto|right; auto]. }
  lia.
Qed.

(** When GradientDescentOptimizer throws: never, if the function is a normal number everywhere; and certainly if it has no normal value at any of
    the points to which the steps from the start lead (unless there is no step to be made). *)
Lemma candidates_valid A d f p gr steps best valid : (forall q, normal A (f q) = true) -> steps <> [] \/ valid = true ->
  snd (candidates A d f p gr steps best valid) = true.
Proof.
  intros N. revert best valid. induction steps as [|x steps IH]; intros best valid H; cbn.
  - destruct H as [H|H]; [now contradiction H|exact H].
  - rewrite N. apply IH. now right.
Qed.
Lemma candidates_invalid A d f p gr steps best valid :
  (forall step, In step steps -> normal A (f (sum_vectors1 A p gr (neg A step))) = false) ->
  candidates A d f p gr steps best valid = (best, valid).
Proof.
  induction steps as [|x steps IH]; intros H; cbn; [reflexivity|]. rewrite (H x (or_introl eq_refl)). apply IH. intros y I. apply H. now right.
Qed.
Lemma gd_loop_no_throw A d P f g steps todo done_ stale c prog : (forall q, normal A (f q) = true) -> steps <> [] ->
  gd_loop A d P f g steps todo done_ stale c prog <> Throws A.
Proof.
  intros N S. revert done_ stale c prog. induction todo as [|todo IH]; intros done_ stale c prog; cbn; [discriminate|].
  destruct (stopping A P done_ c _); [discriminate|]. pose proof (candidates_valid A d f (at_point A c) (signed_gradient A d (g (at_point A c))) steps c false N (or_introl S)) as V.
  destruct (candidates A d f _ _ steps c false) as [best valid]. cbn in V. rewrite V. cbn.
  destruct (no_improvement A _ _ _ _); [|apply IH]. destruct (patience A P); [discriminate|]. destruct (Nat.leb _ _); [discriminate|apply IH].
Qed.
Theorem C90_descent_throws_if_nothing_is_valid A d P steps f g start :
  ((forall q, normal A (f q) = true) -> steps <> [] -> gradient_descent A d P steps f g start <> Throws A) /\
  ((forall step, In step steps -> normal A (f (sum_vectors1 A start (signed_gradient A d (g start)) (neg A step))) = false) ->
   (0 < max_steps A P)%nat -> (forall i c q, stopping A P i c q = false) ->
   gradient_descent A d P steps f g start = Throws A).
Proof.
  split.
  - intros N S. unfold gradient_descent. pose proof (gd_loop_no_throw A d P f g steps (max_steps A P) 0 0 (VP A (signed A d (f start)) start) [] N S) as H.
    destruct (gd_loop _ _ _ _ _ _ _ _ _ _ _) as [[c i p]|]; cbn; congruence.
  - intros N M S. unfold gradient_descent. destruct (max_steps A P) as [|n]; [lia|]. cbn. rewrite S, (candidates_invalid A d f start _ steps _ _ N). reflexivity.
Qed.

(** ** The two that search along a line *)
(** The result is a point with the value of the function there; a normal number if that at the start is. *)
Theorem C90_line_search_results_are_honest A d P f g start r :
  ordered A -> gradient_descent_bt A d P f g start = Done A r \/ conjugate_gradient A d P f g start = Done A r ->
  value A (final A r) = f (at_point A (final A r)) /\ (normal A (f start) = true -> normal A (value A (final A r)) = true) /\
  (iterations A r <= max_steps A P)%nat.
Proof.
  intros OA E.
  assert (exists r0, good A d f (strict_params A P) (VP A (signed A d (f start)) start) (final A r0) /\ (iterations A r0 <= max_steps A P)%nat /\
    value A (final A r) = signed A d (value A (final A r0)) /\ at_point A (final A r) = at_point A (final A r0) /\ iterations A r = iterations A r0)
    as (r0 & (H1 & H2 & _) & H3 & H4 & H5 & H6).
  { destruct E as [E|E].
    - unfold gradient_descent_bt in E. apply restore_done in E as (r0 & E & Ev & Ep & Ei & _).
      apply (bt_loop_spec A OA) in E; [|reflexivity]. exists r0. destruct E as [E1 E2]. repeat split; try assumption; try apply E1; lia.
    - unfold conjugate_gradient in E. destruct (normal A (f start)); [|discriminate]. cbv zeta in E. apply restore_done in E as (r0 & E & Ev & Ep & Ei & _).
      apply (cg_loop_spec A OA) in E; [|reflexivity]. exists r0. destruct E as [E1 E2]. repeat split; try assumption; try apply E1; lia. }
  unfold honest in H1. split; [|split; [|lia]].
  - rewrite H4, H5, H1. apply signed_signed. exact OA.
  - intros N. rewrite H4, signed_normal by exact OA. apply H2. cbn. rewrite signed_normal by exact OA. exact N.
Qed.
(** The conjugate gradient returns normal numbers only. *)
Theorem C90_conjugate_gradient_is_normal A d P f g start r :
  ordered A -> conjugate_gradient A d P f g start = Done A r -> normal A (value A (final A r)) = true.
Proof.
  intros OA E. assert (normal A (f start) = true) as N.
  { unfold conjugate_gradient in E. destruct (normal A (f start)); [reflexivity|discriminate]. }
  apply (C90_line_search_results_are_honest A d P f g start r OA (or_intror E)). exact N.
Qed.
(** If a single step without improvement ends the optimization (no_improvement_steps_to_terminate at most one; by default it is two), the result is not
    worse than the start. *)
Theorem C90_line_search_is_not_worse_partial A d P f g start r :
  lawful A -> (patience A P <= 1)%nat -> normal A (min_absolute A P) = true -> lt A (min_absolute A P) (zero A) = false ->
  normal A (f start) = true ->
  gradient_descent_bt A d P f g start = Done A r \/ conjugate_gradient A d P f g start = Done A r ->
  ~ better A d (value A (final A r)) (f start).
Proof.
  intros LA S1 S2 S3 N E. pose proof (law_ordered _ LA) as OA.
  assert (exists r0, good A d f (strict_params A P) (VP A (signed A d (f start)) start) (final A r0) /\
    value A (final A r) = signed A d (value A (final A r0))) as (r0 & (_ & _ & H) & Ev).
  { destruct E as [E|E].
    - unfold gradient_descent_bt in E. apply restore_done in E as (r0 & E & Ev & _).
      apply (bt_loop_spec A OA) in E; [|reflexivity]. exists r0. destruct E as [E1 E2]. split; assumption.
    - unfold conjugate_gradient in E. destruct (normal A (f start)); [|discriminate]. cbv zeta in E. apply restore_done in E as (r0 & E & Ev & _).
      apply (cg_loop_spec A OA) in E; [|reflexivity]. exists r0. destruct E as [E1 E2]. split; assumption. }
  assert (not_worse A (VP A (signed A d (f start)) start) (final A r0)) as NW.
  { apply H; [exact (conj LA (conj S1 (conj S2 S3)))|]. cbn. rewrite signed_normal by exact OA. exact N. }
  unfold not_worse in NW. cbn in NW. intros B. apply (signed_lt A OA) in B. rewrite Ev, signed_signed in B by exact OA. congruence.
Qed.

(** For the examples: an outcome that is looked at without being written down. *)
Definition check {A} (o : outcome A) (b : result A -> bool) : bool := match o with Done _ r => b r | Throws _ => false end.
Lemma check_done {A} (o : outcome A) b : check o b = true -> exists r, o = Done A r /\ b r = true.
Proof. destruct o as [r|]; [|discriminate]. intros H. exists r. auto. Qed.

(** ** Not so *)
(** A parabola, as steep as the objective functions of the tests times a large number: f(x) = 10^12 x^2 and its derivative, in doubles. *)
Definition steep (p : point ieee) : spec_float :=
  match p with [x] => SFmul prec emax (of_Z (10 ^ 12)) (SFmul prec emax x x) | _ => S754_nan end.
Definition steep_gradient (p : point ieee) : point ieee :=
  match p with [x] => [SFmul prec emax (of_Z (2 * 10 ^ 12)) x] | _ => [] end.
(** "The result is not worse than the start": a line search that runs out of its hundred steps returns where it is, and the first step that makes
    things worse is taken all the same.  Both optimizers, with the parameters they have by default, minimize 10^12 x^2 from 1 (10^12) to about -325,
    where it is 10^17. *)
Theorem C90_result_is_not_worse_refuted :
  exists r1 r2, gradient_descent_bt ieee Minimize (defaults 250) steep steep_gradient [of_Z 1] = Done ieee r1 /\
    conjugate_gradient ieee Minimize (defaults 250) steep steep_gradient [of_Z 1] = Done ieee r2 /\
    SFltb (SFmul prec emax (of_Z (10 ^ 5)) (steep [of_Z 1])) (value ieee (final ieee r1)) = true /\
    SFltb (SFmul prec emax (of_Z (10 ^ 5)) (steep [of_Z 1])) (value ieee (final ieee r2)) = true.
Proof.
  assert (check (gradient_descent_bt ieee Minimize (defaults 250) steep steep_gradient [of_Z 1])
     (fun r => SFltb (SFmul prec emax (of_Z (10 ^ 5)) (steep [of_Z 1])) (value ieee (final ieee r))) = true) as H1 by (vm_compute; reflexivity).
  assert (check (conjugate_gradient ieee Minimize (defaults 250) steep steep_gradient [of_Z 1])
     (fun r => SFltb (SFmul prec emax (of_Z (10 ^ 5)) (steep [of_Z 1])) (value ieee (final ieee r))) = true) as H2 by (vm_compute; reflexivity).
  apply check_done in H1 as (r1 & E1 & H1). apply check_done in H2 as (r2 & E2 & H2). exists r1, r2. exact (conj E1 (conj E2 (conj H1 H2))).
Qed.

(** "The result is a number": the first optimizer does not look at the value at the start.  If that is NaN, nothing is ever less, and NaN is returned, after the
    full number of steps, although every other point has a value. *)
Definition hole (p : point ieee) : spec_float :=
  match p with [S754_zero _] => S754_nan | _ => of_Z 1 end.
Theorem C90_descent_returns_numbers_refuted :
  exists r, gradient_descent ieee Minimize (defaults 10) default_steps hole (fun _ => [of_Z 1]) [of_Z 0] = Done ieee r /\
    value ieee (final ieee r) = S754_nan /\ iterations ieee r = 10%nat /\ hole [lit 1 100] = of_Z 1.
Proof.
  assert (check (gradient_descent ieee Minimize (defaults 10) default_steps hole (fun _ => [of_Z 1]) [of_Z 0])
     (fun r => match value ieee (final ieee r) with S754_nan => Nat.eqb (iterations ieee r) 10 | _ => false end) = true) as H by (vm_compute; reflexivity).
  apply check_done in H as (r & E & H). exists r. split; [exact E|]. destruct (value ieee (final ieee r)); try discriminate H.
  apply Nat.eqb_eq in H. split; [reflexivity|]. split; [exact H|]. vm_compute. reflexivity.
Qed.

(** ** The hypotheses are met *)
(** f(x) = x^2 from 4, in doubles: all three do well. *)
Definition parabola (p : point ieee) : spec_float := match p with [x] => SFmul prec emax x x | _ => S754_nan end.
Definition parabola_gradient (p : point ieee) : point ieee := match p with [x] => [SFmul prec emax (of_Z 2) x] | _ => [] end.
Example C90_example :
  match gradient_descent ieee Minimize (defaults 20) default_steps parabola parabola_gradient [of_Z 4],
        gradient_descent_bt ieee Minimize (defaults 20) parabola parabola_gradient [of_Z 4],
        conjugate_gradient ieee Minimize (defaults 20) parabola parabola_gradient [of_Z 4] with
  | Done _ r1, Done _ r2, Done _ r3 =>
      iterations ieee r1 = 20%nat /\ length (progress ieee r1) = 20%nat /\ SFltb (value ieee (final ieee r1)) (lit 1 100) = true /\
      SFltb (value ieee (final ieee r2)) (lit 1 100) = true /\ SFltb (value ieee (final ieee r3)) (lit 1 100) = true
  | _, _, _ => False
  end.
Proof. vm_compute. repeat split. Qed.
(** In exact arithmetic, with one step of patience. *)
Definition exact_params : params rationals :=
  Params rationals 1 3 (1 # 2) (4 # 5) 100 (1 # 10 ^ 8) 0 0 1 (fun _ _ _ => false).
Example C90_example_exact : exists r,
  conjugate_gradient rationals Maximize exact_params (fun p => match p with [x] => - (x * x) | _ => 0 end)
    (fun p => match p with [x] => [-(2) * x] | _ => [] end) [4 # 1] = Done rationals r /\
  lawful rationals /\ lt rationals (-(16)) (value rationals (final rationals r)) = true.
Proof.
  assert (check (conjugate_gradient rationals Maximize exact_params (fun p => match p with [x] => - (x * x) | _ => 0 end)
    (fun p => match p with [x] => [-(2) * x] | _ => [] end) [4 # 1]) (fun r => lt rationals (-(16)) (value rationals (final rationals r))) = true) as H by (vm_compute; reflexivity).
  apply check_done in H as (r & E & H). exists r. split; [exact E|]. split; [exact rationals_lawful|exact H].
Qed.

Print Assumptions C90_descent_is_monotone.
Print Assumptions C90_descent_throws_if_nothing_is_valid.
Print Assumptions ieee_ordered.
Print Assumptions C90_line_search_results_are_honest.
Print Assumptions C90_conjugate_gradient_is_normal.
Print Assumptions C90_line_search_is_not_worse_partial.
Print Assumptions C90_result_is_not_worse_refuted.
Print Assumptions C90_descent_returns_numbers_refuted.
