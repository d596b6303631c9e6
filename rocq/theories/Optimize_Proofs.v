(** * Proofs about the optimizers *)
From Coq Require Import List Bool Arith Lia ZArith QArith Qabs SpecFloat.
From Verif Require Import Optimize_Model Optimize_Spec.
Import ListNotations.

Section Generic.
Context (A : arith) (OA : ordered A) (d : direction) (f : point A -> num A) (g : point A -> point A).
Notation num := (num A).
Notation value := (value A).
Notation at_point := (at_point A).
Notation signed := (signed A).
Notation better := (better A).
Notation improving := (improving A).

Lemma signed_signed v : signed d (signed d v) = v.
Proof. destruct d; [reflexivity|]. apply (neg_neg _ OA). Qed.
Lemma signed_lt a b : lt A (signed d a) (signed d b) = true <-> better d b a.
Proof. destruct d; [reflexivity|]. cbn. rewrite (neg_lt _ OA). reflexivity. Qed.
Lemma signed_normal v : normal A (signed d v) = normal A v.
Proof. destruct d; [reflexivity|]. apply (normal_neg _ OA). Qed.
Lemma better_trans a b c : better d a b -> better d b c -> better d a c.
Proof. destruct d; cbn; intros H1 H2; eapply (lt_trans _ OA); eassumption. Qed.
Lemma better_asym a b : better d a b -> better d b a -> False.
Proof. intros H1 H2. pose proof (better_trans _ _ _ H1 H2) as H. destruct d; cbn in H; rewrite (lt_irrefl _ OA) in H; discriminate. Qed.

Lemma improving_ends a l b : improving d (a :: l) -> last (a :: l) a = b -> b = a \/ better d a b.
Proof.
  revert a. induction l as [|c l IH]; intros a.
  - cbn. auto.
  - intros [H1 H2] E. assert (last (c :: l) c = b) as E2.
    { rewrite <- E. change (last (a :: c :: l) a) with (last (c :: l) a). clear. revert a c. induction l; intros x y; [reflexivity|].
      cbn [last] in *. destruct l; [reflexivity|]. apply IHl. }
    destruct (IH _ H2 E2) as [->|H3]; [exact H1|]. right. destruct H1 as [->|H1]; [exact H3|]. eapply better_trans; eassumption.
Qed.
Lemma improving_snoc l a b : improving d (l ++ [a]) -> (b = a \/ better d a b) -> improving d ((l ++ [a]) ++ [b]).
Proof.
  induction l as [|x l IH]; cbn [app]; intros H1 H2.
  - cbn. auto.
  - destruct l as [|y l]; cbn [app] in *.
    + destruct H1 as [H1 _]. cbn. auto.
    + destruct H1 as [H1 H3]. split; [exact H1|]. exact (IH H3 H2).
Qed.

(** A point with its value. *)
Definition honest (c : vp A) : Prop := value c = signed d (f (at_point c)).

(** ** GradientDescentOptimizer *)
Lemma candidates_spec p gr steps : forall best valid b v,
  honest best -> candidates A d f p gr steps best valid = (b, v) ->
  honest b /\ (b = best \/ lt A (value b) (value best) = true).
Proof.
  induction steps as [|st steps IH]; intros best valid b v H; cbn [candidates].
  - intros [= <- <-]. auto.
  - cbn zeta. destruct (normal A _); [|intros E; eapply IH; eassumption].
    unfold min_vp. cbn [Optimize_Model.value]. destruct (lt A _ (value best)) eqn:L; intros E; [|eapply IH; eassumption].
    apply IH in E; [|reflexivity]. destruct E as [E1 E2]. split; [exact E1|]. right. destruct E2 as [->|E2]; [exact L|].
    eapply (lt_trans _ OA); eassumption.
Qed.
Lemma gd_loop_spec P steps : forall todo done_ stale c prog r,
  honest c -> improving d (prog ++ [f (at_point c)]) ->
  gd_loop A d P f g steps todo done_ stale c prog = Done A r ->
  honest (final A r) /\ (exists l, progress A r = prog ++ l /\ (l = [] -> final A r = c) /\ forall a l', l = a :: l' -> a = f (at_point c)) /\
  (improving d (progress A r ++ [f (at_point (final A r))]) \/
   exists l, progress A r = l ++ [f (at_point (final A r))] /\ improving d (progress A r)) /\
  (done_ <= iterations A r <= done_ + todo)%nat /\ (length (progress A r) + done_ <= S (iterations A r) + length prog)%nat.
Proof.
  induction todo as [|todo IH]; intros done_ stale c prog r H I; cbn [gd_loop].
  - intros [= <-]. cbn. split; [exact H|]. split.
    { exists []. rewrite app_nil_r. split; [reflexivity|]. split; [reflexivity|]. discriminate. }
    split; [left; exact I|]. lia.
  - cbn zeta. set (prog' := prog ++ [f (at_point c)]).
    assert (forall k, (done_ <= k)%nat -> k = done_ -> forall r, r = Result A c k prog' ->
      honest (final A r) /\ (exists l, progress A r = prog ++ l /\ (l = [] -> final A r = c) /\ forall a l', l = a :: l' -> a = f (at_point c)) /\
      (improving d (progress A r ++ [f (at_point (final A r))]) \/
       exists l, progress A r = l ++ [f (at_point (final A r))] /\ improving d (progress A r)) /\
      (done_ <= iterations A r <= done_ + S todo)%nat /\ (length (progress A r) + done_ <= S (iterations A r) + length prog)%nat) as Stop.
    { intros k _ -> r' ->. cbn. split; [exact H|]. split.
      { exists [f (at_point c)]. split; [reflexivity|]. split; [discriminate|]. intros a l' [= <- _]. reflexivity. }
      split; [right; exists prog; auto|]. unfold prog'. rewrite app_length. cbn. lia. }
    destruct (stopping A P done_ c _); [intros [= <-]; eapply Stop; eauto|].
    destruct (candidates A d f (at_point c) _ steps c false) as [b v] eqn:Ec.
    apply candidates_spec in Ec; [|exact H]. destruct Ec as [Hb Eb].
    assert (f (at_point b) = f (at_point c) \/ better d (f (at_point c)) (f (at_point b))) as Step.
    { destruct Eb as [->|Eb]; [left; reflexivity|]. right. apply signed_lt. rewrite <- Hb, <- H. exact Eb. }
    assert (improving d (prog' ++ [f (at_point b)])) as I' by (apply improving_snoc; assumption).
    assert (forall stale', gd_loop A d P f g steps todo (S done_) stale' b prog' = Done A r ->
      honest (final A r) /\ (exists l, progress A r = prog ++ l /\ (l = [] -> final A r = c) /\ forall a l', l = a :: l' -> a = f (at_point c)) /\
      (improving d (progress A r ++ [f (at_point (final A r))]) \/
       exists l, progress A r = l ++ [f (at_point (final A r))] /\ improving d (progress A r)) /\
      (done_ <= iterations A r <= done_ + S todo)%nat /\ (length (progress A r) + done_ <= S (iterations A r) + length prog)%nat) as Go.
    { intros st E. apply IH in E; [|assumption|assumption]. destruct E as (E1 & (l & E2 & _ & _) & E3 & E4 & E5).
      split; [exact E1|]. split.
      { exists (f (at_point c) :: l). rewrite E2. unfold prog'. rewrite <- app_assoc. split; [reflexivity|]. split; [discriminate|].
        intros a l' [= <- _]. reflexivity. }
      split; [exact E3|]. unfold prog' in E5. rewrite app_length in E5. cbn in E5. lia. }
    destruct v; cbn [negb]; [|discriminate].
    destruct (no_improvement A _ _ _ _); [|apply Go].
    destruct (patience A P <=? S stale)%nat; [intros [= <-]; eapply Stop; eauto|apply Go].
Qed.

(** ** The line search *)
Lemma backtrack_honest p dir al be cv n : forall k t test,
  honest test -> honest (backtrack A d f p dir al be cv n k t test).
Proof.
  induction k as [|k IH]; intros t test H; cbn [backtrack]; destruct (_ || _)%bool; try exact H; cbn zeta; [reflexivity|]. apply IH. reflexivity.
Qed.
Lemma backtracking_honest p dir al be ms r :
  backtracking A d f g p dir al be ms = Some r -> honest r /\ normal A (value r) = true.
Proof.
  unfold backtracking. destruct (normal A _) eqn:N; [|discriminate]. intros [= <-]. split; [|exact N]. apply backtrack_honest. reflexivity.
Qed.

(** Values that are not worse, of normal numbers. *)
Definition not_worse (c r : vp A) : Prop := lt A (value c) (value r) = false.
Lemma not_worse_trans (LA : lawful A) a b c : normal A (value b) = true -> not_worse a b -> not_worse b c -> not_worse a c.
Proof.
  intros N H1 H2. unfold not_worse in *. destruct (lt A (value a) (value c)) eqn:E; [|reflexivity].
  destruct (lt_cotrans _ LA _ _ _ N E); congruence.
Qed.
Lemma no_improvement_not_worse (LA : lawful A) P c n :
  normal A (min_absolute A P) = true -> lt A (min_absolute A P) (zero A) = false ->
  no_improvement A (value n) (value c) (min_relative A P) (min_absolute A P) = false -> not_worse c n.
Proof.
  intros N1 N2. unfold no_improvement. destruct (lt A (sub A _ _) _) eqn:E; [discriminate|]. intros _. unfold not_worse.
  destruct (lt A (value c) (value n)) eqn:L; [|reflexivity]. apply (sub_sound _ LA) in L.
  destruct (lt_cotrans _ LA _ _ _ N1 L); congruence.
Qed.

(** ** The other two *)
Definition good (strict : Prop) (c r : vp A) : Prop :=
  honest r /\ (normal A (value c) = true -> normal A (value r) = true) /\ (strict -> normal A (value c) = true -> not_worse c r).
Lemma good_refl s c : honest c -> good s c c.
Proof. intros H. split; [exact H|]. split; [auto|]. intros _ _. apply (lt_irrefl _ OA). Qed.
Definition strict_params (P : params A) : Prop :=
  lawful A /\ (patience A P <= 1)%nat /\ normal A (min_absolute A P) = true /\ lt A (min_absolute A P) (zero A) = false.

Lemma bt_loop_spec P : forall todo done_ stale c prog r,
  honest c -> bt_loop A d P f g todo done_ stale c prog = Done A r ->
  good (strict_params P) c (final A r) /\ (done_ <= iterations A r <= done_ + todo)%nat.
Proof.
  induction todo as [|todo IH]; intros done_ stale c prog r H; cbn [bt_loop].
  - intros [= <-]. cbn. split; [apply good_refl; exact H|lia].
  - cbn zeta. destruct (stopping A P _ _ _).
    { intros [= <-]. cbn. split; [apply good_refl; exact H|lia]. }
    destruct (_ && _)%bool.
    { intros [= <-]. cbn. split; [apply good_refl; exact H|lia]. }
    destruct (backtracking A d f g _ _ _ _ _) as [n|] eqn:B.
    2: { intros [= <-]. cbn. split; [apply good_refl; exact H|lia]. }
    apply backtracking_honest in B. destruct B as [Hn Nn].
    destruct (no_improvement A _ _ _ _) eqn:NI.
    + destruct (_ <=? _)%nat eqn:L.
      { intros [= <-]. cbn. split; [apply good_refl; exact H|lia]. }
      intros E. apply IH in E; [|exact Hn]. destruct E as [(E1 & E2 & E3) E4]. split; [|lia]. split; [exact E1|].
      split; [intros _; exact (E2 Nn)|]. intros (_ & S & _). apply Nat.leb_gt in L. lia.
    + intros E. apply IH in E; [|exact Hn]. destruct E as [(E1 & E2 & E3) E4]. split; [|lia]. split; [exact E1|].
      split; [intros _; exact (E2 Nn)|]. intros S Nc. pose proof S as (LA & S1 & S2 & S3).
      apply (not_worse_trans LA _ n); [exact Nn| |exact (E3 S Nn)]. eapply no_improvement_not_worse; eassumption.
Qed.

Lemma cg_loop_spec P : forall todo done_ stale c gr s prog r,
  honest c -> cg_loop A d P f g todo done_ stale c gr s prog = Done A r ->
  good (strict_params P) c (final A r) /\ (done_ <= iterations A r <= done_ + todo)%nat.
Proof.
  induction todo as [|todo IH]; intros done_ stale c gr s prog r H; cbn [cg_loop].
  - intros [= <-]. cbn. split; [apply good_refl; exact H|lia].
  - cbn zeta. destruct (stopping A P _ _ _).
    { intros [= <-]. cbn. split; [apply good_refl; exact H|lia]. }
    destruct (backtracking A d f g _ _ _ _ _) as [n|] eqn:B.
    2: { intros [= <-]. cbn. split; [apply good_refl; exact H|lia]. }
    apply backtracking_honest in B. destruct B as [Hn Nn].
    destruct (no_improvement A _ _ _ _) eqn:NI.
    + destruct (_ <=? _)%nat eqn:L.
      { intros [= <-]. cbn. split; [apply good_refl; exact H|lia]. }
      assert (~ strict_params P) as NS by (intros (_ & S & _); apply Nat.leb_gt in L; lia).
      destruct (_ && _)%bool.
      { intros [= <-]. cbn. split; [|lia]. split; [exact Hn|]. split; [auto|]. tauto. }
      intros E. apply IH in E; [|exact Hn]. destruct E as [(E1 & E2 & E3) E4]. split; [|lia]. split; [exact E1|].
      split; [intros _; exact (E2 Nn)|]. tauto.
    + assert (strict_params P -> not_worse c n) as NW.
      { intros (LA & S1 & S2 & S3). eapply no_improvement_not_worse; eassumption. }
      destruct (_ && _)%bool.
      { intros [= <-]. cbn. split; [|lia]. split; [exact Hn|]. split; [auto|]. intros S _. exact (NW S). }
      intros E. apply IH in E; [|exact Hn]. destruct E as [(E1 & E2 & E3) E4]. split; [|lia]. split; [exact E1|].
      split; [intros _; exact (E2 Nn)|]. intros S Nc. pose proof S as (LA & _).
      apply (not_worse_trans LA _ n); [exact Nn|exact (NW S)|exact (E3 S Nn)].
Qed.
End Generic.
