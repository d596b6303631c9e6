(** * Claire: the invariant, continued *)
From stdpp Require Import gmap list.
From Verif Require Import Claire_Model Claire_Proofs.

Lemma destructor_inv s s' : destructor s = Some s' → inv s → inv s'.
Proof.
  intros K I.
  assert (NS : dp s = DSignal → ∀ n, spin (at_ (users s) n) = true → False).
  { intros D n S. assert (X : urm (at_ (users s) n) = true) by (by destruct (at_ (users s) n)).
    apply (v_rm_u s I) in X. pose proof (proj2 (v_rm_d s I)) as Y. rewrite D in Y. specialize (Y eq_refl). congruence. }
  assert (NK : dp s = DTest → kp s ≠ KStart).
  { intros D S. destruct (v_start s I S) as (n & N). assert (X : urm (at_ (users s) n) = true) by (by destruct (at_ (users s) n)).
    apply (v_rm_u s I) in X. pose proof (proj2 (v_rm_d s I)) as Y. rewrite D in Y. specialize (Y eq_refl). congruence. }
  open s. unfold destructor in K. simpl in K.
  destruct I as [I1 I2 I3 I4 I5 I6 I7 I8 I9 I10 I11 I12 I13 I14 I15 I16]. simpl in *.
  destruct dpp; simpl in *; try discriminate K.
  all: unfold lock_km, lock_rm, free_km, notify in K; simpl in K.
  all: repeat match type of K with context [decide ?P] => destruct (decide P) | context [if ?b then _ else _] => destruct b eqn:? | context [match ?m with Some _ => None | None => _ end] => destruct m eqn:? end; simpl in K; try discriminate K.
  all: try (destruct kpp; simpl in K; [..]).
  all: injection K as <-; simpl in *.
  all: try (exfalso; clause).
  all: try specialize (NK eq_refl); try specialize (NS eq_refl); try done.
  all: split; simpl; intros *; try clause.
  all: try (match goal with |- Some _ = Some _ → _ => let X := fresh in intros X; specialize (I14 _ X); lia end).
  all: try (match goal with n : nat |- _ ↔ urm _ = true => specialize (I5 n); clause end).
  all: try (match goal with |- spin (at_ _ ?n) = true → _ => let X := fresh in intros X; first [destruct (NS _ X)|destruct (I9 _ X); split; clause] end).
Qed.

Lemma step_inv a s s' : step a s = Some s' → inv s → inv s'.
Proof.
  intros K I. unfold step in K. destruct (exited s) eqn:X; [done|]. destruct a as [n c|n ok|r| | |t| |].
  - assert (IN : idle (users s !! n) = true → at_ (users s) n = CReturned ∨ at_ (users s) n = CThrew).
    { unfold at_. destruct (users s !! n) as [[]|]; simpl; auto; done. }
    destruct (idle (users s !! n)) eqn:D; [|done]. specialize (IN eq_refl). injection K as <-. open s.
    destruct I as [I1 I2 I3 I4 I5 I6 I7 I8 I9 I10 I11 I12 I13 I14 I15 I16]. simpl in *.
    pose proof (I2 n) as I2n. pose proof (I5 n) as I5n.
    split; simpl; intros *; rewrite ?at_insert; try (match goal with |- context [decide (?n = ?m)] => destruct (decide (n = m)); [subst|] end); simpl; try clause.
    + destruct IN as [IN|IN]; rewrite IN in I2n; destruct c; simpl in *; clause.
    + destruct IN as [IN|IN]; rewrite IN in I5n; destruct c; simpl in *; clause.
    + intros E. eapply ex_insert; [reflexivity|by apply I8|]. left. by destruct IN as [-> | ->].
    + destruct c; simpl; done.
    + apply I9.
    + intros E F. eapply ex_insert; [reflexivity|by apply I12|]. left. by destruct IN as [-> | ->].
    + apply I14.
  - by eapply user_inv.
  - by eapply keeper_inv.
  - open s. simpl in K. destruct kpp; try discriminate K. destruct (decide (d ≤ ti)%Z); [|done]. injection K as <-.
    destruct I as [I1 I2 I3 I4 I5 I6 I7 I8 I9 I10 I11 I12 I13 I14 I15 I16]. simpl in *.
    split; simpl; intros *; try clause.
    + intros E. destruct (I9 _ E). split; clause.
    + destruct dpp; simpl in *; clause.
  - open s. simpl in K. destruct kpp; try discriminate K. injection K as <-.
    destruct I as [I1 I2 I3 I4 I5 I6 I7 I8 I9 I10 I11 I12 I13 I14 I15 I16]. simpl in *.
    split; simpl; intros *; try clause.
    + intros E. destruct (I9 _ E). split; clause.
    + apply I14.
    + destruct dpp; simpl in *; clause.
  - destruct (decide (0 ≤ t)%Z); [|done]. injection K as <-. open s.
    destruct I as [I1 I2 I3 I4 I5 I6 I7 I8 I9 I10 I11 I12 I13 I14 I15 I16]. simpl in *. split; simpl; intros *; try clause; auto.
    all: apply I9.
  - destruct (decide (dp s = DNone)) as [E|]; [|done]. injection K as <-. open s. simpl in E. subst.
    destruct I as [I1 I2 I3 I4 I5 I6 I7 I8 I9 I10 I11 I12 I13 I14 I15 I16]. simpl in *. split; simpl; intros *; try clause; auto.
    all: first [apply I9|intros E F; destruct (I13 E F); done].
  - by eapply destructor_inv.
Qed.

Lemma run_cons a tr s : run (a :: tr) s = step a s ≫= run tr.
Proof.
  unfold run. simpl. destruct (step a s) as [s'|]; simpl; [done|]. induction tr as [|b tr IH]; [done|exact IH].
Qed.
Lemma run_app tr tr' s : run (tr ++ tr') s = run tr s ≫= run tr'.
Proof. revert s. induction tr as [|o os IH]; intros s; [done|]. simpl. rewrite !run_cons. destruct (step o s); simpl; [apply IH|done]. Qed.
Lemma run_ind (Q : state → Prop) tr s s' : run tr s = Some s' → Q s → (∀ a s s', a ∈ tr → step a s = Some s' → Q s → Q s') → Q s'.
Proof.
  revert s. induction tr as [|a tr IH]; intros s R B S; [by injection R as <-|]. rewrite run_cons in R.
  destruct (step a s) as [s1|] eqn:E; [|done]. simpl in R. eapply (IH s1 R).
  - eapply S; [constructor|exact E|done].
  - intros b u u' I. apply S. by constructor.
Qed.
Lemma run_inv tr s s' : run tr s = Some s' → inv s → inv s'.
Proof. intros R I. eapply run_ind; eauto. intros. by eapply step_inv. Qed.
