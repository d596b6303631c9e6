(** * C91: AccumulativeScopedDeleter calls what it has captured once, in reverse *)
From stdpp Require Import gmap list.
From Verif Require Import Deleter_Model Deleter_Spec Deleter_Proofs.

Lemma run_snoc os o s : run (os ++ [o]) s = run os s ≫= step o.
Proof. unfold run. by rewrite foldl_app. Qed.
Lemma run_cons o os s : run (o :: os) s = step o s ≫= run os.
Proof.
  unfold run. simpl. destruct (step o s) as [s'|]; simpl; [done|]. induction os as [|a os IH]; [done|exact IH].
Qed.
Lemma run_app os os' s : run (os ++ os') s = run os s ≫= run os'.
Proof. revert s. induction os as [|o os IH]; intros s; [done|]. simpl. rewrite !run_cons. destruct (step o s); simpl; [apply IH|done]. Qed.
Lemma reach_inv s : reach s → inv s.
Proof.
  intros (os & H). revert s H. induction os as [|o os IH] using rev_ind; intros s H.
  - injection H as <-. split; simpl; intros *; try (unfold get; rewrite lookup_empty); try (by intros ?%elem_of_nil); constructor.
  - rewrite run_snoc in H. destruct (run os init) as [s1|]; [|done]. simpl in H. eapply step_inv; eauto.
Qed.

(** No callback is called twice; none that has been called is still held by an object; none is held by two objects, or twice by one. *)
Theorem C91_at_most_once s : reach s →
  NoDup (called s) ∧
  (∀ c, c ∈ called s → c < made s) ∧
  (∀ x l c, holds_in_order s x l → c ∈ l → c < made s ∧ c ∉ called s) ∧
  (∀ x l, holds_in_order s x l → NoDup l) ∧
  (∀ x y l k c, holds_in_order s x l → holds_in_order s y k → c ∈ l → c ∈ k → x = y).
Proof.
  intros R%reach_inv. destruct R as [A B C D E F]. split_and!; auto.
  - intros x l c (b & H) I. rewrite <- (get_some _ _ _ _ H) in I. eauto.
  - intros x l (b & H). rewrite <- (get_some _ _ _ _ H). eauto.
  - intros x y l k c (b & H) (b' & H') I J. rewrite <- (get_some _ _ _ _ H) in I. rewrite <- (get_some _ _ _ _ H') in J. eauto.
Qed.

(** Nothing is lost on the way: after an operation, a callback that was held is held by some object, or has been called; otherwise it was let go
    without a call by an object of the other kind (SHOULD_DELETE = false) that is destroyed, reset or assigned to. *)
Theorem C91_nothing_is_lost s o s' x l c : step o s = Some s' → holds_in_order s x l → c ∈ l →
  (∃ y k, holds_in_order s' y k ∧ c ∈ k) ∨ c ∈ called s' ∨
  (objects s !! x = Some (false, l) ∧ (o = Destroy x ∨ o = Reset x ∨ ∃ y, o = MoveAssign x y)).
Proof.
  unfold holds_in_order. intros S (b & H) I. 
  assert (K : ∀ m', c ∈ get m' x → ∃ y k, (∃ b, m' !! y = Some (b, k)) ∧ c ∈ k).
  { intros m' G. unfold get in G. destruct (m' !! x) as [[b' k']|] eqn:L; [|by apply elem_of_nil in G]. exists x, k'. split; [by exists b'|done]. }
  destruct o; simpl in S.
  - destruct (objects s !! x0) eqn:N; [done|]. injection S as <-. left. apply K. simpl. rewrite get_insert.
    rewrite decide_False by congruence. unfold get. by rewrite H.
  - destruct (objects s !! x0) eqn:N; [done|]. injection S as <-. left. apply K. simpl. rewrite get_insert.
    rewrite decide_False by congruence. unfold get. by rewrite H.
  - destruct (objects s !! y) as [[c0 k]|] eqn:Hy; [simpl in S|done]. destruct (objects s !! x0) eqn:N; [done|]. injection S as <-. simpl. left.
    destruct (decide (x = y)) as [->|E].
    + exists x0, k. rewrite lookup_insert. split; [by eexists|congruence].
    + apply K. rewrite !get_insert. rewrite !decide_False by congruence. unfold get. by rewrite H.
  - destruct (objects s !! x0) as [[b0 l0]|] eqn:Hx; [simpl in S|done]. 
    destruct (<[x0:=(b0, [])]> (objects s) !! y) as [[c0 k]|] eqn:Hy; [simpl in S|done]. injection S as <-. simpl.
    destruct (decide (x = x0)) as [->|E].
    + destruct b.
      * right; left. rewrite Hx in H. injection H as -> ->. apply in_release. auto.
      * right; right. eauto.
    + destruct (decide (x = y)) as [->|E2].
      * left. exists x0, k. rewrite lookup_insert. split; [by eexists|]. rewrite lookup_insert_ne in Hy by done. congruence.
      * left. apply K. rewrite !get_insert. rewrite !decide_False by congruence. unfold get. by rewrite H.
  - destruct (objects s !! x0) as [[b0 l0]|] eqn:Hx; [simpl in S|done]. injection S as <-. simpl.
    destruct (decide (x = x0)) as [->|E].
    + destruct b; [right; left; rewrite Hx in H; injection H as -> ->; apply in_release; auto|right; right; eauto].
    + left. apply K. rewrite !get_insert. rewrite !decide_False by congruence. unfold get. by rewrite H.
  - destruct (objects s !! x0) as [[b0 l0]|] eqn:Hx; [simpl in S|done]. 
    destruct (objects s !! y) as [[c0 k]|] eqn:Hy; [simpl in S|done].
    destruct (decide (x0 = y)) as [->|N].
    { destruct l0; [|done]. injection S as <-. left. apply K. unfold get. by rewrite H. }
    injection S as <-. left. simpl.
    destruct (decide (x = y)) as [->|E2].
    + exists x0, (l0 ++ k). rewrite lookup_insert_ne, lookup_insert by done. split; [by eexists|]. apply elem_of_app. right. congruence.
    + apply K. rewrite !get_insert. rewrite decide_False by congruence. case_decide as X; [subst x0; apply elem_of_app; left; congruence|].
      unfold get. by rewrite H.
  - destruct (objects s !! x0) as [[b0 l0]|] eqn:Hx; [simpl in S|done]. 
    destruct (<[x0:=(b0, [])]> (objects s) !! y) as [[c0 k]|] eqn:Hy; [simpl in S|done]. destruct (objects s !! z) eqn:Hz; [done|]. injection S as <-.
    left. simpl. destruct (decide (x = x0)) as [->|E]; [|destruct (decide (x = y)) as [->|E2]].
    + exists z, (l0 ++ k). rewrite lookup_insert. split; [by eexists|]. apply elem_of_app. left. congruence.
    + exists z, (l0 ++ k). rewrite lookup_insert. split; [by eexists|]. apply elem_of_app. right. rewrite lookup_insert_ne in Hy by done. congruence.
    + apply K. rewrite !get_insert. rewrite !decide_False by congruence. unfold get. by rewrite H.
  - destruct (objects s !! x0) as [[b0 l0]|] eqn:Hx; [simpl in S|done]. injection S as <-. simpl.
    destruct (decide (x = x0)) as [->|E].
    + destruct b; [right; left; rewrite Hx in H; injection H as -> ->; apply in_release; auto|right; right; eauto].
    + left. apply K. rewrite get_delete. rewrite decide_False by congruence. unfold get. by rewrite H.
Qed.

(** In a program that only uses objects of the default kind, every callback ever captured has been called when all the objects are gone. *)
Definition held_or_called (s : state) : Prop :=
  (∀ x b l, objects s !! x = Some (b, l) → b = true) ∧ ∀ c, c < made s → c ∈ called s ∨ ∃ x l, holds_in_order s x l ∧ c ∈ l.
Lemma called_grows o s s' c : step o s = Some s' → c ∈ called s → c ∈ called s'.
Proof.
  intros S I. destruct o; simpl in S; 
  repeat match goal with
  | H : context [match ?e with Some _ => None | None => _ end] |- _ => destruct e eqn:?; try done
  | H : mbind _ ?e = Some _ |- _ => destruct e as [[? ?]|] eqn:?; [simpl in H|done]
  | H : context [decide ?P] |- _ => destruct (decide P)
  | H : context [match ?l with [] => _ | _ :: _ => None end] |- _ => destruct l; [|done]
  end; first [injection S as <-|discriminate S]; simpl; rewrite ?in_release; auto.
Qed.
Theorem C91_everything_is_called_in_the_end os s :
  Forall default_kind os → run os init = Some s →
  (∀ c, c < made s → c ∈ called s ∨ ∃ x l, holds_in_order s x l ∧ c ∈ l) ∧
  (objects s = ∅ → called s ≡ₚ seq 0 (made s)).
Proof.
  intros K R. assert (G : held_or_called s).
  { clear -K R. revert s R. induction os as [|o os IH] using rev_ind; intros s R.
    { injection R as <-. split; [intros x b l; simpl; by rewrite lookup_empty|]. simpl. lia. }
    apply Forall_app in K as (K & D). apply Forall_cons_1 in D as (D & _). rewrite run_snoc in R. destruct (run os init) as [s1|] eqn:E; [|done]. simpl in R.
    destruct (IH K s1 eq_refl) as (A & B). split.
    - destruct o; simpl in R, D; 
      repeat match goal with
      | H : context [match ?e with Some _ => None | None => _ end] |- _ => destruct e eqn:?; try done
      | H : mbind _ ?e = Some _ |- _ => destruct e as [[? ?]|] eqn:?; [simpl in H|done]
      | H : context [decide ?P] |- _ => destruct (decide P)
      | H : context [match ?l with [] => _ | _ :: _ => None end] |- _ => destruct l; [|done]
      end; first [injection R as <-|discriminate R]; simpl; auto.
      all: repeat match goal with H : objects _ !! _ = Some (?b, _) |- _ => assert_fails (constr_eq b true); pose proof (A _ _ _ H); subst b end.
      all: intros x1 b1 l1; rewrite ?lookup_insert_Some, ?lookup_delete_Some; try (intros Z; naive_solver).
      all: match goal with H : <[_ := _]> _ !! _ = Some (?c, _) |- _ => apply lookup_insert_Some in H end; intros Z; naive_solver.
    - intros c C. destruct (decide (c < made s1)) as [L|L].
      + destruct (B c L) as [?|(x & l & H & I)]; [left; eapply called_grows; eauto|].
        destruct (C91_nothing_is_lost _ _ _ _ _ _ R H I) as [?|[?|(X & ?)]]; [by right|by left|]. pose proof (A _ _ _ X). done.
      + right. destruct o; simpl in R; 
        repeat match goal with
        | H : context [match ?e with Some _ => None | None => _ end] |- _ => destruct e eqn:?; try done
        | H : mbind _ ?e = Some _ |- _ => destruct e as [[? ?]|] eqn:?; [simpl in H|done]
        | H : context [decide ?P] |- _ => destruct (decide P)
        | H : context [match ?l with [] => _ | _ :: _ => None end] |- _ => destruct l; [|done]
        end; first [injection R as <-|discriminate R]; simpl in C; try lia.
        exists x, [made s1]. split; [exists b; apply lookup_insert|]. apply elem_of_list_singleton. lia. }
  split; [apply G|]. intros E. destruct (C91_at_most_once s (ex_intro _ os R)) as (A & B & _).
  apply NoDup_Permutation; [done|apply NoDup_seq|]. intros c. rewrite elem_of_seq. split; [intros I; specialize (B _ I); lia|].
  intros C. destruct (proj2 G c ltac:(lia)) as [?|(x & l & (b & H) & _)]; [done|]. rewrite E, lookup_empty in H. done.
Qed.

(** The order: destroying, resetting and assigning call what is held, the last one first, and no other operation calls anything. *)
Theorem C91_last_in_first_out s o s' : step o s = Some s' →
  called s' = called s ++ match o with
                          | Destroy x | Reset x | MoveAssign x _ => match objects s !! x with Some (true, l) => rev l | _ => [] end
                          | _ => []
                          end.
Proof.
  intros S. destruct o; simpl in S;
  repeat match goal with
  | H : context [match ?e with Some _ => None | None => _ end] |- _ => destruct e eqn:?; try done
  | H : mbind _ ?e = Some _ |- _ => destruct e as [[? ?]|] eqn:?; [simpl in H|done]
  | H : context [decide ?P] |- _ => destruct (decide P)
  | H : context [match ?l with [] => _ | _ :: _ => None end] |- _ => destruct l; [|done]
  end; first [injection S as <-|discriminate S]; simpl; rewrite ?app_nil_r; auto; unfold release; repeat match goal with H : ?a = _ |- context [?a] => rewrite H end;
  match goal with |- context [if ?b then _ else _] => destruct b end; rewrite ?app_nil_r; done.
Qed.

(** A sum of objects, however it is parenthesised and in whatever order its operands were made, holds what they held, from left to right as
    written; it leaves the operands and the temporaries with nothing, and calls nothing. *)
Theorem C91_sums_are_in_order e s (held : nat → list nat) (kind : nat → bool) :
  NoDup (names e) →
  (∀ x, x ∈ leaves e → objects s !! x = Some (kind x, held x)) →
  (∀ z, z ∈ names e → z ∉ leaves e → objects s !! z = None) →
  ∃ s', run (sums e) s = Some s' ∧ called s' = called s ∧ made s' = made s ∧
    objects s' !! name e = Some (existsb kind (leaves e), concat (map held (leaves e))) ∧
    (∀ z, z ∈ names e → z ≠ name e → ∃ b, objects s' !! z = Some (b, [])) ∧
    (∀ z, z ∉ names e → objects s' !! z = objects s !! z).
Proof.
  assert (LN : ∀ e x, x ∈ leaves e → x ∈ names e).
  { clear. induction e as [x|z l IHl r IHr]; intros y; simpl; [done|]. rewrite elem_of_cons, !elem_of_app. naive_solver. }
  assert (NN : ∀ e, name e ∈ names e) by (intros [?|? ? ?]; simpl; constructor).
  revert s. induction e as [x|z l IHl r IHr]; intros s N L F; simpl in *.
  - exists s. split_and!; auto.
    + rewrite L by constructor. by rewrite app_nil_r, orb_false_r.
    + intros z ->%elem_of_list_singleton. done.
  - apply NoDup_cons in N as (N1 & N2). apply NoDup_app in N2 as (N2 & N3 & N4).
    assert (ZL : z ∉ names l ∧ z ∉ names r) by (rewrite elem_of_app in N1; naive_solver). destruct ZL as (Zl & Zr).
    destruct (IHl s N2) as (s1 & R1 & C1 & M1 & O1 & T1 & U1).
    { intros x I. apply L. apply elem_of_app. auto. }
    { intros w I J. apply F; [rewrite elem_of_cons, elem_of_app; auto|]. rewrite elem_of_app. intros [?|?]; [done|]. by apply (N3 w I), LN. }
    destruct (IHr s1 N4) as (s2 & R2 & C2 & M2 & O2 & T2 & U2).
    { intros x I. rewrite U1; [apply L; apply elem_of_app; auto|]. intros J. by apply (N3 x J), LN. }
    { intros w I J. rewrite U1; [|intros K; by apply (N3 w K)]. apply F; [rewrite elem_of_cons, elem_of_app; auto|].
      rewrite elem_of_app. intros [K|?]; [|done]. by apply (N3 w (LN _ _ K)). }
    assert (NE : name l ≠ name r) by (intros E; apply (N3 (name l)); [apply NN|rewrite E; apply NN]).
    assert (O1' : objects s2 !! name l = Some (existsb kind (leaves l), concat (map held (leaves l)))).
    { rewrite U2; [done|]. intros J. by apply (N3 (name l) (NN l)). }
    assert (Z : objects s2 !! z = None).
    { rewrite U2, U1 by done. apply F; [constructor|]. rewrite elem_of_app. intros [J|J]; [by apply Zl, LN|by apply Zr, LN]. }
    eexists. split_and!.
    + rewrite run_app, R1. simpl. rewrite run_app, R2. simpl. unfold run. simpl. rewrite O1'. simpl. rewrite lookup_insert_ne, O2 by done. simpl.
      rewrite Z. reflexivity.
    + simpl. congruence.
    + simpl. congruence.
    + simpl. rewrite lookup_insert. by rewrite existsb_app, map_app, concat_app.
    + intros w I J. simpl. rewrite lookup_insert_ne by done. destruct (decide (name r = w)) as [<-|E]; [rewrite lookup_insert; by eexists|].
      rewrite lookup_insert_ne by done. destruct (decide (name l = w)) as [<-|E2]; [rewrite lookup_insert; by eexists|].
      rewrite lookup_insert_ne by done. apply elem_of_cons in I as [I|I]; [done|]. apply elem_of_app in I as [I|I].
      * rewrite U2; [by apply T1|]. intros K. by apply (N3 w I).
      * by apply T2.
    + intros w I. rewrite elem_of_cons, elem_of_app in I. simpl.
      assert (X : z ≠ w ∧ name l ≠ w ∧ name r ≠ w) by (split_and!; intros <-; apply I; auto). destruct X as (X1 & X2 & X3).
      rewrite !lookup_insert_ne by done. rewrite U2, U1; naive_solver.
Qed.

(** A run: [scope += a + (b + c)] with a, b, c made in the order c, b, a; then the scope is destroyed. *)
Example C91_run :
  let os := [Default 0 true; Make 13 true; Make 12 true; Make 11 true; Plus 14 12 13; Plus 15 11 14; Append 0 15;
             Destroy 15; Destroy 14; Destroy 13; Destroy 12; Destroy 11] in
  Forall default_kind os ∧ (called <$> run os init = Some []) ∧
  (called <$> run (os ++ [Destroy 0]) init = Some [0; 1; 2]).     (* c, b, a: reverse of the order written *)
Proof. split; [repeat constructor|]. split; vm_compute; reflexivity. Qed.
Example C91_sum_example :
  let e := Sum 15 (Leaf 11) (Sum 14 (Leaf 12) (Leaf 13)) in
  NoDup (names e) ∧ leaves e = [11; 12; 13] ∧ sums e = [Plus 14 12 13; Plus 15 11 14].
Proof. split; [|done]. simpl. repeat constructor; set_solver by lia. Qed.

(** "Adds an instance, or several instances, erasing them from the rhs": [x += std::move(x)] of an object that holds anything iterates over
    the vector it appends to, which is undefined; [x = std::move(x)] is defined, and calls everything. *)
Theorem C91_self_append_refuted :
  ∃ s, reach s ∧ holds_in_order s 0 [0] ∧ step (Append 0 0) s = None ∧
  ∃ s', step (MoveAssign 0 0) s = Some s' ∧ called s' = [0].
Proof.
  eexists. split; [exists [Make 0 true]; reflexivity|]. split; [exists true; reflexivity|]. split; [reflexivity|].
  eexists. split; reflexivity.
Qed.

Print Assumptions C91_at_most_once.
Print Assumptions C91_nothing_is_lost.
Print Assumptions C91_everything_is_called_in_the_end.
Print Assumptions C91_last_in_first_out.
Print Assumptions C91_sums_are_in_order.
Print Assumptions C91_self_append_refuted.
