(** * Properties of Optional, continued *)
From stdpp Require Import gmap.
From Verif Require Import Optional_Model Optional_Spec Optional_Proofs Optional_Props.

(** ** POD types *)
Definition pod_holds (c : option Z) (p : pod) : Prop :=
  match c with Some v => p = Pod (Some v) true | None => ∃ v, p = Pod (Some v) false end.
Definition pod_rel (m : pods) (w : gmap nat (option Z)) : Prop :=
  ∀ x, match w !! x, m !! x with Some c, Some p => pod_holds c p | None, None => True | _, _ => False end.
Lemma pod_rel_get m w x c : pod_rel m w → w !! x = Some c → ∃ p, m !! x = Some p ∧ pod_holds c p.
Proof. intros R E. specialize (R x). rewrite E in R. destruct (m !! x); [eauto|done]. Qed.
Lemma pod_rel_put m w x c p : pod_rel m w → pod_holds c p → pod_rel (<[x := p]> m) (<[x := c]> w).
Proof. intros R H y. destruct (decide (x = y)) as [->|N]; [by rewrite !lookup_insert|]. rewrite !lookup_insert_ne by done. apply R. Qed.
Lemma pod_copy_ok c p : pod_holds c p → ∃ q, pod_copy p = Ok q ∧ pod_holds c q.
Proof. destruct c; simpl; [intros ->|intros (v & ->)]; simpl; eexists; (split; [reflexivity|]); simpl; eauto. Qed.
Lemma pod_move_ok c p : pod_holds c p → ∃ q q', pod_move p = Ok (q, q') ∧ pod_holds c q ∧ pod_holds None q'.
Proof. destruct c; simpl; [intros ->|intros (v & ->)]; simpl; do 2 eexists; (split; [reflexivity|]); simpl; eauto. Qed.
Lemma pod_from_ok c p old : pod_holds c p → (c = None → is_Some old) → ∃ q, pod_from_immutable old p = Ok q ∧ pod_holds c q.
Proof.
  destruct c; simpl; [intros ->|intros (v & ->)]; intros O; unfold pod_from_immutable; simpl; [eauto|]. destruct (O eq_refl) as (u & ->). eauto.
Qed.

Lemma pod_exec_rel o m w a w' : pod_rel m w → match o with PFrom _ y => w !! y ≠ Some None | _ => True end → pod_does o w = Some (a, w') →
  ∃ m', pod_exec o m = Ok (a, m') ∧ pod_rel m' w'.
Proof.
  intros R N D. destruct o; simpl in D; simpl.
  - destruct (w !! x); [done|]. injection D as <- <-. eexists. split; [reflexivity|]. apply pod_rel_put; [done|]. simpl. by eexists.
  - destruct (w !! x); [done|]. injection D as <- <-. eexists. split; [reflexivity|]. by apply pod_rel_put.
  - destruct (w !! y) as [c|] eqn:Y; [|done]. simpl in D. destruct (w !! x); [done|]. injection D as <- <-.
    destruct (pod_rel_get _ _ _ _ R Y) as (p & -> & H). destruct (pod_copy_ok _ _ H) as (q & -> & Q). eexists. split; [reflexivity|]. by apply pod_rel_put.
  - destruct (w !! y) as [c|] eqn:Y; [|done]. simpl in D. destruct (w !! x); [done|]. injection D as <- <-.
    destruct (pod_rel_get _ _ _ _ R Y) as (p & -> & H). destruct (pod_move_ok _ _ H) as (q & q' & -> & Q & Q'). eexists. split; [reflexivity|]. by do 2 (apply pod_rel_put; [|done]).
  - destruct (w !! y) as [c|] eqn:Y; [|done]. simpl in D. destruct (w !! x); [done|]. injection D as <- <-.
    destruct (pod_rel_get _ _ _ _ R Y) as (p & -> & H). destruct (pod_from_ok _ _ None H) as (q & -> & Q); [by intros ->|]. eexists. split; [reflexivity|]. by apply pod_rel_put.
  - destruct (w !! x) as [c|] eqn:X; [|done]. injection D as <- <-. destruct (pod_rel_get _ _ _ _ R X) as (p & -> & H). eexists. split; [reflexivity|].
    apply pod_rel_put; [done|]. unfold pod_clear. destruct c; simpl in H; [subst p|destruct H as (v & ->)]; simpl; by eexists.
  - destruct (w !! x) as [c|] eqn:X; [|done]. injection D as <- <-. eexists. split; [reflexivity|]. by apply pod_rel_put.
  - destruct (w !! y) as [c|] eqn:Y; [|done]. simpl in D. destruct (w !! x); [|done]. injection D as <- <-.
    destruct (pod_rel_get _ _ _ _ R Y) as (p & -> & H). destruct (pod_copy_ok _ _ H) as (q & -> & Q). eexists. split; [reflexivity|]. by apply pod_rel_put.
  - destruct (w !! y) as [c|] eqn:Y; [|done]. simpl in D. destruct (w !! x); [|done]. injection D as <- <-.
    destruct (pod_rel_get _ _ _ _ R Y) as (p & -> & H). destruct (pod_move_ok _ _ H) as (q & q' & -> & Q & Q'). eexists. split; [reflexivity|]. by do 2 (apply pod_rel_put; [|done]).
  - destruct (w !! y) as [c|] eqn:Y; [|done]. simpl in D. destruct (w !! x) as [d|] eqn:X; [|done]. injection D as <- <-.
    destruct (pod_rel_get _ _ _ _ R Y) as (p & -> & H). destruct (pod_rel_get _ _ _ _ R X) as (p' & -> & H').
    destruct (pod_from_ok _ _ (pod_value p') H) as (q & -> & Q). { intros _. destruct d; simpl in H'; [subst p'|destruct H' as (v & ->)]; by eexists. }
    eexists. split; [reflexivity|]. by apply pod_rel_put.
  - destruct (w !! x) as [c|] eqn:X; [|done]. simpl in D. destruct (pod_rel_get _ _ _ _ R X) as (p & -> & H). destruct c; simpl in H.
    + subst p. injection D as <- <-. eexists. split; [reflexivity|]. by apply pod_rel_put.
    + destruct H as (u & ->). injection D as <- <-. by eexists.
  - destruct (w !! x) as [c|] eqn:X; [|done]. injection D as <- <-. destruct (pod_rel_get _ _ _ _ R X) as (p & -> & H). exists m. split; [|done].
    destruct c; simpl in H; [by subst p|by destruct H as (u & ->)].
  - destruct (w !! x) as [c|] eqn:X; [|done]. injection D as <- <-. destruct (pod_rel_get _ _ _ _ R X) as (p & -> & H). exists m. split; [|done].
    destruct c; simpl in H; [by subst p|by destruct H as (u & ->)].
Qed.
Lemma pod_exec_all_rel os m w l w' : pod_rel m w → never_from_nothing os w → pod_does_all os w = Some (l, w') →
  ∃ m', pod_exec_all os m = Ok (l, m') ∧ pod_rel m' w'.
Proof.
  revert m w l w'. induction os as [|o os IH]; intros m w l w' R N D; simpl in *.
  - injection D as <- <-. eauto.
  - destruct N as (N1 & N2). destruct (pod_does o w) as [[a w1]|] eqn:E; [|done]. simpl in D. destruct (pod_does_all os w1) as [[l' w2]|] eqn:E'; [|done]. injection D as <- <-.
    destruct (pod_exec_rel o m w a w1 R N1 E) as (m1 & -> & R1). destruct (IH m1 w1 l' w2 R1 N2 E') as (m2 & -> & R2). eauto.
Qed.
(** Those of POD types are values, too. *)
Theorem C94_pod_optionals_are_values os l w : pod_does_all os ∅ = Some (l, w) → never_from_nothing os ∅ → ∃ m, pod_exec_all os ∅ = Ok (l, m).
Proof. intros D N. destruct (pod_exec_all_rel os ∅ ∅ l w) as (m & E & _); [intros x; by rewrite !lookup_empty|done|done|]. eauto. Qed.

(** An [Optional<int>] made from an ImmutableOptional that has nothing leaves [value_] unwritten (optional.h 234-239), and copying that Optional, or
    moving it, reads [value_] all the same (223-232, 260-271): an indeterminate value is read, which is undefined behaviour. *)
Theorem C94_pod_optionals_can_be_copied_refuted : ∃ os l w, pod_does_all os ∅ = Some (l, w) ∧ pod_exec_all os ∅ = UB.
Proof. eexists [PNull 0; PFrom 1 0; PCopy 2 1], _, _. by split. Qed.

(** ** What is not so *)
(** An Optional that refers to an object of the program's (it was made with [FromBarePointer], or a pointer was assigned to it) loses it when it is moved
    from: the move constructor and the move assignment take over the unique_ptr only (optional.h 334-342, 401-410), so that the new Optional is
    empty, whereas a copy has the value. *)
Theorem C94_moving_keeps_the_value_refuted : ∃ os x y l w s,
  does_all os empty_world = Some (l ++ [Is true; Val 5; Unit; Is true; Val 5], w) ∧ os = take (length l) os ++ [Exists_ x; Value_ x; Move y x; Exists_ y; Value_ y] ∧
  exec_all os init = Ok (l ++ [Is true; Val 5; Unit; Is false; Throws], s).
Proof.
  eexists [Object 0 5; Bare 0 0; Exists_ 0; Value_ 0; Move 1 0; Exists_ 1; Value_ 1], 0, 1, [Unit; Unit], _, _. split_and!; by vm_compute.
Qed.
(** ImmutableOptional has the move constructor the compiler makes, which copies the pointer (optional.h 112-113): the ImmutableOptional that has been moved
    from goes on to say that its value exists; once the other is gone, taking the value is use after free. *)
Theorem C94_moved_from_is_nothing_refuted :
  (∃ s, exec_all [Make 0 5; MoveImmutable 1 0; Exists_ 0; Value_ 0] init = Ok ([Unit; Unit; Is true; Val 5], s)) ∧
  exec_all [Make 0 5; MoveImmutable 1 0; Destroy 1; Exists_ 0] init ≠ UB ∧
  exec_all [Make 0 5; MoveImmutable 1 0; Destroy 1; Exists_ 0; Value_ 0] init = UB.
Proof. split_and!; [eexists|intros E|]; by vm_compute. Qed.

(** ** Comparisons *)
Theorem C94_comparisons {T} (lt : T → T → Prop) (eq ne ltb gt le ge : T → T → bool) :
  (∀ v w, eq v w = true ↔ v = w) → (∀ v w, ne v w = true ↔ v ≠ w) → (∀ v w, ltb v w = true ↔ lt v w) → (∀ v w, gt v w = true ↔ lt w v) →
  (∀ v w, le v w = true ↔ ¬ lt w v) → (∀ v w, ge v w = true ↔ ¬ lt v w) →
  (∀ x y, (oo_eq eq x y = true ↔ x = y) ∧ (oo_ne eq x y = true ↔ x ≠ y) ∧ (oo_lt ltb x y = true ↔ opt_lt lt x y) ∧ (oo_gt ltb x y = true ↔ opt_lt lt y x) ∧
    (oo_le ltb x y = true ↔ ¬ opt_lt lt y x) ∧ (oo_ge ltb x y = true ↔ ¬ opt_lt lt x y)) ∧
  (∀ x v, (ov_eq eq x v = true ↔ x = Some v) ∧ (ov_ne ne x v = true ↔ x ≠ Some v) ∧ (ov_lt ltb x v = true ↔ opt_lt lt x (Some v)) ∧
    (ov_gt gt x v = true ↔ opt_lt lt (Some v) x) ∧ (ov_le le x v = true ↔ ¬ opt_lt lt (Some v) x) ∧ (ov_ge ge x v = true ↔ ¬ opt_lt lt x (Some v))) ∧
  (∀ x v, (vo_eq eq v x = true ↔ Some v = x) ∧ (vo_ne ne v x = true ↔ Some v ≠ x) ∧ (vo_lt ltb v x = true ↔ opt_lt lt (Some v) x) ∧
    (vo_gt gt v x = true ↔ opt_lt lt x (Some v)) ∧ (vo_le le v x = true ↔ ¬ opt_lt lt x (Some v)) ∧ (vo_ge ge v x = true ↔ ¬ opt_lt lt (Some v) x)).
Proof.
  intros E N L G LE GE.
  assert (LS : ∀ v w, opt_lt lt (Some v) (Some w) ↔ lt v w) by (intros v w; split; [by inversion 1|by constructor]).
  assert (LN : ∀ w, opt_lt lt None (Some w) ↔ True) by (intros w; split; [done|constructor]).
  assert (NL : ∀ x, opt_lt lt x None ↔ False) by (intros x; split; [by inversion 1|done]).
  assert (SS : ∀ v w : T, Some v = Some w ↔ v = w) by (intros v w; split; congruence).
  assert (NS : ∀ v : T, None = Some v ↔ False) by done. assert (SN : ∀ v : T, Some v = None ↔ False) by done.
  assert (NN : (None : option T) = None ↔ True) by done. assert (FT : false = true ↔ False) by done. assert (TT : true = true ↔ True) by done.
  assert (NB : ∀ b, negb b = true ↔ ¬ b = true) by (intros []; simpl; split; congruence).
  split; [|split].
  all: intros [x|] y; try destruct y as [y|]; unfold oo_ne, oo_gt, oo_le, oo_ge; simpl; rewrite ?NB; rewrite ?E, ?N, ?L, ?G, ?LE, ?GE;
    rewrite ?LS, ?LN, ?NL, ?SS, ?NS, ?SN, ?NN, ?FT, ?TT; clear; split_and!; tauto.
Qed.
Theorem C94_order_of_optionals {T} (lt : T → T → Prop) :
  (∀ v, ¬ lt v v) → (∀ u v w, lt u v → lt v w → lt u w) → (∀ v w, lt v w ∨ v = w ∨ lt w v) →
  (∀ x, ¬ opt_lt lt x x) ∧ (∀ x y z, opt_lt lt x y → opt_lt lt y z → opt_lt lt x z) ∧ (∀ x y, opt_lt lt x y ∨ x = y ∨ opt_lt lt y x) ∧
  (∀ x, ¬ opt_lt lt x None).
Proof.
  intros I Tr To. split_and!.
  - intros [x|]; inversion 1. by eapply I.
  - intros x y z; inversion 1; inversion 1; subst; simplify_eq; constructor. eauto.
  - intros [x|] [y|]; [|by right; right; constructor|by left; constructor|by auto]. destruct (To x y) as [?|[->|?]]; [left; by constructor|by auto|right; right; by constructor].
  - intros x. by inversion 1.
Qed.
(** [>=] and [<=] of two Optionals are made from T's [<], [!=] from T's [==] (optional.h 124-145, 453-474); those of an Optional and a value are T's own
    (149-206, 478-535). For a double that is not a number the two disagree. *)
Theorem C94_comparing_with_a_value_is_comparing_refuted : ∃ (T : Type) (ltb ge : T → T → bool) (v : T), oo_ge ltb (Some v) (Some v) ≠ ov_ge ge (Some v) v.
Proof.
  (* numbers, and NaN *)
  exists (option Z), (λ x y, match x, y with Some x, Some y => bool_decide (x < y)%Z | _, _ => false end),
    (λ x y, match x, y with Some x, Some y => bool_decide (x >= y)%Z | _, _ => false end), None. done.
Qed.

(** ** Programs to which the theorems apply *)
Definition program : list op := [Object 0 7; Make 0 5; Copy 1 0; Bare 2 0; Write 2 8; SetCopy 0 2; Move 3 1; Exists_ 1; Value_ 3; SetFrom 1 0; SetMove 0 3; SetNull 3;
  Value_ 3; NoObject 0; SetValue 2 9; SetMove 2 2; Exists_ 2; Value_ 0; Destroy 2; Destroy 0; Destroy 3; Value_ 1; Destroy 1].
Example C94_program : moves_own program empty_world ∧ ∃ w, optionals w = ∅ ∧ does_all program empty_world =
  Some ([Unit; Unit; Unit; Unit; Unit; Unit; Unit; Is false; Val 5; Unit; Unit; Unit; Throws; Unit; Unit; Unit; Is false; Val 5; Unit; Unit; Unit; Val 8; Unit], w).
Proof. split; [vm_compute; repeat split; done|]. eexists. split; [|by vm_compute]. apply map_to_list_empty_iff. by vm_compute. Qed.
Definition pod_program : list pod_op := [PMake 0 5; PFrom 1 0; PSetMove 1 1; PExists 1; PNull 2; PSetFrom 1 2; PCopy 3 1; PWrite 0 6; PMove 4 0; PValue 4; PValue 0].
Example C94_pod_program : never_from_nothing pod_program ∅ ∧ ∃ w, pod_does_all pod_program ∅ = Some ([Unit; Unit; Unit; Is false; Unit; Unit; Unit; Unit; Unit; Val 6; Throws], w).
Proof. split; [vm_compute; repeat split; done|]. eexists. by vm_compute. Qed.

Print Assumptions C94_optionals_are_values.
Print Assumptions C94_pod_optionals_are_values.
Print Assumptions C94_pod_optionals_can_be_copied_refuted.
Print Assumptions C94_moving_keeps_the_value_refuted.
Print Assumptions C94_moved_from_is_nothing_refuted.
Print Assumptions C94_comparisons.
Print Assumptions C94_order_of_optionals.
Print Assumptions C94_comparing_with_a_value_is_comparing_refuted.
