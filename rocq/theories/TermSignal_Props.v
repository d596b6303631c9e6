(** * C89: waiting for an event or for the end *)
From stdpp Require Import gmap list.
From Coq Require Import ZArith Lia.
From Verif Require Import TermSignal_Model TermSignal_Spec.

(** ** The invariant *)
Record inv (s : state) : Prop := {
  i_sleep : pc s = WSleep → cond s = false;
  i_after : pc s = WAfter → cond s = false;
  i_sleeping : pc s = WSleeping → cond s = true → 0 < pending s;
  i_done : pc s = WDone → stop s = true ∨ cond s = true;
  i_true : pc s = WReturned true → stop s = true;
  i_false : pc s = WReturned false → cond s = true }.
Lemma reach_inv b0 s : reach b0 s → inv s.
Proof.
  induction 1 as [|[st co pe p] a s' R IH E].
  { by split. }
  destruct IH as [I1 I2 I3 I4 I5 I6]; simpl in *. destruct a as [|b| | | | |]; simpl in E.
  - injection E as <-. split; simpl; auto. intros; lia.
  - destruct (holds p) eqn:Hp; [discriminate|]. injection E as <-.
    split; simpl; intros ->; try discriminate. intros; lia.
  - destruct pe as [|n]; [discriminate|]. injection E as <-. split; simpl; case_decide; subst; try discriminate; auto. intros ->. done.
  - case_decide; [|discriminate]. injection E as <-. by split.
  - destruct p; try discriminate; injection E as <-; unfold wait_done in *; simpl in *; try by split.
    + destruct st, co; simpl; split; simpl; auto; discriminate.
    + split; simpl; try discriminate. intros _ ->. by specialize (I1 eq_refl).
    + destruct st, co; simpl; split; simpl; auto; discriminate.
    + destruct st, co; simpl; split; simpl; auto; discriminate.
    + split; simpl; try discriminate; [by intros [= ->]|]. intros [= ->]. by destruct (I4 eq_refl).
  - case_decide; [|discriminate]. injection E as <-. by split.
  - case_decide; [|discriminate]. injection E as <-. by split.
Qed.

(** ** Proved *)
(** WaitUntil returns true only if the termination has been signalled, and false only if the condition holds: in whatever order things
    happen, as long as the condition changes only under the mutex. *)
Theorem C89_returns_for_a_reason b0 s b :
  reach b0 s → pc s = WReturned b → if b then stop s = true else cond s = true.
Proof. intros R%reach_inv. destruct b; apply R. Qed.

(** Termination or the condition: in both cases the call returns, of itself, in at most six steps, at most one of which is the end of a
    sleep of 25 ms. *)
Theorem C89_always_returns b0 s :
  reach b0 s → waiting s → stop s = true ∨ cond s = true →
  ∃ n k s' b, n ≤ 6 ∧ k ≤ 1 ∧ alone n k s s' ∧ pc s' = WReturned b ∧ (stop s = true → b = true).
Proof.
  intros _ [W1 W2] C. assert (wait_done s = true) as D by (unfold wait_done; destruct C as [-> | ->]; [done|apply orb_true_r]).
  assert (∀ q, wait_done (set_pc q s) = true) as D' by (intros q; exact D).
  assert (∀ q, pc (set_pc q s) = q) as P by done.
  set (f := set_pc (WReturned (stop s)) s).
  assert (∀ q, alone 1 0 (set_pc WDone q) (set_pc (WReturned (stop q)) q)) as A1.
  { intros q. eapply alone_step; [done|]. constructor. }
  assert (alone 2 0 (set_pc WTop s) f ∧ alone 2 0 (set_pc WTimedOut s) f ∧ alone 2 0 (set_pc WWoken s) f) as (A2 & A3 & A4).
  { repeat split; (eapply alone_step; [unfold wait_step; simpl; rewrite D'; reflexivity|apply A1]). }
  assert (alone 3 1 (set_pc WSleeping s) f) as A5.
  { eapply alone_timeout; [simpl; reflexivity|exact A3]. }
  assert (s = set_pc (pc s) s) as E by (by destruct s).
  assert (∀ n k, n ≤ 6 → k ≤ 1 → alone n k s f →
    ∃ n k s' b, n ≤ 6 ∧ k ≤ 1 ∧ alone n k s s' ∧ pc s' = WReturned b ∧ (stop s = true → b = true)) as F.
  { intros n k Hn Hk A. exists n, k, f, (stop s). done. }
  destruct (pc s) as [| | | | | | | |b]; [done|..|by destruct (W2 b)]; rewrite E in F.
  - rewrite E. apply (F 2 0); [lia|lia|exact A2].
  - rewrite E. apply (F 4 1); [lia|lia|]. eapply alone_step; [done|exact A5].
  - rewrite E. apply (F 3 1); [lia|lia|exact A5].
  - rewrite E. apply (F 2 0); [lia|lia|exact A4].
  - rewrite E. apply (F 2 0); [lia|lia|exact A3].
  - rewrite E. apply (F 3 0); [lia|lia|]. eapply alone_step; [done|exact A2].
  - rewrite E. apply (F 1 0); [lia|lia|apply A1].
Qed.

(** An event is not lost: if the condition has become true under the mutex while the thread sleeps, the notification that wakes it up
    is still to come. *)
Theorem C89_events_are_not_lost b0 s : reach b0 s → pc s = WSleeping → cond s = true → 0 < pending s.
Proof. intros R%reach_inv. apply R. Qed.
(** And any notification wakes up a thread that sleeps. *)
Theorem C89_notified_means_woken s s' : pc s = WSleeping → step Notify s = Some s' → pc s' = WWoken.
Proof. intros E. simpl. destruct (pending s); [discriminate|]. intros [= <-]. simpl. by rewrite decide_True. Qed.

(** A bulk notifier notifies exactly the signals with an open scope, as long as no signal has two at the same time. *)
Lemma count_snoc x ops o : count x (ops ++ [o]) = (count x ops + count x [o])%Z.
Proof.
  induction ops as [|o' ops IH]; [done|]. cbn [app count foldr] in *. fold (count x (ops ++ [o])). fold (count x ops).
  rewrite IH. destruct o'; case_decide; lia.
Qed.
Theorem C89_bulk_notifies_the_open_scopes ops x :
  one_scope_each ops → x ∈ notified (foldl apply_op ∅ ops) ↔ count x ops = 1%Z.
Proof.
  unfold notified. induction ops as [|o ops IH] using rev_ind; intros H.
  { simpl. split; [set_solver|done]. }
  assert (one_scope_each ops) as H1.
  { intros n y. destruct (decide (n ≤ length ops)) as [L|L].
    - specialize (H n y). by rewrite take_app_le in H.
    - specialize (H (length ops) y). rewrite take_app in H. by rewrite take_ge by lia. }
  specialize (IH H1). rewrite foldl_app. pose proof (H (length (ops ++ [o])) x) as H2. rewrite firstn_all in H2.
  rewrite count_snoc in *. pose proof (H1 (length ops) x) as H3. rewrite firstn_all in H3.
  destruct o as [y|y]; simpl in *; unfold register, unregister; case_decide as D.
  - subst y. split; [lia|set_solver].
  - rewrite elem_of_union, elem_of_singleton, IH. split; [intros [?|?]; [done|lia]|right; lia].
  - subst y. split; [set_solver|lia].
  - rewrite elem_of_difference, elem_of_singleton, IH. split; [lia|]. intros ?. split; [lia|done].
Qed.

(** ** Not so *)
(** "SignalExternalTermination() wakes up the thread": the stop signal is set without the mutex, so the thread may have tested it just
    before and go to sleep just after the notification; only the end of the 25 ms (the "deadlock workaround" of line 65) wakes it up. *)
Theorem C89_signal_wakes_refuted :
  ∃ s, reach false s ∧ stop s = true ∧ pc s = WSleeping ∧ pending s = 0 ∧ step Wait s = None ∧ step Notify s = None.
Proof.
  exists (State true false 0 WSleeping). split; [|done].
  eapply (reach_step _ (State true false 0 WSleep) Wait); [|done].
  eapply (reach_step _ (State true false 1 WSleep) Notify); [|done].
  eapply (reach_step _ (State false false 0 WSleep) Signal); [|done].
  eapply (reach_step _ (State false false 0 WTop) Wait); [|done].
  eapply (reach_step _ (init false) Call); [|done]. constructor.
Qed.
(** "A signal with an open scope is notified": the notifier keeps a set, so of two scopes of the same signal the first that is closed
    takes the signal off. *)
Theorem C89_open_scope_is_notified_refuted :
  ∃ ops x, (∀ n y, (0 ≤ count y (take n ops))%Z) ∧ (0 < count x ops)%Z ∧ x ∉ notified (foldl apply_op ∅ ops).
Proof.
  exists [Open 1; Open 1; Close 1], 1. split; [|split; [done|]].
  2: { intros H. unfold notified in H. cbn [foldl apply_op] in H. unfold unregister in H. apply elem_of_difference in H as [_ H]. by apply H, elem_of_singleton. }
  intros [|[|[|[|n]]]] y; simpl; try case_decide; try lia; destruct n; simpl; lia.
Qed.

(** ** The hypotheses are met *)
Example C89_example_event : ∃ s, reach false s ∧ pc s = WSleeping ∧ cond s = true ∧ pending s = 1.
Proof.
  exists (State false true 1 WSleeping). split; [|done].
  eapply (reach_step _ (State false false 0 WSleeping) (Event true)); [|done].
  eapply (reach_step _ (State false false 0 WSleep) Wait); [|done].
  eapply (reach_step _ (State false false 0 WTop) Wait); [|done].
  eapply (reach_step _ (init false) Call); [|done]. constructor.
Qed.
Example C89_example_returned : ∃ s, reach false s ∧ pc s = WReturned false.
Proof.
  exists (State false true 0 (WReturned false)). split; [|done].
  eapply (reach_step _ (State false true 0 WDone) Wait); [|done].
  eapply (reach_step _ (State false true 0 WTop) Wait); [|done].
  eapply (reach_step _ (State false true 0 WOut) Call); [|done].
  eapply (reach_step _ (State false true 1 WOut) Notify); [|done].
  eapply (reach_step _ (init false) (Event true)); [|done]. constructor.
Qed.
Example C89_example_scopes : one_scope_each [Open 1; Open 2; Close 1] ∧ count 2 [Open 1; Open 2; Close 1] = 1%Z.
Proof.
  split; [|done]. intros [|[|[|[|n]]]] y; simpl; repeat case_decide; subst; try lia; destruct n; simpl; repeat case_decide; lia.
Qed.

Print Assumptions C89_returns_for_a_reason.
Print Assumptions C89_always_returns.
Print Assumptions C89_events_are_not_lost.
Print Assumptions C89_notified_means_woken.
Print Assumptions C89_bulk_notifies_the_open_scopes.
Print Assumptions C89_signal_wakes_refuted.
Print Assumptions C89_open_scope_is_notified_refuted.
