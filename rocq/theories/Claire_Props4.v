(** * C93: Claire's keepalives: when they are sent, what ends the process, and what is lost in the destructor *)
From stdpp Require Import gmap list.
From Verif Require Import Claire_Model Claire_Spec Claire_Proofs Claire_Proofs2 Claire_Proofs3 Claire_Props Claire_Props2 Claire_Props3.

(** ** Every twenty-two seconds *)
Definition timed (s : state) : Prop := (log s = [] → last s = 0%Z) ∧ ∀ l a, log s = l ++ [a] → last s = a_time a.
Lemma timed_eq s s' : log s' = log s → last s' = last s → timed s → timed s'.
Proof. unfold timed. by intros -> ->. Qed.
Lemma timed_send w s : timed (send w s).
Proof. split; simpl; [by intros [_ ?]%app_nil|]. intros l a E. apply app_inj_2 in E as (_ & [= <-]); done. Qed.
Lemma notify_last s : last (notify s) = last s. Proof. unfold notify. by destruct (kp s). Qed.
Lemma timed_step a s s' : step a s = Some s' → timed s → timed s'.
Proof.
  intros X T. unfold step in X. destruct (exited s); [done|]. destruct a as [m c|m ok|r| | |t| |].
  - cases X. by apply (timed_eq s).
  - unfold user, lock_km, lock_rm, free_km in X. destruct (users s !! m) as [p|] eqn:U; [|done].
    destruct p; try discriminate X; cases X; try (apply (timed_eq s); try exact T; simpl; rewrite ?notify_log, ?notify_last; done).
    by apply (timed_eq (send (User m) s)), timed_send.
  - unfold keeper, lock_km in X. destruct (kp s) eqn:E; try discriminate X; cases X; try (by apply (timed_eq s)).
    by apply (timed_eq (send Keeper s)), timed_send.
  - destruct (kp s) eqn:E; try discriminate X; cases X. by apply (timed_eq s).
  - destruct (kp s) eqn:E; try discriminate X; cases X. by apply (timed_eq s).
  - cases X. by apply (timed_eq s).
  - cases X. by apply (timed_eq s).
  - unfold destructor, lock_rm, free_km in X. destruct (dp s); try discriminate X; cases X; apply (timed_eq s); try exact T; simpl; rewrite ?notify_log, ?notify_last; done.
Qed.
Lemma timed_reach s : reach s → timed s.
Proof.
  intros (t & tr & P & R). eapply (run_ind timed); [exact R|split; [done|simpl; intros [|? ?] b; done]|intros a u u' _ X; by eapply timed_step].
Qed.
Definition sfin (k j : nat) (s : state) : Prop :=
  ∃ tr s', Forall (λ a, match a with Keeps _ | Timeout => True | _ => False end) tr ∧ length tr ≤ j ∧ run tr s = Some s' ∧ k < length (log s').
Lemma sfin_keeper k j r s s1 : exited s = false → keeper r s = Some s1 → sfin k j s1 → sfin k (S j) s.
Proof.
  intros E K (tr & s' & O & L & R & U). exists (Keeps r :: tr), s'. split; [by constructor|]. split; [simpl; lia|]. split; [|done].
  rewrite run_cons. unfold step. rewrite E. simpl. by rewrite K.
Qed.
Lemma sfin_timeout k j s s1 : step Timeout s = Some s1 → sfin k j s1 → sfin k (S j) s.
Proof.
  intros K (tr & s' & O & L & R & U). exists (Timeout :: tr), s'. split; [by constructor|]. split; [simpl; lia|]. split; [|done]. rewrite run_cons. by rewrite K.
Qed.
Lemma sfin_done k j s : k < length (log s) → sfin k j s.
Proof. intros H. exists [], s. split; [done|]. split; [simpl; lia|]. done. Qed.

(** Twenty-two seconds after the last keepalive, of whoever has sent it, the keepalive thread, if nothing else is under way, can send another. *)
Theorem C93_keepalives_are_sent_in_time s : reach s → exited s = false → dp s = DNone → all_idle s → kp s ≠ KNone →
  (22000000 ≤ time s)%Z → (∀ l a, log s = l ++ [a] → (a_time a + 22000000 ≤ time s)%Z) →
  ∃ tr s', Forall (λ a, match a with Keeps _ | Timeout => True | _ => False end) tr ∧ length tr ≤ 8 ∧ run tr s = Some s' ∧ length (log s) < length (log s').
Proof.
  intros R E D A K T1 T2. change (sfin (length (log s)) 8 s). pose proof (reach_inv _ R) as I. pose proof (timed_reach _ R) as (L1 & L2).
  assert (L : (last s + 22000000 ≤ time s)%Z).
  { destruct (log s) as [|x l _] eqn:G using rev_ind; [rewrite L1 by done; lia|]. rewrite (L2 l x) by done. by apply (T2 l x). }
  assert (DE : destructing s = false) by (rewrite (v_des s I), D; done).
  assert (KM := idle_km s I A). pose proof (proj2 (v_km_k s I)) as KK. pose proof (v_deadline s I) as DL.
  assert (NS : kp s ≠ KStart).
  { intros Q. destruct (v_start s I Q) as (m & M). destruct (idle_urm s m A) as (_ & _ & _ & X). congruence. }
  assert (ND : kp s ≠ KBreak ∧ kp s ≠ KDone) by (split; intros Q; pose proof (v_done s I); rewrite DE in *; intuition congruence).
  clear I A R T1 T2 L1 L2. open s. simpl in *. subst. destruct ND.
  destruct kpp; simpl in *; try done; try specialize (KM eq_refl); try specialize (KK eq_refl); try specialize (DL _ eq_refl); subst.
  all: repeat match goal with
    | |- sfin _ _ (State _ _ _ _ _ _ _ _ _ _ KSending _ _ (_ ++ [_]) _ _) => apply sfin_done; simpl; rewrite app_length; simpl; lia
    | |- sfin _ _ (State _ _ _ _ _ _ _ _ _ _ (KSleep _) _ _ _ _ _) => eapply sfin_timeout; [unfold step; tidy; rewrite decide_True by lia; reflexivity|tidy]
    | |- sfin _ _ (State _ _ _ _ _ _ _ _ _ _ KPlan _ _ _ _ _) =>
        eapply (sfin_keeper _ _ 18000000); [done|unfold keeper; tidy; rewrite decide_True by lia; rewrite decide_False by lia; reflexivity|tidy]
    | |- sfin _ _ (State _ _ _ ?f _ _ _ _ _ _ (KPred _) _ _ _ _ _) => is_var f; destruct f
    | |- sfin _ _ (State _ _ _ _ _ _ _ _ _ _ _ _ _ _ _ _) => eapply (sfin_keeper _ _ 0); [done|unfold keeper; tidy; reflexivity|tidy]
    end.
Qed.

(** ** What ends the process *)
Definition forces (p : cpc) : bool := match p with SLock _ _ | FLock _ | FRunning _ | FSpin _ | FReset _ | FFlag _ | FNotify _ | FWait => true | _ => false end.
Definition early (p : cpc) : bool := match p with RSending | RStart | RRunning | RSpin | RBeacon => true | _ => false end.
Definition begun (p : cpc) : bool := match p with RSpin | RBeacon => true | _ => false end.
Record inv3 (s : state) : Prop := Inv3 {
  t_forces n : forces (at_ (users s) n) = true → beacon s = true;
  t_early n : early (at_ (users s) n) = true → beacon s = false;
  t_kp : kp s ≠ KNone → beacon s = true ∨ ∃ n, begun (at_ (users s) n) = true;
  t_ex : exited s = false }.
Lemma begun_ex s n p : inv s → at_ (users s) n = p → begun p = false →
  (∃ m, begun (at_ (users s) m) = true) → ∀ q, ∃ m, begun (at_ (<[n := q]> (users s)) m) = true.
Proof.
  intros I A B (m & M) q. exists m. rewrite at_insert. destruct (decide (n = m)) as [->|]; [congruence|done].
Qed.
Lemma inv3_step a s s' : inv s → step a s = Some s' → (match a with Call _ (Force _) | Call _ (SetKarl _ _) => beacon s = true | _ => True end) → inv3 s → inv3 s'.
Proof.
  intros I X C J. pose proof J as [J1 J2 J3 J4]. unfold step in X. rewrite J4 in X.
  assert (TRIV : ∀ s1, users s1 = users s → beacon s1 = beacon s → exited s1 = exited s → (kp s1 ≠ KNone → kp s ≠ KNone) → inv3 s1).
  { intros s1 A B D E. split; rewrite ?A, ?B, ?D; auto. }
  destruct a as [m c|m ok|r| | |t| |].
  - destruct (idle (users s !! m)) eqn:ID; [|done]. injection X as <-.
    assert (AT : begun (at_ (users s) m) = false) by (unfold at_; by destruct (users s !! m) as [[]|]).
    split; simpl; auto.
    + intros n. rewrite at_insert. destruct (decide (m = n)) as [->|]; [|apply J1]. by destruct c.
    + intros n. rewrite at_insert. destruct (decide (m = n)) as [->|]; [|apply J2]. by destruct c.
    + intros K. destruct (J3 K) as [?|?]; [by left|right]. eapply begun_ex; eauto.
  - unfold user, lock_km, lock_rm, free_km in X. destruct (users s !! m) as [p|] eqn:U; [|done].
    assert (AT : at_ (users s) m = p) by (unfold at_; by rewrite U).
    assert (GEN : ∀ q s1, users s1 = users s → beacon s1 = beacon s → exited s1 = exited s → (kp s1 ≠ KNone → kp s ≠ KNone) →
      (forces q = true → beacon s = true) → (early q = true → beacon s = false) → (begun p = false ∨ begun q = true ∨ beacon s = true) → inv3 (set_user m q s1)).
    { intros q s1 A B D E F G H. split; simpl; rewrite ?A, ?B, ?D; auto.
      - intros n. rewrite at_insert. destruct (decide (m = n)); [done|apply J1].
      - intros n. rewrite at_insert. destruct (decide (m = n)); [done|apply J2].
      - intros K. destruct (J3 (E K)) as [?|(n & N)]; [by left|]. destruct H as [H|[H|H]]; [| |by left]; right.
        + exists n. rewrite at_insert. destruct (decide (m = n)); [congruence|done].
        + exists m. rewrite at_insert. by rewrite decide_True. }
    pose proof (J1 m) as F1. pose proof (J2 m) as F2. rewrite AT in F1, F2.
    assert (ONE : ukm p = true → ∀ n, ukm (at_ (users s) n) = true → n = m).
    { intros P n N. apply (v_km_u s I) in N. rewrite <- AT in P. apply (v_km_u s I) in P. congruence. }
    destruct p; try discriminate X; cases X; simpl in *; try specialize (F1 eq_refl); try specialize (F2 eq_refl);
      try (apply GEN; simpl; auto; try congruence; fail).
    + exfalso. assert (K : kp s ≠ KNone) by (intros K; rewrite (v_run s I), K in *; done).
      destruct (J3 K) as [?|(n & N)]; [congruence|]. assert (n = m) by (apply ONE; [done|by destruct (at_ (users s) n)]). subst n. by rewrite AT in N.
    + split; simpl; auto.
      * intros n. rewrite at_insert. destruct (decide (m = n)); [done|apply J1].
      * intros _. right. exists m. rewrite at_insert. by rewrite decide_True.
    + split; simpl; auto. intros n. rewrite at_insert. destruct (decide (m = n)) as [->|N]; [done|]. intros E. exfalso. apply N. symmetry.
      specialize (J2 n E). apply ONE; [done|]. by destruct (at_ (users s) n).
    + split; simpl; auto.
      * intros n. rewrite at_insert. destruct (decide (m = n)); [done|apply J2].
    + apply GEN; simpl; rewrite ?notify_users; auto; unfold notify; destruct (kp s) eqn:Q; simpl; rewrite ?Q; auto; done.
    + apply GEN; simpl; rewrite ?notify_users; auto; unfold notify; destruct (kp s) eqn:Q; simpl; rewrite ?Q; auto; done.
    + done.
  - unfold keeper, lock_km in X. destruct (kp s) eqn:Q; try discriminate X; cases X; apply TRIV; simpl; auto; rewrite Q; done.
  - destruct (kp s) eqn:Q; try discriminate X; cases X; apply TRIV; simpl; auto; rewrite Q; done.
  - destruct (kp s) eqn:Q; try discriminate X; cases X; apply TRIV; simpl; auto; rewrite Q; done.
  - cases X. by apply TRIV.
  - cases X. by apply TRIV.
  - unfold destructor, lock_rm, free_km in X. destruct (dp s); try discriminate X; cases X; apply TRIV; simpl; rewrite ?notify_users; auto;
      unfold notify; destruct (kp s) eqn:Q; simpl; rewrite ?Q; auto; done.
Qed.
(** If Register is the first to be called, the process is not ended. *)
Theorem C93_registering_first_is_safe t tr s : (0 ≤ t)%Z → registered_first (init t) tr → run tr (init t) = Some s → exited s = false.
Proof.
  intros P RF R. assert (I : inv (init t)) by (by apply inv_init).
  assert (J : inv3 (init t)) by (split; intros *; unfold at_; simpl; rewrite ?lookup_empty; done).
  revert I J RF R. generalize (init t). induction tr as [|a tr IH]; intros u I J RF R; [injection R as <-; apply J|].
  simpl in RF. destruct RF as (C & RF). rewrite run_cons in R. destruct (step a u) as [u'|] eqn:X; [|done]. simpl in R.
  eapply IH; [by eapply step_inv| |exact RF|exact R]. by eapply inv3_step.
Qed.

Definition keeps (n : nat) : list action := replicate n (Keeps 20000000).
Definition uses (m n : nat) : list action := replicate n (Users m true).
(** Claire is told to send a keepalive before Register has been called, by the program or by a request to its own status page
    ([/.current?initiate_keepalive], or [?report_to=...]): this starts the keepalive thread; Register, when it is called, finds it running,
    takes it for a mistake of the programmer's, and ends the process (claire.h 351-355). *)
Theorem C93_registering_later_is_safe_refuted :
  ∃ tr s, run ([Call 0 (Force false)] ++ tr) (init 1000000000) = Some s ∧ exited s = true ∧
    (∀ c n, Call n c ∈ tr → c = Register false).
Proof.
  exists (uses 0 2 ++ keeps 1 ++ uses 0 4 ++ [Call 1 (Register false)] ++ uses 1 4).
  eexists. split; [vm_compute; reflexivity|]. split; [done|].
  intros c n. vm_compute. intros E. repeat (apply elem_of_cons in E as [E|E]; [by simplify_eq|]). by apply elem_of_nil in E.
Qed.

(** The destructor ends the keepalive thread while another thread, of the program's or of the HTTP server's ([/.current?initiate_keepalive=wait]),
    waits in ForceSendKeepalive for the next keepalive: there will be none, and that thread looks for it every millisecond for ever. *)
Theorem C93_waiting_calls_return_from_a_destructed_object_refuted :
  ∃ s, reach s ∧ exited s = false ∧ users s !! 0 = Some FWait ∧ others_idle 0 s ∧ dp s = DDone ∧
    ∀ tr s', run tr s = Some s' → no_call 0 tr → users s' !! 0 ≠ Some CReturned.
Proof.
  assert (X : ∃ s, run ([Call 0 (Force true)] ++ uses 0 2 ++ keeps 1 ++ uses 0 2 ++ [Destroy; Destroys; Destroys; Destroys] ++ keeps 1 ++
      [Destroys] ++ uses 0 2 ++ [Destroys] ++ keeps 1 ++ [Destroys; Destroys]) (init 1000000000) = Some s ∧
      users s = {[0 := FWait]} ∧ exited s = false ∧ dp s = DDone ∧ sent s = false ∧ kp s = KDone).
  { eexists. split; [vm_compute; reflexivity|]. split_and!; [|done..]. apply map_eq. intros [|[|m]]; vm_compute; reflexivity. }
  destruct X as (s & R & U & E & D & S & K). exists s. split_and!; auto.
  - eexists 1000000000%Z, _. split; [lia|exact R].
  - by rewrite U.
  - intros m M. rewrite U, lookup_singleton_ne by done. done.
  - intros tr s' R' N.
    assert (I : inv s). { apply reach_inv. eexists 1000000000%Z, _. split; [lia|exact R]. }
    assert (X : inv s' ∧ dp s' = DDone ∧ sent s' = false ∧ kp s' = KDone ∧ users s' !! 0 = Some FWait).
    { eapply (run_ind (λ u, inv u ∧ dp u = DDone ∧ sent u = false ∧ kp u = KDone ∧ users u !! 0 = Some FWait)); [exact R'|rewrite U; done|].
      intros a u u' A X (Q1 & Q2 & Q3 & Q4 & Q5). split; [by eapply step_inv|].
      assert (DE : destructing u = true) by (rewrite (v_des u Q1), Q2; done).
      assert (NO : notify u = u) by (unfold notify; by rewrite Q4).
      unfold step in X. destruct (exited u); [done|]. destruct a as [m c|m ok|r| | |t| |].
      - destruct (decide (m = 0)) as [->|M]; [by destruct (N c)|]. cases X. simpl. by rewrite lookup_insert_ne.
      - destruct (decide (m = 0)) as [->|M].
        + unfold user in X. rewrite Q5 in X. unfold free_km in X. destruct (km u); [done|]. simpl in X. rewrite Q3 in X. by injection X as <-.
        + assert (SP : spin (at_ (users u) m) = false).
          { destruct (spin (at_ (users u) m)) eqn:Z; [|done]. destruct (v_spin u Q1 m Z). congruence. }
          unfold at_ in SP. unfold user, lock_km, lock_rm, free_km in X. destruct (users u !! m) as [p|] eqn:W; [|done].
          destruct p; try discriminate X; try discriminate SP; try rewrite DE in X; rewrite ?orb_true_r in X; cases X; simpl; rewrite ?NO, ?lookup_insert_ne by done; done.
      - unfold keeper in X. by rewrite Q4 in X.
      - by rewrite Q4 in X.
      - by rewrite Q4 in X.
      - by cases X.
      - rewrite Q2 in X. done.
      - unfold destructor in X. rewrite Q2 in X. done. }
    destruct X as (_ & _ & _ & _ & ->). done.
Qed.

(** ** A history to which the theorems apply *)
Definition tr_registered := [Call 0 (Register false)] ++ uses 0 4 ++ keeps 1 ++ uses 0 2.
Definition tr_asleep := tr_registered ++ keeps 13.
Definition tr_waiting := tr_asleep ++ [Call 1 (SetKarl 7 true)] ++ uses 1 6.
Definition tr_sent := tr_waiting ++ [Tick 5] ++ keeps 7 ++ uses 1 1.
Definition tr_dying := tr_sent ++ keeps 5 ++ [Destroy].
Definition tr_dead := tr_dying ++ [Destroys; Destroys; Destroys; Destroys; Destroys] ++ keeps 4 ++ [Destroys; Destroys].
Definition after (tr : list action) : state := default (init 0) (run tr (init 1000000000)).
Lemma after_reach tr : (if run tr (init 1000000000) then true else false) = true → reach (after tr).
Proof. destruct (run tr (init 1000000000)) as [s|] eqn:R; [intros _|done]. exists 1000000000%Z, tr. split; [lia|]. unfold after. by rewrite R. Qed.
(** The keepalive thread sleeps, with one keepalive sent and 22 seconds to go; nobody does anything. *)
Example C93_asleep :
  reach (after tr_asleep) ∧ registered_first (init 1000000000) tr_asleep ∧ exited (after tr_asleep) = false ∧ dp (after tr_asleep) = DNone ∧
  kp (after tr_asleep) = KSleep 1020000000 ∧ log (after tr_asleep) = [Attempt 1000000000 0 Keeper] ∧ users (after tr_asleep) !! 0 = Some CReturned ∧
  step (Call 1 (SetKarl 7 true)) (after tr_asleep) ≠ None ∧ no_relocation tr_asleep.
Proof.
  split; [apply after_reach; by vm_compute|]. split; [vm_compute; repeat split|]. split_and!; try by vm_compute.
  intros n l w E. vm_compute in E. repeat (apply elem_of_cons in E as [E|E]; [by simplify_eq|]). by apply elem_of_nil in E.
Qed.
(** SetKarlLocator(7, Wait) has got as far as to wait; it has woken up the thread. *)
Example C93_waiting :
  reach (after tr_waiting) ∧ exited (after tr_waiting) = false ∧ dp (after tr_waiting) = DNone ∧ users (after tr_waiting) !! 1 = Some FWait ∧
  kp (after tr_waiting) = KWoken 1020000000 ∧ karl (after tr_waiting) = 7 ∧ users (after tr_waiting) !! 0 = Some CReturned.
Proof. split; [apply after_reach; by vm_compute|]. split_and!; by vm_compute. Qed.
Example C93_sent :
  reach (after tr_sent) ∧ users (after tr_sent) !! 1 = Some CReturned ∧
  log (after tr_sent) = [Attempt 1000000000 0 Keeper; Attempt 1000000005 7 Keeper].
Proof. split; [apply after_reach; by vm_compute|]. split_and!; by vm_compute. Qed.
(** The destructor is called, and returns. *)
Example C93_dying : reach (after tr_dying) ∧ exited (after tr_dying) = false ∧ dp (after tr_dying) = DLock ∧ kp (after tr_dying) = KSleep 1020000005.
Proof. split; [apply after_reach; by vm_compute|]. split_and!; by vm_compute. Qed.
Example C93_dead : reach (after tr_dead) ∧ dp (after tr_dead) = DDone ∧ deleted (after tr_dead) = true ∧ kp (after tr_dead) = KDone.
Proof. split; [apply after_reach; by vm_compute|]. split_and!; by vm_compute. Qed.

Print Assumptions C93_keepalives_are_sent_in_time.
Print Assumptions C93_registering_first_is_safe.
Print Assumptions C93_registering_later_is_safe_refuted.
Print Assumptions C93_waiting_calls_return_from_a_destructed_object_refuted.
