(** * C93: Claire's keepalives: the calls return, and the destructor does *)
From stdpp Require Import gmap list.
From Verif Require Import Claire_Model Claire_Spec Claire_Proofs Claire_Proofs2 Claire_Proofs3 Claire_Props Claire_Props2.

(** ** A waiting call returns *)
Definition fin (n j : nat) (s : state) : Prop :=
  ∃ tr s', only n tr ∧ length tr ≤ j ∧ run tr s = Some s' ∧ users s' !! n = Some CReturned.
Lemma fin_keeper n j r s s1 : exited s = false → keeper r s = Some s1 → fin n j s1 → fin n (S j) s.
Proof.
  intros E K (tr & s' & O & L & R & U). exists (Keeps r :: tr), s'. split; [by constructor|]. split; [simpl; lia|]. split; [|done].
  rewrite run_cons. unfold step. rewrite E. simpl. by rewrite K.
Qed.
Lemma fin_user n j s : exited s = false → km s = None → sent s = true → users s !! n = Some FWait → fin n (S j) s.
Proof.
  intros E M S U. exists [Users n true], (set_user n CReturned s). split; [by repeat constructor|]. split; [simpl; lia|]. split.
  - rewrite run_cons. unfold step. rewrite E. unfold user. rewrite U. unfold free_km. rewrite M. simpl. rewrite S. done.
  - simpl. by rewrite lookup_insert.
Qed.
Lemma run_of_step a tr s s' s1 : step a s = Some s1 → run tr s1 = Some s' → run (a :: tr) s = Some s'.
Proof. intros A B. rewrite run_cons, A. done. Qed.

Ltac tidy := cbv [set_time set_running set_destructing set_flag set_sent set_beacon set_karl set_km set_rm set_kp set_user set_dp set_deleted set_exited send lock_km];
  cbn [time running destructing flag sent beacon karl last km rm kp users dp log deleted exited fmap option_fmap option_map orb].
Ltac kstep r := eapply (fin_keeper _ _ r); [done|unfold keeper; tidy; reflexivity|tidy].
(** A thread that waits in ForceSendKeepalive can always return, with nothing more from anybody but the keepalive thread; unless the
    destructor has been called. *)
Theorem C93_waiting_calls_return s n : reach s → exited s = false → dp s = DNone → users s !! n = Some FWait → others_idle n s →
  ∃ tr s', only n tr ∧ length tr ≤ 10 ∧ run tr s = Some s' ∧ users s' !! n = Some CReturned.
Proof.
  intros R E D U O. change (fin n 10 s). pose proof (reach_inv _ R) as I. pose proof (reach_inv2 _ R) as J.
  assert (AT : at_ (users s) n = FWait) by (unfold at_; by rewrite U).
  assert (OTH : ∀ m, m ≠ n → at_ (users s) m = CReturned ∨ at_ (users s) m = CThrew).
  { intros m M. specialize (O m M). unfold at_. destruct (users s !! m) as [[]|]; simpl in *; auto; done. }
  assert (DE : destructing s = false) by (rewrite (v_des s I), D; done).
  assert (KR : krun (kp s) = true) by (apply (w_past s J n); [by rewrite AT|done]).
  assert (KM : kkm (kp s) = false → km s = None).
  { intros K. destruct (km s) as [[|m|]|] eqn:M; [|exfalso|exfalso|done].
    - apply (v_km_k s I) in M. congruence.
    - apply (v_km_u s I) in M. destruct (decide (m = n)) as [->|X]; [by rewrite AT in M|]. destruct (OTH m X) as [Y|Y]; by rewrite Y in M.
    - by apply (v_km_d s I). }
  assert (NF : blocked (kp s) = true → flag s = false).
  { intros B. destruct (flag s) eqn:F; [|done]. destruct (v_flag s I B F) as (m & M). destruct (decide (m = n)) as [->|X]; [by rewrite AT in M|].
    destruct (OTH m X) as [Y|Y]; by rewrite Y in M. }
  assert (W : sent s = true ∨ sent s = false ∧ (flag s = true ∨ sending (kp s) = true)).
  { destruct (sent s) eqn:S; [by left|right]. split; [done|]. destruct (w_wait s J n) as [?|[?|(m & M)]]; auto; [by rewrite AT|].
    destruct (decide (m = n)) as [->|X]; [congruence|]. destruct (OTH m X) as [Y|Y]; congruence. }
  assert (NB : kp s ≠ KBreak) by (intros B; pose proof (v_done s I (or_introl B)); congruence).
  clear R I J O OTH AT. open s. simpl in *. subst.
  destruct kpp; simpl in *; try discriminate KR.
  all: try specialize (KM eq_refl); try specialize (NF eq_refl); subst.
  all: destruct W as [->|(-> & [W|W])]; try discriminate W; subst.
  all: try (apply fin_user; done).
  all: repeat match goal with
    | |- fin _ _ (State _ _ _ _ true _ _ _ None _ _ _ _ _ _ _) => apply fin_user; done
    | |- fin _ _ (State ?ti _ _ _ _ _ _ ?la _ _ KPlan _ _ _ _ _) =>
        eapply (fin_keeper _ _ 18000000); [done|unfold keeper; tidy; rewrite decide_True by lia; reflexivity|]; destruct (decide (la + 18000000 > ti)%Z); tidy
    | |- fin _ _ (State _ _ _ ?f _ _ _ _ _ _ (KPred _) _ _ _ _ _) => is_var f; destruct f
    | |- fin _ _ (State _ _ _ _ _ _ _ _ _ _ _ _ _ _ _ _) => kstep 0%Z
    end.
Qed.

(** ** The destructor returns *)
Definition dfin (s : state) : Prop := ∃ tr s', only_destruction tr ∧ run tr s = Some s' ∧ dp s' = DDone.
Lemma dfin_app s tr s' : only_destruction tr → run tr s = Some s' → dfin s' → dfin s.
Proof.
  intros O R (tr' & s2 & O' & R' & D). exists (tr ++ tr'), s2. split; [by apply Forall_app|]. split; [|done]. rewrite run_app, R. done.
Qed.
Lemma dfin_step s s' : exited s = false → destructor s = Some s' → dfin s' → dfin s.
Proof. intros E K. apply (dfin_app _ [Destroys]); [by repeat constructor|]. rewrite run_cons. unfold step. rewrite E. simpl. by rewrite K. Qed.
Lemma idle_urm s n : all_idle s → urm (at_ (users s) n) = false ∧ ukm (at_ (users s) n) = false ∧ notifying (at_ (users s) n) = false ∧ spin (at_ (users s) n) = false.
Proof. intros A. specialize (A n). unfold at_. destruct (users s !! n) as [[]|]; simpl in *; done. Qed.
Lemma idle_km s : inv s → all_idle s → kkm (kp s) = false → km s = None.
Proof.
  intros I A K. destruct (km s) as [[|m|]|] eqn:M; [|exfalso|exfalso|done].
  - apply (v_km_k s I) in M. congruence.
  - apply (v_km_u s I) in M. destruct (idle_urm s m A) as (_ & X & _). congruence.
  - by apply (v_km_d s I).
Qed.
Lemma idle_rm s : inv s → all_idle s → drm (dp s) = false → rm s = None.
Proof.
  intros I A K. destruct (rm s) as [[|m|]|] eqn:M; [exfalso|exfalso| |done].
  - by apply (v_rm_k s I).
  - apply (v_rm_u s I) in M. destruct (idle_urm s m A) as (X & _). congruence.
  - apply (v_rm_d s I) in M. congruence.
Qed.
(** What stays as it is while only the keepalive thread does anything. *)
Definition going (s s' : state) : Prop := ∃ tr, Forall (λ a, ∃ r, a = Keeps r) tr ∧ run tr s = Some s'.
Lemma going_refl s : going s s. Proof. exists []. done. Qed.
Lemma going_keeper r s s1 s2 : exited s = false → keeper r s = Some s1 → going s1 s2 → going s s2.
Proof.
  intros E K (tr & O & R). exists (Keeps r :: tr). split; [constructor; [by exists r|done]|]. rewrite run_cons. unfold step. rewrite E. simpl. by rewrite K.
Qed.
Lemma going_dfin s s' : going s s' → dfin s' → dfin s.
Proof. intros (tr & O & R) D. eapply dfin_app; [|exact R|done]. eapply Forall_impl; [exact O|]. intros a (r & ->). done. Qed.
Ltac gstep r := eapply (going_keeper r); [done|unfold keeper; tidy; reflexivity|tidy].
Ltac gsteps := repeat match goal with
    | |- ∃ _, _ => eexists; split; [|done]
    | |- going (State ?ti _ _ _ _ _ _ ?la _ _ KPlan _ _ _ _ _) _ => 
        eapply (going_keeper 18000000); [done|unfold keeper; tidy; rewrite decide_True by lia; reflexivity|]
    end.
Lemma all_idle_going s s' : going s s' → users s' = users s ∧ dp s' = dp s ∧ exited s' = exited s.
Proof.
  intros (tr & O & R). eapply (run_ind (λ u, users u = users s ∧ dp u = dp s ∧ exited u = exited s)); [exact R|done|].
  intros a u u' A X (B & C & D). rewrite Forall_forall in O. destruct (O a A) as (r & ->). unfold step in X. destruct (exited u) eqn:E; [done|].
  unfold keeper, lock_km in X. destruct (kp u) eqn:Q; try discriminate X; cases X; simpl; rewrite ?E; auto.
Qed.
(** The keepalive thread, when the destructor is at work, comes to its end, or to where it waits to be notified. *)
Lemma keeper_rests s : exited s = false → destructing s = true → kkm (kp s) = true → km s = Some Keeper → ∃ s', going s s' ∧ kkm (kp s') = false.
Proof.
  intros E D K M. open s. simpl in *. subst.
  destruct kpp; try discriminate K.
  - destruct (decide (la + 18000000 > ti)%Z) as [G|G].
    + eexists. split; [eapply (going_keeper 18000000); [done|unfold keeper; tidy; rewrite !decide_True by lia; reflexivity|tidy]; gstep 0%Z; gstep 0%Z; apply going_refl|done].
    + eexists. split; [eapply (going_keeper 18000000); [done|unfold keeper; tidy; rewrite decide_True by lia; rewrite decide_False by done; reflexivity|tidy]; gstep 0%Z; apply going_refl|done].
  - eexists. split; [gstep 0%Z; gstep 0%Z; apply going_refl|done].
  - eexists. split; [gstep 0%Z; apply going_refl|done].
  - eexists. split; [gstep 0%Z; apply going_refl|done].
  - eexists. split; [gstep 0%Z; gstep 0%Z; gstep 0%Z; gstep 0%Z; apply going_refl|done].
  - eexists. split; [gstep 0%Z; gstep 0%Z; gstep 0%Z; apply going_refl|done].
  - eexists. split; [gstep 0%Z; gstep 0%Z; apply going_refl|done].
  - eexists. split; [gstep 0%Z; apply going_refl|done].
Qed.
Lemma going_inv s s' : going s s' → inv s → inv s'.
Proof. intros (tr & _ & R). by eapply run_inv. Qed.
Lemma keeper_free s : exited s = false → destructing s = true → inv s → all_idle s → ∃ s', going s s' ∧ kkm (kp s') = false ∧ km s' = None.
Proof.
  intros E D I A. destruct (kkm (kp s)) eqn:K.
  - destruct (keeper_rests s E D K ltac:(by apply (v_km_k s I))) as (s' & G & Q). exists s'. split_and!; auto.
    apply idle_km; auto; [by eapply going_inv|]. intros m. destruct (all_idle_going _ _ G) as (-> & _). apply A.
  - exists s. split_and!; auto using going_refl, idle_km.
Qed.
(** The keepalive thread ends. *)
Lemma keeper_ends s : exited s = false → destructing s = true → inv s → all_idle s → rm s = None → kp s ≠ KNone → blocked (kp s) = false → ∃ s', going s s' ∧ kp s' = KDone.
Proof.
  intros E D I A RM NN NB. assert (NS : kp s ≠ KStart).
  { intros K. destruct (v_start s I K) as (m & M). destruct (idle_urm s m A) as (_ & _ & _ & X). congruence. }
  assert (KM := idle_km s I A). pose proof (proj2 (v_km_k s I)) as KK. clear I A. open s. simpl in *. subst.
  destruct kpp; simpl in *; try done; try specialize (KM eq_refl); try specialize (KK eq_refl); subst;
    try (destruct (decide (la + 18000000 > ti)%Z) as [G|G]);
    eexists; (split; [|]); try (
    repeat match goal with
    | |- going (State _ _ _ _ _ _ _ _ _ _ KDone _ _ _ _ _) _ => apply going_refl
    | G : (la + 18000000 > ti)%Z |- going (State _ _ _ _ _ _ _ _ _ _ KPlan _ _ _ _ _) _ =>
        eapply (going_keeper 18000000); [done|unfold keeper; tidy; rewrite !decide_True by lia; reflexivity|tidy]
    | G : ¬ (la + 18000000 > ti)%Z |- going (State _ _ _ _ _ _ _ _ _ _ KPlan _ _ _ _ _) _ =>
        eapply (going_keeper 18000000); [done|unfold keeper; tidy; rewrite decide_True by lia; rewrite decide_False by done; reflexivity|tidy]
    | |- going _ _ => gstep 0%Z
    end); done.
Qed.
Lemma idle_users s s' : users s' = users s → all_idle s → all_idle s'.
Proof. intros U A n. rewrite U. apply A. Qed.
Lemma dfin_done s : dp s = DDone → dfin s.
Proof. intros D. exists [], s. split; [constructor|done]. Qed.
Lemma dfin_join s : exited s = false → inv s → all_idle s → dp s = DJoin → dfin s.
Proof.
  intros E I A D. pose proof (v_dp s I) as V. rewrite D in V. destruct V as (V1 & V2 & V3). pose proof (v_des s I) as DE. rewrite D in DE.
  assert (NB : blocked (kp s) = false).
  { destruct (blocked (kp s)) eqn:B; [|done]. destruct (v_sig s I B DE) as [X|X]; congruence. }
  destruct (keeper_ends s E DE I A ltac:(apply idle_rm; auto; by rewrite D) V1 NB) as (s' & G & K).
  destruct (all_idle_going _ _ G) as (U & DP & EX). eapply going_dfin; [exact G|].
  eapply dfin_step; [congruence|unfold destructor; rewrite DP, D, K; by rewrite decide_True|].
  eapply dfin_step; [simpl; congruence|unfold destructor; simpl; reflexivity|]. by apply dfin_done.
Qed.
Lemma dfin_inv_step s s' : exited s = false → inv s → all_idle s → destructor s = Some s' → (exited s' = false → inv s' → all_idle s' → dfin s') → dfin s.
Proof.
  intros E I A K H. eapply dfin_step; [done|exact K|]. assert (X : users s' = users s ∧ exited s' = exited s).
  { unfold destructor, lock_rm, free_km in K. destruct (dp s); try discriminate K; cases K; simpl; rewrite ?notify_users; auto. split; [done|]. unfold notify. by destruct (kp s). }
  destruct X as (U & EX). apply H; [congruence|by eapply destructor_inv|by eapply idle_users].
Qed.
Lemma dfin_notify s : exited s = false → inv s → all_idle s → dp s = DNotify → dfin s.
Proof.
  intros E I A D. pose proof (v_des s I) as DE. rewrite D in DE.
  destruct (keeper_free s E DE I A) as (s1 & G & K & M). destruct (all_idle_going _ _ G) as (U & DP & EX). eapply going_dfin; [exact G|].
  apply (going_inv _ _ G) in I. apply (idle_users _ _ U) in A.
  eapply dfin_inv_step; [congruence|done|done|unfold destructor, free_km; rewrite DP, D, M; reflexivity|]. intros E' I' A'.
  eapply dfin_inv_step; [done|done|done|unfold destructor; simpl; reflexivity|]. intros. by apply dfin_join.
Qed.
Lemma dfin_test s : exited s = false → inv s → all_idle s → dp s = DTest → dfin s.
Proof.
  intros E I A D. destruct (running s) eqn:RU.
  - eapply dfin_inv_step; [done..|unfold destructor; rewrite D, RU; reflexivity|]. intros. by apply dfin_notify.
  - eapply dfin_inv_step; [done..|unfold destructor; rewrite D, RU; reflexivity|]. intros. by apply dfin_done.
Qed.

(** The destructor, once called, can always return, with nothing from anybody but the keepalive thread. *)
Theorem C93_destruction_ends s : reach s → exited s = false → dp s ≠ DNone → all_idle s →
  ∃ tr s', only_destruction tr ∧ run tr s = Some s' ∧ dp s' = DDone.
Proof.
  intros I%reach_inv E D A. change (dfin s). destruct (dp s) eqn:DP; [done|..].
  - eapply dfin_inv_step; [done..|unfold destructor, lock_rm; rewrite DP, (idle_rm s I A) by (by rewrite DP); reflexivity|]. intros.
    eapply dfin_inv_step; [done..|unfold destructor; simpl; reflexivity|]. intros. by apply dfin_test.
  - eapply dfin_inv_step; [done..|unfold destructor; rewrite DP; reflexivity|]. intros. by apply dfin_test.
  - by apply dfin_test.
  - by apply dfin_notify.
  - eapply dfin_inv_step; [done..|unfold destructor; rewrite DP; reflexivity|]. intros. by apply dfin_join.
  - by apply dfin_join.
  - eapply dfin_inv_step; [done..|unfold destructor; rewrite DP; reflexivity|]. intros. by apply dfin_done.
  - by apply dfin_done.
Qed.

(** Once the destructor has returned, the keepalive thread has ended and the DELETE request has been sent, or the thread has never begun and no
    DELETE request has been sent; neither changes any more, and the thread sends nothing. *)
Theorem C93_destruction_is_final s tr s' : reach s → dp s = DDone → run tr s = Some s' →
  (deleted s = true ∧ kp s = KDone ∨ deleted s = false ∧ kp s = KNone) ∧ deleted s' = deleted s ∧ kp s' = kp s ∧
  ∃ new, log s' = log s ++ new ∧ Forall (λ e, a_by e ≠ Keeper) new.
Proof.
  intros I%reach_inv D R. pose proof (v_dp s I) as V. rewrite D in V. simpl in V. split; [tauto|].
  assert (X : inv s' ∧ dp s' = DDone ∧ deleted s' = deleted s ∧ kp s' = kp s ∧ ∃ new, log s' = log s ++ new ∧ Forall (λ e, a_by e ≠ Keeper) new); [|tauto].
  eapply (run_ind (λ u, inv u ∧ dp u = DDone ∧ deleted u = deleted s ∧ kp u = kp s ∧ ∃ new, log u = log s ++ new ∧ Forall (λ e, a_by e ≠ Keeper) new));
    [exact R|split_and!; auto; exists []; rewrite app_nil_r; done|].
  intros a u u' _ X (Q1 & Q2 & Q3 & Q4 & new & Q5 & Q6). split; [by eapply step_inv|]. unfold step in X. destruct (exited u); [done|].
  assert (K : kp u = KDone ∨ kp u = KNone) by (rewrite Q4; tauto).
  assert (DE : destructing u = true) by (rewrite (v_des u Q1), Q2; done).
  assert (OUT : ∀ s1, dp s1 = dp u → deleted s1 = deleted u → kp s1 = kp u → log s1 = log u →
    dp s1 = DDone ∧ deleted s1 = deleted s ∧ kp s1 = kp s ∧ ∃ new, log s1 = log s ++ new ∧ Forall (λ e, a_by e ≠ Keeper) new).
  { intros s1 -> -> -> ->. split_and!; auto. by exists new. }
  destruct a as [m c|m ok|r| | |t| |].
  - cases X. by apply OUT.
  - assert (NO : notify u = u) by (unfold notify; by destruct K as [-> | ->]).
    assert (SP : spin (at_ (users u) m) = false).
    { destruct (spin (at_ (users u) m)) eqn:S; [|done]. destruct (v_spin u Q1 m S). congruence. }
    unfold at_ in SP. unfold user, lock_km, lock_rm, free_km in X. destruct (users u !! m) as [p|] eqn:U; [|done].
    destruct p; try discriminate X; try discriminate SP; try rewrite DE in X; rewrite ?orb_true_r in X; cases X; try (apply OUT; simpl; rewrite ?NO; done).
    simpl. split_and!; auto. exists (new ++ [Attempt (time u) (karl u) (User m)]). rewrite Q5, app_assoc. split; [done|]. apply Forall_app. by repeat constructor.
  - unfold keeper in X. by destruct K as [K|K]; rewrite K in X.
  - by destruct K as [K|K]; rewrite K in X.
  - by destruct K as [K|K]; rewrite K in X.
  - cases X. by apply OUT.
  - rewrite Q2 in X. done.
  - unfold destructor in X. rewrite Q2 in X. done.
Qed.

Print Assumptions C93_waiting_calls_return.
Print Assumptions C93_destruction_ends.
Print Assumptions C93_destruction_is_final.
