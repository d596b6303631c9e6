(** * C87: Karl's registry *)
From stdpp Require Import gmap list.
From Coq Require Import ZArith Lia.
From Verif Require Import Karl_Model Karl_Spec Karl_Proofs.

(** ** Proved *)
(** Once Karl is up, a service that the registry has as active is one whose last keepalive it remembers, is just recording, or
    has just found to be too old. *)
Theorem C87_active_services_are_watched T c t0 tr s x :
  run T serial (init c t0) tr s → booted s = true → claires s !! x = Some Active → watched x s.
Proof. intros R B. exact (w_watched _ (run_w _ _ _ _ _ R) B x). Qed.

(** Nothing is forgotten in a sleep: as long as Karl remembers any service, its thread does not sleep without a deadline, and
    no sleep is planned for longer than the timeout (if no active service is left from the last time). *)
Theorem C87_never_sleeps_forever T c t0 tr s :
  (0 < t0)%Z → run T quiet_boot (init c t0) tr s →
  (∀ b, upd s = UWaiting b None → flag s = false → cache s = ∅) ∧
  (∀ b d, upd s = UWaiting b (Some d) → (b < d ≤ b + T + 1)%Z).
Proof.
  intros Ht R. destruct (run_s _ _ _ _ _ Ht R) as [_ N S]. split.
  - intros b U Hf. destruct N as [?|?]; [eauto|done|congruence].
  - intros b d U%S. lia.
Qed.

(** A thread of Karl that takes no time itself: whenever it sleeps and no request is being processed, every active service has
    been heard from no longer ago than twice the timeout. *)
Theorem C87_silence_is_noticed T c t0 tr s x :
  (0 < t0)%Z → (0 ≤ T)%Z → run T (both prompt (both serial quiet_boot)) (init c t0) tr s →
  booted s = true → handlers s = ∅ → (∃ b d, upd s = UWaiting b d) → flag s = false →
  claires s !! x = Some Active → ∃ t, Kept x t ∈ tr ∧ (time s - t ≤ 2 * T + 1)%Z.
Proof.
  intros Ht HT R Bo Hh U Hf Hx.
  assert (run T serial (init c t0) tr s) as R1 by (eapply run_weaken; [|exact R]; by intros ? ? (_ & ? & _)).
  assert (run T (both serial quiet_boot) (init c t0) tr s) as R2 by (eapply run_weaken; [|exact R]; by intros ? ? (_ & ?)).
  destruct (w_watched _ (run_w _ _ _ _ _ R1) Bo x Hx) as [[t Hc]|[(h & t & H)|(n & l & r & H & _)]].
  - exists t. split; [apply (h_cache _ _ _ (run_h _ _ _ _ _ Ht R2) _ _ Hc)|].
    pose proof (asleep_recent _ _ _ _ _ _ _ Ht HT R U Hf Hc). lia.
  - rewrite Hh, lookup_empty in H. discriminate.
  - destruct U as (b & d & U). congruence.
Qed.

(** A service that is reported as timed out had been heard from, and of all that had been recorded of it by the time Karl
    looked ([Scan now]) nothing is younger than the timeout. *)
Theorem C87_timeout_means_silence T c t0 tr s pre x now post :
  (0 < t0)%Z → run T (both serial quiet_boot) (init c t0) tr s → tr = pre ++ OnTimedOut x now :: post →
  ∃ pre1 pre2, pre = pre1 ++ Scan now :: pre2 ∧ (∃ t, Kept x t ∈ pre1) ∧ ∀ t, Kept x t ∈ pre1 → (now - t > T)%Z.
Proof. intros Ht R. apply (h_out _ _ _ (run_h _ _ _ _ _ Ht R)). Qed.

(** The destructor returns: from whatever it is doing, the thread ends in at most five steps. *)
Theorem C87_join_returns T s : stop s = true → ∃ n s', n ≤ 5 ∧ updates T n s s' ∧ upd s' = UExit.
Proof. apply updates_stopping. Qed.

(** ** Not so *)
(** "A service whose keepalive has been accepted is not timed out": the keepalive is accepted (the registry has it as active, the
    owner has been notified) before its time is recorded.  Karl's thread can look in between; then a service that has
    just been heard from is reported as timed out, and the registry has it as disconnected until it is heard from again. *)
Theorem C87_alive_is_not_timed_out_refuted :
  ∃ T c t0 tr1 tr2 tr3 tr4 s x t now,
    (0 < t0)%Z ∧ run T (both serial quiet_boot) (init c t0) (tr1 ++ OnKeepalive x t :: tr2 ++ OnTimedOut x now :: tr3 ++ Kept x t :: tr4) s ∧
    (now - t ≤ T)%Z ∧ handlers s = ∅ ∧ cache s !! x = Some t ∧ (time s - t ≤ T)%Z ∧ claires s !! x = Some DisconnectedByTimeout.
Proof.
  exists 20%Z, ∅, 100%Z, [OnKeepalive 7 100; Kept 7 100; Scan 100], [Scan 130], [], []. eexists. exists 7, 130%Z, 130%Z.
  split; [lia|]. split.
  { eapply (exec_run _ all2 _ [Boot; Keepalive 0 7; Handle 0; Handle 0; Update; Update; Tick 30; Keepalive 0 7; Handle 0; Update; Update; Update; Update; Update; Handle 0]
      _ []); [apply all2_spec|apply run_start|vm_compute; reflexivity|vm_compute; reflexivity]. }
  split; [lia|]. split; [apply map_to_list_empty_iff; vm_compute; reflexivity|]. split; [vm_compute; reflexivity|]. split; [vm_compute; discriminate|]. vm_compute; reflexivity.
Qed.

(** "A service that has left gracefully is not reported as timed out": the same, the other way round.  The end of the story is
    the wrong one: the registry has it as disconnected by timeout. *)
Theorem C87_left_is_not_timed_out_refuted :
  ∃ T c t0 tr1 tr2 tr3 s x now,
    (0 < t0)%Z ∧ run T (both serial quiet_boot) (init c t0) (tr1 ++ OnDeregistered x :: tr2 ++ OnTimedOut x now :: tr3) s ∧
    handlers s = ∅ ∧ claires s !! x = Some DisconnectedByTimeout.
Proof.
  exists 20%Z, ∅, 100%Z, [OnKeepalive 7 100; Kept 7 100; Scan 100; Scan 130], [], [Gone 7]. eexists. exists 7, 130%Z.
  split; [lia|]. split.
  { eapply (exec_run _ all2 _ [Boot; Keepalive 0 7; Handle 0; Handle 0; Update; Update; Tick 30; Update; Update; Update; Delete 0 7; Handle 0; Update; Handle 0]
      _ []); [apply all2_spec|apply run_start|vm_compute; reflexivity|vm_compute; reflexivity]. }
  split; [apply map_to_list_empty_iff; vm_compute; reflexivity|]. vm_compute; reflexivity.
Qed.

(** "Silence is noticed, whatever was there when Karl was started": services that are active in the storage when Karl is
    started are put into the cache behind the back of its thread (without the mutex, and without waking it up), which by then
    may be asleep without a deadline.  Such a service stays active, in silence, for any time. *)
Theorem C87_restored_services_time_out_refuted :
  ∃ T c t0 x, (0 < T)%Z ∧ (0 < t0)%Z ∧ ∀ d, (0 ≤ d)%Z → ∃ s,
    run T (both prompt serial) (init c t0) [Scan t0] s ∧ time s = (t0 + d)%Z ∧ booted s = true ∧ handlers s = ∅ ∧
    claires s !! x = Some Active ∧ step T Update s = None.
Proof.
  exists 20%Z, {[7 := Active]}, 100%Z, 7. split; [lia|]. split; [lia|]. intros d Hd.
  assert (∃ s1, exec 20 [Update; Update; Update; Boot] (init {[7 := Active]} 100) = Some ([Scan 100%Z], s1) ∧
    time s1 = 100%Z ∧ booted s1 = true ∧ handlers s1 = ∅ ∧ claires s1 !! 7 = Some Active ∧ upd s1 = UWaiting 100 None ∧
    flag s1 = false ∧ stop s1 = false) as (s1 & E & Et & Eb & Eh & Ec & Eu & Ef & Es).
  { eexists. split; [vm_compute; reflexivity|]. split; [reflexivity|]. split; [reflexivity|].
    split; [apply map_to_list_empty_iff; vm_compute; reflexivity|]. repeat split; vm_compute; reflexivity. }
  exists (set_time (100 + d)%Z s1). split; [|split; [|split; [|split; [|split]]]]; simpl; try done.
  - rewrite <- (app_nil_r [Scan 100%Z]). eapply (run_step _ _ _ _ s1 (Tick d)).
    + eapply (exec_run _ (λ a s, promptb a s && serialb a s) _ [Update; Update; Update; Boot] _ []);
        [|apply run_start|vm_compute; reflexivity|exact E].
      intros a s [?%promptb_spec ?%serialb_spec]%andb_true_iff. by split.
    + split; [|done]. simpl. by rewrite Eu.
    + cbn [step]. by rewrite decide_True, Et.
  - unfold update. simpl. by rewrite Eu, Ef, Es.
Qed.

(** "A silent service is timed out after the timeout": the thread sleeps for the timeout counted from the *most recent* of all
    keepalives, so it takes almost twice that; the bound of [C87_silence_is_noticed] is met exactly. *)
Theorem C87_timed_out_after_the_timeout_refuted :
  ∃ T c t0 tr s x, (0 < T)%Z ∧ (0 < t0)%Z ∧ run T (both prompt (both serial quiet_boot)) (init c t0) tr s ∧
    booted s = true ∧ handlers s = ∅ ∧ (∃ b d, upd s = UWaiting b d) ∧ flag s = false ∧ claires s !! x = Some Active ∧
    (∃ t, Kept x t ∈ tr ∧ time s = t + 2 * T + 1)%Z ∧ ∀ t, Kept x t ∈ tr → t = (time s - 2 * T - 1)%Z.
Proof.
  do 2 eexists. exists 100%Z. do 2 eexists. exists 7.
  split; [|split; [|split]]; [| |
    eapply (exec_run 20%Z all3 _ [Boot; Update; Update; Update; Keepalive 0 7; Handle 0; Handle 0; Update; Update; Update; Update; Tick 20;
       Keepalive 0 8; Handle 0; Handle 0; Update; Update; Update; Update; Tick 21] (init ∅ 100) []);
      [apply all3_spec|apply run_start|vm_compute; reflexivity|vm_compute; reflexivity]|]; [lia|lia|].
  split; [reflexivity|]. split; [apply map_to_list_empty_iff; vm_compute; reflexivity|]. split; [by do 2 eexists|].
  split; [reflexivity|]. split; [vm_compute; reflexivity|]. split.
  - exists 100%Z. split; [|reflexivity]. apply elem_of_list_In. simpl. auto 10.
  - intros t H. apply elem_of_list_In in H. simpl in H.
    repeat (destruct H as [H|H]; [discriminate H || (injection H as H; subst; reflexivity)|]). done.
Qed.

(** ** The hypotheses are met *)
(** Service 7 is heard from and then not any more; the hypotheses of all the above hold, and it is timed out. *)
Definition story : list action :=
  [Boot; Update; Update; Update; Keepalive 0 7; Handle 0; Handle 0; Update; Update; Update; Update; Tick 10; Tick 11;
   Update; Update; Update; Update; Update].
Example C87_story : ∃ tr s, run 20 (both prompt (both serial quiet_boot)) (init ∅ 100) tr s ∧ booted s = true ∧
  tr = [Scan 100; OnKeepalive 7 100; Kept 7 100; Scan 100; Scan 121; OnTimedOut 7 121] ∧
  claires s !! 7 = Some DisconnectedByTimeout ∧ upd s = UWaiting 121 None.
Proof.
  do 2 eexists. split.
  { eapply (exec_run _ all3 _ story _ []); [apply all3_spec|apply run_start|vm_compute; reflexivity|vm_compute; reflexivity]. }
  repeat split; vm_compute; reflexivity.
Qed.

Print Assumptions C87_active_services_are_watched.
Print Assumptions C87_never_sleeps_forever.
Print Assumptions C87_silence_is_noticed.
Print Assumptions C87_timeout_means_silence.
Print Assumptions C87_join_returns.
Print Assumptions C87_alive_is_not_timed_out_refuted.
Print Assumptions C87_left_is_not_timed_out_refuted.
Print Assumptions C87_restored_services_time_out_refuted.
Print Assumptions C87_timed_out_after_the_timeout_refuted.
