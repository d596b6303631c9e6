(** * Claire: what a waiting call waits for *)
From stdpp Require Import gmap list.
From Verif Require Import Claire_Model Claire_Spec Claire_Proofs Claire_Proofs2.

Lemma reach_inv s : reach s → inv s.
Proof. intros (t & tr & P & R). eapply run_inv; [exact R|]. by apply inv_init. Qed.

(** ** ForceSendKeepalive(Wait) *)
Section Wait.
Context (P : attempt → Prop) (k n : nat).
Definition there_is (s : state) : Prop := ∃ e, e ∈ drop k (log s) ∧ P e.
(** The locator is as asked for. *)
Definition located (s : state) : Prop := (∀ e, P e) ∨ (∀ t w, P (Attempt t (karl s) w)) ∧ ∀ m l w, users s !! m ≠ Some (SLock l w).
Definition stage (s : state) : Prop :=
  match users s !! n with
  | Some (FLock true) | Some (FRunning true) | Some (FSpin true) | Some (FReset true) => located s
  | Some (FFlag true) | Some (FNotify true) | Some FWait =>
      located s ∧ (sent s = true → there_is s) ∧ (kp s = KSending ∨ kp s = KSent → there_is s)
  | Some CReturned => there_is s
  | _ => False
  end.
Definition ok_action (a : action) : Prop := (∀ c, a ≠ Call n c) ∧ ((∀ e, P e) ∨ ∀ m l w, a ≠ Call m (SetKarl l w)).

Lemma there_is_send s w : k ≤ length (log s) → there_is s → there_is (send w s).
Proof. intros L (e & I & H). exists e. split; [|done]. simpl. rewrite drop_app_le by done. apply elem_of_app. by left. Qed.
Lemma there_is_new s w : k ≤ length (log s) → located s → there_is (send w s).
Proof.
  intros L H. exists (Attempt (time s) (karl s) w). simpl. split; [|destruct H as [H|[H _]]; auto].
  rewrite drop_app_le by done. apply elem_of_app. right. by apply elem_of_list_singleton.
Qed.
Lemma there_is_eq s s' : log s = log s' → there_is s → there_is s'.
Proof. unfold there_is. by intros ->. Qed.
Lemma located_eq s s' : karl s = karl s' → users s = users s' → located s → located s'.
Proof. unfold located. by intros -> ->. Qed.
Lemma located_user s m p : (∀ l w, p ≠ SLock l w) → located s → located (set_user m p s).
Proof.
  intros N [H|[H1 H2]]; [by left|right]. split; [done|]. intros q l w. simpl. destruct (decide (m = q)) as [->|E].
  - rewrite lookup_insert. intros [= ->]. by eapply N.
  - rewrite lookup_insert_ne by done. apply H2.
Qed.

(** What the rest of the state has to do with it. *)
Record same (s s' : state) : Prop := Same {
  s_user : users s' !! n = users s !! n;
  s_loc : located s → located s';
  s_log : k ≤ length (log s) → k ≤ length (log s');
  s_there : k ≤ length (log s) → there_is s → there_is s';
  s_sent : k ≤ length (log s) → located s → (kp s = KSending ∨ kp s = KSent → there_is s) → sent s' = true → sent s = true ∨ there_is s';
  s_kp : k ≤ length (log s) → located s → kp s' = KSending ∨ kp s' = KSent → kp s = KSending ∨ kp s = KSent ∨ there_is s' }.
Lemma stage_same s s' : same s s' → k ≤ length (log s) → stage s → stage s'.
Proof.
  intros [A B C D E F] L S. unfold stage in *. rewrite A. destruct (users s !! n) as [[]|]; try done; try (destruct w; try done); auto.
  all: destruct S as (S1 & S2 & S3); split; [auto|split].
  all: intros X; first [destruct (E L S1 S3 X) as [Y|Y]; eauto|destruct (F L S1 X) as [Y|[Y|Y]]; eauto].
Qed.

Lemma keeper_same r s s' : keeper r s = Some s' → same s s'.
Proof.
  intros K. unfold keeper, lock_km in K.
  assert (X : ∀ s1, users s1 = users s → karl s1 = karl s → log s1 = log s → (sent s1 = true → sent s = true ∨ kp s = KSent) →
    (kp s1 = KSending ∨ kp s1 = KSent → kp s = KSending ∨ kp s = KSent) → same s s1).
  { intros s1 A B C D E. split; intros; eauto.
    - by rewrite A.
    - by eapply located_eq.
    - by rewrite C.
    - by eapply there_is_eq.
    - destruct (D ltac:(done)) as [?|?]; [by left|right]. eapply there_is_eq; [symmetry; exact C|]. auto.
    - destruct (E ltac:(done)) as [?|?]; auto. }
  destruct (kp s) eqn:Q; try discriminate K;
  repeat match type of K with context [decide ?P] => destruct (decide P) | context [if ?b then _ else _] => destruct b eqn:? | context [match ?m with Some _ => None | None => _ end] => destruct m eqn:? end; simpl in K; try discriminate K;
  injection K as <-; try (apply X; simpl; auto; intros [?|?]; done).
  (* KSend *)
  split; simpl; intros; auto.
  - rewrite app_length. simpl. lia.
  - by apply (there_is_send s Keeper).
  - right; right. eapply there_is_eq; [|by eapply (there_is_new s Keeper)]. done.
Qed.

Lemma same_other s m p s1 : m ≠ n → users s1 = users s → karl s1 = karl s ∨ (∀ e, P e) → log s1 = log s → (sent s1 = true → sent s = true) →
  (kp s1 = KSending ∨ kp s1 = KSent → kp s = KSending ∨ kp s = KSent) → (∀ l w, p ≠ SLock l w) → same s (set_user m p s1).
Proof.
  intros N A B C D E G. split; intros; eauto.
  - simpl. by rewrite lookup_insert_ne, A.
  - apply located_user; [done|]. destruct B as [B|B]; [|by left]. eapply located_eq; [symmetry; exact B|symmetry; exact A|done].
  - simpl. by rewrite C.
  - eapply there_is_eq; [|done]. by rewrite <- C.
  - destruct (E ltac:(done)) as [?|?]; auto.
Qed.
Lemma same_send s m : m ≠ n → same s (set_user m RSending (send (User m) s)).
Proof.
  intros N. split; intros; eauto.
  - simpl. by rewrite lookup_insert_ne.
  - apply located_user; [done|]. by eapply located_eq; [| |done].
  - simpl. rewrite app_length. simpl. lia.
  - eapply there_is_eq; [|by eapply (there_is_send s (User m))]. done.
  - simpl in *. tauto.
Qed.
Lemma notify_kp s : kp (notify s) = KSending ∨ kp (notify s) = KSent → kp s = KSending ∨ kp s = KSent.
Proof. unfold notify. destruct (kp s) eqn:E; simpl; rewrite ?E; auto; intros [?|?]; done. Qed.
Lemma notify_users s : users (notify s) = users s. Proof. unfold notify. by destruct (kp s). Qed.
Lemma notify_karl s : karl (notify s) = karl s. Proof. unfold notify. by destruct (kp s). Qed.
Lemma notify_log s : log (notify s) = log s. Proof. unfold notify. by destruct (kp s). Qed.
Lemma notify_sent s : sent (notify s) = sent s. Proof. unfold notify. by destruct (kp s). Qed.

Lemma user_same m ok s s' : m ≠ n → located s → user m ok s = Some s' → same s s'.
Proof.
  intros N LO K. unfold user, lock_km, lock_rm, free_km in K.
  destruct (users s !! m) as [p|] eqn:U; [|done]. destruct p; try discriminate K;
  repeat match type of K with context [decide ?P] => destruct (decide P) | context [if ?b then _ else _] => destruct b eqn:? | context [match ?m with Some _ => None | None => _ end] => destruct m eqn:? end; simpl in K; try discriminate K;
  try (match type of K with context [if ?b then _ else _] => destruct b eqn:? end);
  injection K as <-;
  try (apply same_other; simpl; rewrite ?notify_users, ?notify_karl, ?notify_log, ?notify_sent; auto; try (intros [?|?]; done); try apply notify_kp; done).
  - by apply same_send.
  - split; simpl; intros; auto; try assumption; tauto.
  - apply same_other; simpl; auto. right. destruct LO as [LO|[_ LO]]; [done|]. by destruct (LO m l w).
  - split; simpl; intros; auto; tauto.
Qed.

Lemma own_stage ok s s' : inv s → user n ok s = Some s' → k ≤ length (log s) → stage s → stage s' ∧ length (log s') = length (log s).
Proof.
  intros I K L S. unfold stage in *. unfold user, lock_rm, free_km in K.
  assert (GO : ∀ p s1, (∀ l w, p ≠ SLock l w) → users s1 = users s → karl s1 = karl s → located s → located (set_user n p s1)).
  { intros p s1 A B C D. apply located_user; [done|]. by eapply located_eq; [| |exact D]. }
  destruct (users s !! n) as [p|] eqn:U; [|done]. destruct p; try done; try (destruct w; try done).
  - destruct (rm s); simpl in K; [done|]. injection K as <-. simpl. rewrite lookup_insert. split; [by apply GO|done].
  - destruct (running s || destructing s); injection K as <-; simpl; rewrite lookup_insert; (split; [by apply GO|done]).
  - destruct (running s); [|done]. injection K as <-. simpl. rewrite lookup_insert. split; [by apply GO|done].
  - destruct (km s) eqn:M; simpl in K; [done|]. injection K as <-. simpl. rewrite lookup_insert. split; [|done]. split; [by apply GO|].
    split; [done|]. intros [E|E]; pose proof (proj2 (v_km_k s I)) as X; rewrite E, M in X; by specialize (X eq_refl).
  - injection K as <-. simpl. rewrite lookup_insert. destruct S as (S1 & S2 & S3). split; [|done]. split; [by apply GO|]. split; intros; [by apply S2|by apply S3].
  - destruct (km s) eqn:M; simpl in K; [done|]. injection K as <-. simpl. rewrite lookup_insert, notify_log. destruct S as (S1 & S2 & S3). split; [|done].
    split; [apply GO; auto using notify_users, notify_karl; done|].
    split; [intros X; rewrite notify_sent in X; eapply there_is_eq; [|by apply S2]; by rewrite <- notify_log|].
    intros X. apply notify_kp in X. eapply there_is_eq; [|by apply S3]. by rewrite <- notify_log.
  - destruct (km s) eqn:M; simpl in K; [done|]. injection K as <-. destruct S as (S1 & S2 & S3). destruct (sent s) eqn:X; simpl.
    + rewrite lookup_insert. split; [|done]. eapply there_is_eq; [|by apply S2]. done.
    + rewrite U. split; [|done]. split; [done|]. split; [intros; congruence|done].
Qed.

Lemma located_stage s : stage s → located s ∨ users s !! n = Some CReturned ∧ there_is s.
Proof. unfold stage. destruct (users s !! n) as [[]|]; try done; try (destruct w; try done); naive_solver. Qed.

(** A call that has been made stays on course. *)
Lemma stage_step a s s' : inv s → ok_action a → step a s = Some s' → k ≤ length (log s) → stage s → k ≤ length (log s') ∧ stage s'.
Proof.
  intros I (A1 & A2) K L S. unfold step in K. destruct (exited s); [done|].
  assert (FIN : same s s' → k ≤ length (log s') ∧ stage s').
  { intros Q. split; [by apply Q|]. by eapply stage_same. }
  assert (TRIV : ∀ s1, users s1 = users s → karl s1 = karl s → log s1 = log s → sent s1 = sent s → (kp s1 = KSending ∨ kp s1 = KSent → kp s = KSending ∨ kp s = KSent) → same s s1).
  { intros s1 B C D E F. split.
    - by rewrite B.
    - by apply located_eq.
    - by rewrite D.
    - intros _. by apply there_is_eq.
    - intros. left. congruence.
    - intros _ _ X. destruct (F X); auto. }
  destruct a as [m c|m ok|r| | |t| |].
  - destruct (decide (m = n)) as [->|N]; [by destruct (A1 c)|]. destruct (idle (users s !! m)); [|done]. injection K as <-.
    apply FIN. split; simpl; intros; auto.
    + by rewrite lookup_insert_ne.
    + destruct A2 as [A2|A2]; [by left|]. apply located_user; [|done]. intros l w E. destruct c; try done. by destruct (A2 m l0 wait).
    + tauto.
  - destruct (decide (m = n)) as [->|N].
    + destruct (own_stage ok s s' I K L S) as (S' & E). rewrite E. done.
    + destruct (located_stage s S) as [LO|(RT & TH)].
      * apply FIN. by eapply user_same.
      * (* the call has returned *)
        unfold stage in S |- *.
        assert (G : users s' !! n = users s !! n ∧ (k ≤ length (log s') ∧ there_is s')).
        { unfold user, lock_km, lock_rm, free_km in K.
          destruct (users s !! m) as [p|] eqn:U; [|done]. destruct p; try discriminate K;
          repeat match type of K with context [decide ?P] => destruct (decide P) | context [if ?b then _ else _] => destruct b eqn:? | context [match ?m with Some _ => None | None => _ end] => destruct m eqn:? end; simpl in K; try discriminate K;
          try (match type of K with context [if ?b then _ else _] => destruct b eqn:? end);
          injection K as <-; simpl; rewrite ?notify_users, ?notify_log, ?lookup_insert_ne by done;
          (split; [done|split; [rewrite ?app_length; simpl; lia|]]);
          first [by eapply there_is_eq; [|exact TH]; simpl; rewrite ?notify_log|eapply there_is_eq; [|by apply (there_is_send s (User m))]; done]. }
        destruct G as (G1 & G2 & G3). rewrite G1, RT. done.
  - apply FIN. by eapply keeper_same.
  - destruct (kp s) eqn:Q; try discriminate K. destruct (decide (d ≤ time s)%Z); [|done]. injection K as <-. apply FIN, TRIV; auto. simpl. intros [?|?]; done.
  - destruct (kp s) eqn:Q; try discriminate K. injection K as <-. apply FIN, TRIV; auto. simpl. intros [?|?]; done.
  - destruct (decide (0 ≤ t)%Z); [|done]. injection K as <-. apply FIN, TRIV; auto.
  - destruct (decide (dp s = DNone)); [|done]. injection K as <-. apply FIN, TRIV; auto.
  - apply FIN. unfold destructor, lock_rm, free_km in K. destruct (dp s); try discriminate K;
    repeat match type of K with context [decide ?P] => destruct (decide P) | context [if ?b then _ else _] => destruct b eqn:? | context [match ?m with Some _ => None | None => _ end] => destruct m eqn:? end; simpl in K; try discriminate K;
    injection K as <-; apply TRIV; simpl; rewrite ?notify_users, ?notify_karl, ?notify_log, ?notify_sent; auto; apply notify_kp.
Qed.
End Wait.
