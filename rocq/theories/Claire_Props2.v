(** * C93: Claire's keepalives, continued *)
From stdpp Require Import gmap list.
From Verif Require Import Claire_Model Claire_Spec Claire_Proofs Claire_Proofs2 Claire_Proofs3 Claire_Props.

(** ** No request for a keepalive is lost *)
Definition forced (k : nat) (s : state) : Prop := flag s = true ∨ kp s = KSend ∨ k < length (log s).
Lemma log_grows a s s' : step a s = Some s' → length (log s) ≤ length (log s').
Proof. intros X. destruct (log_step _ _ _ X) as [G|(w & G)]; rewrite G, ?app_length; lia. Qed.
Lemma notify_flag s : flag (notify s) = flag s. Proof. unfold notify. by destruct (kp s). Qed.
Lemma forced_step k a s s' : step a s = Some s' → inv s → k ≤ length (log s) → forced k s → forced k s'.
Proof.
  intros X I L Q. pose proof (log_grows _ _ _ X) as G. unfold forced in *.
  destruct Q as [Q|[Q|Q]]; [| |right; right; lia]; unfold step in X; (destruct (exited s); [done|]).
  - destruct a as [m c|m ok|r| | |t| |].
    + cases X; auto.
    + unfold user, lock_km, lock_rm, free_km in X. destruct (users s !! m) as [p|] eqn:U; [|done].
      destruct p; try discriminate X; cases X; simpl; rewrite ?notify_flag; auto.
    + unfold keeper, lock_km in X. destruct (kp s) eqn:E; try discriminate X; cases X; simpl; auto.
    + destruct (kp s) eqn:E; try discriminate X; cases X; auto.
    + destruct (kp s) eqn:E; try discriminate X; cases X; auto.
    + cases X; auto.
    + cases X; auto.
    + unfold destructor, lock_rm, free_km in X. destruct (dp s); try discriminate X; cases X; simpl; rewrite ?notify_flag; auto.
  - destruct a as [m c|m ok|r| | |t| |].
    + cases X; auto.
    + unfold user, lock_km, lock_rm, free_km in X. destruct (users s !! m) as [p|] eqn:U; [|done].
      pose proof (v_run s I) as RU. rewrite Q in RU. simpl in RU.
      destruct p; try discriminate X; cases X; simpl in *; auto; rewrite ?RU in *; try discriminate; try (unfold notify; rewrite Q; simpl; auto).
    + unfold keeper, lock_km in X. rewrite Q in X. cases X. right; right. simpl. rewrite app_length. simpl. lia.
    + rewrite Q in X. done.
    + rewrite Q in X. done.
    + cases X; auto.
    + cases X; auto.
    + unfold destructor, lock_rm, free_km in X. destruct (dp s); try discriminate X; cases X; simpl; auto. right; left. unfold notify. by rewrite Q.
Qed.
(** How far the call of [n] has come. *)
Definition asking (k n : nat) (s : state) : Prop :=
  match users s !! n with
  | Some (SLock _ _) | Some (FLock _) | Some (FRunning _) | Some (FSpin _) | Some (FReset _) | Some (FFlag _) => True
  | Some (FNotify _) | Some FWait | Some CReturned => forced k s
  | _ => False
  end.
Lemma users_step a n s s' : step a s = Some s' → (∀ c, a ≠ Call n c) → (∀ ok, a ≠ Users n ok) → users s' !! n = users s !! n.
Proof.
  intros X N M. unfold step in X. destruct (exited s); [done|]. destruct a as [m c|m ok|r| | |t| |].
  - destruct (decide (m = n)) as [->|E]; [by destruct (N c)|]. cases X. simpl. by rewrite lookup_insert_ne.
  - destruct (decide (m = n)) as [->|E]; [by destruct (M ok)|]. unfold user, lock_km, lock_rm, free_km in X. destruct (users s !! m) as [p|] eqn:U; [|done].
    destruct p; try discriminate X; cases X; simpl; rewrite ?notify_users, ?lookup_insert_ne by done; done.
  - unfold keeper, lock_km in X. destruct (kp s) eqn:E; try discriminate X; cases X; done.
  - destruct (kp s) eqn:E; try discriminate X; cases X; auto.
  - destruct (kp s) eqn:E; try discriminate X; cases X; auto.
  - cases X; auto.
  - cases X; auto.
  - unfold destructor, lock_rm, free_km in X. destruct (dp s); try discriminate X; cases X; simpl; rewrite ?notify_users; auto.
Qed.
Lemma asking_step k n a s s' : step a s = Some s' → inv s → (∀ c, a ≠ Call n c) → k ≤ length (log s) → asking k n s → asking k n s'.
Proof.
  intros X I N L A. unfold asking in *.
  assert (D : (∃ ok, a = Users n ok) ∨ (∀ ok, a ≠ Users n ok)).
  { destruct a as [| m ok | | | | | |]; try (right; done). destruct (decide (m = n)) as [->|E]; [left; by exists ok|right; congruence]. }
  destruct D as [(ok & ->)|D].
  - pose proof (forced_step k _ _ _ X I L) as FS. unfold step in X. destruct (exited s); [done|]. unfold user, lock_km, lock_rm, free_km in X.
    destruct (users s !! n) as [p|] eqn:U; [|done]. destruct p; try done; cases X; simpl in *; rewrite ?lookup_insert, ?U; auto; try (destruct wait; auto); auto.
    by left.
  - rewrite (users_step _ _ _ _ X N D). pose proof (forced_step k _ _ _ X I L) as FS. destruct (users s !! n) as [[]|]; auto.
Qed.
Theorem C93_requests_are_not_lost s0 n c s1 tr s2 tr' s3 : reach s0 →
  (∃ w, c = Force w) ∨ (∃ l w, c = SetKarl l w) →
  step (Call n c) s0 = Some s1 → run tr s1 = Some s2 → no_call n tr → users s2 !! n = Some CReturned →
  run tr' s2 = Some s3 → left_asleep s3 →
  ∃ new, log s3 = log s0 ++ new ∧ new ≠ [].
Proof.
  intros I%reach_inv C S R N U R' ((d & K) & W & D).
  assert (L : log s1 = log s0 ∧ asking (length (log s0)) n s1).
  { unfold step in S. destruct (exited s0); [done|]. destruct (idle _); [|done]. injection S as <-. unfold asking. simpl. rewrite lookup_insert.
    destruct C as [(w & ->)|(l & w & ->)]; done. }
  destruct L as (L1 & L2).
  assert (I3 : inv s3) by (eapply run_inv; [exact R'|eapply run_inv; [exact R|by eapply step_inv]]).
  assert (I1 : inv s1) by (by eapply step_inv). assert (I2 : inv s2) by (by eapply run_inv).
  assert (X : inv s2 ∧ length (log s0) ≤ length (log s2) ∧ asking (length (log s0)) n s2).
  { eapply (run_ind (λ u, inv u ∧ length (log s0) ≤ length (log u) ∧ asking (length (log s0)) n u)); [exact R|rewrite L1; done|].
    intros a u u' A X (Q0 & Q1 & Q2). split; [by eapply step_inv|]. split; [pose proof (log_grows _ _ _ X); lia|]. eapply asking_step; eauto. intros c' ->. by apply (N c'). }
  destruct X as (_ & X1 & X2). unfold asking in X2. rewrite U in X2.
  assert (X : inv s3 ∧ length (log s0) ≤ length (log s3) ∧ forced (length (log s0)) s3).
  { eapply (run_ind (λ u, inv u ∧ length (log s0) ≤ length (log u) ∧ forced (length (log s0)) u)); [exact R'|done|].
    intros a u u' A X (Q0 & Q1 & Q2). split; [by eapply step_inv|]. split; [pose proof (log_grows _ _ _ X); lia|]. by eapply forced_step. }
  destruct X as (_ & _ & [F|[F|F]]); [|congruence|].
  - destruct (v_flag s3 I3) as (m & M); [by rewrite K|done|]. unfold at_ in M. destruct (users s3 !! m) as [p|] eqn:E; simpl in M; [|done].
    destruct p; try done. by destruct (W m _ E).
  - destruct (log_run _ _ _ R) as (a & A). destruct (log_run _ _ _ R') as (b & B). exists (a ++ b). rewrite B, A, L1, app_assoc in *. split; [done|].
    intros E. rewrite <- app_assoc, E, app_nil_r in F. lia.
Qed.

(** ** The calls return *)
Definition past (p : cpc) : bool := match p with FReset _ | FFlag _ | FNotify _ | FWait => true | _ => false end.
Definition waits (p : cpc) : bool := match p with FNotify true | FWait => true | _ => false end.
Definition sending (p : kpc) : bool := match p with KSend | KSending | KSent => true | _ => false end.
Record inv2 (s : state) : Prop := Inv2 {
  w_past n : past (at_ (users s) n) = true → destructing s = false → krun (kp s) = true;
  w_wait n : waits (at_ (users s) n) = true → sent s = false → flag s = true ∨ sending (kp s) = true ∨ ∃ m, at_ (users s) m = FFlag true }.
Lemma inv2_init t : inv2 (init t).
Proof. split; intros n; unfold at_; simpl; rewrite lookup_empty; done. Qed.
Lemma notify_krun s : krun (kp (notify s)) = krun (kp s). Proof. unfold notify. destruct (kp s) eqn:E; rewrite ?E; done. Qed.
Lemma notify_sending s : sending (kp (notify s)) = sending (kp s). Proof. unfold notify. destruct (kp s) eqn:E; rewrite ?E; done. Qed.
Lemma notify_destructing s : destructing (notify s) = destructing s. Proof. unfold notify. by destruct (kp s). Qed.

Lemma keeper_inv2 r s s' : keeper r s = Some s' → inv s → inv2 s → inv2 s'.
Proof.
  intros X I [A B]. unfold keeper, lock_km in X.
  destruct (kp s) eqn:E; try discriminate X; cases X; split; simpl; intros q; try specialize (A q); try specialize (B q); simpl in *; auto; try tauto; try congruence.
  intros _ F. pose proof (v_done s I) as V. rewrite E in V. rewrite V in F by auto. done.
Qed.
Lemma user_inv2 m ok s s' : user m ok s = Some s' → inv s → inv2 s → inv2 s'.
Proof.
  intros X I [A B]. pose proof (kp_none s m I) as KN. unfold user, lock_km, lock_rm, free_km in X. destruct (users s !! m) as [p|] eqn:U; [|done].
  assert (AT : at_ (users s) m = p) by (unfold at_; by rewrite U). rewrite AT in KN.
  assert (EX : p ≠ FFlag true → ∀ q, (∃ k, at_ (users s) k = FFlag true) → ∃ k, at_ (<[m := q]> (users s)) k = FFlag true).
  { intros P q (k & K). exists k. rewrite at_insert. rewrite decide_False; [done|]. intros ->. congruence. }
  destruct p; try discriminate X; cases X; split; simpl; rewrite ?notify_users, ?notify_krun, ?notify_sending, ?notify_destructing, ?notify_flag, ?notify_sent;
  intros n; rewrite ?at_insert; try (destruct (decide (m = n)) as [<-|N]); simpl; try done; auto.
  all: try (intros Z Y; destruct (B n Z Y) as [?|[?|?]]; auto; right; right; apply EX; done).
  all: try apply A; try apply B.
  all: rewrite (v_run s I) in *.
  all: try (intros; congruence).
  all: try (intros Z D; specialize (A _ Z D); congruence).
  all: try (specialize (A m); rewrite AT in A; done).
  all: try (intros _ D; apply orb_true_iff in Heqb as [?|?]; congruence).
  all: try (right; right; exists m; rewrite at_insert; by rewrite decide_True).
  all: try (intros; right; right; exists m; rewrite at_insert; by rewrite decide_True).
  all: try (intros Z Y; destruct (B n Z Y) as [?|[S|?]]; [by left| |right; right; apply EX; done]; destruct (kp s); done).
  all: try (specialize (B m); rewrite AT in B; exact B).
  all: try (intros Z D; first [specialize (A n Z D)|specialize (A n Z eq_refl)]; repeat match goal with H : _ || _ = false |- _ => apply orb_false_iff in H as [? ?] end; congruence).
  - intros _ Y. destruct (B m) as [?|[?|?]]; [by rewrite AT|done|by left|right; by left|right; right; by apply EX].
  - rewrite Heqb. apply B.
  - rewrite Heqb. apply B.
Qed.
Lemma step_inv2 a s s' : step a s = Some s' → inv s → inv2 s → inv2 s'.
Proof.
  intros X I J. unfold step in X. destruct (exited s); [done|]. pose proof J as [A B]. destruct a as [m c|m ok|r| | |t| |].
  - destruct (idle (users s !! m)) eqn:E; [|done]. injection X as <-. split; simpl; intros n; rewrite at_insert; destruct (decide (m = n)) as [->|N].
    + by destruct c.
    + apply A.
    + by destruct c.
    + intros Y Z. destruct (B n Y Z) as [?|[?|(k & K)]]; auto. right; right. exists k. rewrite at_insert. destruct (decide (m = k)) as [->|]; [|done].
      unfold at_ in K. destruct (users s !! k) as [[]|]; done.
  - by eapply user_inv2.
  - by eapply keeper_inv2.
  - destruct (kp s) eqn:E; try discriminate X. cases X. split; intros n; simpl; [apply A|apply B].
  - destruct (kp s) eqn:E; try discriminate X. cases X. split; intros n; simpl; [apply A|apply B].
  - cases X. by split.
  - cases X. by split.
  - unfold destructor, lock_rm, free_km in X. destruct (dp s) eqn:D; try discriminate X; cases X; split; intros n; simpl;
      rewrite ?notify_users, ?notify_krun, ?notify_sending, ?notify_destructing, ?notify_flag, ?notify_sent; auto.
    all: first [apply A | apply B | by intros].
Qed.
Lemma reach_inv2 s : reach s → inv2 s.
Proof.
  intros (t & tr & P & R). assert (X : inv s ∧ inv2 s); [|apply X].
  eapply (run_ind (λ s, inv s ∧ inv2 s)); [exact R|split; [by apply inv_init|apply inv2_init]|].
  intros a u u' _ Q (I & J). split; [by eapply step_inv|by eapply step_inv2].
Qed.

Print Assumptions C93_requests_are_not_lost.
