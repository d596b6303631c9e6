(** * Claire: the invariant *)
From stdpp Require Import gmap list.
From Verif Require Import Claire_Model.

Definition at_ (u : gmap nat cpc) (n : nat) : cpc := default CReturned (u !! n).
Definition kkm (p : kpc) : bool := match p with KPlan | KPred _ | KBlock _ | KCheck | KClear | KSend | KSending | KSent => true | _ => false end.
Definition ukm (p : cpc) : bool := match p with RBody _ | RSending | RStart | RRunning | RSpin | RBeacon => true | _ => false end.
Definition urm (p : cpc) : bool := match p with RRunning | RSpin | FRunning _ | FSpin _ => true | _ => false end.
Definition drm (p : dpc) : bool := match p with DSignal | DTest | DNotify | DUnlock => true | _ => false end.
Definition ddes (p : dpc) : bool := match p with DNone | DLock | DSignal => false | _ => true end.
Definition krun (p : kpc) : bool := match p with KNone | KStart | KDone => false | _ => true end.
Definition spin (p : cpc) : bool := match p with RSpin | FSpin _ => true | _ => false end.
Definition blocked (p : kpc) : bool := match p with KBlock _ | KSleep _ => true | _ => false end.
Definition notifying (p : cpc) : bool := match p with FNotify _ => true | _ => false end.
Definition deadline (p : kpc) : option Z := match p with KPred d | KBlock d | KSleep d | KWoken d => Some d | _ => None end.
Definition dcond (p : dpc) (k : kpc) (del : bool) : Prop :=
  match p with
  | DNone | DLock | DSignal => del = false
  | DTest => k ≠ KDone ∧ del = false
  | DNotify | DUnlock => krun k = true ∧ del = false
  | DJoin => k ≠ KNone ∧ k ≠ KStart ∧ del = false
  | DDelete => k = KDone ∧ del = false
  | DDone => del = true ∧ k = KDone ∨ del = false ∧ k = KNone
  end.

Record inv (s : state) : Prop := Inv {
  v_km_k : km s = Some Keeper ↔ kkm (kp s) = true;
  v_km_u n : km s = Some (User n) ↔ ukm (at_ (users s) n) = true;
  v_km_d : km s ≠ Some Destructor;
  v_rm_k : rm s ≠ Some Keeper;
  v_rm_u n : rm s = Some (User n) ↔ urm (at_ (users s) n) = true;
  v_rm_d : rm s = Some Destructor ↔ drm (dp s) = true;
  v_run : running s = krun (kp s);
  v_start : kp s = KStart → ∃ n, spin (at_ (users s) n) = true;
  v_spin n : spin (at_ (users s) n) = true → kp s ≠ KNone ∧ destructing s = false;
  v_done : kp s = KBreak ∨ kp s = KDone → destructing s = true;
  v_des : destructing s = ddes (dp s);
  v_flag : blocked (kp s) = true → flag s = true → ∃ n, notifying (at_ (users s) n) = true;
  v_sig : blocked (kp s) = true → destructing s = true → dp s = DTest ∨ dp s = DNotify;
  v_deadline d : deadline (kp s) = Some d → (d ≤ last s + 22000000)%Z;
  v_last : (last s ≤ time s)%Z;
  v_dp : dcond (dp s) (kp s) (deleted s) }.

Lemma at_insert u n p m : at_ (<[n := p]> u) m = if decide (n = m) then p else at_ u m.
Proof. unfold at_. case_decide as E; [subst; by rewrite lookup_insert|by rewrite lookup_insert_ne]. Qed.

Ltac open s := destruct s as [ti ru de fl se be ka la kmm rmm kpp us dpp lo dl ex].
Ltac clause := first [assumption | done | congruence | lia | split; congruence | intuition congruence].

Lemma inv_init t : (0 ≤ t)%Z → inv (init t).
Proof.
  intros H. split; simpl; intros *; unfold at_; rewrite ?lookup_empty; simpl; try clause.
Qed.

Lemma keeper_inv r s s' : keeper r s = Some s' → inv s → inv s'.
Proof.
  intros K I. open s. unfold keeper in K. simpl in K.
  destruct I as [I1 I2 I3 I4 I5 I6 I7 I8 I9 I10 I11 I12 I13 I14 I15 I16]. simpl in *.
  destruct kpp; simpl in *; try discriminate K.
  all: unfold lock_km, lock_rm in K; simpl in K.
  all: repeat match type of K with context [decide ?P] => destruct (decide P) | context [if ?b then _ else _] => destruct b eqn:? | context [match ?m with Some _ => None | None => _ end] => destruct m eqn:? end; simpl in K; try discriminate K.
  all: injection K as <-.
  all: split; simpl; intros *; try clause.
  all: try (match goal with |- dcond _ _ _ => destruct dpp; simpl in *; clause end).
  all: try (match goal with |- spin (at_ _ ?n) = true → _ => let X := fresh in intros X; destruct (I9 _ X); split; clause end).
  all: try (match goal with |- Some _ = Some _ → _ => intros [= <-]; lia end).
  all: try (match goal with |- _ ↔ ukm (at_ _ ?n) = true => specialize (I2 n); subst; intuition congruence end).
  all: try (match goal with H : _ || _ = false |- _ => apply orb_false_iff in H as [? ?]; subst; done end).
  all: apply I14.
Qed.

Lemma ex_insert (f : cpc → bool) u n p q : at_ u n = p → (∃ m, f (at_ u m) = true) → f p = false ∨ f q = true → ∃ m, f (at_ (<[n := q]> u) m) = true.
Proof.
  intros A (m & B) [C|C].
  - exists m. rewrite at_insert. case_decide as E; [|done]. subst m. congruence.
  - exists n. rewrite at_insert. by rewrite decide_True.
Qed.
Lemma kp_none s n : inv s → urm (at_ (users s) n) = true → spin (at_ (users s) n) = false → running s = false → destructing s = false → kp s = KNone.
Proof.
  intros I A B C D. destruct (kp s) eqn:E; try done; pose proof (v_run s I) as R; rewrite C, E in R; try done.
  - destruct (v_start s I E) as (m & M). assert (urm (at_ (users s) m) = true) as X by (destruct (at_ (users s) m); done).
    apply (v_rm_u s I) in X, A. assert (m = n) by congruence. congruence.
  - pose proof (v_done s I (or_intror E)). congruence.
Qed.
Lemma user_inv n ok s s' : user n ok s = Some s' → inv s → inv s'.
Proof.
  intros K I. pose proof (kp_none s n I) as ST. open s. unfold user in K. simpl in K.
  destruct I as [I1 I2 I3 I4 I5 I6 I7 I8 I9 I10 I11 I12 I13 I14 I15 I16]. simpl in *.
  destruct (us !! n) as [p|] eqn:U; [|discriminate K].
  assert (A : at_ us n = p) by (unfold at_; by rewrite U).
  pose proof (I2 n) as I2n. pose proof (I5 n) as I5n. pose proof (I9 n) as I9n. rewrite A in I2n, I5n, I9n, ST.
  destruct p; simpl in *; try discriminate K.
  all: unfold lock_km, lock_rm, free_km, notify in K; simpl in K.
  all: repeat match type of K with context [decide ?P] => destruct (decide P) | context [if ?b then _ else _] => destruct b eqn:? | context [match ?m with Some _ => None | None => _ end] => destruct m eqn:? end; simpl in K; try discriminate K.
  all: try (match goal with H : at_ _ _ = FNotify _ |- _ => destruct kpp; simpl in K end).
  all: try (match goal with H : at_ _ _ = FWait |- _ => destruct se; simpl in K end).
  all: repeat match goal with H : _ || _ = false |- _ => apply orb_false_iff in H as [? ?] end.
  all: try (match goal with H : at_ _ _ = RRunning |- _ => idtac | H : at_ _ _ = FRunning _ |- _ => idtac end; match type of K with context [KStart] => specialize (ST eq_refl eq_refl ltac:(congruence) ltac:(congruence)); subst end).
  all: injection K as <-; simpl in *.
  all: split; simpl; intros *; rewrite ?at_insert; try (match goal with |- context [decide (?n = ?m)] => destruct (decide (n = m)); [subst|] end); simpl; try clause.
  all: try (match goal with m : nat |- _ ↔ ukm (at_ _ ?m) = true => specialize (I2 m); intuition congruence end).
  all: try (match goal with m : nat |- _ ↔ urm (at_ _ ?m) = true => specialize (I5 m); intuition congruence end).
  all: try (match goal with |- spin (at_ _ ?n) = true → _ => let X := fresh in intros X; destruct (I9 _ X); split; clause end).
  all: try (match goal with |- ?P → ∃ m, spin (at_ (<[_ := _]> _) m) = true => intros X; eapply ex_insert; [exact A|apply I8; clause|simpl; clause] end).
  all: try (match goal with |- _ → _ → ∃ m, notifying (at_ (<[_ := _]> _) m) = true => intros X Y; eapply ex_insert; [exact A|apply I12; clause|simpl; clause] end).
  all: try (match goal with |- deadline _ = Some _ → _ => let X := fresh in intros X; specialize (I14 _ X); lia end).
  all: try (match goal with |- Some _ = Some _ → _ => let X := fresh in intros X; specialize (I14 _ X); lia end).
  all: try (match goal with |- dcond _ _ _ => destruct dpp; simpl in *; clause end).
  all: try (match goal with |- _ = KStart → _ => let X := fresh in intros X; subst; simpl in *; congruence end).
  all: intros; exists n; rewrite at_insert, decide_True by done; done.
Qed.

