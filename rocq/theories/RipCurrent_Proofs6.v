(** * Proofs about RipCurrent: when nothing is refused, and when the outcome is determined *)
From stdpp Require Import list sets.
From Coq Require Import ZArith Lia Sorting.Sorted.
From Verif Require Import MMQ_Model RipCurrent_Model RipCurrent_Spec RipCurrent_Proofs RipCurrent_Proofs2 RipCurrent_Proofs3
  RipCurrent_Proofs4.

Section NoError.
  Context {B : Type} (code : nat → block B) (f : flow).
  Context (Wf : wf f) (Wt : well_typed code f).
  Context (Calls : ∀ x, x ∈ leaves f → all_calls code (call_ok code x) x).
  Context (Emits : ∀ x, x ∈ leaves f → all_calls code is_emit x) (Serial : one_at_a_time code f).
  Notation state := (state B). Notation task := (task B). Notation event := (event B).
  Notation oq := (out_queue f None).
  Notation Inv := (Inv code f). Notation Step := (Step code f).
  Implicit Types (s : state) (τ : tid).

  Record InvE s : Prop := {
    E_ops : ∀ τ t, st_task s τ = Some t → Forall is_emit (t_ops t) ∧ (∀ u, t_phase t ≠ Heading u);
    E_head : ∀ q, (qhead s q ≤ st_clock s)%Z;
    E_call : ∀ τ x t m ops q, st_task s τ = Some (Task x (Calling t m) ops) → oq x = Some q →
      (qhead s q < t)%Z ∧ (t ≤ st_clock s)%Z }.

  (** Two threads are not at work for the writers of one pipe at the same time. *)
  Lemma one_writer_at_work s τ1 τ2 t1 t2 q : Inv s → st_task s τ1 = Some t1 → st_task s τ2 = Some t2 →
    ¬ idle t1 → ¬ idle t2 → oq (t_who t1) = Some q → oq (t_who t2) = Some q → τ1 = τ2.
  Proof.
    intros I E1 E2 N1 N2 Q1 Q2.
    pose proof (who_leaf code f Wf Wt Calls s τ1 _ I E1) as X1. pose proof (who_leaf code f Wf Wt Calls s τ2 _ I E2) as X2.
    apply (oq_feeds f Wf) in Q1; [|done]. apply (oq_feeds f Wf) in Q2; [|done].
    destruct (Serial _ _ _ Q1 Q2) as [W|(B1&B2&q0&S1&S2)]; [by eapply unique|].
    assert (∀ q' t, st_task s (TQueue q') = Some t → served f q0 (t_who t) → q' = q0) as U.
    { intros q' t E S0. destruct (A_que _ _ s I q' t E) as (S'&_). by eapply served_unique. }
    assert (∀ t t', st_task s (TQueue q0) = Some t → st_task s TJoin = Some t' → served f q0 (t_who t') → False) as QJ.
    { intros t t' E E' S'. destruct (A_que _ _ s I q0 t E) as (_&_&L). destruct (A_join _ _ s I t' E') as (_&r&R&_).
      destruct (A_left _ _ s I) as [d Dd]. rewrite R in *.
      by refine (before_head _ _ _ d r (teardown_NoDup f Wf) (served_before f _ _ Wf S') _ L). }
    destruct τ1 as [b1|q1|], τ2 as [b2|q2|].
    - destruct (A_src _ _ s I b1 t1 E1) as (<-&_&Z). done.
    - destruct (A_src _ _ s I b1 t1 E1) as (<-&_&Z). done.
    - destruct (A_src _ _ s I b1 t1 E1) as (<-&_&Z). done.
    - destruct (A_src _ _ s I b2 t2 E2) as (<-&_&Z). done.
    - f_equal. rewrite (U q1 t1 E1 S1). symmetry. by apply (U q2 t2).
    - exfalso. pose proof (U q1 t1 E1 S1) as ->. by eapply QJ.
    - destruct (A_src _ _ s I b2 t2 E2) as (<-&_&Z). done.
    - exfalso. pose proof (U q2 t2 E2 S2) as ->. by eapply (QJ t2 t1).
    - done.
  Qed.

  Lemma invE_init : InvE (initial code f).
  Proof.
    constructor.
    - intros [b|q|] t; simpl; [|done..]. case_decide as D; [|done]. intros [= <-]. simpl. split; [|done]. by destruct (Emits b) as (?&_&_); [tauto|].
    - intros q. unfold qhead. simpl. lia.
    - intros [b|q|] x t m ops q'; simpl; [|done..]. case_decide as D; [|done]. done.
  Qed.

  Lemma qhead_same s q v q' : (pq_last (rq_pq v)).2 = qhead s q → qhead (set_queue q v s) q' = qhead s q'.
  Proof. intros E. unfold qhead. simpl. unfold upd. case_decide as D; [|done]. subst. done. Qed.

  (** Steps that move no head and make no call. *)
  Lemma invE_frame s s' : InvE s → (st_clock s' = st_clock s) → (∀ q, qhead s' q = qhead s q) →
    (∀ τ t, st_task s' τ = Some t → st_task s τ = Some t ∨
       Forall is_emit (t_ops t) ∧ match t_phase t with Calling _ _ | Heading _ => False | _ => True end) → InvE s'.
  Proof.
    intros [E1 E2 E3] C Q T. constructor.
    - intros τ t Et. destruct (T τ t Et) as [?|[? P]]; [eauto|]. split; [done|]. intros u Hu. by rewrite Hu in P.
    - intros q. rewrite Q, C. apply E2.
    - intros τ x t m ops q Et Hq. rewrite Q, C. destruct (T τ _ Et) as [?|[_ []]]. eauto.
  Qed.

  Lemma task_set s0 s' τ o (P : task → Prop) : (∀ τ', st_task s' τ' = if tid_eqb τ' τ then o else st_task s0 τ') →
    (∀ t, o = Some t → P t) → ∀ τ' t, st_task s' τ' = Some t → st_task s0 τ' = Some t ∨ P t.
  Proof.
    intros K H τ' t. rewrite K. destruct (tid_eqb τ' τ); [|by left]. right. auto.
  Qed.

  Lemma invE_step s ev s' : Inv s → InvE s → Step s ev s' → InvE s' ∧ ∀ e, e ∈ ev → ¬ is_error e.
  Proof.
    intros I IE HS.
    inversion HS as [τ x o ops E Q|τ x o m t c ops q E Q Hm Hc He|τ x t ops q E Q|τ x t m ops q E Q U Hh|τ x t m ops q E Q U Hh
      |τ x t m ops q E Q U|τ x m ops q E Q|τ x t ops q E Q U Hh|τ x t ops q E Q U Hh|q e x m rest y Hq U D L Hh Hb C
      |q x E|J|b rest J L E F|b rest x J L E|q rest J L E P U]; subst ev s'.
    - destruct (E_ops s IE τ _ E) as [O _]. simpl in O. apply Forall_cons in O as [_ O]. split; [|set_solver].
      apply (invE_frame s); [done|done|done|]. eapply task_set; [intros; reflexivity|]. intros t [= <-]. done.
    - destruct (E_ops s IE τ _ E) as [O _]. simpl in O. apply Forall_cons in O as [O1 O]. destruct (He O1) as [-> Lt].
      split; [|set_solver]. constructor.
      + intros τ' t' Et. destruct (decide (τ' = τ)) as [->|Ne].
        * rewrite set_task_eq in Et. injection Et as <-. done.
        * rewrite set_task_ne in Et by done. by apply (E_ops s IE τ').
      + intros q'. simpl. pose proof (E_head s IE q'). 
        assert (qhead (set_queue q (report_called (st_queue s q)) s) q' = qhead s q') as H0 by (by apply qhead_same).
        unfold qhead in *. simpl in *. lia.
      + intros τ' x' t' m' ops' q' Et Hq'. simpl.
        assert (qhead (set_queue q (report_called (st_queue s q)) s) q' = qhead s q') as H0 by (by apply qhead_same).
        unfold qhead in *. simpl in *. rewrite H0. pose proof (E_head s IE q') as H1. unfold qhead in H1.
        destruct (decide (τ' = τ)) as [->|Ne].
        * rewrite tid_eqb_spec, bool_decide_eq_true_2 in Et by done. injection Et as <- <- <- <-. lia.
        * rewrite tid_eqb_spec, bool_decide_eq_false_2 in Et by done.
          destruct (E_call s IE τ' _ _ _ _ _ Et Hq') as [H2 H3]. unfold qhead in H2. lia.
    - destruct (E_ops s IE τ _ E) as [O _]. simpl in O. by apply Forall_cons in O as [[] _].
    - destruct (E_ops s IE τ _ E) as [O _]. simpl in O.
      destruct (E_call s IE _ _ _ _ _ _ E Q) as [H1 H2]. split; [|set_solver]. constructor.
      + intros τ' t' Et. destruct (decide (τ' = τ)) as [->|Ne].
        * rewrite set_task_eq in Et. injection Et as <-. done.
        * rewrite set_task_ne in Et by done. by apply (E_ops s IE τ').
      + intros q'. pose proof (E_head s IE q'). unfold qhead in *. simpl. unfold upd. case_decide; simpl; [lia|done].
      + intros τ' x' t' m' ops' q' Et Hq'. destruct (decide (τ' = τ)) as [->|Ne].
        * rewrite set_task_eq in Et. done.
        * rewrite set_task_ne in Et by done. destruct (E_call s IE τ' _ _ _ _ _ Et Hq') as [H3 H4].
          unfold qhead in *. simpl. unfold upd. case_decide as Dq; simpl; [|done]. subst q'.
          destruct Ne. by eapply (one_writer_at_work s τ' τ _ _ q I Et E); [intros [? _]|intros [? _]|..].
    - destruct (E_call s IE _ _ _ _ _ _ E Q) as [H1 H2]. lia.
    - destruct (E_ops s IE τ _ E) as [O _]. simpl in O. split; [|set_solver].
      apply (invE_frame s); [done|done|intros q'; by apply (qhead_same s)|]. eapply task_set; [intros; reflexivity|]. by intros t' [= <-].
    - destruct (E_ops s IE τ _ E) as [O _]. simpl in O. split; [|set_solver].
      apply (invE_frame s); [done|done|intros q'; by apply (qhead_same s)|]. eapply task_set; [intros; reflexivity|]. by intros t' [= <-].
    - destruct (E_ops s IE τ _ E) as [_ O]. by destruct (O t).
    - destruct (E_ops s IE τ _ E) as [_ O]. by destruct (O t).
    - split; [|set_solver]. pose proof (served_in f q y) as Sy.
      apply (consumer_block_spec code f q _ y Wf Wt Hq) in C as [Cs Ct]. destruct (Sy Cs) as [_ Y].
      apply (invE_frame s); [done|done| |].
      + intros q'. unfold qhead. simpl. unfold upd. case_decide as Dq; [|done]. by subst.
      + eapply task_set; [intros; reflexivity|]. intros t' [= <-]. simpl. split; [|done]. by destruct (Emits y Y) as (_&H&_).
    - split; [|set_solver]. apply (invE_frame s); [done|done|intros q'; by apply (qhead_same s)|].
      eapply task_set; [intros; reflexivity|]. done.
    - split; [|set_solver]. apply (invE_frame s); [done|done|done|]. eauto.
    - split; [|set_solver]. apply (invE_frame s); [done|done|done|].
      eapply task_set; [intros; reflexivity|]. intros t' [= <-]. simpl. split; [|done].
      destruct (A_left _ _ s I) as [d Dd]. assert (b ∈ leaves f) as Y by (apply teardown_block; rewrite Dd, L; set_solver).
      by destruct (Emits b Y) as (_&_&H).
    - split; [|set_solver]. apply (invE_frame s); [done|done|done|]. eapply task_set; [intros; reflexivity|]. done.
    - split; [|set_solver]. apply (invE_frame s); [done|done| |eauto].
      intros q'. unfold qhead. simpl. unfold upd. case_decide as Dq; [|done]. by subst.
  Qed.

  Lemma no_error_run ls s : Inv s → InvE s → ∀ tr s', run code f ls s = Some (tr, s') → ∀ e, e ∈ tr → ¬ is_error e.
  Proof.
    revert s. induction ls as [|l ls IH]; intros s I IE tr s'; simpl.
    - intros [= <- <-] e He. by apply elem_of_nil in He.
    - destruct (step code f l s) as [[t1 s1]|] eqn:E; [|done]. simpl.
      destruct (run code f ls s1) as [[t2 s2]|] eqn:R; [|done]. simpl. intros [= <- <-] e He.
      apply (step_Step code f l s) in E; [|done].
      destruct (invE_step s t1 s1 I IE E) as [IE' H1]. apply elem_of_app in He as [He|He]; [auto|].
      eapply (IH s1); [by eapply inv_step|done|done|done].
  Qed.
End NoError.

Lemma no_error_sent {B} x (tr : list (event B)) : (∀ e, e ∈ tr → ¬ is_error e) → sent x tr = (outcomes x tr).*1.
Proof.
  unfold sent, outcomes. induction tr as [|e tr IH]; intros H; [done|].
  assert (∀ e, e ∈ tr → ¬ is_error e) as H' by set_solver. specialize (IH H').
  destruct e as [|b m|b m| | |]; simpl; try exact IH.
  - destruct (decide (b = x)); simpl; [f_equal|]; exact IH.
  - destruct (H (Refused b m) (elem_of_list_here _ _)). done.
Qed.
