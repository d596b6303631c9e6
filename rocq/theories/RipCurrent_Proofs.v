(** * Proofs about RipCurrent: the shape of a flow *)
From stdpp Require Import list sets.
From Coq Require Import ZArith Lia.
From Verif Require Import MMQ_Model RipCurrent_Model RipCurrent_Spec.

#[global] Instance item_eq_dec : EqDecision item.
Proof. solve_decision. Defined.
#[global] Instance tid_eq_dec : EqDecision tid.
Proof. solve_decision. Defined.

Section Static.
  Implicit Types f g : flow.

  Lemma exits_leaves f x : x ∈ exits f → x ∈ leaves f.
  Proof. induction f; simpl; set_solver. Qed.
  Lemma entries_leaves f x : x ∈ entries f → x ∈ leaves f.
  Proof. induction f; simpl; set_solver. Qed.
  Lemma feeds_in f x q : feeds f x q → x ∈ leaves f ∧ q ∈ queues f.
  Proof. induction f; simpl; [done| |]; intros; pose proof (exits_leaves f1 x); set_solver. Qed.
  Lemma served_in f q y : served f q y → q ∈ queues f ∧ y ∈ leaves f.
  Proof. induction f; simpl; [done| |]; intros; pose proof (entries_leaves f2 y); set_solver. Qed.


  Definition wf f : Prop := NoDup (leaves f) ∧ NoDup (queues f).
  Lemma wf_pipe q a b : wf (Pipe q a b) → wf a ∧ wf b ∧ (∀ x, x ∈ leaves a → x ∉ leaves b) ∧
    (∀ p, p ∈ queues a → p ∉ queues b) ∧ q ∉ queues a ∧ q ∉ queues b.
  Proof.
    intros [H1 H2]. simpl in *. apply NoDup_app in H1 as (?&?&?).
    apply NoDup_cons in H2 as [H2 H3]. apply NoDup_app in H3 as (?&?&?).
    rewrite elem_of_app in H2. unfold wf. tauto.
  Qed.
  Lemma wf_plus a b : wf (Plus a b) → wf a ∧ wf b ∧ (∀ x, x ∈ leaves a → x ∉ leaves b) ∧
    (∀ p, p ∈ queues a → p ∉ queues b).
  Proof.
    intros [H1 H2]. simpl in *. apply NoDup_app in H1 as (?&?&?).
    apply NoDup_app in H2 as (?&?&?). unfold wf. tauto.
  Qed.

  Lemma exits_not_feeds f x q : wf f → x ∈ exits f → ¬ feeds f x q.
  Proof.
    induction f as [b|p a IHa b IHb|a IHa b IHb]; simpl; [tauto| |].
    - intros W X. apply wf_pipe in W as (Wa&Wb&D&_). pose proof (exits_leaves b x X).
      intros [[_ ?]|[?|?]]; [|pose proof (feeds_in a x q)|by apply IHb].
      + eapply D; [by apply exits_leaves|done].
      + destruct (feeds_in a x q); [done|]. by eapply D.
    - intros W X. apply wf_plus in W as (Wa&Wb&D&_). apply elem_of_app in X as [X|X].
      + intros [?|F]; [by apply IHa|]. apply feeds_in in F as [F _]. apply exits_leaves in X. by eapply D.
      + intros [F|?]; [|by apply IHb]. apply feeds_in in F as [F _]. apply exits_leaves in X. by eapply D.
  Qed.
  Lemma entries_not_served f q y : wf f → y ∈ entries f → ¬ served f q y.
  Proof.
    induction f as [b|p a IHa b IHb|a IHa b IHb]; simpl; [tauto| |].
    - intros W X. apply wf_pipe in W as (Wa&Wb&D&_). pose proof (entries_leaves a y X).
      intros [[_ E]|[?|S]]; [|by apply IHa|].
      + eapply D; [done|by apply entries_leaves].
      + destruct (served_in b q y); [done|]. by eapply D.
    - intros W X. apply wf_plus in W as (Wa&Wb&D&_). apply elem_of_app in X as [X|X].
      + intros [?|F]; [by apply IHa|]. apply served_in in F as [_ F]. apply entries_leaves in X. by eapply D.
      + intros [F|?]; [|by apply IHb]. apply served_in in F as [_ F]. apply entries_leaves in X. by eapply D.
  Qed.

  (** [out_queue] is what the diagram says. *)
  Lemma out_queue_spec f next x q : wf f → x ∈ leaves f →
    out_queue f next x = Some q ↔ feeds f x q ∨ (x ∈ exits f ∧ next = Some q).
  Proof.
    revert next. induction f as [b|p a IHa b IHb|a IHa b IHb]; simpl; intros next W X.
    - set_solver.
    - pose proof W as W'. apply wf_pipe in W as (Wa&Wb&D&Dq&Pa&Pb).
      destruct (decide (x ∈ leaves a)) as [E|E].
      + rewrite (IHa (Some p) Wa E). split.
        * intros [?|[? [= ->]]]; tauto.
        * intros [[[-> ?]|[?|F]]|[F _]]; [tauto|tauto| |].
          -- apply feeds_in in F as [F _]. by destruct (D x).
          -- apply exits_leaves in F. by destruct (D x).
      + apply elem_of_app in X as [X|X]; [done|]. rewrite (IHb next Wb X). split; [tauto|].
        intros [[[_ F]|[F|?]]|?]; [|apply feeds_in in F as [F _]; done|tauto|tauto].
        by apply exits_leaves in F.
    - apply wf_plus in W as (Wa&Wb&D&Dq). rewrite elem_of_app.
      destruct (decide (x ∈ leaves a)) as [E|E].
      + rewrite (IHa next Wa E). split; [tauto|]. intros [[?|F]|[[?|F] ?]]; [tauto| |tauto|].
        * apply feeds_in in F as [F _]. by destruct (D x).
        * apply exits_leaves in F. by destruct (D x).
      + apply elem_of_app in X as [X|X]; [done|]. rewrite (IHb next Wb X). split; [tauto|].
        intros [[F|?]|[[F|?] ?]]; [apply feeds_in in F as [F _]; done|tauto|by apply exits_leaves in F|tauto].
  Qed.



  Lemma served_unique f q q' y : wf f → served f q y → served f q' y → q = q'.
  Proof.
    induction f as [b|p a IHa b IHb|a IHa b IHb]; simpl; intros W S1 S2; [done| |].
    - pose proof (wf_pipe _ _ _ W) as (Wa&Wb&D&Dq&Pa&Pb).
      assert (∀ r, served a r y → y ∈ leaves a) as La by (intros r S; by apply served_in in S as [_ ?]).
      assert (∀ r, served b r y → y ∈ leaves b) as Lb by (intros r S; by apply served_in in S as [_ ?]).
      pose proof (entries_leaves b y) as Eb. specialize (D y).
      destruct S1 as [[-> E1]|[S1|S1]], S2 as [[-> E2]|[S2|S2]]; auto;
        try (exfalso; by eapply D; eauto; fail); exfalso;
        by eapply (entries_not_served b); [done| |done].
    - pose proof (wf_plus _ _ W) as (Wa&Wb&D&Dq).
      assert (∀ r, served a r y → y ∈ leaves a) as La by (intros r S; by apply served_in in S as [_ ?]).
      assert (∀ r, served b r y → y ∈ leaves b) as Lb by (intros r S; by apply served_in in S as [_ ?]).
      specialize (D y).
      destruct S1 as [S1|S1], S2 as [S2|S2]; auto; exfalso; by eapply D; eauto.
  Qed.

  Lemma feeds_unique f q q' x : wf f → feeds f x q → feeds f x q' → q = q'.
  Proof.
    intros W F1 F2. pose proof (proj1 (feeds_in f x q F1)) as X.
    pose proof (proj2 (out_queue_spec f None x q W X) (or_introl F1)) as E1.
    pose proof (proj2 (out_queue_spec f None x q' W X) (or_introl F2)) as E2. congruence.
  Qed.

  (** The order of destruction. *)
  Lemma teardown_block f b : IBlock b ∈ teardown f ↔ b ∈ leaves f.
  Proof. induction f; simpl; set_solver. Qed.
  Lemma teardown_queue f q : IQueue q ∈ teardown f ↔ q ∈ queues f.
  Proof. induction f; simpl; set_solver. Qed.
  Lemma teardown_NoDup f : wf f → NoDup (teardown f).
  Proof.
    induction f as [b|p a IHa b IHb|a IHa b IHb]; simpl; intros W.
    - apply NoDup_singleton.
    - apply wf_pipe in W as (Wa&Wb&D&Dq&Pa&Pb).
      apply NoDup_app. split; [auto|]. split.
      + intros [x|q] X; rewrite elem_of_cons, ?teardown_block, ?teardown_queue in *; [|].
        * intros [?|?]; [done|]. by eapply D.
        * intros [[= ->]|?]; [done|]. by eapply Dq.
      + apply NoDup_cons. split; [by rewrite teardown_queue|auto].
    - apply wf_plus in W as (Wa&Wb&D&Dq). apply NoDup_app. split; [auto|]. split; [|auto].
      intros [x|q] X; rewrite ?teardown_block, ?teardown_queue in *; intros ?; [by eapply D|by eapply Dq].
  Qed.

  Definition before (l : list item) (i j : item) : Prop :=
    ∃ l1 l2, l = l1 ++ l2 ∧ i ∈ l1 ∧ i ∉ l2 ∧ j ∈ l2.
  Lemma before_l l r i j : before l i j → i ∉ r → before (l ++ r) i j.
  Proof. intros (l1&l2&->&?&?&?) N. exists l1, (l2 ++ r). rewrite <-app_assoc. set_solver. Qed.
  Lemma before_r l r i j : before l i j → before (r ++ l) i j.
  Proof. intros (l1&l2&->&?&?&?). exists (r ++ l1), l2. rewrite app_assoc. set_solver. Qed.

  Lemma feeds_before f x q : wf f → feeds f x q → before (teardown f) (IBlock x) (IQueue q).
  Proof.
    induction f as [b|p a IHa b IHb|a IHa b IHb]; simpl; intros W F; [done| |].
    - apply wf_pipe in W as (Wa&Wb&D&Dq&Pa&Pb). destruct F as [[-> X]|[F|F]].
      + eexists _, _. split; [done|]. apply exits_leaves in X. rewrite teardown_block, elem_of_cons, teardown_block.
        split; [done|]. split; [|set_solver]. intros [?|?]; [done|]. by eapply D.
      + pose proof (feeds_in _ _ _ F) as [? ?]. apply before_l; [auto|].
        rewrite elem_of_cons, teardown_block. intros [?|?]; [done|]. by eapply D.
      + rewrite cons_middle, app_assoc. apply before_r. auto.
    - apply wf_plus in W as (Wa&Wb&D&Dq). destruct F as [F|F]; [apply before_r; auto|].
      apply before_l; [auto|]. rewrite teardown_block. intros ?. apply feeds_in in F as [? _]. by eapply D.
  Qed.
  Lemma served_before f q y : wf f → served f q y → before (teardown f) (IQueue q) (IBlock y).
  Proof.
    induction f as [b|p a IHa b IHb|a IHa b IHb]; simpl; intros W F; [done| |].
    - apply wf_pipe in W as (Wa&Wb&D&Dq&Pa&Pb). destruct F as [[-> X]|[F|F]].
      + exists (teardown a ++ [IQueue p]), (teardown b). rewrite <-app_assoc. split; [done|].
        apply entries_leaves in X. rewrite teardown_block, teardown_queue. split; [set_solver|]. done.
      + pose proof (served_in _ _ _ F) as [? ?]. apply before_l; [auto|].
        rewrite elem_of_cons, teardown_queue. intros [[= ->]|?]; [done|]. by eapply Dq.
      + rewrite cons_middle, app_assoc. apply before_r. auto.
    - apply wf_plus in W as (Wa&Wb&D&Dq). destruct F as [F|F]; [apply before_r; auto|].
      apply before_l; [auto|]. rewrite teardown_queue. intros ?. apply served_in in F as [? _]. by eapply Dq.
  Qed.
  Lemma before_left l i j d r : before l i j → l = d ++ r → i ∈ r → j ∈ r.
  Proof.
    intros (l1&l2&->&_&N&J) E I.
    assert (∃ k, r = k ++ l2) as [k ->]; [|set_solver].
    apply app_eq_inv in E as [(k&->&->)|(k&->&->)]; [by exists k|].
    destruct k as [|c k]; [by exists []|]. set_solver.
  Qed.
  Lemma before_head l i j d r : NoDup l → before l i j → l = d ++ j :: r → i ∉ j :: r.
  Proof.
    intros N H E I. destruct (decide (i = j)) as [->|K].
    - destruct H as (l1&l2&->&?&?&?). done.
    - apply elem_of_cons in I as [?|I]; [done|].
      assert (j ∈ r) as J. { eapply before_left; [exact H| |exact I]. instantiate (1 := d ++ [j]). by rewrite <-app_assoc. }
      rewrite E in N. apply NoDup_app in N as (_&_&N). apply NoDup_cons in N as [N _]. done.
  Qed.

  Lemma leaf_out f x : x ∈ leaves f → x ∈ exits f ∨ ∃ q, feeds f x q.
  Proof.
    induction f as [b|p a IHa b IHb|a IHa b IHb]; simpl; [tauto| |]; rewrite ?elem_of_app.
    - intros [X|X]; [destruct (IHa X) as [?|[q ?]]|destruct (IHb X) as [?|[q ?]]]; eauto.
    - intros [X|X]; [destruct (IHa X) as [?|[q ?]]|destruct (IHb X) as [?|[q ?]]]; eauto.
  Qed.
  Lemma leaf_in f x : x ∈ leaves f → x ∈ entries f ∨ ∃ q, served f q x.
  Proof.
    induction f as [b|p a IHa b IHb|a IHa b IHb]; simpl; [tauto| |]; rewrite ?elem_of_app.
    - intros [X|X]; [destruct (IHa X) as [?|[q ?]]|destruct (IHb X) as [?|[q ?]]]; eauto.
    - intros [X|X]; [destruct (IHa X) as [?|[q ?]]|destruct (IHb X) as [?|[q ?]]]; eauto.
  Qed.
End Static.

Section Typed.
  Context {B : Type} (code : nat → block B).
  Implicit Types f g : flow.
  Lemma inputs_spec f ty : ty ∈ inputs code f ↔ ∃ y, y ∈ entries f ∧ ty ∈ b_ins (code y).
  Proof. induction f; simpl; set_solver. Qed.
  Lemma outputs_spec f ty : ty ∈ outputs code f ↔ ∃ x, x ∈ exits f ∧ ty ∈ b_outs (code x).
  Proof. induction f; simpl; set_solver. Qed.
  Lemma entry_block_spec f ty y : well_typed code f →
    entry_block code f ty = Some y ↔ y ∈ entries f ∧ ty ∈ b_ins (code y).
  Proof.
    induction f as [b|p a IHa b IHb|a IHa b IHb]; simpl; intros T.
    - case_decide; split; [intros [= ->]|intros [E ?]|done|intros [E ?]].
      + set_solver.
      + apply elem_of_list_singleton in E. by subst.
      + apply elem_of_list_singleton in E. by subst.
    - apply IHa, T.
    - destruct T as (Ta&Tb&D). rewrite elem_of_app. case_decide as E.
      + rewrite (IHa Ta). split; [tauto|]. intros [[?|?] ?]; [tauto|]. destruct (D ty E). apply inputs_spec. eauto.
      + rewrite (IHb Tb). split; [tauto|]. intros [[?|?] ?]; [|tauto]. destruct E. apply inputs_spec. eauto.
  Qed.
  Lemma consumer_block_spec f q ty y : wf f → well_typed code f → q ∈ queues f →
    consumer_block code f q ty = Some y ↔ served f q y ∧ ty ∈ b_ins (code y).
  Proof.
    induction f as [b|p a IHa b IHb|a IHa b IHb]; simpl; intros W T Q.
    - set_solver.
    - apply wf_pipe in W as (Wa&Wb&D&Dq&Pa&Pb). destruct T as (Ta&Tb&_).
      case_decide as E; [subst|case_decide as E2].
      + rewrite (entry_block_spec b ty y Tb). split; [tauto|].
        intros [[?|[S|S]] ?]; [tauto|apply served_in in S as [S _]; done..].
      + rewrite (IHa Wa Ta E2). split; [tauto|]. intros [[[? _]|[?|S]] ?]; [done|tauto|].
        apply served_in in S as [S _]. by destruct (Dq q).
      + assert (q ∈ queues b) as Q' by set_solver. rewrite (IHb Wb Tb Q'). split; [tauto|].
        intros [[[? _]|[S|?]] ?]; [done| |tauto]. by apply served_in in S as [S _].
    - apply wf_plus in W as (Wa&Wb&D&Dq). destruct T as (Ta&Tb&_). case_decide as E2.
      + rewrite (IHa Wa Ta E2). split; [tauto|]. intros [[?|S] ?]; [tauto|].
        apply served_in in S as [S _]. by destruct (Dq q).
      + assert (q ∈ queues b) as Q' by set_solver. rewrite (IHb Wb Tb Q'). split; [tauto|].
        intros [[S|?] ?]; [|tauto]. by apply served_in in S as [S _].
  Qed.
  Lemma feeds_typed f x q ty : well_typed code f → feeds f x q → ty ∈ b_outs (code x) →
    ∃ y, served f q y ∧ ty ∈ b_ins (code y).
  Proof.
    induction f as [b|p a IHa b IHb|a IHa b IHb]; simpl; intros T F O; [done| |].
    - destruct T as (Ta&Tb&_&M). destruct F as [[-> X]|[F|F]].
      + assert (ty ∈ inputs code b) as I by (apply M, outputs_spec; eauto).
        apply inputs_spec in I as (y&?&?). exists y. tauto.
      + destruct (IHa Ta F O) as (y&?&?). exists y. tauto.
      + destruct (IHb Tb F O) as (y&?&?). exists y. tauto.
    - destruct T as (Ta&Tb&_). destruct F as [F|F].
      + destruct (IHa Ta F O) as (y&?&?). exists y. tauto.
      + destruct (IHb Tb F O) as (y&?&?). exists y. tauto.
  Qed.
End Typed.
