(** * Proofs about RipCurrent: every run ends; when nothing is refused *)
From stdpp Require Import list sets.
From Coq Require Import ZArith Lia Sorting.Sorted.
From Verif Require Import MMQ_Model RipCurrent_Model RipCurrent_Spec RipCurrent_Proofs RipCurrent_Proofs2 RipCurrent_Proofs3
  RipCurrent_Proofs4.

Section Terminates.
  Context {B : Type} (code : nat → block B) (f : flow).
  Context (Wf : wf f) (Wt : well_typed code f).
  Context (Calls : ∀ x, x ∈ leaves f → all_calls code (call_ok code x) x).
  Notation state := (state B). Notation task := (task B). Notation event := (event B).
  Notation oq := (out_queue f None).
  Notation Inv := (Inv code f). Notation Step := (Step code f).
  Implicit Types (s : state) (τ : tid).

  Definition weight (ph : phase B) (ops : list (op B)) : nat :=
    4 * length ops + match ph with Ready => 0 | Calling _ _ => 3 | _ => 1 end.
  Definition load (b : nat) (t : option task) : nat :=
    match t with Some t => if decide (t_who t = b) then S (weight (t_phase t) (t_ops t)) else 0 | None => 0 end.
  Definition loads (b : nat) s : nat := sum_list ((λ τ, load b (st_task s τ)) <$> tids f).
  Definition μ s (i : option item) : nat * nat :=
    match i with
    | None => (if st_joining s then 0 else 1, 0)
    | Some (IBlock b) => (if finishing b s then 0 else 1, loads b s)
    | Some (IQueue q) => (length (qlist s q), if decide (IQueue q ∈ st_left s) then 1 else 0)
    end.
  Definition keys : list (option item) := None :: (Some <$> teardown f).
  Definition less (p q : nat * nat) : Prop := p.1 < q.1 ∨ p.1 = q.1 ∧ p.2 < q.2.
  Definition lex s' s : Prop := ∃ l1 i l2, keys = l1 ++ i :: l2 ∧ (∀ j, j ∈ l1 → μ s' j = μ s j) ∧ less (μ s' i) (μ s i).

  Lemma lex_at s s' i : i ∈ teardown f → st_joining s' = st_joining s → less (μ s' (Some i)) (μ s (Some i)) →
    (∀ j, j ∈ teardown f → j ≠ i → ¬ before (teardown f) i j → μ s' (Some j) = μ s (Some j)) → lex s' s.
  Proof.
    intros Hi J L K. apply elem_of_list_split in Hi as (d&r&Hd).
    exists (None :: (Some <$> d)), (Some i), (Some <$> r). split; [|split; [|done]].
    - unfold keys. by rewrite Hd, fmap_app.
    - intros j Hj. apply elem_of_cons in Hj as [->|Hj]; [simpl; by rewrite J|].
      apply elem_of_list_fmap in Hj as (j'&->&Hj). apply K.
      + rewrite Hd. set_solver.
      + intros ->. pose proof (teardown_NoDup f Wf) as ND. rewrite Hd in ND. apply NoDup_app in ND as (_&ND&_).
        apply (ND i); [done|left].
      + intros Hb. apply elem_of_list_split in Hj as (d1&d2&->).
        apply (before_head _ _ _ d1 (d2 ++ i :: r) (teardown_NoDup f Wf) Hb); [by rewrite Hd, <-app_assoc|set_solver].
  Qed.

  Lemma loads_set b τ o s s' : τ ∈ tids f → (∀ τ', τ' ≠ τ → st_task s' τ' = st_task s τ') → st_task s' τ = o →
    loads b s' + load b (st_task s τ) = loads b s + load b o.
  Proof.
    intros T K <-. unfold loads. apply (sum_change code f Wf Wt Calls (λ τ, load b (st_task s' τ)) (λ τ, load b (st_task s τ)) τ);
      [by apply tids_NoDup|done|]. intros x Hx. by rewrite K.
  Qed.
  Lemma load_other b x ph ops : x ≠ b → load b (Some (Task x ph ops)) = 0.
  Proof. intros N. simpl. by rewrite decide_False. Qed.
  Lemma load_own b ph ops : load b (Some (Task b ph ops)) = S (weight ph ops).
  Proof. simpl. by rewrite decide_True. Qed.

  (** A thread goes on. *)
  Lemma lex_adv s s' τ x ph ops ph' ops' : Inv s → st_task s τ = Some (Task x ph ops) → ¬ idle (Task x ph ops) →
    (∀ τ', τ' ≠ τ → st_task s' τ' = st_task s τ') → st_task s' τ = Some (Task x ph' ops') →
    weight ph' ops' < weight ph ops → st_joining s' = st_joining s → st_left s' = st_left s →
    (∀ q, qlist s' q = qlist s q ∨ oq x = Some q) → lex s' s.
  Proof.
    intros I E N K E' W J L Q. pose proof (who_leaf code f Wf Wt Calls s τ _ I E) as X. simpl in X.
    assert (∀ b, finishing b s' = finishing b s) as F.
    { intros b. unfold finishing. rewrite L. f_equal.
      destruct (decide (TJoin = τ)) as [<-|D]; [by rewrite E, E'|by rewrite K]. }
    pose proof (active_tid code f Wf Wt Calls s τ _ I E) as T.
    pose proof (λ b, loads_set b τ _ s s' T K E') as Ld. rewrite E in Ld.
    apply (lex_at s s' (IBlock x)); [by apply teardown_block|done| |].
    - right. simpl. rewrite F. split; [done|]. specialize (Ld x). rewrite !load_own in Ld. lia.
    - intros [b|q] Hj Ne Nb; simpl.
      + rewrite F. f_equal. specialize (Ld b). rewrite !load_other in Ld by congruence. lia.
      + rewrite L. f_equal. destruct (Q q) as [->|Hq]; [done|]. apply (oq_feeds f Wf) in Hq; [|done].
        destruct Nb. by apply feeds_before.
  Qed.

  Ltac advL I E := eapply (lex_adv _ _ _ _ _ _ _ _ I E);
    [intros [? ?]; simpl in *; done|intros ? ?; by rewrite set_task_ne by done|apply set_task_eq|simpl; lia|done|done| ].
  Ltac adv0 I E := eapply (lex_adv _ _ _ _ _ _ _ _ I E);
    [intros [? ?]; simpl in *; done|intros ? ?; by rewrite set_task_ne by done|apply set_task_eq|unfold weight; simpl; lia|done|done| ].

  Lemma step_lex s ev s' : Inv s → Step s ev s' → lex s' s.
  Proof.
    intros I HS.
    inversion HS as [τ x o ops E Q|τ x o m t c ops q E Q Hm Hc He|τ x t ops q E Q|τ x t m ops q E Q U Hh|τ x t m ops q E Q U Hh
      |τ x t m ops q E Q U|τ x m ops q E Q|τ x t ops q E Q U Hh|τ x t ops q E Q U Hh|q e x m rest y Hq U D L Hh Hb C
      |q x E|J|b rest J L E F|b rest x J L E|q rest J L E P U]; subst ev s'.
    - adv0 I E. by left.
    - adv0 I E. intros q'. left. by apply (qlist_same s).
    - adv0 I E. by left.
    - adv0 I E. intros q'. left. by apply (qlist_same s).
    - adv0 I E. by left.
    - adv0 I E. intros q'. destruct (decide (q' = q)) as [->|D]; [by right|]. left. unfold qlist. simpl. by rewrite upd_ne.
    - adv0 I E. intros q'. left. by apply (qlist_same s).
    - adv0 I E. intros q'. left. by apply (qlist_same s).
    - adv0 I E. by left.
    - (* consume *)
      assert (IQueue q ∈ teardown f) as Tq by (by apply teardown_queue).
      apply (consumer_block_spec code f q _ y Wf Wt Hq) in C as [Cs Ct].
      set (s' := St _ _ _ _ _ _) in *.
      assert (∀ τ, τ ≠ TQueue q → st_task s' τ = st_task s τ) as K.
      { intros τ Hτ. unfold s'. simpl. by rewrite tid_eqb_spec, bool_decide_eq_false_2. }
      assert (st_task s' (TQueue q) = Some (Task y Ready (b_react (code y) (st_hist s y) m))) as E'.
      { unfold s'. simpl. by rewrite bool_decide_eq_true_2. }
      assert (TQueue q ∈ tids f) as Tt by (unfold tids; set_solver).
      apply (lex_at s s' (IQueue q)); [done|done| |].
      + left. simpl. rewrite L. unfold qlist, s'. simpl. rewrite upd_eq. simpl. lia.
      + intros [b|q'] Hj Ne Nb; simpl.
        * assert (finishing b s' = finishing b s) as -> by (unfold finishing; by rewrite K). f_equal.
          pose proof (loads_set b _ _ s s' Tt K E') as Ld.
          unfold unlocked in U. rewrite U in Ld. rewrite load_other in Ld; [simpl in Ld; lia|].
          intros ->. destruct Nb. by apply served_before.
        * f_equal. unfold qlist, s'. simpl. rewrite upd_ne; [done|congruence].
    - (* return *)
      destruct (A_que _ _ s I q _ E) as (Sv&_&Lq). simpl in Sv.
      set (s' := set_task _ _ _) in *.
      assert (∀ τ, τ ≠ TQueue q → st_task s' τ = st_task s τ) as K by (intros; unfold s'; by rewrite set_task_ne).
      assert (st_task s' (TQueue q) = None) as E' by apply set_task_eq.
      pose proof (active_tid code f Wf Wt Calls s _ _ I E) as Tt.
      pose proof (λ b, loads_set b _ _ s s' Tt K E') as Ld. rewrite E in Ld.
      assert (∀ b, finishing b s' = finishing b s) as F by (intros b; unfold finishing; by rewrite K).
      pose proof (who_leaf code f Wf Wt Calls s _ _ I E) as X. simpl in X.
      apply (lex_at s s' (IBlock x)); [by apply teardown_block|done| |].
      + right. simpl. rewrite F. split; [done|]. specialize (Ld x). rewrite load_own in Ld. simpl in Ld. lia.
      + intros [b|q'] Hj Ne Nb; simpl.
        * rewrite F. f_equal. specialize (Ld b). rewrite load_other in Ld by congruence. simpl in Ld. lia.
        * f_equal. f_equal. by apply (qlist_same s).
    - (* join *)
      exists [], None, (Some <$> teardown f). split; [done|]. split; [intros j Hj; by apply elem_of_nil in Hj|].
      left. simpl. rewrite J. lia.
    - (* finish *)
      set (s' := set_task _ _ _) in *.
      assert (∀ τ, τ ≠ TJoin → st_task s' τ = st_task s τ) as K by (intros; unfold s'; by rewrite set_task_ne).
      assert (st_task s' TJoin = Some (Task b Ready (b_finish (code b) (st_hist s b)))) as E' by apply set_task_eq.
      assert (TJoin ∈ tids f) as Tt by (unfold tids; set_solver).
      pose proof (λ b, loads_set b _ _ s s' Tt K E') as Ld. rewrite E in Ld.
      assert (IBlock b ∈ st_left s) as Lb by (rewrite L; left).
      destruct (A_left _ _ s I) as [d Dd].
      apply (lex_at s s' (IBlock b)); [rewrite Dd; set_solver|done| |].
      + left. simpl. unfold finishing. rewrite E', E. simpl.
        rewrite (bool_decide_eq_true_2 (b = b)) by done. rewrite orb_true_r, orb_false_r.
        rewrite bool_decide_eq_false_2 by (intros N; by apply N). lia.
      + intros [b'|q'] Hj Ne Nb; simpl.
        * assert (finishing b' s' = finishing b' s) as ->.
          { unfold finishing. rewrite E', E. simpl. rewrite (bool_decide_eq_false_2 (b = b')) by congruence. done. }
          f_equal. specialize (Ld b'). rewrite load_other in Ld by congruence. simpl in Ld. lia.
        * done.
    - (* a block is gone *)
      destruct (A_join _ _ s I _ E) as (_&r&R&Hsrc). simpl in R, Hsrc. rewrite L in R. injection R as <- <-.
      set (s' := set_left _ _) in *.
      assert (∀ τ, τ ≠ TJoin → st_task s' τ = st_task s τ) as K
        by (intros τ Hτ; unfold s'; change (st_task (set_task TJoin None s) τ = st_task s τ); by rewrite set_task_ne).
      assert (st_task s' TJoin = None) as E' by apply set_task_eq.
      assert (TJoin ∈ tids f) as Tt by (unfold tids; set_solver).
      pose proof (λ b, loads_set b _ _ s s' Tt K E') as Ld. rewrite E in Ld.
      destruct (A_left _ _ s I) as [d Dd].
      assert (∀ b', finishing b' s' = finishing b' s) as F.
      { intros b'. unfold finishing. rewrite E', E. simpl. rewrite L.
        destruct (decide (b = b')) as [->|D].
        * rewrite (bool_decide_eq_true_2 (b' = b')) by done. rewrite orb_true_r, orb_false_r. apply bool_decide_eq_true_2.
          pose proof (teardown_NoDup f Wf) as ND. rewrite Dd, L in ND.
          apply NoDup_app in ND as (_&_&ND). by apply NoDup_cons in ND as [? _].
        * rewrite (bool_decide_eq_false_2 (b = b')) by done. f_equal. apply bool_decide_ext. rewrite elem_of_cons.
          split; [intros N [[= ?]|?]; congruence|tauto]. }
      apply (lex_at s s' (IBlock b)); [rewrite Dd, L; set_solver|done| |].
      + right. simpl. rewrite F. split; [done|]. specialize (Ld b). rewrite load_own in Ld. simpl in Ld. lia.
      + intros [b'|q'] Hj Ne Nb; simpl.
        * rewrite F. f_equal. specialize (Ld b'). rewrite load_other in Ld by congruence. simpl in Ld. lia.
        * f_equal. rewrite L. unfold s'. simpl. destruct (decide (IQueue q' ∈ rest)), (decide (IQueue q' ∈ IBlock b :: rest)); try done; set_solver.
    - (* a queue is gone *)
      set (s' := set_left _ _) in *. destruct (A_left _ _ s I) as [d Dd].
      assert (∀ q', qlist s' q' = qlist s q') as Q.
      { intros q'. change (qlist (set_queue q (with_pq (st_queue s q) (MMPQ (qlist s q) (pq_last (rq_pq (st_queue s q))) true)) s) q' = qlist s q').
        by apply (qlist_same s). }
      apply (lex_at s s' (IQueue q)); [rewrite Dd, L; set_solver|done| |].
      + right. simpl. rewrite Q, L. split; [done|]. unfold s'. simpl.
        rewrite decide_False; [rewrite decide_True by left; lia|].
        pose proof (teardown_NoDup f Wf) as ND. rewrite Dd, L in ND. apply NoDup_app in ND as (_&_&ND).
        by apply NoDup_cons in ND as [? _].
      + intros [b'|q'] Hj Ne Nb; simpl.
        * f_equal. unfold finishing, s'. simpl. rewrite L.
          assert (bool_decide (IBlock b' ∉ rest) = bool_decide (IBlock b' ∉ IQueue q :: rest)) as ->; [|done].
          apply bool_decide_ext. rewrite elem_of_cons. split; [intros N [?|?]; congruence|tauto].
        * rewrite Q, L. f_equal. unfold s'. simpl. destruct (decide (IQueue q' ∈ rest)), (decide (IQueue q' ∈ IQueue q :: rest)); try done; set_solver.
  Qed.

  Lemma terminates s : Inv s → Acc (λ s' s, ∃ l tr, step code f l s = Some (tr, s')) s.
  Proof.
    assert (∀ s, Acc (λ s' s, Inv s ∧ ∃ l tr, step code f l s = Some (tr, s')) s) as H.
    { apply (acc_lex keys μ). intros s' s0 [I (l&tr&E)]. by eapply step_lex, step_Step. }
    induction (H s) as [s1 _ IH]. intros I. constructor. intros s' (l&tr&E). apply IH; [eauto|].
    eapply inv_step; [done..|]. by eapply step_Step.
  Qed.
End Terminates.
