(** * Proofs about RipCurrent: how a run ends *)
From stdpp Require Import list sets.
From Coq Require Import ZArith Lia Sorting.Sorted.
From Verif Require Import MMQ_Model RipCurrent_Model RipCurrent_Spec RipCurrent_Proofs RipCurrent_Proofs2 RipCurrent_Proofs3.

Section Ends.
  Context {B : Type} (code : nat → block B) (f : flow).
  Context (Wf : wf f) (Wt : well_typed code f).
  Context (Calls : ∀ x, x ∈ leaves f → all_calls code (call_ok code x) x) (Out : outputs code f = []).
  Notation state := (state B). Notation task := (task B). Notation event := (event B).
  Notation oq := (out_queue f None).
  Notation Inv := (Inv code f). Notation Step := (Step code f). Notation InvT := (InvT code f).
  Implicit Types (s : state) (τ : tid) (tr : list event).

  (** ** The wires *)
  Lemma received_from_delivered tr s x y : InvT tr s → wired f x y →
    received_from x y tr = filter (λ m, m_type m ∈ b_ins (code y)) (delivered x tr).
  Proof.
    intros T (q&F&Sv).
    assert (∀ y' x' m, Received y' x' m ∈ tr → x' = x → y' = y ↔ m_type m ∈ b_ins (code y)) as K.
    { intros y' x' m Hin ->. destruct (T_recv _ _ _ _ T _ _ _ Hin) as (_&(q'&F'&Sv')&Hty).
      pose proof (feeds_unique f _ _ _ Wf F F') as <-. pose proof (served_in _ _ _ Sv) as [Hq _].
      split; [by intros ->|]. intros Hy.
      assert (consumer_block code f q (m_type m) = Some y) as C1 by (by apply (consumer_block_spec code f)).
      assert (consumer_block code f q (m_type m) = Some y') as C2 by (by apply (consumer_block_spec code f)). congruence. }
    clear T. unfold received_from, received, delivered. induction tr as [|e tr IH]; [done|].
    assert (∀ y' x' m, Received y' x' m ∈ tr → x' = x → y' = y ↔ m_type m ∈ b_ins (code y)) as K'.
    { intros y' x' m ? ?. apply (K y' x' m); [by right|done]. }
    specialize (IH K'). destruct e as [| | | |y' x' m|]; try exact IH.
    specialize (K y' x' m (elem_of_list_here _ _)). simpl.
    destruct (decide (y' = y)) as [Ey|Ey]; simpl.
    - destruct (decide (x' = x)) as [Ex|Ex]; [|exact IH]. rewrite filter_cons_True by (by apply K). f_equal. exact IH.
    - destruct (decide (x' = x)) as [Ex|Ex]; [|exact IH]. rewrite filter_cons_False by (intros Z; by apply Ey, K). exact IH.
  Qed.
  Lemma received_from_unwired tr s x y : InvT tr s → ¬ wired f x y → received_from x y tr = [].
  Proof.
    intros T N. assert (∀ m, Received y x m ∉ tr) as K.
    { intros m Hin. apply N. by destruct (T_recv _ _ _ _ T _ _ _ Hin) as (_&?&_). }
    clear T. unfold received_from, received. induction tr as [|e tr IH]; [done|].
    assert (∀ m, Received y x m ∉ tr) as K' by set_solver. specialize (IH K').
    destruct e as [| | | |y' x' m|]; try exact IH. simpl. destruct (decide (y' = y)) as [->|]; [|exact IH]. simpl.
    destruct (decide (x' = x)) as [->|]; [|exact IH]. destruct (K m). left.
  Qed.

  Lemma wire_prefix tr s x y : InvT tr s → wired f x y →
    received_from x y tr `prefix_of` filter (λ m, m_type m ∈ b_ins (code y)) (sent x tr).
  Proof.
    intros T W. rewrite (received_from_delivered tr s x y T W). assert (x ∈ leaves f) as X.
    { destruct W as (q&F&_). by apply feeds_in in F as [? _]. }
    rewrite (T_sent _ _ _ _ T x X), filter_app. by apply prefix_app_r.
  Qed.

  (** ** After [Join] *)
  Lemma finished_quiet s : Inv s → finished s → (∀ τ t, st_task s τ = Some t → idle t) ∧ (∀ q, q ∈ queues f → qlist s q = []) ∧
    st_task s TJoin = None.
  Proof.
    intros I [J L]. split; [|split].
    - intros τ t E. destruct (A_alive _ _ s I τ t E) as [?|N]; [done|]. rewrite L in N. by apply elem_of_nil in N.
    - intros q Q. apply (A_dead _ _ s I q Q). rewrite L. apply not_elem_of_nil.
    - destruct (st_task s TJoin) as [t|] eqn:E; [|done]. destruct (A_join _ _ s I t E) as (_&r&R&_). congruence.
  Qed.
  Lemma finished_all tr s x : Inv s → InvT tr s → finished s → x ∈ leaves f →
    issued x tr = program code x (received x tr).*2 ∧ (outcomes x tr).*1 = omap message_of (issued x tr) ∧
    sent x tr = delivered x tr.
  Proof.
    intros I T F X. destruct (finished_quiet s I F) as (Q1&Q2&Q3).
    destruct (T_work _ _ _ _ T x X) as (ph&ops&W&Hi&Ho).
    destruct (at_work_quiet s x ph ops W) as [-> ->]; [eauto|]. simpl in Ho. rewrite app_nil_r in Hi, Ho.
    split; [|split; [done|]].
    - rewrite Hi. unfold so_far, program. rewrite <-(T_hist _ _ _ _ T x). unfold finishing.
      rewrite bool_decide_eq_true_2; [done|]. destruct F as [_ ->]. apply not_elem_of_nil.
    - rewrite (T_sent _ _ _ _ T x X). unfold in_queue. destruct (oq x) as [q|] eqn:E; [|by rewrite app_nil_r].
      rewrite Q2; [by rewrite app_nil_r|]. apply (oq_feeds f Wf) in E; [|done]. by apply feeds_in in E as [_ ?].
  Qed.

  (** ** No deadlock *)
  Definition can_step s : Prop := ∃ l tr s', step code f l s = Some (tr, s').
  Lemma task_moves s τ t : Inv s → st_task s τ = Some t → ¬ idle t → can_step s.
  Proof.
    intros I E N. pose proof (who_leaf code f Wf Wt Calls s τ t I E) as X.
    apply teardown_block, elem_of_list_split in X as (d&r&Hd).
    remember (length r) as n eqn:Hn. revert τ t d r E N Hd Hn.
    induction n as [n IH] using lt_wf_ind. intros τ [x ph ops] d r E N Hd Hn. simpl in *.
    destruct ph as [|t m|t m|m|t].
    - destruct ops as [|o ops]; [by destruct N|].
      exists (Advance τ (st_clock s + 1)%Z). simpl. rewrite E. simpl. destruct (oq x) as [q|]; [|eauto].
      destruct o as [m|t m|t m|t]; eauto. rewrite decide_True by lia. eauto.
    - destruct (A_phase _ _ s I τ _ E) as [q Q]; [done|]. simpl in Q.
      destruct (decide (unlocked q s)) as [U|U].
      + exists (Advance τ 0%Z). simpl. rewrite E. simpl. rewrite Q, decide_True by done. destruct (decide _); eauto.
      + unfold unlocked in U. destruct (st_task s (TQueue q)) as [t'|] eqn:E'; [|done]. clear U.
        destruct (decide (idle t')) as [[P1 P2]|N'].
        { exists (Return q). simpl. rewrite E'. destruct t' as [y ph' ops']; simpl in *. subst. eauto. }
        destruct (A_que _ _ s I q t' E') as (Sv&_&_). pose proof (who_leaf code f Wf Wt Calls s _ _ I E) as X. simpl in X.
        apply (oq_feeds f Wf) in Q; [|done].
        assert (IQueue q ∈ r) as Hq.
        { pose proof (before_left _ _ _ d _ (feeds_before f _ _ Wf Q) Hd ltac:(left)) as Z. by apply elem_of_cons in Z as [?|?]. }
        assert (IBlock (t_who t') ∈ r) as Hy.
        { eapply (before_left _ _ _ (d ++ [IBlock x])); [exact (served_before f _ _ Wf Sv)|by rewrite <-app_assoc|done]. }
        apply elem_of_list_split in Hy as (r1&r2&->).
        eapply (IH (length r2)); [|exact E'|exact N'| |done].
        * rewrite Hn, app_length. simpl. lia.
        * rewrite Hd. instantiate (1 := d ++ IBlock x :: r1). by rewrite <-app_assoc.
    - destruct (A_phase _ _ s I τ _ E) as [q Q]; [done|]. simpl in Q.
      destruct (decide (unlocked q s)) as [U|U].
      + exists (Advance τ 0%Z). simpl. rewrite E. simpl. rewrite Q, decide_True by done. eauto.
      + unfold unlocked in U. destruct (st_task s (TQueue q)) as [t'|] eqn:E'; [|done]. clear U.
        destruct (decide (idle t')) as [[P1 P2]|N'].
        { exists (Return q). simpl. rewrite E'. destruct t' as [y ph' ops']; simpl in *. subst. eauto. }
        destruct (A_que _ _ s I q t' E') as (Sv&_&_). pose proof (who_leaf code f Wf Wt Calls s _ _ I E) as X. simpl in X.
        apply (oq_feeds f Wf) in Q; [|done].
        assert (IQueue q ∈ r) as Hq.
        { pose proof (before_left _ _ _ d _ (feeds_before f _ _ Wf Q) Hd ltac:(left)) as Z. by apply elem_of_cons in Z as [?|?]. }
        assert (IBlock (t_who t') ∈ r) as Hy.
        { eapply (before_left _ _ _ (d ++ [IBlock x])); [exact (served_before f _ _ Wf Sv)|by rewrite <-app_assoc|done]. }
        apply elem_of_list_split in Hy as (r1&r2&->).
        eapply (IH (length r2)); [|exact E'|exact N'| |done].
        * rewrite Hn, app_length. simpl. lia.
        * rewrite Hd. instantiate (1 := d ++ IBlock x :: r1). by rewrite <-app_assoc.
    - destruct (A_phase _ _ s I τ _ E) as [q Q]; [done|]. simpl in Q.
      exists (Advance τ 0%Z). simpl. rewrite E. simpl. rewrite Q. eauto.
    - destruct (A_phase _ _ s I τ _ E) as [q Q]; [done|]. simpl in Q.
      destruct (decide (unlocked q s)) as [U|U].
      + exists (Advance τ 0%Z). simpl. rewrite E. simpl. rewrite Q, decide_True by done. destruct (decide _); eauto.
      + unfold unlocked in U. destruct (st_task s (TQueue q)) as [t'|] eqn:E'; [|done]. clear U.
        destruct (decide (idle t')) as [[P1 P2]|N'].
        { exists (Return q). simpl. rewrite E'. destruct t' as [y ph' ops']; simpl in *. subst. eauto. }
        destruct (A_que _ _ s I q t' E') as (Sv&_&_). pose proof (who_leaf code f Wf Wt Calls s _ _ I E) as X. simpl in X.
        apply (oq_feeds f Wf) in Q; [|done].
        assert (IQueue q ∈ r) as Hq.
        { pose proof (before_left _ _ _ d _ (feeds_before f _ _ Wf Q) Hd ltac:(left)) as Z. by apply elem_of_cons in Z as [?|?]. }
        assert (IBlock (t_who t') ∈ r) as Hy.
        { eapply (before_left _ _ _ (d ++ [IBlock x])); [exact (served_before f _ _ Wf Sv)|by rewrite <-app_assoc|done]. }
        apply elem_of_list_split in Hy as (r1&r2&->).
        eapply (IH (length r2)); [|exact E'|exact N'| |done].
        * rewrite Hn, app_length. simpl. lia.
        * rewrite Hd. instantiate (1 := d ++ IBlock x :: r1). by rewrite <-app_assoc.
  Qed.

  Lemma queue_moves s q t : Inv s → st_task s (TQueue q) = Some t → can_step s.
  Proof.
    intros I E. destruct (decide (idle t)) as [[P1 P2]|N]; [|by eapply task_moves].
    exists (Return q). simpl. rewrite E. destruct t as [y ph ops]; simpl in *. subst. eauto.
  Qed.

  Lemma progress s : Inv s → ¬ finished s → can_step s.
  Proof.
    intros I F. destruct (st_joining s) eqn:J; [|exists Join; simpl; rewrite J; eauto].
    destruct (st_left s) as [|i r] eqn:L; [by destruct F|].
    destruct (st_task s TJoin) as [t|] eqn:E.
    - destruct (decide (idle t)) as [[P1 P2]|N]; [|by eapply task_moves].
      destruct (A_join _ _ s I t E) as (_&r'&R&_). rewrite L in R. injection R as -> ->.
      exists Destroy. simpl. rewrite J, L, E. destruct t as [y ph ops]; simpl in *. subst. eauto.
    - destruct i as [b|q].
      + destruct (st_task s (TSource b)) as [t|] eqn:E2.
        * destruct (decide (idle t)) as [[P1 P2]|N]; [|by eapply task_moves].
          exists Destroy. simpl. rewrite J, L, E, E2. destruct t as [y ph ops]; simpl in *. subst. eauto.
        * exists Destroy. simpl. rewrite J, L, E, E2. eauto.
      + destruct (st_task s (TQueue q)) as [t|] eqn:E2; [by eapply queue_moves|].
        assert (q ∈ queues f) as Q.
        { destruct (A_left _ _ s I) as [d D]. apply teardown_queue. rewrite D, L. set_solver. }
        assert (IQueue q ∈ st_left s) as Lq by (rewrite L; left).
        destruct (qlist s q) as [|e l] eqn:Hl.
        * pose proof (C_count _ _ s I q Q) as C. rewrite Hl in C. unfold busy in C. rewrite E2 in C. simpl in C.
          destruct (decide (inphases f q s = 0)) as [Z|Z].
          -- exists Destroy. simpl. rewrite J, L, E.
             rewrite decide_True by (split; [unfold processed_everything; lia|done]). eauto.
          -- assert (∃ τ, τ ∈ tids f ∧ inphase f q (st_task s τ) ≠ 0) as (τ&_&Hτ).
             { revert Z. unfold inphases. clear. induction (tids f) as [|a l IH]; [done|]. rewrite fmap_cons. simpl. intros Z.
               destruct (decide (inphase f q (st_task s a) = 0)) as [Y|Y].
               - rewrite Y in Z. destruct IH as (τ&?&?); [done|]. exists τ. split; [by right|done].
               - exists a. split; [left|done]. }
             destruct (st_task s τ) as [t|] eqn:Et; [|done].
             apply (task_moves s τ t I Et). intros [P1 P2]. unfold inphase in Hτ. rewrite P1 in Hτ. simpl in Hτ.
             by destruct (decide _).
        * assert (e ∈ qlist s q) as He by (rewrite Hl; left).
          destruct (A_route _ _ s I q e He) as (_&Hx&Ho&Hty). destruct (e_body e) as [x m] eqn:Eb. simpl in *.
          apply (oq_feeds f Wf) in Ho; [|done].
          destruct (feeds_typed code f x q _ Wt Ho Hty) as (y&Sv&Hy).
          assert (consumer_block code f q (m_type m) = Some y) as C by (by apply consumer_block_spec).
          exists (Consume q). unfold step. rewrite decide_True by (split; [done|exact E2]). simpl.
          rewrite (A_live _ _ s I q Q Lq). unfold qlist in Hl. rewrite Hl.
          rewrite decide_True by (apply (B_le _ _ s I q e He)). rewrite Eb, C. eauto.
  Qed.
End Ends.

(** ** Termination *)
Lemma acc_lex {K A} (l : list K) (μ : A → K → nat * nat) (R : A → A → Prop) :
  (∀ a b, R a b → ∃ l1 i l2, l = l1 ++ i :: l2 ∧ (∀ j, j ∈ l1 → μ a j = μ b j) ∧
    ((μ a i).1 < (μ b i).1 ∨ (μ a i).1 = (μ b i).1 ∧ (μ a i).2 < (μ b i).2)) → ∀ a, Acc R a.
Proof.
  revert R. induction l as [|i l IH]; intros R HR.
  - intros a. constructor. intros b Hb. apply HR in Hb as (l1&i&l2&E&_). by destruct l1.
  - assert (∀ a, Acc (λ a b, R a b ∧ μ a i = μ b i) a) as Hacc.
    { apply IH. intros a b [Hab Eq]. destruct (HR a b Hab) as (l1&k&l2&E&Hl&Hk). destruct l1 as [|c l1].
      - injection E as <- <-. rewrite Eq in Hk. lia.
      - injection E as <- ->. exists l1, k, l2. split; [done|]. split; [|done]. intros j Hj. apply Hl. by right. }
    assert (∀ n m a, μ a i = (n, m) → Acc R a) as H.
    { intros n. induction n as [n IHn] using lt_wf_ind. intros m. induction m as [m IHm] using lt_wf_ind.
      intros a. induction (Hacc a) as [a _ IHa]. intros Ea. constructor. intros b Hb.
      destruct (decide (μ b i = μ a i)) as [Eq|Ne]; [apply IHa; [done|by rewrite Eq]|].
      destruct (HR b a Hb) as (l1&k&l2&E&Hl&Hk). destruct l1 as [|c l1].
      - injection E as <- <-. rewrite Ea in Hk. destruct (μ b i) as [n' m'] eqn:Eb. simpl in Hk.
        destruct Hk as [Hk|[-> Hk]]; [by eapply IHn|by eapply IHm].
      - injection E as <- ->. destruct Ne. apply Hl. left. }
    intros a. destruct (μ a i) as [n m] eqn:E. by eapply H.
Qed.
