(** * Proofs about RipCurrent: the run *)
From stdpp Require Import list sets.
From Coq Require Import ZArith Lia Sorting.Sorted.
From Verif Require Import MMQ_Model RipCurrent_Model RipCurrent_Spec RipCurrent_Proofs.

Section Dyn.
  Context {B : Type} (code : nat → block B) (f : flow).
  Context (Wf : wf f) (Wt : well_typed code f).
  Notation state := (state B). Notation task := (task B). Notation event := (event B).
  Notation oq := (out_queue f None).
  Implicit Types (s : state) (τ : tid).

  Definition qlist s q := queue (rq_pq (st_queue s q)).
  Definition qhead s q : Z := (pq_last (rq_pq (st_queue s q))).2.
  Definition call_ok (x : nat) (o : op B) : Prop :=
    ¬ is_schedule o ∧ ∀ m, message_of o = Some m → m_type m ∈ b_outs (code x).
  Context (Calls : ∀ x, x ∈ leaves f → all_calls code (call_ok x) x).

  Definition idle (t : task) : Prop := t_phase t = Ready ∧ t_ops t = [].
  Definition phase_msg (ph : phase B) : option (msg B) :=
    match ph with Calling _ m | Publishing _ m | Refusing m => Some m | _ => None end.
  Definition inphase (q : nat) (t : option task) : nat :=
    match t with
    | Some t => if decide (oq (t_who t) = Some q) then match phase_msg (t_phase t) with Some _ => 1 | None => 0 end else 0
    | None => 0
    end.
  Definition tids : list tid := TJoin :: (TSource <$> leaves f) ++ (TQueue <$> queues f).
  Definition inphases (q : nat) s : nat := sum_list ((λ τ, inphase q (st_task s τ)) <$> tids).
  Definition busy (q : nat) s : nat := match st_task s (TQueue q) with Some _ => 1 | None => 0 end.

  Record Inv s : Prop := {
    A_left : ∃ d, teardown f = d ++ st_left s;
    A_nojoin : st_joining s = false → st_left s = teardown f;
    A_src : ∀ b t, st_task s (TSource b) = Some t → t_who t = b ∧ b ∈ leaves f ∧ b_ins (code b) = [];
    A_alive : ∀ τ t, st_task s τ = Some t → idle t ∨ IBlock (t_who t) ∈ st_left s;
    A_que : ∀ q t, st_task s (TQueue q) = Some t →
      served f q (t_who t) ∧ b_ins (code (t_who t)) ≠ [] ∧ IQueue q ∈ st_left s;
    A_join : ∀ t, st_task s TJoin = Some t → st_joining s = true ∧ ∃ r, st_left s = IBlock (t_who t) :: r ∧
      ∀ t', st_task s (TSource (t_who t)) = Some t' → idle t';
    A_ops : ∀ τ t, st_task s τ = Some t → Forall (call_ok (t_who t)) (t_ops t) ∧
      ∀ m, phase_msg (t_phase t) = Some m → m_type m ∈ b_outs (code (t_who t));
    A_phase : ∀ τ t, st_task s τ = Some t → t_phase t ≠ Ready → ∃ q, oq (t_who t) = Some q;
    A_dead : ∀ q, q ∈ queues f → IQueue q ∉ st_left s → qlist s q = [];
    A_live : ∀ q, q ∈ queues f → IQueue q ∈ st_left s → pq_destructing (rq_pq (st_queue s q)) = false;
    A_route : ∀ q e, e ∈ qlist s q → q ∈ queues f ∧ (e_body e).1 ∈ leaves f ∧ oq (e_body e).1 = Some q ∧
      m_type (e_body e).2 ∈ b_outs (code (e_body e).1);
    B_le : ∀ q e, e ∈ qlist s q → (e_us e ≤ qhead s q)%Z;
    B_sorted : ∀ q, StronglySorted (λ a b, (e_us a < e_us b)%Z) (qlist s q);
    B_pub : ∀ τ x t m ops q, st_task s τ = Some (Task x (Publishing t m) ops) → oq x = Some q →
      (t ≤ qhead s q)%Z ∧ ∀ e, e ∈ qlist s q → e_us e ≠ t ∧ ((e_body e).1 = x → (e_us e < t)%Z);
    B_pub2 : ∀ τ1 τ2 x1 x2 t m1 m2 o1 o2 q, st_task s τ1 = Some (Task x1 (Publishing t m1) o1) →
      st_task s τ2 = Some (Task x2 (Publishing t m2) o2) → oq x1 = Some q → oq x2 = Some q → τ1 = τ2;
    C_count : ∀ q, q ∈ queues f → rq_called (st_queue s q) =
      rq_processed (st_queue s q) + rq_refused (st_queue s q) + length (qlist s q) + busy q s + inphases q s }.

  (** ** Steps, spelled out (for blocks that do not schedule) *)
  Inductive Step s : list event → state → Prop :=
  | SCallNone τ x o ops : st_task s τ = Some (Task x Ready (o :: ops)) → oq x = None →
      Step s [Issued x o] (set_task τ (Some (Task x Ready ops)) s)
  | SCall τ x o m t c ops q : st_task s τ = Some (Task x Ready (o :: ops)) → oq x = Some q →
      message_of o = Some m → (st_clock s ≤ c)%Z → (is_emit o → t = c ∧ (st_clock s < c)%Z) →
      Step s [Issued x o] (set_task τ (Some (Task x (Calling t m) ops))
        (set_clock c (set_queue q (report_called (st_queue s q)) s)))
  | SCallHead τ x t ops q : st_task s τ = Some (Task x Ready (Head t :: ops)) → oq x = Some q →
      Step s [Issued x (Head t)] (set_task τ (Some (Task x (Heading t) ops)) s)
  | SHead τ x t m ops q : st_task s τ = Some (Task x (Calling t m) ops) → oq x = Some q → unlocked q s →
      (qhead s q < t)%Z →
      Step s [] (set_task τ (Some (Task x (Publishing t m) ops)) (set_queue q (with_pq (st_queue s q)
        (MMPQ (qlist s q) ((pq_last (rq_pq (st_queue s q))).1, t) (pq_destructing (rq_pq (st_queue s q))))) s))
  | SHeadRefused τ x t m ops q : st_task s τ = Some (Task x (Calling t m) ops) → oq x = Some q → unlocked q s →
      (t ≤ qhead s q)%Z →
      Step s [Refused x m] (set_task τ (Some (Task x (Refusing m) ops)) s)
  | SPublish τ x t m ops q : st_task s τ = Some (Task x (Publishing t m) ops) → oq x = Some q → unlocked q s →
      Step s [Sent x m] (set_task τ (Some (Task x Ready ops)) (set_queue q (with_pq (st_queue s q)
        (MMPQ (emplace (Entry (S (pq_last (rq_pq (st_queue s q))).1) t (x, m)) (qlist s q))
           (S (pq_last (rq_pq (st_queue s q))).1, qhead s q) (pq_destructing (rq_pq (st_queue s q))))) s))
  | SRefused τ x m ops q : st_task s τ = Some (Task x (Refusing m) ops) → oq x = Some q →
      Step s [] (set_task τ (Some (Task x Ready ops)) (set_queue q (report_refused (st_queue s q)) s))
  | SHeading τ x t ops q : st_task s τ = Some (Task x (Heading t) ops) → oq x = Some q → unlocked q s →
      (qhead s q < t)%Z →
      Step s [] (set_task τ (Some (Task x Ready ops)) (set_queue q (with_pq (st_queue s q)
        (MMPQ (qlist s q) ((pq_last (rq_pq (st_queue s q))).1, t) (pq_destructing (rq_pq (st_queue s q))))) s))
  | SHeadingRefused τ x t ops q : st_task s τ = Some (Task x (Heading t) ops) → oq x = Some q → unlocked q s →
      (t ≤ qhead s q)%Z →
      Step s [HeadRefused x] (set_task τ (Some (Task x Ready ops)) s)
  | SConsume q e x m rest y : q ∈ queues f → unlocked q s → pq_destructing (rq_pq (st_queue s q)) = false →
      qlist s q = e :: rest → (e_us e ≤ qhead s q)%Z → e_body e = (x, m) →
      consumer_block code f q (m_type m) = Some y →
      Step s [Received y x m]
        (St (st_clock s) (upd (st_queue s) q (with_pq (st_queue s q)
               (MMPQ rest (pq_last (rq_pq (st_queue s q))) (pq_destructing (rq_pq (st_queue s q))))))
            (λ τ, if tid_eqb τ (TQueue q) then Some (Task y Ready (b_react (code y) (st_hist s y) m)) else st_task s τ)
            (upd (st_hist s) y (st_hist s y ++ [m])) (st_joining s) (st_left s))
  | SReturn q x : st_task s (TQueue q) = Some (Task x Ready []) →
      Step s [] (set_task (TQueue q) None (set_queue q (report_processed (st_queue s q)) s))
  | SJoin : st_joining s = false →
      Step s [] (St (st_clock s) (st_queue s) (st_task s) (st_hist s) true (st_left s))
  | SFinish b rest : st_joining s = true → st_left s = IBlock b :: rest → st_task s TJoin = None →
      (∀ t, st_task s (TSource b) = Some t → idle t) →
      Step s [] (set_task TJoin (Some (Task b Ready (b_finish (code b) (st_hist s b)))) s)
  | SGone b rest x : st_joining s = true → st_left s = IBlock b :: rest → st_task s TJoin = Some (Task x Ready []) →
      Step s [Destroyed (IBlock b)] (set_left rest (set_task TJoin None s))
  | SQueueGone q rest : st_joining s = true → st_left s = IQueue q :: rest → st_task s TJoin = None →
      processed_everything (st_queue s q) → unlocked q s →
      Step s [Destroyed (IQueue q)] (set_left rest (set_queue q (with_pq (st_queue s q)
        (MMPQ (qlist s q) (pq_last (rq_pq (st_queue s q))) true)) s)).

  Lemma step_Step l s tr s' : Inv s → step code f l s = Some (tr, s') → Step s tr s'.
  Proof.
    intros I. destruct l as [τ now|q|q| |]; simpl.
    - destruct (st_task s τ) as [[x ph ops]|] eqn:E; [|done].
      pose proof (A_ops s I τ _ E) as [O _]. simpl in O.
      destruct ph as [|t m|t m|m|t]; simpl.
      + destruct ops as [|o ops]; [done|]. apply Forall_cons in O as [[O _] _].
        destruct (oq x) as [q|] eqn:Q; [|intros [= <- <-]; by eapply SCallNone].
        destruct o as [m|t m|t m|t]; simpl.
        * destruct (decide _) as [D|D]; [|done]. intros [= <- <-]. eapply SCall; eauto; [lia].
        * intros [= <- <-].
          replace (set_queue q _ s) with (set_clock (st_clock s) (set_queue q (report_called (st_queue s q)) s)) by done.
          eapply SCall; eauto; [lia|by intros []].
        * by destruct O.
        * intros [= <- <-]. by eapply SCallHead.
      + destruct (oq x) as [q|] eqn:Q; [|done]. destruct (decide (unlocked q s)) as [U|]; [|done].
        destruct (decide _) as [D|D]; intros [= <- <-]; [eapply SHead|eapply SHeadRefused]; eauto; unfold qhead; lia.
      + destruct (oq x) as [q|] eqn:Q; [|done]. destruct (decide (unlocked q s)) as [U|]; [|done].
        intros [= <- <-]. by eapply SPublish.
      + destruct (oq x) as [q|] eqn:Q; [|done]. intros [= <- <-]. by eapply SRefused.
      + destruct (oq x) as [q|] eqn:Q; [|done]. destruct (decide (unlocked q s)) as [U|]; [|done].
        destruct (decide _) as [D|D]; intros [= <- <-]; [eapply SHeading|eapply SHeadingRefused]; eauto; unfold qhead; lia.
    - destruct (decide _) as [[Q U]|]; [|done].
      destruct (pq_destructing _) eqn:D; [done|].
      destruct (queue (rq_pq (st_queue s q))) as [|e rest] eqn:L; [done|].
      destruct (decide _) as [H|]; [|done]. destruct (e_body e) as [x m] eqn:E.
      destruct (consumer_block _ _ _ _) as [y|] eqn:C; [|done]. intros [= <- <-].
      rewrite <-D. by eapply SConsume.
    - destruct (st_task s (TQueue q)) as [[x [| | | |] [|]]|] eqn:E; try done. intros [= <- <-]. by eapply SReturn.
    - destruct (st_joining s) eqn:J; [done|]. intros [= <- <-]. by eapply SJoin.
    - destruct (st_joining s) eqn:J; [|done].
      destruct (st_left s) as [|[b|q] rest] eqn:L; [done| |].
      + destruct (st_task s TJoin) as [[x [| | | |] [|]]|] eqn:E; try done.
        * intros [= <- <-]. by eapply SGone.
        * destruct (st_task s (TSource b)) as [[x [| | | |] [|]]|] eqn:E2; try done;
            intros [= <- <-]; eapply SFinish; eauto; rewrite E2; [intros ? [= <-]; done|done].
      + destruct (st_task s TJoin) eqn:E; [done|]. destruct (decide _) as [[P U]|]; [|done].
        intros [= <- <-]. by eapply SQueueGone.
  Qed.

  (** ** Bookkeeping *)
  Lemma tid_eqb_spec τ τ' : tid_eqb τ τ' = bool_decide (τ = τ').
  Proof.
    destruct τ, τ'; unfold tid_eqb; repeat case_bool_decide; congruence.
  Qed.
  Lemma set_task_eq s τ o : st_task (set_task τ o s) τ = o.
  Proof. simpl. by rewrite tid_eqb_spec, bool_decide_eq_true_2. Qed.
  Lemma set_task_ne s τ o τ' : τ' ≠ τ → st_task (set_task τ o s) τ' = st_task s τ'.
  Proof. intros. simpl. by rewrite tid_eqb_spec, bool_decide_eq_false_2. Qed.
  Lemma upd_eq {A} (g : nat → A) k v : upd g k v k = v.
  Proof. unfold upd. by rewrite decide_True. Qed.
  Lemma upd_ne {A} (g : nat → A) k v x : x ≠ k → upd g k v x = g x.
  Proof. unfold upd. intros. by rewrite decide_False. Qed.

  Lemma tids_NoDup : NoDup tids.
  Proof.
    destruct Wf as [W1 W2]. apply NoDup_cons. split.
    - intros [H|H]%elem_of_app; apply elem_of_list_fmap in H as (?&?&_); done.
    - apply NoDup_app. split; [by apply NoDup_fmap_2; [intros ?? [=]|]|].
      split; [|by apply NoDup_fmap_2; [intros ?? [=]|]].
      intros τ H1 H2. apply elem_of_list_fmap in H1 as (?&->&_). apply elem_of_list_fmap in H2 as (?&?&_). done.
  Qed.
  Lemma sum_change (g h : tid → nat) τ l : NoDup l → τ ∈ l → (∀ x, x ≠ τ → g x = h x) →
    sum_list (g <$> l) + h τ = sum_list (h <$> l) + g τ.
  Proof.
    intros N E K. induction l as [|a l IH]; [set_solver|]. apply NoDup_cons in N as [N1 N2].
    simpl. apply elem_of_cons in E as [->|E].
    - assert (sum_list (g <$> l) = sum_list (h <$> l)) as Q; [|unfold fmap in *; lia].
      f_equal. apply list_fmap_ext. intros i x X. apply K. intros ->. apply N1. by eapply elem_of_list_lookup_2.
    - specialize (IH N2 E). rewrite (K a) by (intros ->; done). unfold fmap in *. lia.
  Qed.
  Lemma active_tid s τ t : Inv s → st_task s τ = Some t → τ ∈ tids.
  Proof.
    intros I E. unfold tids. destruct τ as [b|q|]; [| |set_solver].
    - destruct (A_src s I b t E) as (_&?&_). right. apply elem_of_app. left. by apply elem_of_list_fmap_1.
    - destruct (A_que s I q t E) as (S&_). right. apply elem_of_app. right. apply elem_of_list_fmap_1.
      by apply served_in in S as [? _].
  Qed.
  (** Replacing the task of a known thread. *)
  Lemma inphases_set q τ o s s' : τ ∈ tids → (∀ τ', τ' ≠ τ → st_task s' τ' = st_task s τ') → st_task s' τ = o →
    inphases q s' + inphase q (st_task s τ) = inphases q s + inphase q o.
  Proof.
    intros T K E. unfold inphases. rewrite <-E. apply (sum_change (λ τ, inphase q (st_task s' τ)) (λ τ, inphase q (st_task s τ)));
      [apply tids_NoDup|done|]. intros x X. by rewrite K.
  Qed.

  Lemma who_leaf s τ t : Inv s → st_task s τ = Some t → t_who t ∈ leaves f.
  Proof.
    intros I E. destruct τ as [b|q|].
    - by destruct (A_src s I b t E) as (->&?&_).
    - destruct (A_que s I q t E) as (S&_). by apply served_in in S as [_ ?].
    - destruct (A_join s I t E) as (_&r&L&_). destruct (A_left s I) as [d D].
      apply teardown_block. rewrite D, L. set_solver.
  Qed.
  (** At most one thread is at work for a block. *)
  Lemma unique s τ1 τ2 t1 t2 : Inv s → st_task s τ1 = Some t1 → st_task s τ2 = Some t2 →
    t_who t1 = t_who t2 → ¬ idle t1 → ¬ idle t2 → τ1 = τ2.
  Proof.
    intros I E1 E2 W N1 N2. destruct (decide (τ1 = τ2)) as [|D]; [done|]. exfalso.
    assert (∀ q t, st_task s (TQueue q) = Some t → ∀ t', st_task s TJoin = Some t' → t_who t = t_who t' → False) as QJ.
    { intros q t E t' E' W'. destruct (A_que s I q t E) as (S&_&L). destruct (A_join s I t' E') as (_&r&R&_).
      destruct (A_left s I) as [d Dd]. rewrite R in *. rewrite W' in S.
      by refine (before_head _ _ _ d r (teardown_NoDup f Wf) (served_before f _ _ Wf S) _ L). }
    assert (∀ b t, st_task s (TSource b) = Some t → ∀ q t', st_task s (TQueue q) = Some t' → t_who t = t_who t' → False) as SQ.
    { intros b t E q t' E' W'. destruct (A_que s I q t' E') as (_&X&_). destruct (A_src s I b t E) as (Y&_&Z).
      rewrite <-W', Y in X. done. }
    destruct τ1 as [b1|q1|], τ2 as [b2|q2|]; try done.
    - destruct (A_src s I b1 t1 E1) as (X1&_). destruct (A_src s I b2 t2 E2) as (X2&_). congruence.
    - by eapply SQ.
    - destruct (A_join s I t2 E2) as (_&r&R&F). apply N1. apply F. destruct (A_src s I b1 t1 E1) as (X1&_).
      by rewrite <-W, X1.
    - by eapply (SQ b2 t2 E2 q1 t1).
    - destruct (A_que s I _ _ E1) as (S1&_). destruct (A_que s I _ _ E2) as (S2&_). rewrite W in S1.
      pose proof (served_unique _ _ _ _ Wf S1 S2). congruence.
    - by eapply QJ.
    - destruct (A_join s I t1 E1) as (_&r&R&F). apply N2. apply F. destruct (A_src s I b2 t2 E2) as (X1&_).
      by rewrite W, X1.
    - by eapply (QJ q2 t2 E2 t1 E1).
  Qed.
  Lemma oq_feeds x q : x ∈ leaves f → oq x = Some q ↔ feeds f x q.
  Proof. intros X. rewrite (out_queue_spec f None x q Wf X). split; [intros [?|[_ ?]]; done|tauto]. Qed.
  (** A thread at work is at work on live objects. *)
  Lemma alive_out s τ t q : Inv s → st_task s τ = Some t → ¬ idle t → oq (t_who t) = Some q →
    q ∈ queues f ∧ IQueue q ∈ st_left s ∧ IBlock (t_who t) ∈ st_left s.
  Proof.
    intros I E N Q. pose proof (who_leaf s τ t I E) as X. apply oq_feeds in Q; [|done].
    destruct (A_alive s I τ t E) as [?|L]; [done|]. destruct (A_left s I) as [d D].
    pose proof (feeds_in _ _ _ Q) as [_ ?]. split; [done|]. split; [|done].
    eapply before_left; [exact (feeds_before f _ _ Wf Q)|exact D|done].
  Qed.

  Lemma busy_adv s s' τ t t' q : (∀ τ', τ' ≠ τ → st_task s' τ' = st_task s τ') → st_task s τ = Some t →
    st_task s' τ = Some t' → busy q s' = busy q s.
  Proof.
    intros K E E'. unfold busy. destruct (decide (TQueue q = τ)) as [<-|N]; [by rewrite E, E'|by rewrite K].
  Qed.

  Lemma inv_adv s s' τ x ph ops ph' ops' : Inv s →
    st_task s τ = Some (Task x ph ops) → ¬ idle (Task x ph ops) →
    (∀ τ', τ' ≠ τ → st_task s' τ' = st_task s τ') → st_task s' τ = Some (Task x ph' ops') →
    st_left s' = st_left s → st_joining s' = st_joining s →
    Forall (call_ok x) ops' → (∀ m, phase_msg ph' = Some m → m_type m ∈ b_outs (code x)) →
    (ph' ≠ Ready → ∃ q, oq x = Some q) →
    (∀ q, oq x ≠ Some q → st_queue s' q = st_queue s q) →
    (∀ q, oq x = Some q → IQueue q ∈ st_left s →
      pq_destructing (rq_pq (st_queue s' q)) = pq_destructing (rq_pq (st_queue s q)) ∧
      (qhead s q ≤ qhead s' q)%Z ∧
      (∀ e, e ∈ qlist s' q → e ∈ qlist s q ∨ ∃ t m, ph = Publishing t m ∧ e_us e = t ∧ e_body e = (x, m)) ∧
      StronglySorted (λ a b, (e_us a < e_us b)%Z) (qlist s' q) ∧
      (∀ t m, ph' = Publishing t m → (qhead s q < t ∧ qhead s' q = t)%Z) ∧
      rq_called (st_queue s' q) + (rq_processed (st_queue s q) + rq_refused (st_queue s q) + length (qlist s q)
        + inphase q (Some (Task x ph ops))) =
      rq_called (st_queue s q) + (rq_processed (st_queue s' q) + rq_refused (st_queue s' q) + length (qlist s' q)
        + inphase q (Some (Task x ph' ops')))) → Inv s'.
  Proof.
    intros I E N K E' L J O M P Q1 Q2.
    pose proof (who_leaf s τ _ I E) as X. simpl in X.
    assert (∀ τ' t', st_task s' τ' = Some t' → ∃ t0, st_task s τ' = Some t0 ∧ t_who t0 = t_who t' ∧ (τ' ≠ τ → t0 = t')) as W.
    { intros τ' t' T. destruct (decide (τ' = τ)) as [->|D].
      - rewrite E' in T. injection T as <-. eexists. split; [exact E|]. done.
      - exists t'. rewrite K in T by done. done. }
    assert (∀ q, oq x = Some q → q ∈ queues f ∧ IQueue q ∈ st_left s) as Live.
    { intros q Hq. edestruct (alive_out s τ _ q I E N Hq) as (?&?&?). done. }
    assert (∀ q, (qhead s q ≤ qhead s' q)%Z) as Hmono.
    { intros q. destruct (decide (oq x = Some q)) as [D|D]; [by apply Q2, Live|]. unfold qhead. rewrite Q1; [lia|done]. }
    constructor.
    - rewrite L. apply I.
    - rewrite L, J. apply I.
    - intros b t T. destruct (W _ _ T) as (t0&T0&W0&_). rewrite <-W0. eapply A_src; eauto.
    - intros τ' t T. destruct (decide (τ' = τ)) as [->|D].
      + rewrite E' in T. injection T as <-. right. simpl. rewrite L. by destruct (A_alive s I τ _ E) as [?|?].
      + rewrite K in T by done. rewrite L. by eapply A_alive.
    - intros q t T. destruct (W _ _ T) as (t0&T0&W0&_). rewrite <-W0, L. eapply A_que; eauto.
    - intros t T. destruct (W _ _ T) as (t0&T0&W0&_). rewrite <-W0, L, J.
      destruct (A_join s I _ T0) as (J0&r&R&S). split; [done|]. exists r. split; [done|].
      intros t' T'. destruct (decide (TSource (t_who t0) = τ)) as [<-|D]; [|rewrite K in T' by done; by apply S].
      by apply S in E.
    - intros τ' t T. destruct (decide (τ' = τ)) as [->|D].
      + rewrite E' in T. injection T as <-. done.
      + rewrite K in T by done. by eapply A_ops.
    - intros τ' t T. destruct (decide (τ' = τ)) as [->|D].
      + rewrite E' in T. injection T as <-. done.
      + rewrite K in T by done. by eapply A_phase.
    - intros q Hq D. rewrite L in D. destruct (decide (oq x = Some q)) as [C|C]; [by destruct (Live q C)|].
      unfold qlist. rewrite Q1 by done. by eapply A_dead.
    - intros q Hq D. rewrite L in D. destruct (decide (oq x = Some q)) as [C|C].
      + destruct (Q2 q C D) as (->&_). by apply A_live.
      + rewrite Q1 by done. by apply A_live.
    - intros q e H. destruct (decide (oq x = Some q)) as [C|C].
      + destruct (Live q C) as [L1 L2]. destruct (Q2 q C L2) as (_&_&Hin&_).
        destruct (Hin e H) as [H'|(t&m&->&_&Hb)]; [by apply (A_route s I)|].
        rewrite Hb. simpl. split; [done|]. split; [done|]. split; [done|]. apply (A_ops s I τ _ E). done.
      + apply (A_route s I). unfold qlist in *. by rewrite Q1 in H.
    - intros q e H. destruct (decide (oq x = Some q)) as [C|C].
      + destruct (Live q C) as [L1 L2]. destruct (Q2 q C L2) as (_&Hle&Hin&_).
        destruct (Hin e H) as [H'|(t&m&->&->&Hb)].
        * etrans; [by apply (B_le s I)|done].
        * etrans; [apply (B_pub s I _ _ _ _ _ _ E C)|done].
      + unfold qlist, qhead in *. rewrite Q1 in * by done. by apply (B_le s I).
    - intros q. destruct (decide (oq x = Some q)) as [C|C].
      + destruct (Live q C) as [L1 L2]. apply (Q2 q C L2).
      + unfold qlist. rewrite Q1 by done. apply I.
    - intros τ' x' t m o q T C. destruct (decide (τ' = τ)) as [->|D].
      + rewrite E' in T. injection T as -> -> ->. destruct (Live q C) as [L1 L2].
        destruct (Q2 q C L2) as (_&Hle&Hin&_&Hph&_). destruct (Hph _ _ eq_refl) as [H1 H2].
        split; [lia|]. intros e He. assert (e_us e < t)%Z; [|lia].
        destruct (Hin e He) as [H'|(t0&m0&Hp&->&_)].
        * pose proof (B_le s I q e H'). lia.
        * subst ph. pose proof (B_pub s I _ _ _ _ _ _ E C) as [? _]. lia.
      + rewrite K in T by done. destruct (B_pub s I _ _ _ _ _ _ T C) as [H1 H2].
        split; [etrans; [done|apply Hmono]|]. intros e He.
        destruct (decide (oq x = Some q)) as [C'|C'].
        * destruct (Live q C') as [L1 L2]. destruct (Q2 q C' L2) as (_&_&Hin&_).
          destruct (Hin e He) as [H'|(t0&m0&->&->&Hb)]; [by apply H2|]. split.
          -- intros ->. apply D. by eapply (B_pub2 s I).
          -- rewrite Hb. simpl. intros <-. destruct D. eapply (unique s); [done|exact T|exact E|done|intros [??]; done|done].
        * unfold qlist in He. rewrite Q1 in He by done. by apply H2.
    - assert (∀ τ2 x2 t m1 m2 o2 q, ph' = Publishing t m1 → τ2 ≠ τ → oq x = Some q → oq x2 = Some q →
        st_task s τ2 = Some (Task x2 (Publishing t m2) o2) → False) as Hx.
      { intros τ2 x2 t m1 m2 o2 q Hp D C C2 T. destruct (Live q C) as [L1 L2].
        destruct (Q2 q C L2) as (_&Hle&Hin&_&Hph&_). destruct (Hph _ _ Hp) as [H1 H2].
        pose proof (B_pub s I _ _ _ _ _ _ T C2) as [? _]. lia. }
      intros τ1 τ2 x1 x2 t m1 m2 o1 o2 q T1 T2 C1 C2.
      destruct (decide (τ1 = τ)) as [->|D1], (decide (τ2 = τ)) as [->|D2]; [done| | |].
      + rewrite E' in T1. injection T1 as -> -> ->. rewrite K in T2 by done. exfalso. exact (Hx _ _ _ _ _ _ _ eq_refl D2 C1 C2 T2).
      + rewrite E' in T2. injection T2 as -> -> ->. rewrite K in T1 by done. exfalso. exact (Hx _ _ _ _ _ _ _ eq_refl D1 C2 C1 T1).
      + rewrite K in T1, T2 by done. by eapply (B_pub2 s I).
    - intros q Hq. rewrite (busy_adv s s' τ _ _ q K E E').
      pose proof (inphases_set q τ _ s s' (active_tid s τ _ I E) K E') as Hs. rewrite E in Hs.
      pose proof (C_count s I q Hq) as Hc.
      destruct (decide (oq x = Some q)) as [C|C].
      + destruct (Live q C) as [L1 L2]. destruct (Q2 q C L2) as (_&_&_&_&_&H). lia.
      + assert (∀ a b, inphase q (Some (Task x a b)) = 0) as Z by (intros; simpl; by rewrite decide_False).
        rewrite !Z in Hs. unfold qlist in *. rewrite Q1 by done. lia.
  Qed.

  Lemma emplace_in {A} (e : entry A) l x : x ∈ emplace e l → x = e ∨ x ∈ l.
  Proof.
    induction l as [|a l IH]; simpl; [set_solver|]. repeat case_decide; set_solver.
  Qed.
  Lemma emplace_fresh {A} (e : entry A) l : (∀ x, x ∈ l → e_us x ≠ e_us e) →
    StronglySorted (λ a b, (e_us a < e_us b)%Z) l →
    length (emplace e l) = S (length l) ∧ e ∈ emplace e l ∧ (∀ x, x ∈ l → x ∈ emplace e l) ∧
    StronglySorted (λ a b, (e_us a < e_us b)%Z) (emplace e l).
  Proof.
    induction l as [|a l IH]; simpl; intros N S.
    - split; [done|]. split; [set_solver|]. split; [set_solver|]. by repeat constructor.
    - inversion S as [|?? S1 S2]; subst. case_decide as D1; [|case_decide as D2].
      + split; [done|]. split; [set_solver|]. split; [set_solver|]. constructor; [done|].
        constructor; [done|]. eapply Forall_impl; [exact S2|]. simpl. intros. lia.
      + destruct IH as (I1&I2&I3&I4); [set_solver|done|]. simpl. rewrite I1. split; [done|].
        split; [set_solver|]. split; [set_solver|]. constructor; [done|]. apply Forall_forall. intros x X.
        apply emplace_in in X as [->|X]; [done|]. rewrite Forall_forall in S2. auto.
      + exfalso. apply (N a); [set_solver|]. lia.
  Qed.

  Lemma inphase_at q x ph ops : oq x = Some q →
    inphase q (Some (Task x ph ops)) = match phase_msg ph with Some _ => 1 | None => 0 end.
  Proof. intros Q. simpl. by rewrite decide_True. Qed.

  Lemma inphases_zero q s : inphases q s = 0 → ∀ τ t, Inv s → st_task s τ = Some t → oq (t_who t) = Some q →
    phase_msg (t_phase t) = None.
  Proof.
    unfold inphases. intros Z τ t I E Q. pose proof (active_tid s τ t I E) as T.
    induction tids as [|a l IH]; [set_solver|]. simpl in Z. apply elem_of_cons in T as [<-|T].
    - rewrite E in Z. simpl in Z. rewrite decide_True in Z by done. destruct (phase_msg (t_phase t)); [lia|done].
    - apply IH; [unfold fmap in *; lia|done].
  Qed.

  Lemma inv_init : Inv (initial code f).
  Proof.
    assert (∀ τ t, st_task (initial code f) τ = Some t →
      ∃ b, τ = TSource b ∧ b ∈ leaves f ∧ b_ins (code b) = [] ∧ t = Task b Ready (b_start (code b))) as H.
    { intros [b|q|] t; simpl; [|done..]. case_decide as D; [|done]. intros [= <-]. exists b. tauto. }
    constructor.
    - by exists [].
    - done.
    - intros b t T. apply (H (TSource b)) in T as (b'&[= <-]&?&?&->). done.
    - intros τ t T. apply H in T as (b'&->&?&?&->). right. simpl. by apply teardown_block.
    - intros q t T. apply H in T as (b'&?&_). done.
    - intros t T. apply H in T as (b'&?&_). done.
    - intros τ t T. apply H in T as (b'&->&?&?&->). simpl. split; [|done]. by apply Calls.
    - intros τ t T. apply H in T as (b'&->&?&?&->). done.
    - done.
    - done.
    - intros q e T. by apply elem_of_nil in T.
    - intros q e T. by apply elem_of_nil in T.
    - intros q. constructor.
    - intros τ x t m ops q T. apply H in T as (b'&->&?&?&[=]).
    - intros τ τ2 x x2 t m m2 ops o2 q T. apply H in T as (b'&->&?&?&[=]).
    - intros q Hq. change (length (qlist (initial code f) q)) with 0. change (busy q (initial code f)) with 0.
      assert (inphases q (initial code f) = 0) as ->; [|done]. unfold inphases.
      assert (∀ τ, inphase q (st_task (initial code f) τ) = 0) as Z.
      { intros τ. destruct (st_task (initial code f) τ) as [t|] eqn:E; [|done].
        apply H in E as (b'&->&?&?&->). simpl. by case_decide. }
      induction tids as [|τ l IH]; [done|]. rewrite fmap_cons. cbn [sum_list]. by rewrite Z, IH.
  Qed.

  Ltac adv I E := eapply (inv_adv _ _ _ _ _ _ _ _ I E);
    [intros [? ?]; simpl in *; done|intros ? ?; by rewrite set_task_ne by done|apply set_task_eq|done|done| | | | | ].

  Lemma inv_step s tr s' : Inv s → Step s tr s' → Inv s'.
  Proof.
    intros I HS.
    assert (∀ q, StronglySorted (λ a b, (e_us a < e_us b)%Z) (qlist s q)) as Hs by apply I.
    inversion HS as [τ x o ops E Q|τ x o m t c ops q E Q Hm Hc He|τ x t ops q E Q|τ x t m ops q E Q U Hh|τ x t m ops q E Q U Hh
      |τ x t m ops q E Q U|τ x m ops q E Q|τ x t ops q E Q U Hh|τ x t ops q E Q U Hh|q e x m rest y Hq U D L Hh Hb C
      |q x E|J|b rest J L E F|b rest x J L E|q rest J L E P U]; subst tr s'.
    - pose proof (A_ops s I _ _ E) as [O _]. simpl in O. apply Forall_cons in O as [_ O].
      adv I E; try done.
      + intros q Hq. congruence.
    - pose proof (A_ops s I _ _ E) as [O _]. simpl in O. apply Forall_cons in O as [[_ Om] O].
      adv I E.
      + done.
      + intros m' [= <-]. auto.
      + intros _. eauto.
      + intros q' Hq'. simpl. rewrite upd_ne; [done|]. intros ->. done.
      + intros q' Hq' _. assert (q' = q) as -> by congruence. rewrite !inphase_at by done.
        unfold qhead, qlist. simpl. rewrite !upd_eq. simpl.
        split; [done|]. split; [done|]. split; [tauto|]. split; [apply Hs|]. split; [done|]. lia.
    - pose proof (A_ops s I _ _ E) as [O _]. simpl in O. apply Forall_cons in O as [_ O].
      adv I E.
      + done.
      + done.
      + intros _. eauto.
      + done.
      + intros q' Hq' _. assert (q' = q) as -> by congruence. rewrite !inphase_at by done.
        unfold qhead, qlist. simpl.
        split; [done|]. split; [done|]. split; [tauto|]. split; [apply Hs|]. split; [done|]. lia.
    - pose proof (A_ops s I _ _ E) as [O Om]. simpl in O, Om.
      adv I E.
      + done.
      + exact Om.
      + intros _. eauto.
      + intros q' Hq'. simpl. rewrite upd_ne; [done|]. intros ->. done.
      + intros q' Hq' _. assert (q' = q) as -> by congruence. rewrite !inphase_at by done.
        unfold qhead, qlist in *. simpl. rewrite !upd_eq. simpl.
        split; [done|]. split; [lia|]. split; [tauto|]. split; [apply Hs|]. split; [|lia].
        intros ?? [= <- <-]. done.
    - pose proof (A_ops s I _ _ E) as [O Om]. simpl in O, Om.
      adv I E.
      + done.
      + exact Om.
      + intros _. eauto.
      + done.
      + intros q' Hq' _. assert (q' = q) as -> by congruence. rewrite !inphase_at by done.
        unfold qhead, qlist in *. simpl.
        split; [done|]. split; [lia|]. split; [tauto|]. split; [apply Hs|]. split; [|lia]. done.
    - pose proof (A_ops s I _ _ E) as [O Om]. simpl in O, Om.
      destruct (B_pub s I _ _ _ _ _ _ E Q) as [Hle Hne].
      destruct (emplace_fresh (Entry (S (pq_last (rq_pq (st_queue s q))).1) t (x, m)) (qlist s q)) as (F1&F2&F3&F4);
        [by intros; apply Hne|apply Hs|].
      adv I E.
      + done.
      + done.
      + done.
      + intros q' Hq'. simpl. rewrite upd_ne; [done|]. intros ->. done.
      + intros q' Hq' _. assert (q' = q) as -> by congruence. rewrite !inphase_at by done.
        unfold qhead at 1, qlist at 1. unfold qhead, qlist in *. simpl. rewrite !upd_eq. simpl. rewrite F1.
        split; [done|]. split; [lia|]. split; [|split; [done|split; [done|lia]]].
        intros e He. apply emplace_in in He as [->|He]; [right|by left]. simpl. eauto.
    - pose proof (A_ops s I _ _ E) as [O Om]. simpl in O, Om.
      adv I E.
      + done.
      + done.
      + done.
      + intros q' Hq'. simpl. rewrite upd_ne; [done|]. intros ->. done.
      + intros q' Hq' _. assert (q' = q) as -> by congruence. rewrite !inphase_at by done.
        unfold qhead, qlist in *. simpl. rewrite !upd_eq. simpl.
        split; [done|]. split; [lia|]. split; [tauto|]. split; [apply Hs|]. split; [done|]. lia.
    - pose proof (A_ops s I _ _ E) as [O Om]. simpl in O, Om.
      adv I E.
      + done.
      + done.
      + done.
      + intros q' Hq'. simpl. rewrite upd_ne; [done|]. intros ->. done.
      + intros q' Hq' _. assert (q' = q) as -> by congruence. rewrite !inphase_at by done.
        unfold qhead, qlist in *. simpl. rewrite !upd_eq. simpl.
        split; [done|]. split; [lia|]. split; [tauto|]. split; [apply Hs|]. split; [done|]. lia.
    - pose proof (A_ops s I _ _ E) as [O Om]. simpl in O, Om.
      adv I E.
      + done.
      + done.
      + done.
      + done.
      + intros q' Hq' _. assert (q' = q) as -> by congruence. rewrite !inphase_at by done.
        unfold qhead, qlist in *. simpl.
        split; [done|]. split; [lia|]. split; [tauto|]. split; [apply Hs|]. split; [done|]. lia.
    - (* consume *)
      assert (IQueue q ∈ st_left s) as Lq.
      { destruct (decide (IQueue q ∈ st_left s)) as [|N]; [done|]. rewrite (A_dead s I q Hq N) in L. done. }
      apply (consumer_block_spec code f q _ y Wf Wt Hq) in C as [Cs Ct].
      destruct (A_left s I) as [d Dd].
      pose proof (before_left _ _ _ d _ (served_before f q y Wf Cs) Dd Lq) as Ly.
      set (s' := St _ _ _ _ _ _).
      assert (∀ τ, τ ≠ TQueue q → st_task s' τ = st_task s τ) as K.
      { intros τ Hτ. unfold s'. simpl. by rewrite tid_eqb_spec, bool_decide_eq_false_2. }
      assert (st_task s' (TQueue q) = Some (Task y Ready (b_react (code y) (st_hist s y) m))) as E'.
      { unfold s'. simpl. by rewrite bool_decide_eq_true_2. }
      assert (∀ q', qlist s' q' = if decide (q' = q) then rest else qlist s q') as Ql.
      { intros q'. unfold qlist, s', upd. simpl. by case_decide. }
      assert (∀ q', qhead s' q' = qhead s q') as Qh.
      { intros q'. unfold qhead, s', upd. simpl. by case_decide as D'; [rewrite D'|]. }
      assert (∀ q' e', e' ∈ qlist s' q' → e' ∈ qlist s q') as Qi.
      { intros q' e'. rewrite Ql. case_decide as D'; [|done]. rewrite D', L. set_solver. }
      constructor.
      + apply I.
      + apply I.
      + intros b t T. rewrite K in T by done. by apply (A_src s I).
      + intros τ t T. destruct (decide (τ = TQueue q)) as [->|N]; [|rewrite K in T by done; by apply (A_alive s I τ)].
        rewrite E' in T. injection T as <-. by right.
      + intros q' t T. destruct (decide (q' = q)) as [->|N]; [|rewrite K in T by congruence; by apply (A_que s I)].
        rewrite E' in T. injection T as <-. simpl. split; [done|]. split; [|done]. intros Z. rewrite Z in Ct. by apply elem_of_nil in Ct.
      + intros t T. rewrite K in T by done. destruct (A_join s I t T) as (?&r&?&?). split; [done|]. exists r. split; [done|].
        intros t'. rewrite K by done. auto.
      + intros τ t T. destruct (decide (τ = TQueue q)) as [->|N]; [|rewrite K in T by done; by apply (A_ops s I τ)].
        rewrite E' in T. injection T as <-. simpl. split; [|done]. apply served_in in Cs as [_ ?]. by apply Calls.
      + intros τ t T. destruct (decide (τ = TQueue q)) as [->|N]; [|rewrite K in T by done; by apply (A_phase s I τ)].
        rewrite E' in T. injection T as <-. done.
      + intros q' Hq' N. simpl in N. rewrite Ql. case_decide; [by subst|]. by apply (A_dead s I).
      + intros q' Hq' N. unfold s', upd. simpl. case_decide as D'; [simpl; subst|]; by apply (A_live s I).
      + intros q' e' H. apply Qi in H. by apply (A_route s I).
      + intros q' e' H. apply Qi in H. rewrite Qh. by apply (B_le s I).
      + intros q'. rewrite Ql. case_decide as D'; [|apply Hs]. specialize (Hs q). rewrite L in Hs. by inversion Hs.
      + intros τ x' t m' o' q' T Q'. destruct (decide (τ = TQueue q)) as [->|N]; [by rewrite E' in T|].
        rewrite K in T by done. rewrite Qh. destruct (B_pub s I _ _ _ _ _ _ T Q') as [? Hx]. split; [done|].
        intros e' He'. apply Qi in He'. by apply Hx.
      + intros τ1 τ2 x1 x2 t m1 m2 o1 o2 q' T1 T2. destruct (decide (τ1 = TQueue q)) as [->|N1]; [by rewrite E' in T1|].
        destruct (decide (τ2 = TQueue q)) as [->|N2]; [by rewrite E' in T2|]. rewrite K in T1, T2 by done. by eapply (B_pub2 s I).
      + intros q' Hq'. assert (TQueue q ∈ tids) as Ht.
        { unfold tids. right. apply elem_of_app. right. by apply elem_of_list_fmap_1. }
        pose proof (inphases_set q' (TQueue q) _ s s' Ht K E') as Hp. rewrite U in Hp. simpl in Hp.
        assert (inphases q' s' = inphases q' s) as -> by (case_decide; lia).
        pose proof (C_count s I q' Hq') as Hc. rewrite Ql. unfold busy in *.
        destruct (decide (q' = q)) as [D'|D'].
        * rewrite D' in Hc |- *. rewrite E'. rewrite U in Hc. rewrite L in Hc. simpl in Hc.
          unfold s'. simpl. rewrite !upd_eq. simpl. lia.
        * rewrite K by congruence. unfold s'. simpl. rewrite !upd_ne by done. done.
    - (* return *)
      set (s' := set_task _ _ _).
      assert (∀ τ, τ ≠ TQueue q → st_task s' τ = st_task s τ) as K by (intros τ Hτ; unfold s'; by rewrite set_task_ne).
      assert (st_task s' (TQueue q) = None) as E' by (unfold s'; by rewrite set_task_eq).
      assert (∀ q', rq_pq (st_queue s' q') = rq_pq (st_queue s q')) as Qp.
      { intros q'. unfold s', upd. simpl. unfold upd. case_decide as D'; [by rewrite D'|done]. }
      assert (∀ q', qlist s' q' = qlist s q') as Ql by (intros; unfold qlist; by rewrite Qp).
      assert (∀ q', qhead s' q' = qhead s q') as Qh by (intros; unfold qhead; by rewrite Qp).
      assert (∀ τ t, st_task s' τ = Some t → st_task s τ = Some t) as Ks.
      { intros τ t T. destruct (decide (τ = TQueue q)) as [->|N]; [congruence|by rewrite <-K]. }
      constructor.
      + apply I.
      + apply I.
      + intros b t T. apply Ks in T. by apply (A_src s I).
      + intros τ t T. apply Ks in T. by apply (A_alive s I τ).
      + intros q' t T. apply Ks in T. by apply (A_que s I).
      + intros t T. apply Ks in T. destruct (A_join s I t T) as (?&r&?&?). split; [done|]. exists r. split; [done|].
        intros t' T'. apply Ks in T'. auto.
      + intros τ t T. apply Ks in T. by apply (A_ops s I τ).
      + intros τ t T. apply Ks in T. by apply (A_phase s I τ).
      + intros q' Hq' N. rewrite Ql. by apply (A_dead s I).
      + intros q' Hq' N. rewrite Qp. by apply (A_live s I).
      + intros q' e'. rewrite Ql. apply (A_route s I).
      + intros q' e'. rewrite Ql, Qh. apply (B_le s I).
      + intros q'. by rewrite Ql.
      + intros τ x' t m' o' q' T Q'. apply Ks in T. rewrite Qh, Ql. by apply (B_pub s I _ _ _ _ _ _ T Q').
      + intros τ1 τ2 x1 x2 t m1 m2 o1 o2 q' T1 T2. apply Ks in T1, T2. by eapply (B_pub2 s I).
      + intros q' Hq'. pose proof (inphases_set q' (TQueue q) _ s s' (active_tid s _ _ I E) K E') as Hp.
        rewrite E in Hp. simpl in Hp.
        assert (inphases q' s' = inphases q' s) as -> by (case_decide; lia).
        pose proof (C_count s I q' Hq') as Hc. rewrite Ql. unfold busy in *.
        destruct (decide (q' = q)) as [->|D'].
        * rewrite E'. rewrite E in Hc. unfold s'. simpl. rewrite !upd_eq. simpl. lia.
        * rewrite K by congruence. unfold s'. simpl. rewrite !upd_ne by done. done.
    - (* join *)
      destruct I. constructor; try done; simpl.
      intros t T. destruct (A_join0 t T) as [? _]. congruence.
    - (* destructor of a block *)
      set (s' := set_task _ _ _).
      assert (∀ τ, τ ≠ TJoin → st_task s' τ = st_task s τ) as K by (intros τ Hτ; unfold s'; by rewrite set_task_ne).
      assert (st_task s' TJoin = Some (Task b Ready (b_finish (code b) (st_hist s b)))) as E' by (unfold s'; by rewrite set_task_eq).
      assert (b ∈ leaves f) as Lb.
      { destruct (A_left s I) as [d Dd]. apply teardown_block. rewrite Dd, L. set_solver. }
      constructor.
      + apply I.
      + apply I.
      + intros b' t T. rewrite K in T by done. by apply (A_src s I).
      + intros τ t T. destruct (decide (τ = TJoin)) as [->|N]; [|rewrite K in T by done; by apply (A_alive s I τ)].
        rewrite E' in T. injection T as <-. right. simpl. rewrite L. set_solver.
      + intros q' t T. rewrite K in T by done. by apply (A_que s I).
      + intros t T. rewrite E' in T. injection T as <-. split; [done|]. exists rest. split; [done|].
        intros t'. rewrite K by done. apply F.
      + intros τ t T. destruct (decide (τ = TJoin)) as [->|N]; [|rewrite K in T by done; by apply (A_ops s I τ)].
        rewrite E' in T. injection T as <-. simpl. split; [|done]. by apply Calls.
      + intros τ t T. destruct (decide (τ = TJoin)) as [->|N]; [|rewrite K in T by done; by apply (A_phase s I τ)].
        rewrite E' in T. injection T as <-. done.
      + apply (A_dead s I).
      + apply (A_live s I).
      + apply (A_route s I).
      + apply (B_le s I).
      + apply Hs.
      + intros τ x' t m' o' q' T Q'. destruct (decide (τ = TJoin)) as [->|N]; [by rewrite E' in T|].
        rewrite K in T by done. by apply (B_pub s I _ _ _ _ _ _ T Q').
      + intros τ1 τ2 x1 x2 t m1 m2 o1 o2 q' T1 T2. destruct (decide (τ1 = TJoin)) as [->|N1]; [by rewrite E' in T1|].
        destruct (decide (τ2 = TJoin)) as [->|N2]; [by rewrite E' in T2|]. rewrite K in T1, T2 by done. by eapply (B_pub2 s I).
      + intros q' Hq'. assert (TJoin ∈ tids) as Ht by (unfold tids; left).
        pose proof (inphases_set q' TJoin _ s s' Ht K E') as Hp. rewrite E in Hp. simpl in Hp.
        assert (inphases q' s' = inphases q' s) as -> by (case_decide; lia).
        assert (busy q' s' = busy q' s) as -> by (unfold busy; by rewrite K).
        apply (C_count s I q' Hq').
    - (* a block is gone *)
      destruct (A_join s I _ E) as (_&r&R&Hsrc). simpl in R, Hsrc. rewrite L in R. injection R as <- <-.
      set (s' := set_left _ _).
      assert (∀ τ, τ ≠ TJoin → st_task s' τ = st_task s τ) as K.
      { intros τ Hτ. unfold s'. change (st_task (set_task TJoin None s) τ = st_task s τ). by rewrite set_task_ne. }
      assert (st_task s' TJoin = None) as E' by done.
      assert (∀ τ t, st_task s' τ = Some t → st_task s τ = Some t ∧ τ ≠ TJoin) as Ks.
      { intros τ t T. destruct (decide (τ = TJoin)) as [->|N]; [congruence|by rewrite <-K]. }
      destruct (A_left s I) as [d Dd]. rewrite L in Dd.
      constructor.
      + exists (d ++ [IBlock b]). rewrite <-app_assoc. done.
      + simpl. intros J'. congruence.
      + intros b' t T. apply Ks in T as [T _]. by apply (A_src s I).
      + intros τ t T. apply Ks in T as [T N]. destruct (A_alive s I τ t T) as [?|Ha]; [by left|]. simpl.
        rewrite L in Ha. apply elem_of_cons in Ha as [[= Hw]|Ha]; [|by right].
        destruct τ as [b'|q|]; [| |done].
        * left. destruct (A_src s I b' t T) as (Hb&_). rewrite Hw in Hb. subst b'. by apply Hsrc.
        * exfalso. destruct (A_que s I q t T) as (Sv&_&Lq). rewrite L in Lq. rewrite Hw in Sv.
          by refine (before_head _ _ _ d rest (teardown_NoDup f Wf) (served_before f _ _ Wf Sv) Dd Lq).
      + intros q' t T. apply Ks in T as [T _]. destruct (A_que s I q' t T) as (?&?&Lq). rewrite L in Lq.
        apply elem_of_cons in Lq as [?|?]; done.
      + intros t T. congruence.
      + intros τ t T. apply Ks in T as [T _]. by apply (A_ops s I τ).
      + intros τ t T. apply Ks in T as [T _]. by apply (A_phase s I τ).
      + intros q' Hq' N. apply (A_dead s I); [done|]. rewrite L. simpl in N. set_solver.
      + intros q' Hq' N. apply (A_live s I); [done|]. rewrite L. simpl in N. set_solver.
      + apply (A_route s I).
      + apply (B_le s I).
      + apply Hs.
      + intros τ x' t m' o' q' T Q'. apply Ks in T as [T _]. by apply (B_pub s I _ _ _ _ _ _ T Q').
      + intros τ1 τ2 x1 x2 t m1 m2 o1 o2 q' T1 T2. apply Ks in T1 as [T1 _], T2 as [T2 _]. by eapply (B_pub2 s I).
      + intros q' Hq'. assert (TJoin ∈ tids) as Ht by (unfold tids; left).
        pose proof (inphases_set q' TJoin _ s s' Ht K E') as Hp. rewrite E in Hp. simpl in Hp.
        assert (inphases q' s' = inphases q' s) as -> by (case_decide; lia).
        assert (busy q' s' = busy q' s) as -> by (unfold busy; by rewrite K).
        apply (C_count s I q' Hq').
    - (* a queue is gone *)
      destruct (A_left s I) as [d Dd]. rewrite L in Dd.
      assert (q ∈ queues f) as Hq by (apply teardown_queue; rewrite Dd; set_solver).
      assert (IQueue q ∉ rest) as Nq.
      { pose proof (teardown_NoDup f Wf) as ND. rewrite Dd in ND. apply NoDup_app in ND as (_&_&ND).
        by apply NoDup_cons in ND as [? _]. }
      pose proof (C_count s I q Hq) as Hc. unfold processed_everything in P.
      assert (qlist s q = []) as Z by (apply nil_length_inv; lia).
      set (s' := set_left _ _).
      assert (∀ q', qlist s' q' = qlist s q') as Ql.
      { intros q'. unfold qlist, s'. simpl. unfold upd. case_decide as D'; [by rewrite D'|done]. }
      assert (∀ q', qhead s' q' = qhead s q') as Qh.
      { intros q'. unfold qhead, s'. simpl. unfold upd. case_decide as D'; [by rewrite D'|done]. }
      constructor.
      + exists (d ++ [IQueue q]). rewrite <-app_assoc. done.
      + simpl. intros J'. congruence.
      + apply (A_src s I).
      + intros τ t T. destruct (A_alive s I τ t T) as [?|Ha]; [by left|]. right. rewrite L in Ha. simpl.
        apply elem_of_cons in Ha as [?|?]; done.
      + intros q' t T. destruct (A_que s I q' t T) as (?&?&Lq). rewrite L in Lq.
        apply elem_of_cons in Lq as [[= ->]|?]; [|done]. unfold unlocked in U. simpl in T. congruence.
      + intros t T. simpl in T. congruence.
      + apply (A_ops s I).
      + apply (A_phase s I).
      + intros q' Hq' N. rewrite Ql. destruct (decide (q' = q)) as [->|]; [done|]. apply (A_dead s I); [done|].
        rewrite L. simpl in N. set_solver.
      + intros q' Hq' N. simpl in N. destruct (decide (q' = q)) as [->|]; [done|]. simpl. rewrite upd_ne by done.
        apply (A_live s I); [done|]. rewrite L. set_solver.
      + intros q' e. rewrite Ql. apply (A_route s I).
      + intros q' e. rewrite Ql, Qh. apply (B_le s I).
      + intros q'. by rewrite Ql.
      + intros τ x' t m' o' q' T Q'. rewrite Qh, Ql. by apply (B_pub s I _ _ _ _ _ _ T Q').
      + intros τ1 τ2 x1 x2 t m1 m2 o1 o2 q' T1 T2. by eapply (B_pub2 s I).
      + intros q' Hq'. rewrite Ql. change (inphases q' s') with (inphases q' s). change (busy q' s') with (busy q' s).
        pose proof (C_count s I q' Hq') as Hc'. unfold s'. simpl. unfold upd. case_decide as D'; [|done]. simpl. by rewrite <-D'.
  Qed.
End Dyn.
