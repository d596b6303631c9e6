(** Properties C31-C35 and C61: the message queues. *)
From stdpp Require Import list sorting.
From Coq Require Import ZArith Lia.
From Verif Require Import MMQ_Model MMQ_Spec MMQ_Proofs.

Lemma ss_app {A} (R : A → A → Prop) l1 l2 :
  (∀ x y, x ∈ l1 → y ∈ l2 → R x y) → StronglySorted R l1 → StronglySorted R l2 → StronglySorted R (l1 ++ l2).
Proof.
  intros H H1 H2. induction H1 as [|x l1 H1 IH Hf]; [done|]. simpl. constructor.
  - apply IH. intros ????. apply H; [by right|done].
  - apply Forall_app. split; [done|]. apply Forall_forall. intros y Hy. apply H; [by left|done].
Qed.
Lemma ss_app_l {A} (R : A → A → Prop) l1 l2 : StronglySorted R (l1 ++ l2) → StronglySorted R l1.
Proof.
  induction l1 as [|x l1 IH]; [constructor|]. simpl. intros H. apply StronglySorted_inv in H as [H1 H2].
  constructor; [by apply IH|]. by apply Forall_app in H2 as [? _].
Qed.

Local Ltac updc := unfold upd; match goal with |- context [decide (?a = ?b)] => destruct (decide (a = b)) end.

Section Props.
  Context {M : Type} (N : nat) (drop : bool) (HN : N ≠ 0).
  Implicit Types (s : mmq M) (p k i d : nat) (m : M).
  Notation step := (step N drop).
  Notation run := (run N drop).
  Notation reachable := (reachable N drop).

  Lemma reach_run s ls s' : reachable s → run ls s = Some s' → reachable s'.
  Proof. intros [l0 H0] H. exists (l0 ++ ls). rewrite (run_app N drop). by rewrite H0. Qed.
  Lemma reach_step s l s' : reachable s → step l s = Some s' → reachable s'.
  Proof. intros H E. apply (reach_run s [l]); [done|]. simpl. by rewrite E. Qed.

  (** C31. The consumer is given the messages in the order they were admitted to
      the queue, each exactly once and unaltered, with indexes 1, 2, 3, ... *)
  Theorem C31_fifo s : reachable s →
    ∃ n, n ≤ length (allocated s) ∧
         delivered (trace s) = (λ '(its, m), (Some m, its)) <$> take n (allocated s) ∧
         ∀ j x, delivered (trace s) !! j = Some x → x.2.1 = S j.
  Proof.
    intros [d I]%(reachable_inv N drop HN). exists (d + exported (cons_ s)). split_and!.
    - pose proof (i_le _ _ _ I). pose proof (i_busy _ _ _ I) as Hb.
      destruct (cons_ s); simpl in *; lia || (destruct Hb; [done|lia]).
    - rewrite (i_deliv _ _ _ I). apply list_fmap_ext. by intros j [its m] _.
    - intros j x. rewrite (i_deliv _ _ _ I). rewrite list_lookup_fmap. intros Hj.
      apply fmap_Some in Hj as (y & Hy & ->). simpl.
      apply (i_alloc _ _ _ I). apply lookup_take_Some in Hy. by destruct Hy.
  Qed.

  (** What [p] has submitted is accounted for: each message is the subject of one
      outcome, in order, except that of the call in progress. *)
  Lemma accounting ls s p : run ls mmq_init = Some s →
    submitted p ls = (outcomes p (trace s)).*1 ++ from_option (λ x, [x.1]) [] (pending (pubs s p)).
  Proof.
    revert s. induction ls as [|l ls IH] using rev_ind; intros s Hr.
    { injection Hr as <-. done. }
    rewrite (run_app N drop) in Hr. destruct (run ls mmq_init) as [s1|] eqn:E; [|done]. simpl in Hr.
    destruct (step l s1) as [s2|] eqn:E2; [|done]. injection Hr as <-. specialize (IH s1 eq_refl).
    unfold submitted. rewrite omap_app. fold (submitted p ls). rewrite IH. clear IH E.
    assert (∀ e, outcomes p (trace s1 ++ [e]) = outcomes p (trace s1) ++ outcomes p [e]) as Ho by (intros; apply omap_app).
    destruct l as [q m ts now|q now|q|q|q| | | | |]; simpl in E2 |- *.
    - destruct (pubs s1 q) eqn:Ep; try done.
      destruct (decide (p = q)) as [->|Hpq].
      + rewrite Ep. simpl. rewrite app_nil_r.
        destruct drop; repeat case_decide; repeat case_match; simplify_eq; simpl; rewrite ?Ho, ?fmap_app, ?upd_eq; simpl;
          rewrite ?decide_True by done; rewrite ?Ep; simpl; rewrite ?app_nil_r; done.
      + destruct drop; repeat case_decide; repeat case_match; simplify_eq; simpl; rewrite ?Ho, ?fmap_app, ?upd_ne by done; simpl;
          rewrite ?decide_False by done; simpl; rewrite ?app_nil_r; done.
    - destruct (pubs s1 q) eqn:Ep; try done.
      destruct (decide (p = q)) as [->|Hpq].
      + rewrite Ep. simpl. repeat case_match; simplify_eq; simpl; rewrite ?Ho, ?fmap_app, ?upd_eq; simpl;
          rewrite ?decide_True by done; simpl; rewrite ?app_nil_r; done.
      + repeat case_match; simplify_eq; simpl; rewrite ?Ho, ?fmap_app, ?upd_ne by done; simpl;
          rewrite ?decide_False by done; simpl; rewrite ?app_nil_r; done.
    - destruct (pubs s1 q) eqn:Ep; try done. simplify_eq. simpl. destruct (decide (p = q)) as [->|Hpq].
      + by rewrite upd_eq, Ep, app_nil_r.
      + by rewrite upd_ne, app_nil_r.
    - destruct (pubs s1 q) eqn:Ep; try done. simplify_eq. simpl. destruct (decide (p = q)) as [->|Hpq].
      + by rewrite upd_eq, Ep, app_nil_r.
      + by rewrite upd_ne, app_nil_r.
    - destruct (pubs s1 q) eqn:Ep; try done. simplify_eq. simpl. rewrite Ho, fmap_app. simpl. destruct (decide (p = q)) as [->|Hpq].
      + by rewrite upd_eq, Ep, !app_nil_r.
      + rewrite upd_ne by done. simpl. by rewrite !app_nil_r.
    - repeat case_match; simplify_eq; simpl; by rewrite app_nil_r.
    - repeat case_match; simplify_eq; simpl. rewrite Ho, fmap_app. simpl. by rewrite !app_nil_r.
    - repeat case_match; simplify_eq; simpl; by rewrite app_nil_r.
    - repeat case_match; simplify_eq; simpl; by rewrite app_nil_r.
    - simplify_eq; simpl; by rewrite app_nil_r.
  Qed.

  (** The places of the returned calls, all publishers together. *)
  Definition places (tr : list (event M)) : list nat :=
    omap (λ e, match e with Published _ _ k _ => Some k | _ => None end) tr.

  Lemma places_app tr e : places (tr ++ [e]) = places tr ++ places [e].
  Proof. apply omap_app. Qed.
  Lemma elem_places tr k : k ∈ places tr ↔ ∃ p m its, Published p m k its ∈ tr.
  Proof.
    unfold places. rewrite elem_of_list_omap. split.
    - intros ([] & H1 & H2); simplify_eq. eauto.
    - intros (p & m & its & H). by eexists.
  Qed.

  Lemma places_nodup s : reachable s → NoDup (places (trace s)).
  Proof.
    revert s. apply (reachable_ind N drop); [constructor|].
    intros s l s' Hr IH E. destruct (reachable_inv N drop HN s Hr) as [d I].
    destruct l as [q m ts now|q now|q|q|q| | | | |]; simpl in E;
      try (repeat case_match; simplify_eq; simpl; rewrite ?places_app; simpl; rewrite ?app_nil_r; done).
    destruct (pubs s q) eqn:Ep; try done. simplify_eq. simpl. rewrite places_app. simpl.
    apply NoDup_app. split_and!; [done| |apply NoDup_singleton].
    intros k' (p & m' & its & H)%elem_places ->%elem_of_list_singleton.
    destruct (i_pub _ _ _ I _ _ _ _ H) as [_ H2]. apply (H2 q m i). by rewrite Ep.
  Qed.

  Definition active (x : publisher M) : list nat :=
    match pending x with Some (_, Some k) => [k] | _ => [] end.

  Lemma own_order s p : reachable s →
    StronglySorted lt ((returned p (trace s)).*1.*2 ++ active (pubs s p)) ∧
    Forall (λ k, k < length (allocated s)) ((returned p (trace s)).*1.*2 ++ active (pubs s p)).
  Proof.
    revert s. apply (reachable_ind N drop); [split; constructor|].
    intros s l s' Hr [IH1 IH2] E. destruct (reachable_inv N drop HN s Hr) as [d I].
    assert (∀ e, returned p (trace s ++ [e]) = returned p (trace s) ++ returned p [e]) as Ho by (intros; apply omap_app).
    assert (∀ q m us, active (pubs s p) = [] →
        StronglySorted lt ((returned p (trace s)).*1.*2 ++ active (pubs (allocate N q m us s) p)) ∧
        Forall (λ k, k < length (allocated (allocate N q m us s))) ((returned p (trace s)).*1.*2 ++ active (pubs (allocate N q m us s) p))) as Hal.
    { intros q m us Ha. rewrite Ha, app_nil_r in *. simpl. rewrite app_length. simpl. unfold upd. case_decide.
      - simpl. change (active (PImporting m (length (allocated s)) (head s))) with [length (allocated s)]. split.
        + apply ss_app; [|done|repeat constructor].
          intros k1 k2 Hk1 ->%elem_of_list_singleton. rewrite Forall_forall in IH2. by apply IH2.
        + apply Forall_app. split; [|constructor; [lia|constructor]]. eapply Forall_impl; [done|]. simpl. lia.
      - rewrite Ha, app_nil_r. split; [done|]. eapply Forall_impl; [done|]. simpl. lia. }
    assert (∀ q m us, active (pubs s q) = [] →
        StronglySorted lt ((returned p (trace s)).*1.*2 ++ active (pubs (allocate N q m us s) p)) ∧
        Forall (λ k, k < length (allocated (allocate N q m us s))) ((returned p (trace s)).*1.*2 ++ active (pubs (allocate N q m us s) p))) as Hal2.
    { intros q m us Ha. destruct (decide (p = q)) as [->|Hne]; [by apply Hal|].
      simpl. rewrite upd_ne by done. split; [done|]. rewrite app_length. eapply Forall_impl; [done|]. simpl. lia. }
    clear Hal.
    destruct l as [q m ts now|q now|q|q|q| | | | |]; simpl in E.
    - destruct (pubs s q) eqn:Ep; try done.
      destruct drop; repeat case_decide; repeat case_match; simplify_eq;
       try (apply Hal2; by rewrite Ep); simpl; rewrite ?Ho; simpl; rewrite ?app_nil_r; try done;
       (unfold upd; case_decide; [subst; by rewrite Ep in *|done]).
    - destruct (pubs s q) eqn:Ep; try done. repeat case_match; simplify_eq;
       try (apply Hal2; by rewrite Ep); simpl; rewrite ?Ho; simpl; rewrite ?app_nil_r; try done;
       (unfold upd; case_decide; [subst; by rewrite Ep in *|done]).
    - destruct (pubs s q) eqn:Ep; try done. simplify_eq. simpl. unfold upd. case_decide; [subst; by rewrite Ep in *|done].
    - destruct (pubs s q) eqn:Ep; try done. simplify_eq. simpl. unfold upd. case_decide; [subst; by rewrite Ep in *|done].
    - destruct (pubs s q) eqn:Ep; try done. simplify_eq. simpl. rewrite Ho. simpl. unfold upd.
      destruct (decide (p = q)) as [->|Hne].
      + rewrite Ep in *. rewrite app_nil_r. by rewrite !fmap_app.
      + rewrite app_nil_r. done.
    - repeat case_match; simplify_eq; done.
    - repeat case_match; simplify_eq; simpl. rewrite Ho. simpl. by rewrite app_nil_r.
    - repeat case_match; simplify_eq; done.
    - repeat case_match; simplify_eq; done.
    - simplify_eq. done.
  Qed.

  (** C31. Nothing is lost, invented or duplicated on the way in: each Publish call
      has one outcome (or is still in progress); the calls which returned hold distinct
      places in the order of admission, increasing for each thread, with their own
      message there; each place belongs to a call that returned or is in progress. *)
  Theorem C31_publishers ls s : run ls mmq_init = Some s →
    (∀ p, submitted p ls = (outcomes p (trace s)).*1 ++ from_option (λ x, [x.1]) [] (pending (pubs s p))) ∧
    (∀ p, StronglySorted lt (returned p (trace s)).*1.*2) ∧
    (∀ p q m m' k its its', (m, k, its) ∈ returned p (trace s) → (m', k, its') ∈ returned q (trace s) → p = q) ∧
    (∀ p m k its, (m, k, its) ∈ returned p (trace s) → snd <$> allocated s !! k = Some m) ∧
    (∀ k x, allocated s !! k = Some x →
       ∃ p, (∃ its, (x.2, k, its) ∈ returned p (trace s)) ∨ pending (pubs s p) = Some (x.2, Some k)).
  Proof.
    intros Hrun. assert (Hr : reachable s) by (by exists ls).
    destruct (reachable_inv N drop HN s Hr) as [d I].
    assert (∀ p m k its, (m, k, its) ∈ returned p (trace s) ↔ Published p m k its ∈ trace s) as Hret.
    { intros p m k its. unfold returned. rewrite elem_of_list_omap. split.
      - intros ([] & H1 & H2); try done. case_decide; simplify_eq. done.
      - intros H. eexists. split; [exact H|]. simpl. by rewrite decide_True. }
    split_and!.
    - intros p. by apply accounting.
    - intros p. destruct (own_order s p Hr) as [H _]. by apply ss_app_l in H.
    - intros p q m m' k its its' H1%Hret H2%Hret. pose proof (places_nodup s Hr) as Hnd. revert H1 H2 Hnd.
      generalize (trace s). intros tr. induction tr as [|e tr IH]; intros H1 H2 Hnd; [by apply elem_of_nil in H1|].
      apply elem_of_cons in H1 as [E1|H1], H2 as [E2|H2]; subst.
      + by simplify_eq.
      + exfalso. simpl in Hnd. apply NoDup_cons in Hnd as [Hn _]. apply Hn, elem_places. eauto.
      + exfalso. simpl in Hnd. apply NoDup_cons in Hnd as [Hn _]. apply Hn, elem_places. eauto.
      + apply IH; [done|done|]. destruct e; try done. simpl in Hnd. by apply NoDup_cons in Hnd as [_ ?].
    - intros p m k its H%Hret. by apply (i_pub _ _ _ I) in H as [? _].
    - intros k x Hx. destruct (i_all _ _ _ I k) as [(p & m & its & H)|(p & m & i & H)]; [by eapply lookup_lt_Some|..].
      + exists p. left. exists its. apply Hret. apply (i_pub _ _ _ I) in H as H'. destruct H' as [H' _].
        rewrite Hx in H'. simpl in H'. by simplify_eq.
      + exists p. right. apply (i_ticket _ _ _ I) in H as H'. destruct H' as [_ H']. rewrite Hx in H'. simpl in H'. injection H' as ->.
        destruct (pubs s p); simpl in *; congruence.
  Qed.

  (** C31. A slot being written has one writer, and is not being read; a message is
      read from where it was written (this is part of [C31_fifo]). *)
  Theorem C31_exclusive s p i : reachable s → writing s p i →
    (∀ q, writing s q i → p = q) ∧ ¬ reading s i.
  Proof.
    intros [d I]%(reachable_inv N drop HN) (m & k & Hw).
    assert (∀ q m k i, pubs s q = PImporting m k i ∨ pubs s q = PImported m k i →
       ticket (pubs s q) = Some (m, k, i) ∧ d ≤ k < d + N ∧ i = k mod N ∧ status_of (at_ N s k) = BEING_IMPORTED) as Hall.
    { intros q m' k' i' H. assert (ticket (pubs s q) = Some (m', k', i')) as H3 by (by destruct H as [-> | ->]).
      split; [done|]. destruct (i_ticket _ _ _ I _ _ _ _ H3) as [-> H4].
      assert (k' < length (allocated s)) by (apply lookup_lt_is_Some; destruct (allocated s !! k'); [eauto|done]).
      destruct (i_write _ _ _ I _ _ _ _ H). pose proof (i_le _ _ _ I). split_and!; [lia|lia|done|done]. }
    destruct (Hall _ _ _ _ Hw) as (T & L & E & St). split.
    - intros q (m' & k' & Hw'). destruct (Hall _ _ _ _ Hw') as (T' & L' & E' & St').
      assert (k = k') as <- by (apply (mod_inj N d); congruence || lia).
      by eapply (i_uniq _ _ _ I).
    - intros [Ht Hb]. assert (busy (cons_ s) = true) as [Hd Hst]%(i_busy _ _ _ I) by (destruct Hb as [[? ->] | ->]; done).
      assert (k = d) as -> by (apply (mod_inj N d); [done|lia|lia|rewrite <-(i_tail _ _ _ I); congruence]).
      congruence.
  Qed.

  (** C31. The queue's last index and timestamp, which the consumer is told, is not behind the message. *)
  Theorem C31_last_not_behind s (om : option M) its last : reachable s →
    Delivered om its last ∈ trace s → its.1 ≤ last.1.
  Proof.
    intros Hr.
    assert ((∀ saved, cons_ s = CExporting saved → ∀ d, inv N d s → d < saved.1) ∧
            (∀ (om : option M) its last, Delivered om its last ∈ trace s → its.1 ≤ last.1)) as [_ H]; [|apply H].
    revert s Hr. apply (reachable_ind N drop).
    { split; [done|]. intros ??? H. by apply elem_of_nil in H. }
    intros s l s' Hr [IH1 IH2] E. destruct (reachable_inv N drop HN s Hr) as [d I].
    assert (Hr' := reach_step _ _ _ Hr E).
    assert (∀ (om : option M) its last, Delivered om its last ∈ trace s' → Delivered om its last ∈ trace s ∨
              (cons_ s = CExporting last ∧ its = index_ts (slots s (tail s)))) as Htr.
    { intros om' its' last' He. destruct l; simpl in E; repeat case_match; simplify_eq; simpl in He; try (by left);
       apply elem_of_app in He as [He|He]; try (by left); apply elem_of_list_singleton in He; simplify_eq; by right. }
    split.
    - intros saved Hc d' I'.
      assert ((∃ saved', cons_ s = CExporting saved' ∧ saved' = saved ∧ l ≠ Free) ∨ (l = Take ∧ saved = last_idx_ts s)) as [(? & H1 & -> & Hl)|[-> ->]].
      { destruct l; simpl in E; repeat case_match; simplify_eq; simpl in Hc; simplify_eq; eauto; left; rewrite Hc; eauto. }
      + pose proof (step_inv N drop HN _ _ _ _ I E) as I2.
        assert (inv N d s') as I3 by (by destruct l). clear I2.
        assert (d = d') as <-.
        { pose proof (i_deliv _ _ _ I3) as D1. rewrite (i_deliv _ _ _ I') in D1. apply (f_equal length) in D1.
          rewrite !fmap_length, !take_length in D1. rewrite Hc in D1. simpl in D1. pose proof (i_le _ _ _ I3). pose proof (i_le _ _ _ I'). lia. }
        by eapply IH1.
      + simpl in E. repeat case_match; simplify_eq. rewrite (i_last _ _ _ I).
        assert (busy (CExporting (last_idx_ts s)) = true) as Hb by done. 
        destruct (i_busy _ _ _ I' Hb) as [H' _]. done.
    - intros m' its' last' [H|[H1 ->]]%Htr; [by eapply IH2|]. pose proof (IH1 _ H1 _ I) as Hlt. 
      destruct (i_busy _ _ _ I) as [Hl _]; [by rewrite H1|].
      destruct (lookup_lt_some s d Hl) as [x Hx]. destruct (i_used _ _ _ I d x) as [Hi _]; [done|done|].
      rewrite (i_tail _ _ _ I). unfold at_ in Hi. rewrite Hi. rewrite (i_alloc _ _ _ I _ _ Hx). lia.
  Qed.

  (** Draining. *)
  Definition eff (d : nat) s := d + exported (cons_ s).

  Lemma run_cons l ls s s1 s2 : step l s = Some s1 → run ls s1 = Some s2 → run (l :: ls) s = Some s2.
  Proof. intros E1 E2. simpl. by rewrite E1. Qed.

  Definition waiting_same s s' : Prop :=
    ∀ p m ts, pubs s p = PWaiting m ts → pubs s' p = PWaiting m ts.

  (** One entry is delivered and freed by consumer steps and its own publisher's. *)
  Lemma drain_one d s : reachable s → inv N d s → destructing s = false → d < length (allocated s) →
    ∃ ls s', Forall draining ls ∧ run ls s = Some s' ∧ inv N (S d) s' ∧ cons_ s' = CWaiting ∧
      allocated s' = allocated s ∧ destructing s' = false ∧ waiting_same s s'.
  Proof.
    intros Hr I Hd Hlt.
    (* Free *)
    assert (∀ s, inv N d s → destructing s = false → cons_ s = CExported →
      ∃ ls s', Forall draining ls ∧ run ls s = Some s' ∧ inv N (S d) s' ∧ cons_ s' = CWaiting ∧
       allocated s' = allocated s ∧ destructing s' = false ∧ waiting_same s s') as Hfree.
    { intros s0 I0 D0 C0.
      assert (∃ s1, step Free s0 = Some s1) as [s1 E1] by (simpl; rewrite C0; eauto).
      exists [Free], s1. split; [repeat constructor|].
      split; [eapply run_cons; [exact E1|done]|]. pose proof (step_inv N drop HN _ _ _ _ I0 E1).
      simpl in E1. rewrite C0 in E1. simplify_eq. split; [done|]. split_and!; [done|done|done|]. by intros ???. }
    assert (∀ s saved, inv N d s → destructing s = false → cons_ s = CExporting saved →
      ∃ ls s', Forall draining ls ∧ run ls s = Some s' ∧ inv N (S d) s' ∧ cons_ s' = CWaiting ∧
       allocated s' = allocated s ∧ destructing s' = false ∧ waiting_same s s') as Hexp.
    { intros s0 saved I0 D0 C0.
      assert (∃ s1, step Export s0 = Some s1) as [s1 E1] by (simpl; rewrite C0; eauto).
      pose proof (step_inv N drop HN _ _ _ _ I0 E1) as I1. pose proof E1 as E1'. simpl in E1'. rewrite C0 in E1'. injection E1' as <-.
      destruct (Hfree _ I1) as (ls & s2 & F & R & I2 & P2 & Q2 & R2 & W2); [done|done|].
      exists (Export :: ls), s2. split; [by constructor|]. split; [by eapply run_cons|]. done. }
    assert (∀ s, inv N d s → destructing s = false → cons_ s = CWaiting → status_of (at_ N s d) = READY →
      ∃ ls s', Forall draining ls ∧ run ls s = Some s' ∧ inv N (S d) s' ∧ cons_ s' = CWaiting ∧
       allocated s' = allocated s ∧ destructing s' = false ∧ waiting_same s s') as Htake.
    { intros s0 I0 D0 C0 St.
      assert (∃ s1, step Take s0 = Some s1 ∧ cons_ s1 = CExporting (last_idx_ts s0) ∧ destructing s1 = false ∧
                    allocated s1 = allocated s0 ∧ pubs s1 = pubs s0) as (s1 & E1 & C1 & D1 & A1 & P1).
      { simpl. rewrite C0, (i_tail _ _ _ I0). unfold at_ in St. rewrite St, D0. eexists. split; [done|]. split_and!; simpl; done. }
      pose proof (step_inv N drop HN _ _ _ _ I0 E1) as I1.
      destruct (Hexp _ _ I1 D1 C1) as (ls & s2 & F & R & I2 & P2 & Q2 & R2 & W2).
      exists (Take :: ls), s2. split; [by constructor|]. split; [by eapply run_cons|].
      split_and!; [done|done|congruence|done|]. intros p m ts. rewrite <-P1. apply W2. }
    destruct (lookup_lt_some s d Hlt) as [x Hx]. destruct (i_used _ _ _ I d x (le_n _) Hx) as [_ Hu].
    destruct (cons_ s) eqn:Ec.
    2: by eapply Hexp. 2: by eapply Hfree.
    2: { apply (i_fin _ _ _ I) in Ec. congruence. }
    destruct (status_of (at_ N s d)) eqn:St; [done| |by apply Htake|].
    2: { destruct Hu as (_ & Hb & _). by rewrite ?Ec in Hb. }
    assert (∀ s p, inv N d s → destructing s = false → cons_ s = CWaiting → pubs s p = PImported x.2 d (d mod N) →
      ∃ ls s', Forall draining ls ∧ run ls s = Some s' ∧ inv N (S d) s' ∧ cons_ s' = CWaiting ∧
       allocated s' = allocated s ∧ destructing s' = false ∧ waiting_same s s') as Hcommit.
    { intros s0 p I0 D0 C0 Hp.
      assert (∃ s1, step (Commit p) s0 = Some s1) as [s1 E1] by (simpl; rewrite Hp; eauto).
      pose proof (step_inv N drop HN _ _ _ _ I0 E1) as I1. pose proof E1 as E1'. simpl in E1'. rewrite Hp in E1'. injection E1' as <-.
      destruct (Htake _ I1) as (ls & s2 & F & R & I2 & P2 & Q2 & R2 & W2); [done|done|unfold at_; simpl; by rewrite upd_eq|].
      exists (Commit p :: ls), s2. split; [by constructor|]. split; [by eapply run_cons|].
      split_and!; [done|done|done|done|]. intros q m ts Hq. apply W2. simpl. rewrite upd_ne; [done|]. intros ->. congruence. }
    destruct Hu as [p [Hp|[Hp _]]]; [|by eapply Hcommit].
    assert (∃ s1, step (Import p) s = Some s1) as [s1 E1] by (simpl; rewrite Hp; eauto).
    pose proof (step_inv N drop HN _ _ _ _ I E1) as I1. pose proof E1 as E1'. simpl in E1'. rewrite Hp in E1'. injection E1' as <-.
    destruct (Hcommit _ p I1) as (ls & s2 & F & R & I2 & P2 & Q2 & R2 & W2); [done|done|simpl; by rewrite upd_eq|].
    exists (Import p :: ls), s2. split; [by constructor|]. split; [by eapply run_cons|].
    split_and!; [done|done|done|done|]. intros q m ts Hq. apply W2. simpl. rewrite upd_ne; [done|]. intros ->. congruence.
  Qed.

  Lemma drain d s : reachable s → inv N d s → destructing s = false →
    ∃ ls s', Forall draining ls ∧ run ls s = Some s' ∧ inv N (length (allocated s)) s' ∧
      allocated s' = allocated s ∧ destructing s' = false ∧ waiting_same s s'.
  Proof.
    intros Hr I Hd. remember (length (allocated s) - d) as n eqn:En. revert d s Hr I Hd En.
    induction n as [|n IH]; intros d s Hr I Hd En.
    - exists [], s. pose proof (i_le _ _ _ I). assert (d = length (allocated s)) as <- by lia.
      split_and!; try done. by intros ????.
    - destruct (drain_one d s Hr I Hd) as (ls & s1 & F & R & I1 & C1 & A1 & D1 & W1); [lia|].
      destruct (IH (S d) s1) as (ls2 & s2 & F2 & R2 & I2 & A2 & D2 & W2); [by eapply reach_run|done|done|rewrite A1; lia|].
      exists (ls ++ ls2), s2. split; [by apply Forall_app|]. split; [by rewrite (run_app N drop), R|].
      rewrite A1 in *. split_and!; [done|done|done|]. intros p m ts H. by apply W2, W1.
  Qed.

  (** C31. Until the queue is being destroyed, every admitted message can still be
      delivered, with no help but from the consumer thread and from the publishers
      already past admission... *)
  Theorem C31_all_delivered s : reachable s → destructing s = false →
    ∃ ls s', Forall draining ls ∧ run ls s = Some s' ∧ allocated s' = allocated s ∧
      delivered (trace s') = (λ '(its, m), (Some m, its)) <$> allocated s.
  Proof.
    intros Hr Hd. destruct (reachable_inv N drop HN s Hr) as [d I].
    destruct (drain d s Hr I Hd) as (ls & s' & F & R & I' & A & D & W).
    exists ls, s'. split_and!; [done..|]. rewrite (i_deliv _ _ _ I'). rewrite take_ge by (rewrite A; lia). rewrite A.
    apply list_fmap_ext. by intros j [its m] _.
  Qed.

  (** ... and a publisher waiting for room is not stuck: after such steps it gets a slot. *)
  Theorem C31_waiting_publisher_proceeds s p m ts now : reachable s → destructing s = false → pubs s p = PWaiting m ts →
    ∃ ls s' s'', Forall draining ls ∧ run ls s = Some s' ∧ step (Wake p now) s' = Some s'' ∧
      (allocated s'').*2 = (allocated s).*2 ++ [m].
  Proof.
    intros Hr Hd Hp. destruct (reachable_inv N drop HN s Hr) as [d I].
    destruct (drain d s Hr I Hd) as (ls & s' & F & R & I' & A & D & W).
    exists ls, s'. simpl. rewrite (W _ _ _ Hp), D.
    assert (status_of (slots s' (head s')) = FREE) as ->.
    { rewrite (i_head _ _ _ I'). apply (i_free _ _ _ I'). rewrite A. lia. }
    eexists. split_and!; [done..|]. simpl. by rewrite A, fmap_app.
  Qed.
End Props.

Section Timestamps.
  Context {M : Type} (N : nat) (HN : N ≠ 0).
  Implicit Types (s : mmq M).

  Definition sorted_alloc s : Prop :=
    StronglySorted (λ x y : nat * Z * M, (x.1.2 < y.1.2)%Z) (allocated s) ∧
    Forall (λ x, (x.1.2 ≤ (last_idx_ts s).2)%Z) (allocated s) ∧ (-1 ≤ (last_idx_ts s).2)%Z.

  Lemma sorted_allocate s p m us : sorted_alloc s → ((last_idx_ts s).2 < us)%Z → sorted_alloc (allocate N p m us s).
  Proof.
    intros (H1 & H2 & H3) Hus. split_and!; simpl.
    - apply ss_app; [|done|repeat constructor]. intros x y Hx ->%elem_of_list_singleton. simpl.
      rewrite Forall_forall in H2. specialize (H2 x Hx). simpl in H2. lia.
    - apply Forall_app. split; [|repeat constructor; simpl; lia]. eapply Forall_impl; [done|]. simpl. lia.
    - lia.
  Qed.

  Lemma sorted_delivered drop s : reachable N drop s → sorted_alloc s → increasing_ts (delivered (trace s)).
  Proof.
    intros Hr (H & _). destruct (C31_fifo N drop HN s Hr) as (n & _ & -> & _). unfold increasing_ts.
    assert (StronglySorted (λ x y : nat * Z * M, (x.1.2 < y.1.2)%Z) (take n (allocated s))) as H'.
    { rewrite <-(take_drop n (allocated s)) in H. by apply ss_app_l in H. }
    clear H. induction H' as [|[its m] l H IH Hf]; [constructor|]. simpl. constructor; [done|].
    apply Forall_fmap. eapply Forall_impl; [done|]. intros [its' m'] Hx. done.
  Qed.

  (** C32 (dropping mode). Whatever the publishers do, the consumer sees strictly increasing timestamps. *)
  Theorem C32_increasing_when_dropping s : reachable N true s → increasing_ts (delivered (trace s)).
  Proof.
    intros Hr. apply (sorted_delivered true); [done|].
    assert ((∀ p m ts, pubs s p ≠ PWaiting m ts) ∧ sorted_alloc s) as [_ H]; [|exact H]. revert s Hr. apply (reachable_ind N true).
    { split; [done|]. split_and!; [constructor..|done]. }
    intros s l s' Hr [Hw IH] E. destruct l as [q m ts now|q now|q|q|q| | | | |]; simpl in E.
    - destruct (pubs s q) eqn:Ep; try done. repeat case_match; simplify_eq; try done.
      split; [|apply sorted_allocate; [done|lia]]. intros p m' ts'. simpl. updc; [done|apply Hw].
    - destruct (pubs s q) eqn:Ep; try done. by apply Hw in Ep.
    - repeat case_match; simplify_eq. split; [|done]. intros p m' ts'. simpl. updc; [done|apply Hw].
    - repeat case_match; simplify_eq. split; [|done]. intros p m' ts'. simpl. updc; [done|apply Hw].
    - repeat case_match; simplify_eq. split; [|done]. intros p m' ts'. simpl. updc; [done|apply Hw].
    - repeat case_match; simplify_eq; done.
    - repeat case_match; simplify_eq; done.
    - repeat case_match; simplify_eq; done.
    - repeat case_match; simplify_eq; done.
    - simplify_eq; done.
  Qed.

  (** No thread starts publishing while another waits for room. *)
  Definition nobody_waits s : Prop := ∀ p m ts, pubs s p ≠ PWaiting m ts.
  Definition calm (ls : list (label M)) : Prop :=
    ∀ ls1 p m ts now ls2 s1, ls = ls1 ++ Publish p m ts now :: ls2 →
      run N false ls1 mmq_init = Some s1 → nobody_waits s1.

  Lemma calm_sorted ls s : calm ls → run N false ls mmq_init = Some s →
    sorted_alloc s ∧
    (∀ p m ts, pubs s p = PWaiting m ts → ((last_idx_ts s).2 < ts)%Z ∧ ∀ q m' ts', pubs s q = PWaiting m' ts' → q = p).
  Proof.
    revert s. induction ls as [|l ls IH] using rev_ind; intros s Hc Hr.
    { injection Hr as <-. split; [split_and!; [constructor..|done]|done]. }
    rewrite (run_app N false) in Hr. destruct (run N false ls mmq_init) as [s1|] eqn:E; [|done]. simpl in Hr.
    destruct (step N false l s1) as [s2|] eqn:E2; [|done]. injection Hr as <-.
    destruct (IH s1) as [Hs Hw]; [|done|].
    { intros ls1 p m ts now ls2 s' -> . apply (Hc ls1 p m ts now (ls2 ++ [l])). by rewrite <-app_assoc. }
    clear IH. pose proof Hs as (_ & _ & Hge).
    destruct l as [q m ts now|q now|q|q|q| | | | |]; simpl in E2.
    - destruct (pubs s1 q) eqn:Ep; try done.
      assert (nobody_waits s1) as Hn by (eapply (Hc ls q m ts now []); done).
      destruct (destructing s1); [by simplify_eq|]. destruct (decide _) as [Hts|]; [|by simplify_eq].
      assert (stamp ts now = ts) as Hst by (unfold stamp; rewrite decide_True; [done|lia]).
      assert (s2 = allocate N q m (stamp ts now) s1 ∨ s2 = set_pub q (PWaiting m ts) s1) as [-> | ->]
        by (repeat case_match; simplify_eq; auto).
      + rewrite Hst. split; [apply sorted_allocate; [done|lia]|].
        intros p m' ts'. simpl. updc; [done|]. intros H. by apply Hn in H.
      + split; [done|]. intros p m' ts'. simpl. unfold upd at 1; match goal with |- context [decide (?a = ?b)] => destruct (decide (a = b)) end; [|intros H; by apply Hn in H].
        intros [= <- <-]. split; [lia|]. intros p' m2 ts2. updc; [congruence|]. intros H'; by apply Hn in H'.
    - destruct (pubs s1 q) as [|m ts|m k i|m k i|m k i] eqn:Ep; try done. destruct (Hw _ _ _ Ep) as [Hlt Hu].
      assert (stamp ts now = ts) as Hst by (unfold stamp; rewrite decide_True; [done|lia]).
      assert (s2 = allocate N q m (stamp ts now) s1 ∨ s2 = emit (Rejected q m) (set_pub q PIdle s1)) as [-> | ->]
        by (repeat case_match; simplify_eq; auto).
      + rewrite Hst. split; [by apply sorted_allocate|].
        intros p m' ts'. simpl. updc; [done|]. intros H. by apply Hu in H.
      + split; [done|]. intros p m' ts'. simpl. updc; [done|]. intros H. by apply Hu in H.
    - destruct (pubs s1 q) eqn:Ep; try done. simplify_eq. split; [done|]. intros p m' ts'. simpl. updc; [done|].
      intros H. destruct (Hw _ _ _ H) as [? Hu]. split; [done|]. intros q' m2 ts2. match goal with |- context [decide (?a = ?b)] => destruct (decide (a = b)) end; [done|]. apply Hu.
    - destruct (pubs s1 q) eqn:Ep; try done. simplify_eq. split; [done|]. intros p m' ts'. simpl. updc; [done|].
      intros H. destruct (Hw _ _ _ H) as [? Hu]. split; [done|]. intros q' m2 ts2. match goal with |- context [decide (?a = ?b)] => destruct (decide (a = b)) end; [done|]. apply Hu.
    - destruct (pubs s1 q) eqn:Ep; try done. simplify_eq. split; [done|]. intros p m' ts'. simpl. updc; [done|].
      intros H. destruct (Hw _ _ _ H) as [? Hu]. split; [done|]. intros q' m2 ts2. match goal with |- context [decide (?a = ?b)] => destruct (decide (a = b)) end; [done|]. apply Hu.
    - repeat case_match; simplify_eq; done.
    - repeat case_match; simplify_eq; done.
    - repeat case_match; simplify_eq; done.
    - repeat case_match; simplify_eq; done.
    - simplify_eq; done.
  Qed.

  (** C32 (blocking mode), proved part: when no thread starts publishing while
      another waits for room (one publisher thread, or a buffer that never fills up).
      The full statement, for any publishers, is refuted below. *)
  Theorem C32_increasing_when_blocking_partial ls s : calm ls → run N false ls mmq_init = Some s →
    increasing_ts (delivered (trace s)).
  Proof. intros Hc Hr. apply (sorted_delivered false); [by exists ls|]. by apply (calm_sorted ls). Qed.

  Theorem C32_increasing_single_publisher_partial ls s p : (∀ q m ts now, Publish q m ts now ∈ ls → q = p) →
    run N false ls mmq_init = Some s → increasing_ts (delivered (trace s)).
  Proof.
    intros Hp Hr. apply (C32_increasing_when_blocking_partial ls); [|done].
    intros ls1 q m ts now ls2 s1 -> Hr1 p' m' ts' Hw.
    assert (∀ ls1 s1, (∀ q m ts now, Publish q m ts now ∈ ls1 → q = p) → run N false ls1 mmq_init = Some s1 →
       ∀ q, q ≠ p → pubs s1 q = PIdle) as Hidle.
    { clear. intros ls1. induction ls1 as [|l ls IH] using rev_ind; intros s Hp Hr.
      { by injection Hr as <-. }
      rewrite (run_app N false) in Hr. destruct (run N false ls mmq_init) as [s1|] eqn:E; [|done]. simpl in Hr.
      destruct (step N false l s1) as [s2|] eqn:E2; [|done]. injection Hr as <-. intros q Hq.
      assert (∀ q, q ≠ p → pubs s1 q = PIdle) as IH'.
      { apply IH; [|done]. intros ???? H. eapply Hp. apply elem_of_app. by left. }
      assert (∀ m ts now q, l = Publish q m ts now → q = p) as Hl.
      { intros ???? ->. eapply Hp. apply elem_of_app. right. by apply elem_of_list_singleton. }
      pose proof (IH' q Hq) as Eq.
      destruct l as [q0 m ts now|q0 now|q0|q0|q0| | | | |]; simpl in E2;
        repeat case_match; simplify_eq; simpl; try done; updc; try done; subst; try congruence.
      all: by rewrite (Hl _ _ _ _ eq_refl) in Hq. }
    assert (∀ q m ts now, Publish q m ts now ∈ ls1 → q = p) as Hp1.
    { intros ???? H. eapply Hp. apply elem_of_app. by left. }
    assert (p' = p) as ->.
    { destruct (decide (p' = p)); [done|]. rewrite (Hidle ls1 s1) in Hw; done. }
    assert (q = p) as ->. { eapply Hp. apply elem_of_app. right. by left. }
    rewrite (run_app N false), Hr1 in Hr. simpl in Hr. by rewrite Hw in Hr.
  Qed.

  (** C33. In dropping mode no publisher ever waits, and Publish finishes its locked
      part at once: rejecting exactly when no slot is free. *)
  Theorem C33_drop_only_when_full s p m ts now : reachable N true s → pubs s p = PIdle →
    (∀ q m' ts', pubs s q ≠ PWaiting m' ts') ∧
    ∃ s', step N true (Publish p m ts now) s = Some s' ∧
      ((∀ i, i < N → status_of (slots s i) ≠ FREE) → s' = emit (Rejected p m) s) ∧
      (∀ i, i < N → status_of (slots s i) = FREE →
         if decide (ts > (last_idx_ts s).2)%Z
         then trace s' = trace s ∧ allocated s' = allocated s ++ [(S (length (allocated s)), ts, m)]
         else s' = emit (Threw p m) s).
  Proof.
    intros Hr Hp. split.
    { clear p Hp. revert s Hr. apply (reachable_ind N true (λ s, ∀ q m' ts', pubs s q ≠ PWaiting m' ts')); [done|]. intros s l s' Hr IH E.
      destruct l as [q m' ts' now'|q now'|q|q|q| | | | |]; simpl in E;
       repeat case_match; simplify_eq; simpl; try done; try (by apply IH in H);
       intros q' m2 ts2; updc; try done; apply IH. }
    destruct (reachable_inv N true HN s Hr) as [d I].
    simpl. rewrite Hp.
    assert (head s < N) as Hh by (rewrite (i_head _ _ _ I); by apply Nat.mod_upper_bound).
    destruct (decide (status_of (slots s (head s)) = FREE)) as [E|E].
    - rewrite E. case_decide.
      + eexists. split; [done|]. split; [intros H'; by destruct (H' _ Hh)|]. intros i _ _. rewrite <-(i_last _ _ _ I). done.
      + eexists. split; [done|]. split; [intros H'; by destruct (H' _ Hh)|]. done.
    - exists (emit (Rejected p m) s). split; [by destruct (status_of _)|]. split; [done|].
      intros i Hi F. exfalso.
      destruct (decide (length (allocated s) < d + N)) as [Hlt|Hge].
      { apply E. rewrite (i_head _ _ _ I). apply (i_free _ _ _ I). lia. }
      pose proof (i_le _ _ _ I) as Hle.
      assert (∃ k, d ≤ k < d + N ∧ k mod N = i) as (k & Hk & <-).
      { pose proof (Nat.mod_upper_bound d N HN) as Hm. pose proof (Nat.div_mod d N HN) as Hd.
        destruct (decide (d mod N ≤ i)).
        - exists (i + d / N * N). split; [lia|]. rewrite Nat.mod_add by done. by apply Nat.mod_small.
        - exists (i + S (d / N) * N). split; [lia|]. rewrite Nat.mod_add by done. by apply Nat.mod_small. }
      destruct (lookup_lt_some s k) as [x Hx]; [lia|].
      destruct (i_used _ _ _ I k x) as [_ Hu]; [lia|done|]. unfold at_ in Hu. by rewrite F in Hu.
  Qed.
End Timestamps.

Section Destruction.
  Context {M : Type} (N : nat) (drop : bool) (HN : N ≠ 0).
  Implicit Types (s : mmq M).

  Lemma finished_stays s ls s' : cons_ s = CFinished → run N drop ls s = Some s' →
    cons_ s' = CFinished ∧ delivered (trace s') = delivered (trace s).
  Proof.
    revert s. induction ls as [|l ls IH]; intros s Hc Hr; simpl in Hr; [by injection Hr as <-|].
    destruct (step N drop l s) as [s1|] eqn:E; [|done].
    assert (cons_ s1 = CFinished ∧ delivered (trace s1) = delivered (trace s)) as [H1 H2].
    { destruct l; simpl in E; repeat case_match; simplify_eq; simpl; try done;
        rewrite ?delivered_app; simpl; by rewrite ?app_nil_r. }
    destruct (IH _ H1 Hr) as [H3 H4]. by rewrite H4.
  Qed.

  (** C34, proved part. Once destruction has begun, the consumer finishes (the join
      in the destructor returns) after at most three of its own steps, whatever else
      is queued, at most one more message (the one being handed over) is delivered, and
      nothing is delivered after that; publishers waiting for room are sent away.
      Missing: the messages still queued are delivered -- refuted below. *)
  Theorem C34_destructor_returns_partial s : reachable N drop s → destructing s = true →
    (∃ ls s', length ls ≤ 3 ∧ Forall (λ l, match l with Export | Free | Finish => True | _ => False end) ls ∧
       run N drop ls s = Some s' ∧ cons_ s' = CFinished) ∧
    (∀ ls s', run N drop ls s = Some s' → length (delivered (trace s')) ≤ S (length (delivered (trace s)))) ∧
    (∀ p m ts now, pubs s p = PWaiting m ts → step N drop (Wake p now) s = Some (emit (Rejected p m) (set_pub p PIdle s))).
  Proof.
    intros Hr Hd. split_and!.
    - destruct (cons_ s) eqn:Ec.
      + eexists [Finish], _. split; [simpl; lia|]. split; [repeat constructor|]. simpl. rewrite Ec, Hd. done.
      + eexists [Export; Free; Finish], _. split; [simpl; lia|]. split; [repeat constructor|]. simpl. rewrite Ec. simpl. rewrite Hd. done.
      + eexists [Free; Finish], _. split; [simpl; lia|]. split; [repeat constructor|]. simpl. rewrite Ec. simpl. rewrite Hd. done.
      + exists [], s. split; [simpl; lia|]. split; [constructor|]. done.
    - intros ls s' Hrun.
      assert (∀ s, destructing s = true → run N drop ls s = Some s' →
        length (delivered (trace s')) ≤ (match cons_ s with CExporting _ => 1 | _ => 0 end) + length (delivered (trace s))) as H.
      { clear. induction ls as [|l ls IH]; intros s Hd Hr; simpl in Hr; [injection Hr as <-; lia|].
        destruct (step N drop l s) as [s1|] eqn:E; [|done].
        assert (destructing s1 = true ∧ (match cons_ s1 with CExporting _ => 1 | _ => 0 end) + length (delivered (trace s1)) ≤
                 (match cons_ s with CExporting _ => 1 | _ => 0 end) + length (delivered (trace s))) as [H1 H2].
        { destruct l; simpl in E; rewrite ?Hd in E;
            repeat (match type of E with context [match ?x with _ => _ end] => destruct x eqn:? end; try discriminate E);
            simplify_eq; simpl in *; rewrite ?delivered_app, ?app_length; simpl;
            repeat match goal with H : cons_ _ = _ |- _ => rewrite H end; split; done || lia. }
        specialize (IH _ H1 Hr). lia. }
      specialize (H s Hd Hrun). destruct (cons_ s); lia.
    - intros p m ts now Hp. simpl. by rewrite Hp, Hd.
  Qed.
End Destruction.

Section ReturnValue.
  Context {M : Type} (N : nat) (drop : bool) (HN : N ≠ 0).
  Implicit Types (s : mmq M).

  (** C61, proved part. Publish returns the index and timestamp its message is (to be) delivered
      with, if fewer than [N] other messages were admitted after it and before it returned.
      Without that, see the refutation below. *)
  Theorem C61_returned_index_partial s s' p m k i x : reachable N drop s → pubs s p = PCommitted m k i →
    allocated s !! k = Some x → length (allocated s) ≤ k + N →
    step N drop (Return p) s = Some s' → trace s' = trace s ++ [Published p m k x.1] ∧ x.2 = m.
  Proof.
    intros Hr Hp Hx Hl E.
    assert (∀ k x, allocated s !! k = Some x → length (allocated s) ≤ k + N → index_ts (slots s (k mod N)) = x.1) as H.
    { clear Hp Hx Hl E k x. revert s Hr.
      apply (reachable_ind N drop (λ s, ∀ k x, allocated s !! k = Some x → length (allocated s) ≤ k + N → index_ts (slots s (k mod N)) = x.1)).
      { intros k x H. simpl in H. by destruct k. }
      intros s l s1 Hr IH E. destruct (reachable_inv N drop HN s Hr) as [d I].
      assert (∀ q m us k x, allocated (allocate N q m us s) !! k = Some x → length (allocated (allocate N q m us s)) ≤ k + N →
        index_ts (slots (allocate N q m us s) (k mod N)) = x.1) as Hal.
      { intros q m' us k x. simpl. rewrite app_length. simpl. rewrite lookup_app. destruct (allocated s !! k) eqn:F.
        - intros [= <-] Hl. pose proof (lookup_lt_Some _ _ _ F). rewrite upd_ne; [apply IH; [done|lia]|].
          rewrite (i_head _ _ _ I). intros E'. apply (mod_inj N k) in E'; lia.
        - intros H Hl. apply lookup_ge_None in F. pose proof (lookup_lt_Some _ _ _ H) as Hk. simpl in Hk.
          assert (k = length (allocated s)) as -> by lia. rewrite Nat.sub_diag in H. injection H as <-.
          rewrite (i_head _ _ _ I), upd_eq. done. }
      assert (∀ i sl, index_ts sl = index_ts (slots s i) → ∀ k x, allocated s !! k = Some x → length (allocated s) ≤ k + N →
        index_ts (upd i sl (slots s) (k mod N)) = x.1) as Hsl.
      { intros j sl Hj k x Hx Hl. updc; [subst; rewrite Hj|]; by apply IH. }
      destruct l; simpl in E; repeat case_match; simplify_eq; try (by apply Hal); simpl; try done; by apply Hsl. }
    simpl in E. rewrite Hp in E. simplify_eq. simpl.
    destruct (reachable_inv N drop HN s Hr) as [d I].
    destruct (i_ticket _ _ _ I p m k i) as [-> Hm]; [by rewrite Hp|].
    rewrite Hx in Hm. simpl in Hm. injection Hm as <-. by rewrite (H k x).
  Qed.
End ReturnValue.

(** Concrete runs. *)
Definition consume : list (label nat) := [Take; Export; Free].
Definition publish1 (p m : nat) (ts : Z) : list (label nat) := [Publish p m ts 0; Import p; Commit p; Return p].
Definition observe (N : nat) (drop : bool) (ls : list (label nat)) : option (list (event nat)) :=
  trace <$> run N drop ls mmq_init.

(** Two threads publish around each other into a buffer of two; the second to be
    admitted finishes writing first; delivery is in the order of admission. *)
Example C31_example :
  observe 2 false ([Publish 0 10 1 0; Publish 1 11 2 0; Import 1; Commit 1; Return 1; Publish 1 12 3 0; Import 0; Commit 0]
                   ++ consume ++ [Wake 1 0; Return 0; Import 1; Commit 1] ++ consume ++ consume ++ [Return 1])
  = Some [Published 1 11 1 (2, 2%Z); Delivered (Some 10) (1, 1%Z) (2, 2%Z); Published 0 10 0 (3, 3%Z);
          Delivered (Some 11) (2, 2%Z) (3, 3%Z); Delivered (Some 12) (3, 3%Z) (3, 3%Z); Published 1 12 2 (3, 3%Z)].
Proof. vm_compute. reflexivity. Qed.

(** C32 refuted for blocking queues: with a buffer of one, two publishers are both past the timestamp
    check when they start waiting; the consumer sees timestamps 1, 5, 3. *)
Definition bad_run32 : list (label nat) :=
  publish1 0 10 1 ++ [Publish 1 11 5 0; Publish 2 12 3 0] ++ consume ++ [Wake 1 0; Import 1; Commit 1]
    ++ consume ++ [Wake 2 0; Import 2; Commit 2] ++ consume.
Lemma bad_run32_ok :
  observe 1 false bad_run32 = Some [Published 0 10 0 (1, 1%Z); Delivered (Some 10) (1, 1%Z) (1, 1%Z);
     Delivered (Some 11) (2, 5%Z) (2, 5%Z); Delivered (Some 12) (3, 3%Z) (3, 3%Z)].
Proof. vm_compute. reflexivity. Qed.
Lemma observe_run N drop ls t : observe N drop ls = Some t → ∃ s, run N drop ls mmq_init = Some s ∧ trace s = t.
Proof. unfold observe. intros H. apply fmap_Some in H as (s & H1 & H2). eauto. Qed.

Theorem C32_increasing_when_blocking_refuted :
  ∃ (ls : list (label nat)) s, run 1 false ls mmq_init = Some s ∧ ¬ increasing_ts (delivered (trace s)) ∧
    (delivered (trace s)).*2 = [(1, 1%Z); (2, 5%Z); (3, 3%Z)].
Proof.
  destruct (observe_run _ _ _ _ bad_run32_ok) as (s & Hr & Ht).
  exists bad_run32, s. split; [exact Hr|]. rewrite Ht. split; [|reflexivity].
  intros F. unfold increasing_ts in F. simpl in F. apply StronglySorted_inv in F as [F _]. apply StronglySorted_inv in F as [_ F].
  apply Forall_cons in F as [F _]. simpl in F. lia.
Qed.

(** A run with one publisher that does wait. *)
Example C32_calm_example :
  delivered <$> observe 1 false (publish1 0 10 1 ++ [Publish 0 11 5 0] ++ consume ++ [Wake 0 0; Import 0; Commit 0] ++ consume)
  = Some [(Some 10, (1, 1%Z)); (Some 11, (2, 5%Z))].
Proof. vm_compute. reflexivity. Qed.
Example C32_drop_example :
  observe 1 true (publish1 0 10 1 ++ [Publish 1 11 5 0] ++ consume ++ publish1 1 12 4)
  = Some [Published 0 10 0 (1, 1%Z); Rejected 1 11; Delivered (Some 10) (1, 1%Z) (1, 1%Z); Published 1 12 1 (2, 4%Z)].
Proof. vm_compute. reflexivity. Qed.

(** C34 refuted: the message was accepted, its Publish returned, then the queue was destroyed; the
    destructor returns, and the message is never delivered. *)
Definition bad_run34 : list (label nat) := publish1 0 10 1 ++ [Destroy; Finish].
Lemma bad_run34_ok :
  (λ s, (trace s, cons_ s)) <$> run 4 false bad_run34 mmq_init = Some ([Published 0 10 0 (1, 1%Z)], CFinished).
Proof. vm_compute. reflexivity. Qed.
Theorem C34_destructor_drains_refuted :
  ∃ (ls : list (label nat)) s, run 4 false ls mmq_init = Some s ∧ cons_ s = CFinished ∧
    Published 0 10 0 (1, 1%Z) ∈ trace s ∧
    ∀ ls' s', run 4 false ls' s = Some s' → delivered (trace s') = [].
Proof.
  destruct (proj1 (fmap_Some _ _ _) bad_run34_ok) as (s & Hr & H).
  assert (trace s = [Published 0 10 0 (1, 1%Z)] ∧ cons_ s = CFinished) as [Ht Hc] by (by injection H as -> ->).
  exists bad_run34, s. split; [exact Hr|]. split; [exact Hc|]. rewrite Ht. split; [by left|].
  intros ls' s' Hr'. destruct (finished_stays 4 false ltac:(lia) s ls' s' Hc Hr') as [_ ->]. by rewrite Ht.
Qed.

(** C61 refuted: the slot is read after the commit, when it may hold another message: the first
    publisher is told index 2 and timestamp 7, those of the second one's message. *)
Theorem C61_returned_index_refuted :
  ∃ (ls : list (label nat)), observe 1 false ls =
    Some [Delivered (Some 10) (1, 1%Z) (1, 1%Z); Published 0 10 0 (2, 7%Z); Published 1 11 1 (2, 7%Z);
          Delivered (Some 11) (2, 7%Z) (2, 7%Z)].
Proof.
  exists ([Publish 0 10 1 0; Import 0; Commit 0] ++ consume ++ [Publish 1 11 7 0; Return 0; Import 1; Commit 1; Return 1] ++ consume).
  vm_compute. reflexivity.
Qed.

(** ** C35: the priority queue *)
Section MMPQ.
  Context {M : Type}.
  Implicit Types (s : mmpq M) (e : entry M).

  Definition by_time e e' : Prop := (e_us e < e_us e')%Z.
  (** What was published: the messages with their timestamps, and the index each got. *)
  Fixpoint published (n : nat) (ops : list (pq_op M)) : list (entry M) :=
    match ops with
    | [] => []
    | PqPublish m us :: rest => Entry (S n) us m :: published (S n) rest
    | _ :: rest => published n rest
    end.

  Lemma emplace_in e q x : x ∈ emplace e q → x = e ∨ x ∈ q.
  Proof.
    induction q as [|y q IH]; simpl.
    - intros ->%elem_of_list_singleton. by left.
    - repeat case_decide; rewrite ?elem_of_cons; intros H1; intuition.
  Qed.
  Lemma emplace_sorted e q : StronglySorted by_time q → StronglySorted by_time (emplace e q).
  Proof.
    induction 1 as [|y q H IH Hf]; simpl; [repeat constructor|]. repeat case_decide.
    - constructor; [by constructor|]. constructor; [done|]. eapply Forall_impl; [done|]. unfold by_time in *. simpl. lia.
    - constructor; [done|]. apply Forall_forall. intros x [->|Hx]%emplace_in; [done|]. by eapply Forall_forall in Hf.
    - by constructor.
  Qed.
  Lemma emplace_perm e q : (∀ x, x ∈ q → e_us x ≠ e_us e) → emplace e q ≡ₚ e :: q.
  Proof.
    induction q as [|y q IH]; intros H; simpl; [done|]. repeat case_decide; [done| |].
    - rewrite IH by (intros ? Hx; apply H; by right). apply Permutation_swap.
    - exfalso. apply (H y); [by left|lia].
  Qed.

  Lemma pq_sorted ops s t s' : StronglySorted by_time (queue s) → pq_run ops s = Some (t, s') →
    StronglySorted by_time (queue s').
  Proof.
    revert s t. induction ops as [|op ops IH]; intros s t Hs Hr; simpl in Hr; [by simplify_eq|].
    destruct (pq_step op s) as [[t1 s1]|] eqn:E; [|done]. simpl in Hr.
    destruct (pq_run ops s1) as [[t2 s2]|] eqn:E2; [|done]. simpl in Hr. simplify_eq.
    eapply IH; [|done]. destruct op; simpl in E; repeat case_match; simplify_eq; simpl; try done.
    - by apply emplace_sorted.
    - by apply StronglySorted_inv in Hs as [? _].
  Qed.

  (** C35. A message is delivered only once the head has reached its timestamp, and before every message
      queued then that has a later one; it is always possible to deliver what the head has passed. *)
  (** The times the head was moved to: those of the calls that did not throw. *)
  Fixpoint pq_heads (ops : list (pq_op M)) s : list Z :=
    match ops with
    | [] => []
    | op :: ops =>
        match pq_step op s with
        | Some (t, s') => (match op, t with PqUpdateHead us, [] => [us] | _, _ => [] end) ++ pq_heads ops s'
        | None => []
        end
    end.
  (** C35. The head only moves forward; a call that would not move it throws and changes nothing. *)
  Theorem C35_head_strictly_increases ops : StronglySorted Z.lt (pq_heads ops mmpq_init) ∧
    ∀ t s us, pq_run ops mmpq_init = Some (t, s) →
      (us ≤ (pq_last s).2)%Z → pq_step (PqUpdateHead us) s = Some ([PqThrew us], s).
  Proof.
    split.
    - assert (∀ ops s, StronglySorted Z.lt (pq_heads ops s) ∧ Forall (λ us, (pq_last s).2 < us)%Z (pq_heads ops s)) as H; [|apply H].
      clear. induction ops as [|op ops IH]; intros s; simpl; [by repeat constructor|].
      destruct (pq_step op s) as [[t1 s1]|] eqn:E; [|by repeat constructor]. destruct (IH s1) as [H1 H2].
      destruct op as [m us|us| |]; simpl in E; repeat case_match; simplify_eq/=; try (split; [done|done]).
      split.
      + constructor; [done|exact H2].
      + constructor; [lia|]. eapply Forall_impl; [exact H2|]. simpl. lia.
    - intros t s us _ Hle. simpl. rewrite decide_False by lia. done.
  Qed.

  Theorem C35_after_head_partial ops t s t' s' : pq_run ops mmpq_init = Some (t, s) →
    pq_step PqConsume s = Some (t', s') →
    ∃ e, t' = [PqDelivered e (pq_last s)] ∧ (e_us e ≤ (pq_last s).2)%Z ∧ queue s = e :: queue s' ∧
         Forall (λ e', (e_us e < e_us e')%Z) (queue s').
  Proof.
    intros Hr E. assert (StronglySorted by_time (queue s)) as Hs by (eapply pq_sorted; [|done]; constructor).
    simpl in E. repeat case_match; simplify_eq. eexists. split_and!; try done.
    by apply StronglySorted_inv in Hs as [_ ?].
  Qed.

  Theorem C35_delivers_what_head_passed_partial ops t s : pq_run ops mmpq_init = Some (t, s) → pq_destructing s = false →
    Forall (λ e, (e_us e ≤ (pq_last s).2)%Z) (queue s) →
    ∃ t' s', pq_run (replicate (length (queue s)) PqConsume) s = Some (t', s') ∧
      pq_delivered t' = queue s ∧ queue s' = [].
  Proof.
    intros _ Hd Hf. remember (queue s) as q eqn:Eq. revert s Hd Hf Eq. induction q as [|e q IH]; intros s Hd Hf Eq.
    - by exists [], s.
    - simpl. rewrite Hd, <-Eq. apply Forall_cons in Hf as [He Hf]. rewrite decide_True by done. simpl.
      destruct (IH (MMPQ q (pq_last s) false)) as (t' & s' & H1 & H2 & H3); [done..|].
      rewrite H1. simpl. exists (PqDelivered e (pq_last s) :: t'), s'. split; [done|]. split; [|done].
      change (pq_delivered (PqDelivered e (pq_last s) :: t')) with (e :: pq_delivered t'). by rewrite H2.
  Qed.

  (** C35. With pairwise distinct timestamps nothing is lost or duplicated... *)
  Theorem C35_no_loss_partial ops t s : NoDup (e_us <$> published 0 ops) → pq_run ops mmpq_init = Some (t, s) →
    pq_delivered t ++ queue s ≡ₚ published 0 ops.
  Proof.
    intros Hnd Hr.
    assert (∀ ops s t s' , pq_run ops s = Some (t, s') → NoDup (e_us <$> queue s ++ published (pq_last s).1 ops) →
       pq_delivered t ++ queue s' ≡ₚ queue s ++ published (pq_last s).1 ops) as H; [|by apply (H _ _ _ _ Hr)].
    clear. induction ops as [|op ops IH]; intros s t s' Hr Hnd; simpl in Hr; [simplify_eq; simpl; by rewrite app_nil_r|].
    destruct (pq_step op s) as [[t1 s1]|] eqn:E; [|done]. simpl in Hr.
    destruct (pq_run ops s1) as [[t2 s2]|] eqn:E2; [|done]. simpl in Hr. simplify_eq.
    assert (pq_delivered (t1 ++ t2) = pq_delivered t1 ++ pq_delivered t2) as -> by apply omap_app.
    destruct op as [m us|us| |]; simpl in E.
    - simplify_eq. simpl in Hnd |- *.
      assert (emplace (Entry (S (pq_last s).1) us m) (queue s) ≡ₚ Entry (S (pq_last s).1) us m :: queue s) as Hp.
      { apply emplace_perm. intros x Hx F. rewrite fmap_app, fmap_cons in Hnd. simpl in Hnd.
        apply NoDup_app in Hnd as (_ & Hd & _). apply (Hd (e_us x)); [by apply elem_of_list_fmap_1|]. rewrite F. by left. }
      rewrite (IH _ _ _ E2); simpl; [rewrite Hp; by rewrite <-Permutation_middle|].
      eapply NoDup_Permutation_proper; [|exact Hnd]. rewrite Hp. by rewrite <-Permutation_middle.
    - repeat case_match; simplify_eq; by apply (IH _ _ _ E2).
    - destruct (pq_destructing s); [done|]. destruct (queue s) as [|e q] eqn:Eq; [done|]. case_decide; [|done]. simplify_eq.
      change (pq_delivered [PqDelivered e (pq_last s)]) with [e]. rewrite <-app_assoc. simpl in Hnd |- *.
      rewrite (IH _ _ _ E2); [done|]. simpl in Hnd |- *. by apply NoDup_cons in Hnd as [_ ?].
    - simplify_eq. by apply (IH _ _ _ E2).
  Qed.

  (** ... and if moreover everything is published ahead of the head, delivery is in timestamp order. *)
  Fixpoint ahead (h : Z) (ops : list (pq_op M)) : Prop :=
    match ops with
    | [] => True
    | PqPublish _ us :: rest => (h < us)%Z ∧ ahead h rest
    | PqUpdateHead us :: rest => ahead (Z.max h us) rest
    | _ :: rest => ahead h rest
    end.

  Theorem C35_in_order_partial ops t s : ahead (-1) ops → pq_run ops mmpq_init = Some (t, s) →
    StronglySorted by_time (pq_delivered t ++ queue s).
  Proof.
    intros Ha Hr.
    assert (∀ ops s t s' done_, pq_run ops s = Some (t, s') → ahead (pq_last s).2 ops →
       StronglySorted by_time (done_ ++ queue s) → Forall (λ e, (e_us e ≤ (pq_last s).2)%Z) done_ →
       StronglySorted by_time (done_ ++ pq_delivered t ++ queue s')) as H;
      [|apply (H _ _ _ _ [] Hr); [done|constructor|constructor]].
    clear. induction ops as [|op ops IH]; intros s t s' dn Hr Ha Hs Hf; simpl in Hr; [by simplify_eq|].
    destruct (pq_step op s) as [[t1 s1]|] eqn:E; [|done]. simpl in Hr.
    destruct (pq_run ops s1) as [[t2 s2]|] eqn:E2; [|done]. simpl in Hr. simplify_eq.
    assert (pq_delivered (t1 ++ t2) = pq_delivered t1 ++ pq_delivered t2) as -> by apply omap_app.
    destruct op as [m us|us| |]; simpl in E, Ha.
    - simplify_eq. destruct Ha as [Hh Ha]. apply (IH _ _ _ dn E2); simpl; [done| |done].
      assert (StronglySorted by_time (queue s)) as Hq.
      { clear -Hs. induction dn as [|x dn IHd]; [done|]. apply IHd. by apply StronglySorted_inv in Hs as [? _]. }
      apply ss_app; [|by apply ss_app_l in Hs|by apply emplace_sorted].
      intros x y Hx [->|Hy]%emplace_in.
      + rewrite Forall_forall in Hf. specialize (Hf x Hx). simpl in Hf. unfold by_time. simpl. lia.
      + clear -Hs Hx Hy. induction dn as [|z dn IHd]; [by apply elem_of_nil in Hx|].
        apply StronglySorted_inv in Hs as [Hs Hz]. apply elem_of_cons in Hx as [->|Hx]; [|by apply IHd].
        rewrite Forall_forall in Hz. apply Hz, elem_of_app. by right.
    - case_decide; simplify_eq.
      + apply (IH _ _ _ dn E2); simpl; [by rewrite Z.max_r in Ha by lia|done|].
        eapply Forall_impl; [done|]. simpl. lia.
      + apply (IH _ _ _ dn E2); [by rewrite Z.max_l in Ha by lia|done|done].
    - destruct (pq_destructing s); [done|]. destruct (queue s) as [|e q] eqn:Eq; [done|]. case_decide; [|done]. simplify_eq.
      change (pq_delivered [PqDelivered e (pq_last s)]) with [e]. simpl.
      specialize (IH _ _ _ (dn ++ [e]) E2). simpl in IH. rewrite <-!app_assoc in IH. apply IH; [done| |].
      + done.
      + apply Forall_app. split; [done|]. by repeat constructor.
    - simplify_eq. by apply (IH _ _ _ dn E2).
  Qed.
End MMPQ.

(** C35 refuted: of two messages published with the same timestamp one is dropped ... *)
Theorem C35_equal_timestamps_refuted :
  ∃ (ops : list (pq_op nat)) t s, pq_run ops mmpq_init = Some (t, s) ∧
    published 0 ops = [Entry 1 5 10; Entry 2 5 11] ∧ pq_delivered t = [Entry 1 5 10] ∧ queue s = [].
Proof. eexists [PqPublish 10 5; PqPublish 11 5; PqUpdateHead 5; PqConsume], _, _. split; [vm_compute; reflexivity|]. done. Qed.

(** ... a message published behind the head comes after later ones ... *)
Theorem C35_timestamp_order_refuted :
  ∃ (ops : list (pq_op nat)) t s, pq_run ops mmpq_init = Some (t, s) ∧
    pq_delivered t = [Entry 1 5 10; Entry 2 3 11].
Proof. eexists [PqPublish 10 5; PqUpdateHead 5; PqConsume; PqPublish 11 3; PqConsume], _, _. split; [vm_compute; reflexivity|]. done. Qed.

(** ... and what is queued when the destructor runs is lost, even behind the head. *)
Theorem C35_destructor_refuted :
  ∃ (ops : list (pq_op nat)) t s, pq_run ops mmpq_init = Some (t, s) ∧ queue s = [Entry 1 5 10] ∧ (5 ≤ (pq_last s).2)%Z ∧
    pq_step PqConsume s = None.
Proof. eexists [PqPublish 10 5; PqUpdateHead 5; PqDestroy], _, _. split; [vm_compute; reflexivity|]. done. Qed.

Example C35_example :
  (λ '(t, s), (pq_delivered t, queue s)) <$>
    pq_run [PqPublish 10 7; PqPublish 11 3; PqPublish 12 5; PqUpdateHead 6; PqConsume; PqConsume] mmpq_init
  = Some ([Entry 2 3 11; Entry 3 5 12], [Entry 1 7 10]) ∧
  ahead (-1) [PqPublish 10 7; PqPublish 11 3; PqPublish 12 5; PqUpdateHead 6; PqConsume; PqConsume].
Proof. split; [reflexivity|]. simpl. lia. Qed.

Print Assumptions C31_fifo.
Print Assumptions C31_publishers.
Print Assumptions C31_exclusive.
Print Assumptions C31_last_not_behind.
Print Assumptions C31_all_delivered.
Print Assumptions C31_waiting_publisher_proceeds.
Print Assumptions C32_increasing_when_dropping.
Print Assumptions C32_increasing_when_blocking_partial.
Print Assumptions C32_increasing_single_publisher_partial.
Print Assumptions C32_increasing_when_blocking_refuted.
Print Assumptions C33_drop_only_when_full.
Print Assumptions C34_destructor_returns_partial.
Print Assumptions C34_destructor_drains_refuted.
Print Assumptions C35_after_head_partial.
Print Assumptions C35_delivers_what_head_passed_partial.
Print Assumptions C35_no_loss_partial.
Print Assumptions C35_in_order_partial.
Print Assumptions C35_equal_timestamps_refuted.
Print Assumptions C35_timestamp_order_refuted.
Print Assumptions C35_destructor_refuted.
Print Assumptions C61_returned_index_partial.
Print Assumptions C61_returned_index_refuted.
Print Assumptions C35_head_strictly_increases.
