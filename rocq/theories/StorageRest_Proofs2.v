(** Proofs about the RESTful access to a storage: histories. *)
From stdpp Require Import gmap strings sorting.
From Coq Require Import ZArith NArith Lia.
From Verif Require Import StorageContainers_Model StorageContainers_Spec StorageContainers_Proofs
  StorageTxn_Model StorageTxn_Spec StorageTxn_Proofs StorageRest_Model StorageRest_Spec StorageRest_Proofs.
From Verif Require Dec.

Section Histories.
  Context {I : Type} `{EqDecision I} (schema : I -> field_spec).
  Notation F := (λ i, to_field (schema i)).
  Context (keys : ∀ i, patches_keep_keys (schema i)).
  Context (clk : nat -> Z).
  Notation L := (λ i, spec_laws (schema i) (keys i)).
  Notation fields := (∀ i, f_st (F i)).

  Definition sev_us (e : sev F) : Z := ev_us (schema (projT1 e)) (projT2 e).

  (** mutations stamped by successive readings of the clock at positions [n..n'[ *)
  Definition stamped (n n' : nat) (ms : list (sev F)) : Prop :=
    ∃ l, StronglySorted lt l ∧ Forall (λ m, n ≤ m < n') l ∧ map sev_us ms = map clk l.

  Lemma stamped_nil n n' : stamped n n' [].
  Proof. exists []. split_and!; [constructor|constructor|done]. Qed.
  Lemma stamped_mono n1 n2 n3 n4 ms : n1 ≤ n2 → n3 ≤ n4 → stamped n2 n3 ms → stamped n1 n4 ms.
  Proof.
    intros H1 H2 (l & Hs & Hf & E). exists l. split_and!; [done| |done].
    eapply Forall_impl; [exact Hf|]. simpl. lia.
  Qed.
  Lemma sorted_app (l1 l2 : list nat) n : StronglySorted lt l1 → StronglySorted lt l2 →
    Forall (λ m, m < n) l1 → Forall (λ m, n ≤ m) l2 → StronglySorted lt (l1 ++ l2).
  Proof.
    induction 1 as [|x l1 H IH Hx]; simpl; [done|]. intros H2 Hf H3. inversion_clear Hf. constructor; [by apply IH|].
    apply Forall_app. split; [done|]. eapply Forall_impl; [exact H3|]. simpl. lia.
  Qed.
  Lemma stamped_app n1 n2 n3 a b : n1 ≤ n2 → n2 ≤ n3 → stamped n1 n2 a → stamped n2 n3 b → stamped n1 n3 (a ++ b).
  Proof.
    intros H1 H2 (l1 & S1 & F1 & E1) (l2 & S2 & F2 & E2). exists (l1 ++ l2). split_and!.
    - apply (sorted_app _ _ n2); [done|done| |].
      + eapply Forall_impl; [exact F1|]. simpl. lia.
      + eapply Forall_impl; [exact F2|]. simpl. lia.
    - apply Forall_app. split; (eapply Forall_impl; [eassumption|]); simpl; lia.
    - by rewrite !map_app, E1, E2.
  Qed.
  Lemma seq_sorted n m : StronglySorted lt (seq n m).
  Proof.
    revert n. induction m as [|m IH]; intros n; simpl; constructor; [done|].
    apply Forall_forall. intros x Hx%elem_of_seq. lia.
  Qed.

  Lemma alone_stamped {A} (p : prog F A) n fs mf r ms mf' n' fs' : sinv F L fs →
    alone_run F clk p n fs mf = Some (r, ms, mf', n', fs') → n ≤ n' ∧ stamped n n' ms.
  Proof.
    revert n fs mf ms. induction p as [a|e|i op p IH|k IH|k IH|key v p IH|key p IH]; intros n fs mf ms Is; simpl.
    - intros E. simplify_eq. split; [lia|apply stamped_nil].
    - intros E. simplify_eq. split; [lia|apply stamped_nil].
    - destruct (l_step _ (L i) clk n op (fs i) (Is i)) as (log & s' & n1 & E & Hn & Is' & _).
      simpl in E. rewrite E. simpl.
      destruct (alone_run F clk p n1 (supd i s' fs) mf) as [[[[[r1 ms1] mf1] n2] fs2]|] eqn:Ea; [|done].
      simpl. intros ?. simplify_eq.
      destruct (IH n1 (supd i s' fs) mf ms1) as [Hn2 Hs2]; [by apply (sinv_supd F L)|done|].
      split; [lia|]. apply (stamped_app n n1 n'); [done|done| |done].
      destruct (field_times (schema i) (keys i) clk n op (fs i) log s' n1 (Is i) E) as (m & Hm & Em).
      exists (seq n m). split_and!; [apply seq_sorted| |].
      + apply Forall_forall. intros x Hx%elem_of_seq. lia.
      + rewrite <- Em, !map_map. done.
    - by apply IH.
    - intros E. apply IH in E as [H1 H2]; [|done]. split; [lia|]. eapply stamped_mono; [| |exact H2]; lia.
    - by apply IH.
    - by apply IH.
  Qed.

  (** ** What a call adds to the stream *)
  Definition adds (st : stream F) (n : nat) {B} (o : outcome F B) : Prop :=
    match o with
    | Finished _ _ _ n' st' _ | Propagates _ _ n' st' _ =>
        n ≤ n' ∧ ∃ ms, mutations_in F (st_log F st') = mutations_in F (st_log F st) ++ ms ∧ stamped n n' ms
    | _ => True
    end.

  Lemma adds_none (st : stream F) n n' : n ≤ n' →
    n ≤ n' ∧ ∃ ms, mutations_in F (st_log F st) = mutations_in F (st_log F st) ++ ms ∧ stamped n n' ms.
  Proof. intros H. split; [done|]. exists []. rewrite app_nil_r. split; [done|apply stamped_nil]. Qed.

  Lemma publishes_adds n n' mf ms st st' : n ≤ n' → stamped (S n) n' ms → publishes F clk n (S n') mf n' ms st st' →
    n ≤ S (S n') ∧ ∃ ms', mutations_in F (st_log F st') = mutations_in F (st_log F st) ++ ms' ∧ stamped n (S (S n')) ms'.
  Proof.
    intros Hn Hs. unfold publishes. destruct ms as [|e ms].
    - intros ->. apply adds_none. lia.
    - intros [_ ->]. split; [lia|]. exists (e :: ms). simpl. rewrite (mutations_in_app F). simpl. rewrite app_nil_r.
      split; [done|]. eapply stamped_mono; [| |exact Hs]; lia.
  Qed.

  Lemma rw_adds {A} (f : prog F A) n st s : good F L st → master_ok F L st s →
    adds st n (rw_transaction F clk f n st s).
  Proof.
    intros Hg Hm. unfold rw_transaction. destruct (s_master F s); [|by apply adds_none].
    destruct (s_destructing F s); [by apply adds_none|].
    destruct (commit_ok F L clk f n st s Hg Hm) as (r & ms & mf & n' & fs' & Ea & Hn & j & E & Hc & Hr).
    rewrite E. apply alone_stamped in Ea as [_ Hs]; [|apply Hm]. destruct r as [a|e].
    - destruct Hc as [(-> & _)|(st' & s' & -> & Hp & _)]; [done|]. simpl. eapply publishes_adds; eauto. lia.
    - destruct e; apply adds_none; lia.
  Qed.
  Lemma rw_void_adds (f : prog F unit) n st s : good F L st → master_ok F L st s →
    adds st n (rw_void_transaction F clk f n st s).
  Proof.
    intros Hg Hm. unfold rw_void_transaction. destruct (s_master F s); [|by apply adds_none].
    destruct (s_destructing F s); [by apply adds_none|].
    destruct (commit_ok F L clk f n st s Hg Hm) as (r & ms & mf & n' & fs' & Ea & Hn & j & E & Hc & Hr).
    rewrite E. apply alone_stamped in Ea as [_ Hs]; [|apply Hm]. destruct r as [a|e].
    - destruct Hc as [(-> & _)|(st' & s' & -> & Hp & _)]; [done|]. simpl. eapply publishes_adds; eauto. lia.
    - destruct e; apply adds_none; lia.
  Qed.
  Lemma rw_two_step_adds {A} (f1 : prog F A) f2 n st s : good F L st → master_ok F L st s →
    adds st n (rw_two_step F clk f1 f2 n st s).
  Proof.
    intros Hg Hm. unfold rw_two_step. destruct (s_master F s); [|by apply adds_none].
    destruct (s_destructing F s); [by apply adds_none|].
    destruct (commit_ok F L clk f1 n st s Hg Hm) as (r & ms & mf & n' & fs' & Ea & Hn & j & E & Hc & Hr).
    rewrite E. apply alone_stamped in Ea as [_ Hs]; [|apply Hm]. destruct r as [a|e].
    - destruct Hc as [(-> & _)|(st' & s' & -> & Hp & _)]; [done|].
      assert (Hadd : n ≤ S (S n') ∧ ∃ ms', mutations_in F (st_log F st') = mutations_in F (st_log F st) ++ ms' ∧ stamped n (S (S n')) ms').
      { eapply publishes_adds; eauto. lia. }
      destruct (f2 0 a) as [e|]; [|done]. unfold two_step_handler. simpl.
      destruct e as [v| |w]; [destruct (f2 1 v)|..]; done.
    - unfold two_step_handler. simpl. destruct e as [v| |w]; [destruct (f2 0 v)|..]; simpl; apply adds_none; lia.
  Qed.
  Lemma ro_adds {A} (f : ro_prog F A) n st s : adds st n (ro_transaction F clk f n st s).
  Proof.
    unfold ro_transaction. destruct (s_destructing F s); [by apply adds_none|].
    pose proof (run_ro_n F clk f n (s_fields F s)) as Hn.
    destruct (run_ro F clk f n (s_fields F s)) as [[a|[]] n']; simpl in *; by apply adds_none.
  Qed.
  Lemma ro_void_adds (f : ro_prog F unit) n st s : adds st n (ro_void_transaction F clk f n st s).
  Proof.
    unfold ro_void_transaction. destruct (s_destructing F s); [by apply adds_none|].
    pose proof (run_ro_n F clk f n (s_fields F s)) as Hn.
    destruct (run_ro F clk f n (s_fields F s)) as [[a|[]] n']; simpl in *; by apply adds_none.
  Qed.
  Lemma ro_two_step_adds {A} (f : ro_prog F A) f2 n st s : adds st n (ro_two_step F clk f f2 n st s).
  Proof.
    unfold ro_two_step. destruct (s_destructing F s); [by apply adds_none|].
    pose proof (run_ro_n F clk f n (s_fields F s)) as Hn.
    destruct (run_ro F clk f n (s_fields F s)) as [[a|e] n']; simpl in *.
    - destruct (f2 0 a) as [e|]; [|by apply adds_none].
      destruct e as [v| |w]; [destruct (f2 1 v)|..]; by apply adds_none.
    - destruct e as [v| |w]; [destruct (f2 0 v)|..]; by apply adds_none.
  Qed.

  Definition adds_sys (y y' : system F) : Prop :=
    ∃ ms, mutations_in F (st_log F (y_stream F y')) = mutations_in F (st_log F (y_stream F y)) ++ ms ∧
      stamped (y_pos F y) (y_pos F y') ms.
  Lemma adds_sys_same (y y' : system F) : st_log F (y_stream F y') = st_log F (y_stream F y) → adds_sys y y'.
  Proof. intros E. exists []. rewrite app_nil_r, E. split; [done|apply stamped_nil]. Qed.

  Lemma on_master_adds {B} y y' (call : nat → stream F → storage F → outcome F B) :
    (∀ s, y_master F y = Some s → adds (y_stream F y) (y_pos F y) (call (y_pos F y) (y_stream F y) s)) →
    on_master F y call = Some y' → adds_sys y y'.
  Proof.
    intros H. unfold on_master. destruct (y_master F y) as [s|]; [|done]. specialize (H s eq_refl).
    destruct (call _ _ s); simpl in *; [| |done|done]; intros [= <-]; destruct H as [_ H]; exact H.
  Qed.

  Lemma step_adds ev y y' : y_ok F L y → step F clk ev y = Some y' → adds_sys y y'.
  Proof.
    intros (Hg & Hm & Hf). destruct ev; simpl.
    - apply on_master_adds. intros s Es. apply rw_adds; auto.
    - apply on_master_adds. intros s Es. apply rw_void_adds; auto.
    - apply on_master_adds. intros s Es. apply rw_two_step_adds; auto.
    - apply on_master_adds. intros s Es. apply ro_adds.
    - apply on_master_adds. intros s Es. apply ro_void_adds.
    - apply on_master_adds. intros s Es. apply ro_two_step_adds.
    - intros [= <-]. unfold adds_sys. simpl. destruct (decide _); simpl.
      + exists []. rewrite (mutations_in_app F). simpl. split; [done|apply stamped_nil].
      + exists []. rewrite app_nil_r. split; [done|apply stamped_nil].
    - intros [= <-]. apply adds_sys_same. simpl. by destruct (decide _).
    - destruct (y_master F y) as [s|]; [|done]. intros [= <-]. by apply adds_sys_same.
    - destruct (y_master F y) as [s|]; [done|]. intros [= <-]. by apply adds_sys_same.
    - intros [= <-]. by apply adds_sys_same.
    - intros [= <-]. by apply adds_sys_same.
    - intros [= <-]. by apply adds_sys_same.
    - destruct (y_follower F y) as [s|]; [|done]. destruct (follower_step F (y_stream F y) s); [|done].
      intros [= <-]. by apply adds_sys_same.
    - destruct (y_follower F y) as [s|]; [|done].
      destruct (ro_same F clk f (y_pos F y) (y_stream F y) s) as (r & n' & -> & Hn).
      intros [= <-]. by apply adds_sys_same.
    - destruct (y_follower F y) as [s|] eqn:Ef; [|done].
      destruct (Hf s eq_refl) as (_ & E & _). unfold rw_transaction. rewrite E.
      intros [= <-]. by apply adds_sys_same.
    - destruct (y_master F y); [done|]. destruct (y_follower F y); [|done]. intros [= <-]. by apply adds_sys_same.
  Qed.

  Lemma run_adds evs y y' : y_ok F L y → run F clk evs y = Some y' → adds_sys y y'.
  Proof.
    revert y. induction evs as [|ev evs IH]; intros y Hy; simpl.
    - intros [= <-]. by apply adds_sys_same.
    - destruct (step F clk ev y) as [y1|] eqn:E; [|done]. intros E2.
      destruct (step_ok F L clk _ _ _ Hy E) as (H1 & _ & Hn1).
      destruct (run_ok_sys F L clk _ _ _ H1 E2) as (_ & _ & Hn2).
      destruct (step_adds _ _ _ Hy E) as (m1 & E1 & S1). destruct (IH _ H1 E2) as (m2 & E3 & S2).
      exists (m1 ++ m2). rewrite E3, E1, app_assoc. split; [done|]. by eapply stamped_app.
  Qed.

  Lemma reachable_stamped y : reachable F clk y →
    stamped 0 (y_pos F y) (mutations_in F (st_log F (y_stream F y))).
  Proof.
    intros (pos & evs & E). destruct (run_adds _ _ _ (init_ok F L pos) E) as (ms & -> & Hs).
    simpl in *. eapply stamped_mono; [| |exact Hs]; lia.
  Qed.

  (** ** Replaying mutations *)
  Lemma replay_touch es fs i k : sinv F L fs → svalid_all F L es fs →
    let v := show F fs i in let v' := show F (sapply_all F es fs) i in
    (rget (schema i) v' k = rget (schema i) v k ∧ rlm (schema i) v' k = rlm (schema i) v k) ∨
    ∃ e, e ∈ es ∧ rlm (schema i) v' k = Some (sev_us e).
  Proof.
    revert fs. induction es as [|e es IH]; intros fs Is Hv; simpl; [by left|].
    destruct Hv as [Hv Hvs]. destruct (sapply_ok F L e fs Is Hv) as [Is1 _].
    destruct (IH _ Is1 Hvs) as [[E1 E2]|(e' & He' & E')]; [|right; exists e'; split; [by right|exact E']].
    simpl in E1, E2. unfold sapply_all in *. simpl. rewrite E1, E2. clear IH E1 E2.
    unfold show, sapply. destruct e as [j e]. simpl. destruct (decide (j = i)) as [->|Hne].
    - rewrite supd_same.
      destruct (field_touch (schema i) (keys i) e (fs i) k (Is i) Hv) as [[E1 E2]|E]; [by left|].
      right. exists (existT i e). split; [by left|done].
    - rewrite supd_other by done. by left.
  Qed.

  Lemma init_view i k : rlm (schema i) (show F (init_fields F) i) k = None.
  Proof. apply rlm_init. Qed.

  (** ** Replicas *)
  (** the storage holds exactly what the first entries of the stream say *)
  Lemma replica_prefix y s : y_ok F L y → y_master F y = Some s ∨ y_follower F y = Some s →
    ∃ p q, st_log F (y_stream F y) = p ++ q ∧ sinv F L (s_fields F s) ∧
      same_view F (s_fields F s) (rebuilt F p) ∧ (y_master F y = Some s → q = []).
  Proof.
    intros (Hg & Hm & Hf) [E|E].
    - destruct (Hm s E) as [(H1 & H2 & _) _]. exists (st_log F (y_stream F y)), [].
      rewrite app_nil_r. split_and!; [done|done| |done].
      apply (seqv_show F L); [done|by apply (rebuilt_inv F L)|done].
    - destruct (Hf s E) as ((H1 & H2 & _) & Efm & Hn).
      exists (take (s_next F s) (st_log F (y_stream F y))), (drop (s_next F s) (st_log F (y_stream F y))).
      rewrite take_drop. split_and!; [done|done| |].
      + apply (seqv_show F L); [done| |done].
        apply (sapply_all_inv F L); [apply (sinv_init F L)|].
        unfold good in Hg. rewrite <- (take_drop (s_next F s) (st_log F (y_stream F y))), (mutations_in_app F) in Hg.
        by apply (svalid_all_app F L) in Hg as [Hg _].
      + intros Em. destruct (Hm s Em) as [_ Emm]. congruence.
  Qed.

  (** ** One resource over time *)
  Hypothesis clk_inc : ∀ n, (clk n < clk (S n))%Z.

  (** Whatever a replica shows of a resource at some time, the master later shows
      either the same, or a later time. *)
  Lemma resource_later y y' evs s s' i k o t :
    reachable F clk y → y_master F y = Some s ∨ y_follower F y = Some s →
    run F clk evs y = Some y' → y_master F y' = Some s' →
    rget (schema i) (show F (s_fields F s) i) k = Some o →
    rlm (schema i) (show F (s_fields F s) i) k = Some t →
    (rget (schema i) (show F (s_fields F s') i) k = Some o ∧
     rlm (schema i) (show F (s_fields F s') i) k = Some t) ∨
    ∃ t', rlm (schema i) (show F (s_fields F s') i) k = Some t' ∧ (t < t')%Z.
  Proof.
    intros Hr Hs Hrun Em Eg El. pose proof (reachable_ok F L clk y Hr) as Hy.
    destruct (run_ok_sys F L clk _ _ _ Hy Hrun) as (Hy' & (more & Emore) & _).
    assert (Hr' : reachable F clk y').
    { destruct Hr as (pos & evs0 & E0). exists pos, (evs0 ++ evs). clear -E0 Hrun.
      revert E0. generalize (system_init F pos). induction evs0 as [|ev l IH]; simpl; intros y0.
      - by intros [= ->].
      - destruct (step F clk ev y0); [apply IH|done]. }
    destruct (replica_prefix y s Hy Hs) as (p & q & Elog & Is & Hv & _).
    destruct (replica_prefix y' s' Hy' (or_introl Em)) as (p' & q' & Elog' & Is' & Hv' & Hq').
    specialize (Hq' Em). subst q'. rewrite app_nil_r in Elog'.
    assert (Ep' : p' = p ++ (q ++ more)) by (rewrite <- Elog', Emore, Elog, app_assoc; done).
    pose proof (reachable_stamped y' Hr') as (l & Hsort & _ & Etimes).
    rewrite Elog', Ep', (mutations_in_app F), map_app in Etimes.
    destruct Hy' as (Hg' & _). unfold good in Hg'. rewrite Elog', Ep', (mutations_in_app F) in Hg'.
    apply (svalid_all_app F L) in Hg' as [Hv1 Hv2].
    rewrite (Hv i) in Eg, El. rewrite (Hv' i). unfold rebuilt in *. rewrite Ep', (mutations_in_app F), (sapply_all_app F).
    assert (It : sinv F L (sapply_all F (mutations_in F p) (init_fields F))).
    { apply (sapply_all_inv F L); [apply (sinv_init F L)|done]. }
    destruct (replay_touch _ _ i k (sinv_init F L) Hv1) as [[_ E]|(e & He & E)].
    { rewrite El, init_view in E. done. }
    rewrite El in E. assert (t = sev_us e) as -> by congruence.
    destruct (replay_touch _ _ i k It Hv2) as [[E1 E2]|(e' & He' & E')].
    { left. by rewrite E1, E2, Eg, El. }
    right. exists (sev_us e'). split; [exact E'|].
    clear -Hsort Etimes He He' clk_inc.
    (* both are readings of the clock, the first before the second *)
    symmetry in Etimes. apply map_eq_app in Etimes as (l1 & l2 & -> & E1 & E2).
    assert (In1 : sev_us e ∈ map clk l1) by (rewrite E1; by apply elem_of_list_fmap_1).
    assert (In2 : sev_us e' ∈ map clk l2) by (rewrite E2; by apply elem_of_list_fmap_1).
    apply elem_of_list_fmap in In1 as (m1 & -> & Hm1). apply elem_of_list_fmap in In2 as (m2 & -> & Hm2).
    apply clk_lt; [done|]. clear -Hsort Hm1 Hm2. induction l1 as [|x l1 IH]; [by apply elem_of_nil in Hm1|].
    inversion_clear Hsort as [|? ? Hs Hf]. apply elem_of_cons in Hm1 as [->|Hm1]; [|by apply IH].
    apply Forall_app in Hf as [_ Hf]. by eapply Forall_forall in Hf.
  Qed.

  (** ** Running the transaction of a write *)
  Hypothesis clk_pos : ∀ n, (0 <= clk n)%Z.

  Lemma write_runs i y s (f1 : prog F (response (schema i))) gone a ms mf n' fs' :
    reachable F clk y → y_master F y = Some s → s_destructing F s = false →
    alone_run F clk f1 (S (y_pos F y)) (s_fields F s) ∅ = Some (inl a, ms, mf, n', fs') →
    ∃ st' s', responses schema i (rw_two_step F clk f1 (send_step schema i gone) (y_pos F y) (y_stream F y) s) =
        Finished F _ [a] (S (S n')) st' s' ∧ s_fields F s' = fs' ∧
      publishes F clk (y_pos F y) (S n') mf n' ms (y_stream F y) st'.
  Proof.
    intros Hr Es Ed Ea. pose proof (reachable_ok F L clk y Hr) as (Hg & Hm & _).
    pose proof (reachable_head F L clk clk_pos clk_inc y Hr) as Hh.
    destruct (commit_ok F L clk f1 (y_pos F y) (y_stream F y) s Hg (Hm s Es)) as (r & ms1 & mf1 & n1 & fs1 & E1 & Hn & j & E2 & Hc & _).
    rewrite Ea in E1. simplify_eq. unfold rw_two_step. destruct (Hm s Es) as [_ ->]. rewrite Ed, E2.
    destruct Hc as [(_ & _ & Hle)|(st' & s' & Ep & Hp & Hg' & Hm' & Ef & _)].
    { exfalso. unfold y_head_ok, head_ok in Hh. pose proof (clk_le clk clk_inc (y_pos F y) (S n1)). lia. }
    rewrite Ep. unfold send_step. destruct gone as [w|]; simpl.
    - unfold two_step_handler. simpl. rewrite (rollback_empty F s') by apply Hm'. eauto.
    - eauto.
  Qed.
End Histories.
