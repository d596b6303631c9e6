(** Properties C27-C30: storage transactions. *)
From stdpp Require Import gmap strings.
From Coq Require Import ZArith Lia.
From Verif Require Import StorageContainers_Model StorageContainers_Proofs StorageTxn_Model StorageTxn_Spec StorageTxn_Proofs.

Section Props.
  (** Any schema: any number of fields, each any of the four containers over any
      key and object types; patches do not change keys. *)
  Context {I : Type} `{EqDecision I} (schema : I -> field_spec).
  Notation F := (λ i, to_field (schema i)).
  Context (keys : ∀ i, patches_keep_keys (schema i)).
  Context (clk : nat -> Z).
  Notation L := (λ i, spec_laws (schema i) (keys i)).

  (** What the future holds after user code threw [e] in a transaction that
      returns a value, resp. void. *)
  Definition reported {A} (e : exn A) : result A :=
    match e with
    | RollbackWithValue v => RolledBack (Some v)
    | RollbackWithNoValue => RolledBack None
    | OtherException _ => ExceptionSet e
    end.
  Definition reported_void (e : exn unit) : result unit :=
    match e with
    | RollbackWithNoValue => RolledBack (Some tt)
    | _ => ExceptionSet e
    end.

  (** [s'] is as if nothing had happened to [s]. *)
  Definition undone (s s' : storage F) : Prop :=
    same_view F (s_fields F s') (s_fields F s) ∧ journal_is_empty F (s_journal F s') ∧
    s_master F s' = s_master F s ∧ s_destructing F s' = s_destructing F s ∧
    s_last_applied F s' = s_last_applied F s.

  Lemma master_undone y s s' : y_ok F L y → y_master F y = Some s →
    master_ok F L (y_stream F y) s' → seqv F L (s_fields F s') (s_fields F s) →
    s_destructing F s' = s_destructing F s → undone s s'.
  Proof.
    intros (Hg & Hm & _) Es [(H1 & H2 & H3 & H4) H5] E Ed. destruct (Hm s Es) as [(G1 & G2 & G3 & G4) G5].
    split_and!; [by apply (seqv_show F L)|done|congruence|done|congruence].
  Qed.

  (** C27. In any reachable system, a read-write transaction whose body throws,
      after any operations on any fields, leaves every container (elements, rows,
      columns, last-modified times) and the stream as before. *)
  Theorem C27_rollback_restores y s {A} (f : prog F A) e ms mf n' fs' :
    reachable F clk y → y_master F y = Some s → s_destructing F s = false →
    alone_run F clk f (S (y_pos F y)) (s_fields F s) ∅ = Some (inr e, ms, mf, n', fs') →
    ∃ s', rw_transaction F clk f (y_pos F y) (y_stream F y) s =
            Finished F _ (reported e) n' (y_stream F y) s' ∧ undone s s'.
  Proof.
    intros Hy%(reachable_ok F L) Es Ed Hrun. pose proof Hy as (Hg & Hm & _).
    destruct (commit_ok F L clk f (y_pos F y) (y_stream F y) s Hg (Hm s Es)) as (r & ms' & mf' & n1 & fs1 & E1 & _ & j & E2 & _ & Hr & He & Hd).
    rewrite Hrun in E1. simplify_eq. unfold rw_transaction.
    destruct (Hm s Es) as [_ ->]. rewrite Ed, E2. exists (rollback F (with_run F s fs1 j)).
    split; [by destruct e|]. by eapply master_undone.
  Qed.

  Theorem C27_rollback_restores_void y s (f : prog F unit) e ms mf n' fs' :
    reachable F clk y → y_master F y = Some s → s_destructing F s = false →
    alone_run F clk f (S (y_pos F y)) (s_fields F s) ∅ = Some (inr e, ms, mf, n', fs') →
    ∃ s', rw_void_transaction F clk f (y_pos F y) (y_stream F y) s =
            Finished F _ (reported_void e) n' (y_stream F y) s' ∧ undone s s'.
  Proof.
    intros Hy%(reachable_ok F L) Es Ed Hrun. pose proof Hy as (Hg & Hm & _).
    destruct (commit_ok F L clk f (y_pos F y) (y_stream F y) s Hg (Hm s Es)) as (r & ms' & mf' & n1 & fs1 & E1 & _ & j & E2 & _ & Hr & He & Hd).
    rewrite Hrun in E1. simplify_eq. unfold rw_void_transaction.
    destruct (Hm s Es) as [_ ->]. rewrite Ed, E2. exists (rollback F (with_run F s fs1 j)).
    split; [by destruct e|]. by eapply master_undone.
  Qed.

  (** Two-step: the same, whatever [f2] does. *)
  Theorem C27_rollback_restores_two_step y s {A} (f1 : prog F A) f2 e ms mf n' fs' :
    reachable F clk y → y_master F y = Some s → s_destructing F s = false →
    alone_run F clk f1 (S (y_pos F y)) (s_fields F s) ∅ = Some (inr e, ms, mf, n', fs') →
    ∃ s', undone s s' ∧
      (rw_two_step F clk f1 f2 (y_pos F y) (y_stream F y) s = Propagates F _ n' (y_stream F y) s' ∨
       ∃ r, rw_two_step F clk f1 f2 (y_pos F y) (y_stream F y) s = Finished F _ r n' (y_stream F y) s').
  Proof.
    intros Hy%(reachable_ok F L) Es Ed Hrun. pose proof Hy as (Hg & Hm & _).
    destruct (commit_ok F L clk f1 (y_pos F y) (y_stream F y) s Hg (Hm s Es)) as (r & ms' & mf' & n1 & fs1 & E1 & _ & j & E2 & _ & Hr & He & Hd).
    rewrite Hrun in E1. simplify_eq. unfold rw_two_step.
    destruct (Hm s Es) as [_ ->]. rewrite Ed, E2. exists (rollback F (with_run F s fs1 j)).
    split; [by eapply master_undone|]. unfold two_step_handler.
    destruct e as [v| |w]; [destruct (f2 _ v)|..]; eauto.
  Qed.

  (** C28. The live master shows what is rebuilt from its stream; the last
      applied time is that of the last transaction in it. *)
  Theorem C28_replay_equals_live y s :
    reachable F clk y → y_master F y = Some s →
    same_view F (s_fields F s) (rebuilt F (st_log F (y_stream F y))) ∧
    s_last_applied F s = last_transaction_us F (st_log F (y_stream F y)).
  Proof.
    intros Hy%(reachable_ok F L) Es. pose proof Hy as (Hg & Hm & _).
    destruct (Hm s Es) as [(H1 & H2 & H3 & H4) H5]. split; [|done].
    apply (seqv_show F L); [done| |done]. by apply (rebuilt_inv F L).
  Qed.

  (** Opening a master atop the stream, e.g. after a restart, shows the same too. *)
  Theorem C28_reopened_equals_live y s :
    reachable F clk y → y_master F y = Some s →
    same_view F (s_fields F (open_master F (y_stream F y))) (s_fields F s) ∧
    s_last_applied F (open_master F (y_stream F y)) = s_last_applied F s.
  Proof.
    intros Hy%(reachable_ok F L) Es. pose proof Hy as (Hg & Hm & _).
    destruct (Hm s Es) as [(H1 & H2 & H3 & H4) H5].
    destruct (open_master_ok F L _ Hg) as [(G1 & G2 & G3 & G4) G5].
    split; [|congruence]. apply (seqv_show F L); [done|done|]. etransitivity; [exact G2|]. by symmetry.
  Qed.

  (** At any later time, the stream still begins with what the master had
      published, and rebuilding from that prefix gives the master as it was. *)
  Theorem C28_history_prefix y1 s1 evs y2 :
    reachable F clk y1 → y_master F y1 = Some s1 → run F clk evs y1 = Some y2 →
    let k := length (st_log F (y_stream F y1)) in
    take k (st_log F (y_stream F y2)) = st_log F (y_stream F y1) ∧
    same_view F (s_fields F s1) (rebuilt F (take k (st_log F (y_stream F y2)))).
  Proof.
    intros Hr Es Hrun k. pose proof (reachable_ok F L clk _ Hr) as Hy.
    destruct (run_ok_sys F L clk _ _ _ Hy Hrun) as (_ & (more & E) & _).
    assert (Et : take k (st_log F (y_stream F y2)) = st_log F (y_stream F y1)).
    { rewrite E. unfold k. by rewrite take_app. }
    split; [done|]. rewrite Et. by apply C28_replay_equals_live.
  Qed.

  (** The transactions of a stream, without the other records. *)
  Definition transactions_in (log : list (Z * option (transaction F))) : list (transaction F) := omap snd log.

  Lemma mutations_by_transactions log :
    mutations_in F log = flat_map (t_mutations F) (transactions_in log).
  Proof.
    unfold mutations_in, transactions_in. induction log as [|[us [t|]] l IH]; simpl; [done| |done].
    by rewrite IH.
  Qed.

  (** A follower that applied exactly the transactions published by the time the
      system was in [y1] shows what the master showed in [y1]. *)
  Theorem C28_follower_equals_master_then y1 s1 evs y2 fol :
    reachable F clk y1 → y_master F y1 = Some s1 → run F clk evs y1 = Some y2 →
    y_follower F y2 = Some fol →
    s_next F fol ≤ length (st_log F (y_stream F y2)) ∧
    (transactions_in (take (s_next F fol) (st_log F (y_stream F y2))) =
       transactions_in (st_log F (y_stream F y1)) →
     same_view F (s_fields F fol) (s_fields F s1)).
  Proof.
    intros Hr Es Hrun Ef. pose proof (reachable_ok F L clk _ Hr) as Hy. pose proof Hy as (Hg1 & Hm & _).
    destruct (run_ok_sys F L clk _ _ _ Hy Hrun) as ((Hg & _ & Hf) & _ & _).
    destruct (Hf fol Ef) as ((H1 & H2 & H3 & H4) & H5 & H6). split; [done|]. intros Et.
    destruct (Hm s1 Es) as [(G1 & G2 & G3 & G4) G5].
    apply (seqv_show F L); [done|done|]. etransitivity; [exact H2|]. etransitivity; [|symmetry; exact G2].
    unfold rebuilt. by rewrite !mutations_by_transactions, Et.
  Qed.

  (** A follower always has a next transaction to apply until it shows what the
      master shows. *)
  Theorem C28_follower_catches_up y s fol :
    reachable F clk y → y_master F y = Some s → y_follower F y = Some fol →
    (∃ fol', follower_step F (y_stream F y) fol = Some fol' ∧ s_next F fol < s_next F fol') ∨
    (same_view F (s_fields F fol) (s_fields F s) ∧ s_last_applied F fol = s_last_applied F s).
  Proof.
    intros Hy%(reachable_ok F L) Es Ef. pose proof Hy as (Hg & Hm & Hf).
    destruct (Hf fol Ef) as (Ht & H5 & H6). destruct (Hm s Es) as [(G1 & G2 & G3 & G4) G5].
    unfold follower_step.
    destruct (next_transaction F (drop (s_next F fol) (st_log F (y_stream F y))) (s_next F fol)) as [[[i us] t]|] eqn:En.
    - left. eexists. split; [done|]. simpl. apply next_transaction_Some in En as (pre & ? & _ & -> & _). lia.
    - right.
      assert (Hn : Forall (λ e, e.2 = None) (drop (s_next F fol) (st_log F (y_stream F y)))).
      { revert En. generalize (s_next F fol) at 2. generalize (drop (s_next F fol) (st_log F (y_stream F y))).
        clear. induction l as [|[us [t|]] l IH]; simpl; intros k; [constructor|done|].
        intros H. constructor; [done|eauto]. }
      pose proof (skip_others F L _ _ _ Hn Ht) as (H1 & H2 & H3 & H4).
      rewrite take_drop in H2, H4. split; [|congruence].
      apply (seqv_show F L); [done|done|]. etransitivity; [exact H2|by symmetry].
  Qed.

  (** FlipToMaster: the former follower, now master, shows the whole stream. *)
  Theorem C28_flip y y' fol :
    reachable F clk y → y_follower F y = Some fol → step F clk (Flip F) y = Some y' →
    ∃ s, y_master F y' = Some s ∧ y_stream F y' = y_stream F y ∧ s_master F s = true ∧
      same_view F (s_fields F s) (rebuilt F (st_log F (y_stream F y))) ∧
      same_view F (s_fields F s) (s_fields F (open_master F (y_stream F y))) ∧
      s_last_applied F s = last_transaction_us F (st_log F (y_stream F y)).
  Proof.
    intros Hy%(reachable_ok F L) Ef E. pose proof Hy as (Hg & Hm & Hf). simpl in E.
    destruct (y_master F y); [done|]. rewrite Ef in E. injection E as <-. eexists. split; [done|]. split; [done|].
    destruct (become_master_ok F L _ _ Hg (Hf fol Ef)) as [(H1 & H2 & H3 & H4) H5].
    destruct (open_master_ok F L _ Hg) as [(G1 & G2 & G3 & G4) G5].
    split_and!; [done| | |done].
    - apply (seqv_show F L); [done|by apply (rebuilt_inv F L)|done].
    - apply (seqv_show F L); [done|done|]. etransitivity; [exact H2|by symmetry].
  Qed.

  (** C29. User code never runs into undefined behaviour inside the containers;
      so every body ends in a return or a throw. *)
  Theorem C29_body_always_ends y s {A} (f : prog F A) :
    reachable F clk y → y_master F y = Some s →
    ∃ r ms mf n' fs', alone_run F clk f (S (y_pos F y)) (s_fields F s) ∅ = Some (r, ms, mf, n', fs').
  Proof.
    intros Hy%(reachable_ok F L) Es. pose proof Hy as (Hg & Hm & _).
    destruct (commit_ok F L clk f (y_pos F y) (y_stream F y) s Hg (Hm s Es)) as (r & ms' & mf' & n1 & fs1 & E1 & _). eauto 10.
  Qed.

  (** The stream after a body that returned: one more entry holding all the
      mutations in order and the meta data, or nothing when there is none. *)
  Definition published (st : stream F) (begin_ end_ us : Z) (mf : gmap string string) (ms : list (sev F)) : stream F :=
    match ms with
    | [] => st
    | _ => Stream F (st_log F st ++ [(us, Some (Transaction F (Meta begin_ end_ mf) ms))]) us
    end.

  (** With a clock that never repeats, a transaction whose body returns commits,
      appends exactly that entry, and keeps the containers its body left. *)
  Theorem C29_commit_publishes_once y s {A} (f : prog F A) a ms mf n' fs' :
    (∀ n, (0 <= clk n < clk (S n))%Z) →
    reachable F clk y → y_master F y = Some s → s_destructing F s = false →
    alone_run F clk f (S (y_pos F y)) (s_fields F s) ∅ = Some (inl a, ms, mf, n', fs') →
    ∃ s', rw_transaction F clk f (y_pos F y) (y_stream F y) s =
      Finished F _ (Committed a) (S (S n'))
        (published (y_stream F y) (clk (y_pos F y)) (clk n') (clk (S n')) mf ms) s' ∧
      s_fields F s' = fs' ∧ journal_is_empty F (s_journal F s').
  Proof.
    intros Hclk Hr Es Ed Hrun. pose proof (reachable_ok F L clk _ Hr) as Hy. pose proof Hy as (Hg & Hm & _).
    pose proof (reachable_head F L clk (λ n, proj1 (Hclk n)) (λ n, proj2 (Hclk n)) y Hr) as Hh.
    destruct (commit_ok F L clk f (y_pos F y) (y_stream F y) s Hg (Hm s Es)) as (r & ms' & mf' & n1 & fs1 & E1 & Hn & j & E2 & Hc & _).
    rewrite Hrun in E1. simplify_eq. unfold rw_transaction.
    destruct (Hm s Es) as [_ ->]. rewrite Ed, E2.
    destruct Hc as [(_ & _ & Hle)|(st' & s' & -> & Hp & Hg' & [(M1 & M2 & M3 & M4) M5] & Hfs & _)].
    - unfold y_head_ok, head_ok in Hh.
      pose proof (clk_le clk (λ n, proj2 (Hclk n)) (y_pos F y) (S n1)). lia.
    - exists s'. split; [|done]. f_equal.
      unfold publishes in Hp. unfold published. destruct ms'; [done|]. by destruct Hp.
  Qed.

  Theorem C29_commit_publishes_once_void y s (f : prog F unit) a ms mf n' fs' :
    (∀ n, (0 <= clk n < clk (S n))%Z) →
    reachable F clk y → y_master F y = Some s → s_destructing F s = false →
    alone_run F clk f (S (y_pos F y)) (s_fields F s) ∅ = Some (inl a, ms, mf, n', fs') →
    ∃ s', rw_void_transaction F clk f (y_pos F y) (y_stream F y) s =
      Finished F _ (Committed tt) (S (S n'))
        (published (y_stream F y) (clk (y_pos F y)) (clk n') (clk (S n')) mf ms) s' ∧
      s_fields F s' = fs' ∧ journal_is_empty F (s_journal F s').
  Proof.
    intros Hclk Hr Es Ed Hrun. pose proof (reachable_ok F L clk _ Hr) as Hy. pose proof Hy as (Hg & Hm & _).
    pose proof (reachable_head F L clk (λ n, proj1 (Hclk n)) (λ n, proj2 (Hclk n)) y Hr) as Hh.
    destruct (commit_ok F L clk f (y_pos F y) (y_stream F y) s Hg (Hm s Es)) as (r & ms' & mf' & n1 & fs1 & E1 & Hn & j & E2 & Hc & _).
    rewrite Hrun in E1. simplify_eq. unfold rw_void_transaction.
    destruct (Hm s Es) as [_ ->]. rewrite Ed, E2.
    destruct Hc as [(_ & _ & Hle)|(st' & s' & -> & Hp & Hg' & [(M1 & M2 & M3 & M4) M5] & Hfs & _)].
    - unfold y_head_ok, head_ok in Hh.
      pose proof (clk_le clk (λ n, proj2 (Hclk n)) (y_pos F y) (S n1)). lia.
    - exists s'. split; [|done]. f_equal.
      unfold publishes in Hp. unfold published. destruct ms'; [done|]. by destruct Hp.
  Qed.

  (** Read-only transactions, transactions during the shutdown, and read-write
      transactions in a follower change neither the stream nor the storage. *)
  Theorem C29_read_only_publishes_nothing y s {A} (f : ro_prog F A) :
    reachable F clk y → y_master F y = Some s ∨ y_follower F y = Some s →
    ∃ r n', ro_transaction F clk f (y_pos F y) (y_stream F y) s = Finished F _ r n' (y_stream F y) s.
  Proof. intros _ _. destruct (ro_same F clk f (y_pos F y) (y_stream F y) s) as (r & n' & -> & _). eauto. Qed.

  (** Its result is what the body computes from what the storage shows: the value
      returned, the rollback it asked for, or the exception it threw. *)
  Inductive ro_computes {A} (fs : ∀ i, f_st (F i)) : ro_prog F A → A + exn A → Prop :=
  | ro_computes_return a : ro_computes fs (RoReturn F _ a) (inl a)
  | ro_computes_throw e : ro_computes fs (RoThrow F _ e) (inr e)
  | ro_computes_read k r : ro_computes fs (k (show F fs)) r → ro_computes fs (RoRead F _ k) r
  | ro_computes_now k t r : ro_computes fs (k t) r → ro_computes fs (RoGetNow F _ k) r.
  Theorem C29_read_only_result y s {A} (f : ro_prog F A) r n' st' s' :
    reachable F clk y → y_master F y = Some s ∨ y_follower F y = Some s → s_destructing F s = false →
    ro_transaction F clk f (y_pos F y) (y_stream F y) s = Finished F _ r n' st' s' →
    ∃ v, ro_computes (s_fields F s) f v ∧
      r = match v with
          | inl a => Committed a
          | inr (RollbackWithValue a) => RolledBack (Some a)
          | inr RollbackWithNoValue => RolledBack None
          | inr (OtherException w) => ExceptionSet (OtherException w)
          end.
  Proof.
    intros _ _ Ed. unfold ro_transaction. rewrite Ed.
    destruct (run_ro F clk f (y_pos F y) (s_fields F s)) as [v n1] eqn:Er. intros E.
    exists v. split; [|destruct v as [a|[a| |w]]; by simplify_eq].
    clear E. generalize dependent (y_pos F y). induction f as [a|e|k IH|k IH]; intros n Er; simpl in Er; simplify_eq.
    - constructor. - constructor. - constructor. by eapply IH. - econstructor. by eapply IH.
  Qed.

  Theorem C29_shutdown_publishes_nothing y s {A} (f : prog F A) :
    reachable F clk y → y_master F y = Some s → s_destructing F s = true →
    rw_transaction F clk f (y_pos F y) (y_stream F y) s = Finished F _ Shutdown (y_pos F y) (y_stream F y) s.
  Proof.
    intros Hy%(reachable_ok F L) Es Ed. destruct Hy as (_ & Hm & _). destruct (Hm s Es) as [_ Em].
    unfold rw_transaction. by rewrite Em, Ed.
  Qed.

  Theorem C29_follower_cannot_write y s {A} (f : prog F A) :
    reachable F clk y → y_follower F y = Some s →
    rw_transaction F clk f (y_pos F y) (y_stream F y) s = Propagates F _ (y_pos F y) (y_stream F y) s.
  Proof.
    intros Hy%(reachable_ok F L) Es. destruct Hy as (_ & _ & Hf). destruct (Hf s Es) as (_ & Em & _).
    unfold rw_transaction. by rewrite Em.
  Qed.

  (** Between transactions the journal is empty. *)
  Theorem C29_journal_empty_between y s :
    reachable F clk y → y_master F y = Some s ∨ y_follower F y = Some s → journal_is_empty F (s_journal F s).
  Proof.
    intros Hy%(reachable_ok F L) [Es|Es]; destruct Hy as (_ & Hm & Hf).
    - by destruct (Hm s Es) as [(_ & _ & H3 & _) _].
    - by destruct (Hf s Es) as [(_ & _ & H3 & _) _].
  Qed.

  (** With a clock that never repeats no transaction ends the process. *)
  Theorem C29_transactions_never_exit y s {A} (f : prog F A) f2 :
    (∀ n, (0 <= clk n < clk (S n))%Z) →
    reachable F clk y → y_master F y = Some s →
    rw_transaction F clk f (y_pos F y) (y_stream F y) s ≠ Exited F _ ∧
    rw_two_step F clk f f2 (y_pos F y) (y_stream F y) s ≠ Exited F _.
  Proof.
    intros Hclk Hr Es. pose proof (reachable_ok F L clk _ Hr) as Hy. pose proof Hy as (Hg & Hm & _).
    pose proof (reachable_head F L clk (λ n, proj1 (Hclk n)) (λ n, proj2 (Hclk n)) y Hr) as Hh.
    pose proof (rw_head F L clk (λ n, proj2 (Hclk n)) f _ _ s Hg (Hm s Es) Hh) as H1.
    pose proof (rw_two_step_head F L clk (λ n, proj2 (Hclk n)) f f2 _ _ s Hg (Hm s Es) Hh) as H2.
    split; intros E; [rewrite E in H1|rewrite E in H2]; done.
  Qed.

  (** C30, partial: when [f2] does not throw after [f1] returned.  The future
      says committed exactly when [f1] returned, which is exactly when its
      mutations are published and kept; [f2] is called once with the value
      returned (or carried by the rollback), never otherwise. Missing: [f2]
      throwing after [f1] returned, see the refutations below. *)
  Theorem C30_two_step_reports_partial y s {A} (f1 : prog F A) f2 :
    (∀ n, (0 <= clk n < clk (S n))%Z) →
    reachable F clk y → y_master F y = Some s → s_destructing F s = false →
    ∃ r ms mf n' fs',
      alone_run F clk f1 (S (y_pos F y)) (s_fields F s) ∅ = Some (r, ms, mf, n', fs') ∧
      match r with
      | inl a =>
          f2 0 a = None →
          ∃ s', rw_two_step F clk f1 f2 (y_pos F y) (y_stream F y) s =
            Finished F _ (Committed2, [a]) (S (S n'))
              (published (y_stream F y) (clk (y_pos F y)) (clk n') (clk (S n')) mf ms) s' ∧
            s_fields F s' = fs' ∧ journal_is_empty F (s_journal F s')
      | inr e =>
          ∃ s', undone s s' ∧
          rw_two_step F clk f1 f2 (y_pos F y) (y_stream F y) s =
            match e with
            | RollbackWithValue v =>
                match f2 0 v with
                | None => Finished F _ (RolledBack2, [v]) n' (y_stream F y) s'
                | Some _ => Propagates F _ n' (y_stream F y) s'
                end
            | RollbackWithNoValue => Finished F _ (RolledBack2, []) n' (y_stream F y) s'
            | OtherException _ => Finished F _ (Exception2 e, []) n' (y_stream F y) s'
            end
      end.
  Proof.
    intros Hclk Hr Es Ed. pose proof (reachable_ok F L clk _ Hr) as Hy. pose proof Hy as (Hg & Hm & _).
    pose proof (reachable_head F L clk (λ n, proj1 (Hclk n)) (λ n, proj2 (Hclk n)) y Hr) as Hh.
    destruct (commit_ok F L clk f1 (y_pos F y) (y_stream F y) s Hg (Hm s Es)) as (r & ms & mf & n1 & fs1 & E1 & Hn & j & E2 & Hc & Hrb & He & Hd).
    exists r, ms, mf, n1, fs1. split; [done|]. unfold rw_two_step.
    destruct (Hm s Es) as [_ ->]. rewrite Ed, E2. destruct r as [a|e].
    - intros Hf2. destruct Hc as [(_ & _ & Hle)|(st' & s' & -> & Hp & Hg' & [(M1 & M2 & M3 & M4) M5] & Hfs & _)].
      + unfold y_head_ok, head_ok in Hh.
        pose proof (clk_le clk (λ n, proj2 (Hclk n)) (y_pos F y) (S n1)). lia.
      + exists s'. rewrite Hf2. split; [|done]. f_equal.
        unfold publishes in Hp. unfold published. destruct ms; [done|]. by destruct Hp.
    - exists (rollback F (with_run F s fs1 j)). split; [by eapply master_undone|].
      unfold two_step_handler. destruct e as [v| |w]; [destruct (f2 _ v)|..]; done.
  Qed.
End Props.

(* ------------------------------------------------------------------ *)
(** * Concrete storages *)

(** Two fields: a dictionary of (key, payload) with patches that set the payload,
    and a one-to-one table of (row, column, payload). *)
Definition ex_schema (i : bool) : field_spec :=
  if i then FDictionary (fst : nat * nat → nat) (λ (p : nat) (o : nat * nat), (o.1, p))
  else FOneToOne (λ o : nat * nat * nat, o.1.1) (λ o : nat * nat * nat, o.1.2).
Notation exF := (λ i, to_field (ex_schema i)).
Definition ex_clk (n : nat) : Z := Z.of_nat (100 + n).

Lemma ex_keys i : patches_keep_keys (ex_schema i).
Proof. by destruct i. Qed.
Lemma ex_clk_ok n : (0 <= ex_clk n < ex_clk (S n))%Z.
Proof. unfold ex_clk. lia. Qed.

(** Operations of the two fields. *)
Definition d_do {A} (op : dict_op nat (nat * nat) nat) (k : prog exF A) : prog exF A :=
  Do exF A true op k.
Definition x_do {A} (op : o2o_op nat nat (nat * nat * nat)) (k : prog exF A) : prog exF A :=
  Do exF A false op k.

(** Puts (1,10), rows 1-1, 2-2; then overwrites 1-1 and 2-2 by 1-2, patches, erases. *)
Definition ex_fill : prog exF nat :=
  d_do (DAdd (1, 10)) (x_do (OAdd (1, 1, 5)) (x_do (OAdd (2, 2, 6)) (SetMeta exF _ "who" "me" (Return exF _ 7)))).
Definition ex_mess (e : exn nat) : prog exF nat :=
  x_do (OAdd (1, 2, 9)) (d_do (DPatch 1 11) (d_do (DErase 1) (d_do (DAdd (2, 20)) (Throw exF _ e)))).

Definition ex_history : list (event exF) :=
  [OpenMaster exF; OpenFollower exF; RW exF ex_fill; PublishOther exF; RW exF (ex_mess RollbackWithNoValue);
   RW exF (d_do (DPatch 1 12) (x_do (OAdd (1, 2, 8)) (Return exF _ 0))); Replay exF; Replay exF].

(** The history runs; the stream then holds two transactions around one other
    record; the follower caught up. *)
Definition with_master {A} (o : option (system exF)) (test : system exF → storage exF → A) (d : A) : A :=
  match o with
  | Some y => match y_master exF y with Some s => test y s | None => d end
  | None => d
  end.
Lemma with_master_true o test : with_master o test false = true →
  ∃ y s, o = Some y ∧ y_master exF y = Some s ∧ test y s = true.
Proof. unfold with_master. destruct o as [y|]; [|done]. destruct (y_master exF y) eqn:E; [eauto|done]. Qed.

Definition dict_of (s : storage exF) : dict nat (nat * nat) := s_fields exF s true.
Definition o2o_of (s : storage exF) : o2o nat nat (nat * nat * nat) := s_fields exF s false.
Definition row_is (s : storage exF) (r : nat) (o : nat * nat * nat) : bool :=
  match o2o_from_row (o2o_of s) r with Val (Some o') => bool_decide (o' = o) | _ => false end.

Example ex_history_runs :
  ∃ y s fol, run exF ex_clk ex_history (system_init exF 0) = Some y ∧ y_master exF y = Some s ∧
    y_follower exF y = Some fol ∧ s_destructing exF s = false ∧
    length (st_log exF (y_stream exF y)) = 3 ∧ s_next exF fol = 3 ∧
    dict_get (dict_of s) 1 = Some (1, 12) ∧ dict_get (dict_of fol) 1 = Some (1, 12) ∧
    row_is s 1 (1, 2, 8) = true ∧ row_is fol 1 (1, 2, 8) = true.
Proof.
  assert (H : with_master (run exF ex_clk ex_history (system_init exF 0)) (λ y s,
    match y_follower exF y with
    | Some fol => negb (s_destructing exF s) && bool_decide (length (st_log exF (y_stream exF y)) = 3) &&
        bool_decide (s_next exF fol = 3) && bool_decide (dict_get (dict_of s) 1 = Some (1, 12)) &&
        bool_decide (dict_get (dict_of fol) 1 = Some (1, 12)) && row_is s 1 (1, 2, 8) && row_is fol 1 (1, 2, 8)
    | None => false
    end) false = true) by (vm_compute; reflexivity).
  apply with_master_true in H as (y & s & E1 & E2 & H).
  destruct (y_follower exF y) as [fol|] eqn:E3; [|done].
  rewrite !andb_true_iff, !bool_decide_eq_true, negb_true_iff in H.
  destruct H as ((((((?&?)&?)&?)&?)&?)&?). exists y, s, fol. split_and!; assumption.
Qed.

(** Premises of C27 hold: a body that changes both fields, then throws. *)
Example C27_example :
  ∃ y s ms mf n' fs', reachable exF ex_clk y ∧ y_master exF y = Some s ∧ s_destructing exF s = false ∧
    alone_run exF ex_clk (ex_mess (OtherException 3)) (S (y_pos exF y)) (s_fields exF s) ∅
      = Some (inr (OtherException 3), ms, mf, n', fs') ∧ length ms = 6.
Proof.
  assert (H : with_master (run exF ex_clk [OpenMaster exF; RW exF ex_fill] (system_init exF 0)) (λ y s,
    negb (s_destructing exF s) &&
    match alone_run exF ex_clk (ex_mess (OtherException 3)) (S (y_pos exF y)) (s_fields exF s) ∅ with
    | Some (inr (OtherException 3), ms, _, _, _) => bool_decide (length ms = 6)
    | _ => false
    end) false = true) by (vm_compute; reflexivity).
  apply with_master_true in H as (y & s & E1 & E2 & H).
  rewrite andb_true_iff, negb_true_iff in H. destruct H as [Ed H].
  destruct (alone_run exF ex_clk _ _ (s_fields exF s) ∅) as [[[[[[a|[v| |w]] ms] mf] n'] fs']|] eqn:E3; try done.
  destruct w as [|[|[|[|w]]]]; try done. rewrite bool_decide_eq_true in H.
  exists y, s, ms, mf, n', fs'. split_and!; [|assumption..]. exists 0, [OpenMaster exF; RW exF ex_fill]. exact E1.
Qed.

(** C28 without the key hypothesis is false: a patch that changes the key of the
    object makes a later Erase journal the new key, and the replay diverges. *)
Definition bad_schema (i : unit) : field_spec :=
  FDictionary (fst : nat * nat → nat) (λ (p : nat) (o : nat * nat), (p, o.2)).
Notation badF := (λ i, to_field (bad_schema i)).
Definition bad_do {A} (op : dict_op nat (nat * nat) nat) (k : prog badF A) : prog badF A := Do badF A tt op k.

Theorem C28_replay_with_key_changing_patch_refuted :
  ¬ (∀ y s, reachable badF ex_clk y → y_master badF y = Some s →
       same_view badF (s_fields badF s) (rebuilt badF (st_log badF (y_stream badF y)))).
Proof.
  intros Hall.
  set (bad := [OpenMaster badF; RW badF (bad_do (DAdd (1, 5)) (bad_do (DPatch 1 2) (bad_do (DErase 1) (Return badF _ tt))))]).
  assert (H : match run badF ex_clk bad (system_init badF 0) with
    | Some y => match y_master badF y with
      | Some s => bool_decide (dict_get (s_fields badF s tt : dict nat (nat * nat)) 1 = None) &&
          bool_decide (dict_get (rebuilt badF (st_log badF (y_stream badF y)) tt : dict nat (nat * nat)) 1 = Some (2, 5))
      | None => false end
    | None => false end = true) by (vm_compute; reflexivity).
  destruct (run badF ex_clk bad (system_init badF 0)) as [y|] eqn:Er; [|done].
  destruct (y_master badF y) as [s|] eqn:Es; [|done].
  rewrite andb_true_iff, !bool_decide_eq_true in H. destruct H as [E1 E2].
  assert (Hr : reachable badF ex_clk y) by (exists 0, bad; exact Er).
  specialize (Hall y s Hr Es tt). apply (f_equal fst) in Hall.
  assert (E3 : d_map (s_fields badF s tt : dict nat (nat * nat)) =
               d_map (rebuilt badF (st_log badF (y_stream badF y)) tt : dict nat (nat * nat))) by exact Hall.
  unfold dict_get in E1, E2. rewrite E3, E2 in E1. discriminate.
Qed.

(** C30 is false when [f2] throws after [f1] returned: the mutations stay
    published, yet the caller is told of an exception, resp. of a rollback. *)
Theorem C30_exception_reported_though_published_refuted :
  ¬ (∀ y s (f1 : prog exF nat) f2 r calls n st s',
       reachable exF ex_clk y → y_master exF y = Some s →
       rw_two_step exF ex_clk f1 f2 (y_pos exF y) (y_stream exF y) s = Finished exF _ (r, calls) n st s' →
       r ≠ Committed2 → st_log exF st = st_log exF (y_stream exF y)).
Proof.
  intros Hall.
  assert (H : with_master (run exF ex_clk [OpenMaster exF] (system_init exF 0)) (λ y s,
    match rw_two_step exF ex_clk ex_fill (λ _ _, Some (OtherException 1)) (y_pos exF y) (y_stream exF y) s with
    | Finished _ _ (Exception2 (OtherException 1), [7]) n st s' =>
      bool_decide (length (st_log exF (y_stream exF y)) = 0) && bool_decide (length (st_log exF st) = 1)
    | _ => false
    end) false = true) by (vm_compute; reflexivity).
  apply with_master_true in H as (y & s & Er & Es & H).
  destruct (rw_two_step exF ex_clk ex_fill _ (y_pos exF y) (y_stream exF y) s) as [[r calls] n st s'| | |] eqn:E; try done.
  assert (Hr : reachable exF ex_clk y) by (exists 0, [OpenMaster exF]; exact Er).
  assert (Hnc : r ≠ Committed2) by by intros ->.
  specialize (Hall y s _ _ _ _ _ _ _ Hr Es E Hnc).
  repeat case_match; try done. rewrite andb_true_iff, !bool_decide_eq_true in H.
  destruct H as [E1 E2]. rewrite Hall in E2. congruence.
Qed.

(** Moreover [f2] may then be called twice, and the result says rolled back. *)
Theorem C30_f2_called_once_refuted :
  ¬ (∀ y s (f1 : prog exF nat) f2 r calls n st s',
       reachable exF ex_clk y → y_master exF y = Some s →
       rw_two_step exF ex_clk f1 f2 (y_pos exF y) (y_stream exF y) s = Finished exF _ (r, calls) n st s' →
       length calls ≤ 1).
Proof.
  intros Hall.
  set (f2 := λ (k a : nat), if decide (k = 0) then Some (RollbackWithValue (a + 1)) else None).
  assert (H : with_master (run exF ex_clk [OpenMaster exF] (system_init exF 0)) (λ y s,
    match rw_two_step exF ex_clk ex_fill f2 (y_pos exF y) (y_stream exF y) s with
    | Finished _ _ (RolledBack2, calls) n st s' => bool_decide (calls = [7; 8])
    | _ => false
    end) false = true) by (vm_compute; reflexivity).
  apply with_master_true in H as (y & s & Er & Es & H).
  destruct (rw_two_step exF ex_clk ex_fill f2 (y_pos exF y) (y_stream exF y) s) as [[r calls] n st s'| | |] eqn:E; try done.
  assert (Hr : reachable exF ex_clk y) by (exists 0, [OpenMaster exF]; exact Er).
  specialize (Hall y s _ _ _ _ _ _ _ Hr Es E).
  destruct r; try done. rewrite bool_decide_eq_true in H. subst calls. simpl in Hall. lia.
Qed.

Print Assumptions C27_rollback_restores.
Print Assumptions C27_rollback_restores_void.
Print Assumptions C27_rollback_restores_two_step.
Print Assumptions C28_replay_equals_live.
Print Assumptions C28_reopened_equals_live.
Print Assumptions C28_history_prefix.
Print Assumptions C28_follower_equals_master_then.
Print Assumptions C28_follower_catches_up.
Print Assumptions C28_flip.
Print Assumptions C29_commit_publishes_once.
Print Assumptions C29_transactions_never_exit.
Print Assumptions C30_two_step_reports_partial.
Print Assumptions C30_exception_reported_though_published_refuted.
Print Assumptions C29_read_only_result.
