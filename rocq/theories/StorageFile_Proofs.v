(** Proofs for C66. *)
From stdpp Require Import gmap strings.
From Coq Require Import ZArith Lia.
From Verif Require Base Dec Codec Persister_Model Persister_Spec Persister_Proofs FilePersister_Model FilePersister_Spec FilePersister_Proofs
  FilePersister_Proofs2 FilePersister_Proofs3.
From Verif Require Import StorageContainers_Model StorageContainers_Proofs StorageTxn_Model StorageTxn_Spec StorageTxn_Proofs StorageFile_Model.

Section Proofs.
  Context {I : Type} `{EqDecision I} (F : I -> field).
  Notation E := (option (transaction F)).
  Context (C : Persister_Model.codec E) (sig : list N) (clk : nat -> Z).
  Context (HC : Codec.codec_ok C) (HS : FilePersister_Spec.sig_ok sig) (Hclk : ∀ n, (clk n < 2 ^ 63)%Z).

  Notation mem st := {| Persister_Model.mp_entries := st_log F st; Persister_Model.mp_head := st_head F st |}.
  Definition held (s : FilePersister_Model.fp) (st : stream F) : Prop := ∃ ls, FilePersister_Proofs.finv C sig s (mem st) ls.

  (** What one event may do to the stream. *)
  Inductive moves (st : stream F) : stream F → Prop :=
  | Stays : moves st st
  | Publishes n x : (st_head F st < clk n)%Z → moves st (Stream F (st_log F st ++ [(clk n, x)]) (clk n))
  | Heads n : (st_head F st < clk n)%Z → moves st (Stream F (st_log F st) (clk n)).

  Lemma persist_moves n st s n' st' s' : persist_journal F clk n st s = Some (n', st', s') → moves st st'.
  Proof.
    unfold persist_journal. destruct (j_commit F _); [intros; simplify_eq; constructor|].
    case_decide; [|done]. intros; simplify_eq. apply Publishes. lia.
  Qed.

  Definition outcome_moves {B} (st : stream F) (o : outcome F B) : Prop :=
    match o with Finished _ _ _ _ st' _ | Propagates _ _ _ st' _ => moves st st' | _ => True end.
  Lemma rw_moves {A} (f : prog F A) n st s : outcome_moves st (rw_transaction F clk f n st s).
  Proof.
    unfold rw_transaction. repeat case_match; simplify_eq/=; try constructor. by eapply persist_moves.
  Qed.
  Lemma rwv_moves f n st s : outcome_moves st (rw_void_transaction F clk f n st s).
  Proof.
    unfold rw_void_transaction. repeat case_match; simplify_eq/=; try constructor. by eapply persist_moves.
  Qed.
  Lemma rw2_moves {A} (f : prog F A) f2 n st s : outcome_moves st (rw_two_step F clk f f2 n st s).
  Proof.
    unfold rw_two_step, two_step_handler. repeat case_match; simplify_eq/=; try constructor; by eapply persist_moves.
  Qed.
  Lemma ro_moves {A} (f : ro_prog F A) n st s : outcome_moves st (ro_transaction F clk f n st s).
  Proof. unfold ro_transaction. repeat case_match; simplify_eq/=; constructor. Qed.
  Lemma rov_moves f n st s : outcome_moves st (ro_void_transaction F clk f n st s).
  Proof. unfold ro_void_transaction. repeat case_match; simplify_eq/=; constructor. Qed.
  Lemma ro2_moves {A} (f : ro_prog F A) f2 n st s : outcome_moves st (ro_two_step F clk f f2 n st s).
  Proof. unfold ro_two_step. repeat case_match; simplify_eq/=; constructor. Qed.

  Lemma on_master_moves {B} y (call : nat → stream F → storage F → outcome F B) y' :
    (∀ n st s, outcome_moves st (call n st s)) → on_master F y call = Some y' → moves (y_stream F y) (y_stream F y').
  Proof.
    intros Hc. unfold on_master, settle. destruct (y_master F y) as [s|]; [|done].
    specialize (Hc (y_pos F y) (y_stream F y) s). destruct (call _ _ _); intros; simplify_eq/=; done.
  Qed.

  Lemma step_moves ev y y' : step F clk ev y = Some y' → moves (y_stream F y) (y_stream F y').
  Proof.
    destruct ev; simpl; intros Hs.
    1-6: eapply on_master_moves; [|exact Hs]; intros; simpl;
      first [apply rw_moves|apply rwv_moves|apply rw2_moves|apply ro_moves|apply rov_moves|apply ro2_moves].
    - simplify_eq/=. case_decide; [|constructor]. apply Publishes. lia.
    - simplify_eq/=. case_decide; [|constructor]. apply Heads. lia.
    - case_match; simplify_eq/=; constructor.
    - case_match; simplify_eq/=; constructor.
    - simplify_eq/=; constructor.
    - simplify_eq/=; constructor.
    - simplify_eq/=; constructor.
    - repeat case_match; simplify_eq/=; constructor.
    - destruct (y_follower F y) as [s|]; [|done]. pose proof (ro_moves f (y_pos F y) (y_stream F y) s) as Hm.
      destruct (ro_transaction F clk f _ _ _); simplify_eq/=; done.
    - destruct (y_follower F y) as [s|]; [|done]. pose proof (rw_moves f (y_pos F y) (y_stream F y) s) as Hm.
      destruct (rw_transaction F clk f _ _ _); simplify_eq/=; done.
    - repeat case_match; simplify_eq/=; constructor.
  Qed.

  (** The file keeps up. *)
  Lemma calls_stays st : calls F st st = [].
  Proof. unfold calls. rewrite drop_all, decide_False; [done|]. intros [_ ?]; done. Qed.
  Lemma calls_publish st t x : calls F st (Stream F (st_log F st ++ [(t, x)]) t) = [Persister_Model.Publish x t].
  Proof.
    unfold calls. simpl. rewrite drop_app, decide_False; [done|]. rewrite app_length. simpl. lia.
  Qed.
  Lemma calls_head st t : (st_head F st < t)%Z → calls F st (Stream F (st_log F st) t) = [Persister_Model.UpdateHead t].
  Proof. intros Ht. unfold calls. simpl. rewrite drop_all, decide_True; [done|]. split; [done|lia]. Qed.

  Lemma held_step s st st' : held s st → moves st st' → held (fst (FilePersister_Model.fp_run C s (calls F st st'))) st'.
  Proof.
    intros [ls Hf] Hm. destruct Hm as [|n x Ht|n Ht].
    - rewrite calls_stays. by exists ls.
    - rewrite calls_publish.
      destruct (FilePersister_Proofs.finv_run C sig HC [Persister_Model.Publish x (clk n)] s _ ls Hf) as [_ [ls' Hf']].
      { repeat constructor. }
      exists ls'. revert Hf'. simpl. unfold Persister_Model.mp_publish. simpl.
      by rewrite (proj2 (Z.ltb_lt _ _) Ht).
    - rewrite calls_head by done.
      destruct (FilePersister_Proofs.finv_run C sig HC [Persister_Model.UpdateHead (clk n)] s _ ls Hf) as [_ [ls' Hf']].
      { repeat constructor. simpl. apply Hclk. }
      exists ls'. revert Hf'. simpl. unfold Persister_Model.mp_update_head. simpl.
      by rewrite (proj2 (Z.ltb_lt _ _) Ht).
  Qed.

  Lemma numbered_from_values {X} (l : list (Z * X)) k :
    map (λ x : N * Z * X, (x.1.2, x.2)) (Persister_Spec.numbered_from k l) = l.
  Proof. revert k. induction l as [|[a b] l IH]; intros k; [done|]. simpl. by rewrite IH. Qed.

  Lemma held_read_back s st : held s st → read_back F C s = Some st.
  Proof.
    intros [ls Hf]. unfold read_back.
    rewrite (FilePersister_Proofs.fp_query_sim C sig s _ ls (FilePersister_Model.QIterate 0 Base.npos) Hf eq_refl).
    rewrite FilePersister_Proofs3.mp_query_all_ok. simpl.
    unfold Persister_Spec.numbered. rewrite numbered_from_values, <- (FilePersister_Proofs.f_head _ _ _ _ _ Hf). by destruct st.
  Qed.

  Lemma held_start s st pos : held s st → start F C sig (FilePersister_Model.fp_file s) pos = Some (Process F (System F st None None pos) s).
  Proof.
    intros Hh. pose proof Hh as [ls Hf]. unfold start. rewrite (FilePersister_Proofs.fp_open_reopen C sig s _ ls Hf).
    by rewrite (held_read_back _ _ Hh).
  Qed.
  Lemma start_empty pos : ∃ s, start F C sig [] pos = Some (Process F (system_init F pos) s) ∧ held s (stream_empty F).
  Proof.
    destruct (FilePersister_Proofs.fp_open_empty C sig HS) as (s & Hs & Hf). exists s.
    assert (Hh : held s (stream_empty F)) by (eexists; exact Hf). split; [|done].
    unfold start. by rewrite Hs, (held_read_back _ _ Hh).
  Qed.

  (** A process history is a history of the storage alone in which a restart closes the storages. *)
  Definition as_events (ev : fevent F) : list (event F) :=
    match ev with Ev _ ev => [ev] | Restart _ => [CloseMaster F; CloseFollower F] end.
  Lemma run_app a b y : run F clk (a ++ b) y = match run F clk a y with Some y' => run F clk b y' | None => None end.
  Proof. revert y. induction a as [|ev a IH]; intros y; [done|]. simpl. destruct (step F clk ev y); [apply IH|done]. Qed.

  Lemma frun_held evs p p' : held (pr_file F p) (y_stream F (pr_system F p)) → frun F C sig clk evs p = Some p' →
    held (pr_file F p') (y_stream F (pr_system F p')) ∧
    run F clk (flat_map as_events evs) (pr_system F p) = Some (pr_system F p').
  Proof.
    revert p. induction evs as [|ev evs IH]; intros p Hh Hr; simpl in *; [by simplify_eq|].
    destruct (fstep F C sig clk ev p) as [q|] eqn:Hs; [|done]. rewrite run_app. destruct ev as [ev|]; simpl in Hs |- *.
    - destruct (step F clk ev (pr_system F p)) as [y'|] eqn:Ey; [|done]. simplify_eq.
      apply IH in Hr; [done|]. simpl. apply held_step; [done|]. by eapply step_moves.
    - rewrite (held_start _ _ _ Hh) in Hs. simplify_eq. apply IH in Hr; done.
  Qed.

  Lemma run_frun evs p y : held (pr_file F p) (y_stream F (pr_system F p)) →
    run F clk (flat_map as_events evs) (pr_system F p) = Some y →
    ∃ p', frun F C sig clk evs p = Some p' ∧ pr_system F p' = y.
  Proof.
    revert p. induction evs as [|ev evs IH]; intros p Hh Hr; simpl in *; [simplify_eq; eauto|].
    rewrite run_app in Hr. destruct ev as [ev|]; simpl in Hr |- *.
    - destruct (step F clk ev (pr_system F p)) as [y'|] eqn:Ey; [|done].
      apply IH; [|done]. simpl. apply held_step; [done|]. by eapply step_moves.
    - rewrite (held_start _ _ _ Hh). apply IH; done.
  Qed.

  (** Killed while appending an entry. *)
  Lemma publish_crash s st n x k pos q :
    (∀ a b, b ≠ [] → Persister_Model.ser C x = a ++ b → Persister_Model.de C a = None) →
    (N.of_nat (S (length (st_log F st))) < Base.npos)%N →
    held s st → (st_head F st < clk n)%Z →
    let s' := fst (FilePersister_Model.fp_run C s [Persister_Model.Publish x (clk n)]) in
    ∃ bytes, FilePersister_Model.fp_file s' = FilePersister_Model.fp_file s ++ bytes ∧
    (start F C sig (FilePersister_Model.fp_file s ++ take k bytes) pos = Some q →
     y_stream F (pr_system F q) = st ∨ y_stream F (pr_system F q) = Stream F (st_log F st ++ [(clk n, x)]) (clk n)).
  Proof.
    intros Hpre Hn [ls Hf] Ht s'.
    pose proof (FilePersister_Proofs.f_head _ _ _ _ _ Hf) as Hhd. simpl in Hhd.
    assert (Hb : FilePersister_Model.fp_file s' = FilePersister_Model.fp_file s ++
      (Persister_Model.ser_idx C (FilePersister_Model.fp_next s, clk n) ++ [Persister_Model.TAB] ++ Persister_Model.ser C x ++ [Persister_Model.NL])).
    { unfold s'. simpl. unfold FilePersister_Model.fp_publish. rewrite <- Hhd, (proj2 (Z.ltb_lt _ _) Ht). simpl. by rewrite <- app_assoc. }
    eexists. split; [exact Hb|]. unfold start.
    destruct (FilePersister_Model.fp_open C sig _) as [s1| |] eqn:Ho; try done.
    unfold read_back. destruct (FilePersister_Model.fp_query C s1 (FilePersister_Model.QIterate 0 Base.npos)) as [| | | | | |[l| |]|] eqn:Hq; try done.
    intros [= <-]. simpl.
    pose proof (FilePersister_Proofs.finv_next _ _ _ _ _ Hf) as Hnx. unfold Persister_Model.mp_size in Hnx. simpl in Hnx.
    assert (H1 : (FilePersister_Model.fp_head s < clk n)%Z) by lia.
    assert (H2 : (FilePersister_Model.fp_next s + 1 < Base.npos)%N) by (rewrite Hnx; lia).
    destruct (FilePersister_Proofs3.torn_publish C sig HC s _ ls (clk n) x k s1 l Hf H1 H2 Hpre Ho Hq) as [->|[-> Hh]].
    - left. assert (Hr : read_back F C s = Some st) by (apply held_read_back; by exists ls).
      unfold read_back in Hr. rewrite Hq in Hr. by simplify_eq.
    - right. unfold Persister_Spec.numbered. rewrite numbered_from_values. simpl. by rewrite Hh.
  Qed.
End Proofs.
