(** Property C66: a storage on a file survives restarts and crashes. *)
From stdpp Require Import gmap strings.
From Coq Require Import ZArith Lia.
From Verif Require Base Dec Codec Persister_Model FilePersister_Model FilePersister_Spec.
From Verif Require Import StorageContainers_Model StorageContainers_Proofs StorageTxn_Model StorageTxn_Spec StorageTxn_Proofs
  StorageTxn_Props StorageFile_Model StorageFile_Spec StorageFile_Proofs.

Section Props.
  (** Any schema, any codec, any clock with int64 readings. *)
  Context {I : Type} `{EqDecision I} (schema : I -> field_spec).
  Notation F := (λ i, to_field (schema i)).
  Context (keys : ∀ i, patches_keep_keys (schema i)).
  Context (C : Persister_Model.codec (option (transaction F))) (sig : list N) (clk : nat -> Z).
  Context (HC : Codec.codec_ok C) (HS : FilePersister_Spec.sig_ok sig) (Hclk : ∀ n, (clk n < 2 ^ 63)%Z).
  Notation L := (λ i, spec_laws (schema i) (keys i)).

  Lemma reachable_held p : process_reachable F C sig clk p →
    held F C sig (pr_file F p) (y_stream F (pr_system F p)) ∧ reachable F clk (pr_system F p).
  Proof.
    intros (pos & evs & p0 & H0 & Hr).
    destruct (start_empty F C sig HS pos) as (s & Hs & Hh). rewrite Hs in H0. simplify_eq.
    destruct (frun_held F C sig clk HC Hclk evs (Process F (system_init F pos) s) p Hh Hr) as [Hp Hrun]. split; [done|]. by exists pos, (flat_map (as_events F) evs).
  Qed.

  (** C66. In any history of transactions, other records, head updates, openings, role changes and
      restarts: stopping the process and starting a new one on the file succeeds, gives the same stream
      (entries, timestamps and head), and a storage opened on it shows what the live one showed. *)
  Theorem C66_restart_keeps_the_storage p pos :
    process_reachable F C sig clk p →
    ∃ p', start F C sig (file_of F p) pos = Some p' ∧
      y_stream F (pr_system F p') = y_stream F (pr_system F p) ∧ file_of F p' = file_of F p ∧
      ∀ s, y_master F (pr_system F p) = Some s →
        same_view F (opened F p') (s_fields F s) ∧
        s_last_applied F (open_master F (y_stream F (pr_system F p'))) = s_last_applied F s.
  Proof.
    intros Hp. destruct (reachable_held p Hp) as [Hh Hr].
    eexists. split; [by apply held_start|]. simpl. split_and!; [done|done|].
    intros s Es. unfold opened. simpl. by apply (C28_reopened_equals_live schema keys clk).
  Qed.

  (** No restart of a history ever fails, and histories with restarts are histories of a storage whose
      process lives on, with its storages closed where it was restarted. *)
  Theorem C66_restarts_are_transparent p evs y :
    process_reachable F C sig clk p →
    run F clk (flat_map (λ ev, match ev with Ev _ ev => [ev] | Restart _ => [CloseMaster F; CloseFollower F] end) evs)
      (pr_system F p) = Some y →
    ∃ p', frun F C sig clk evs p = Some p' ∧ pr_system F p' = y.
  Proof.
    intros Hp Hr. destruct (reachable_held p Hp) as [Hh _]. by apply (run_frun F C sig clk HC Hclk).
  Qed.

  (** Atomicity of commits. A transaction appends some bytes to the file (and nothing else happens to the
      file); whatever part of them had been written when the process was killed, if a new process can
      read the file at all, it shows the storage as it was before the transaction, or after it. With all
      bytes written, it can, and shows the storage after. *)
  Theorem C66_commits_are_atomic p ev p' s s' pos :
    prefixes_do_not_parse C →
    process_reachable F C sig clk p → fstep F C sig clk (Ev F ev) p = Some p' →
    y_master F (pr_system F p) = Some s → y_master F (pr_system F p') = Some s' →
    length (st_log F (y_stream F (pr_system F p))) < length (st_log F (y_stream F (pr_system F p'))) →
    (N.of_nat (length (st_log F (y_stream F (pr_system F p')))) < Base.npos)%N →
    ∃ bytes, file_of F p' = file_of F p ++ bytes ∧
      (∀ k q, start F C sig (file_of F p ++ take k bytes) pos = Some q →
        same_view F (opened F q) (s_fields F s) ∨ same_view F (opened F q) (s_fields F s')) ∧
      (∃ q, start F C sig (file_of F p ++ bytes) pos = Some q ∧ same_view F (opened F q) (s_fields F s')).
  Proof.
    intros Hpre Hp Hs Es Es' Hlt Hnp. destruct (reachable_held p Hp) as [Hh Hr].
    assert (Hp' : process_reachable F C sig clk p').
    { destruct Hp as (pos0 & evs & p0 & H0 & Hrun). exists pos0, (evs ++ [Ev F ev]), p0. split; [done|].
      clear -Hrun Hs. revert p0 Hrun. induction evs as [|e evs IH]; intros p0 Hrun; simpl in *; [simplify_eq; by rewrite Hs|].
      destruct (fstep F C sig clk e p0); [by apply IH|done]. }
    destruct (reachable_held p' Hp') as [Hh' Hr'].
    simpl in Hs. destruct (step F clk ev (pr_system F p)) as [y'|] eqn:Ey; [|done]. simplify_eq/=.
    pose proof (step_moves F clk Hclk _ _ _ Ey) as Hm.
    pose proof (C66_restart_keeps_the_storage _ pos Hp') as (q & Hq1 & Hq2 & _ & Hq3). simpl in Hq2, Hq3.
    assert (Hend : ∀ st', st' = y_stream F y' → same_view F (s_fields F (open_master F st')) (s_fields F s')).
    { intros st' ->. rewrite <- Hq2. by apply Hq3. }
    assert (Hbeg : ∀ st', st' = y_stream F (pr_system F p) → same_view F (s_fields F (open_master F st')) (s_fields F s)).
    { intros st' ->. by apply (C28_reopened_equals_live schema keys clk). }
    inversion Hm as [Hst|n x Ht Hst|n Ht Hst]; [rewrite <- Hst in Hlt; lia| |rewrite <- Hst in Hlt; simpl in Hlt; lia].
    assert (Hn : (N.of_nat (S (length (st_log F (y_stream F (pr_system F p))))) < Base.npos)%N).
    { rewrite <- Hst in Hnp. simpl in Hnp. rewrite app_length in Hnp. simpl in Hnp. by rewrite Nat.add_1_r in Hnp. }
    set (bytes := Persister_Model.ser_idx C (FilePersister_Model.fp_next (pr_file F p), clk n) ++ [Persister_Model.TAB] ++
                  Persister_Model.ser C x ++ [Persister_Model.NL]).
    destruct (publish_crash F C sig clk HC Hclk (pr_file F p) (y_stream F (pr_system F p)) n x 0 pos p (Hpre x) Hn Hh Ht) as (b & Hb & _).
    exists b. unfold file_of in *. cbn [pr_file pr_system] in *. simpl in Hb.
    assert (Ec : calls F (y_stream F (pr_system F p)) (y_stream F y') = [Persister_Model.Publish x (clk n)]) by (by rewrite <- Hst, calls_publish).
    rewrite Ec in Hq1. rewrite calls_publish. simpl in Hq1 |- *. split_and!; [done| |].
    - intros k r Hk.
      destruct (publish_crash F C sig clk HC Hclk (pr_file F p) (y_stream F (pr_system F p)) n x k pos r (Hpre x) Hn Hh Ht) as (b' & Hb' & Hc).
      simpl in Hb'. rewrite Hb in Hb'. apply app_inv_head in Hb' as <-. unfold opened.
      destruct (Hc Hk) as [E|E]; [left; by apply Hbeg|right; apply Hend; by rewrite E].
    - exists q. split; [by rewrite <- Hb|]. unfold opened. rewrite Hq2. by apply Hend.
  Qed.
End Props.

(* ------------------------------------------------------------------ *)
(** * A concrete storage: one dictionary of (key, payload) *)

(** A codec for any countable type: a number in brackets. *)
Section CountableCodec.
  Context {X : Type} `{Countable X}.
  Definition bracket_ser (x : X) : list N := 91%N :: Dec.dec (N.pos (encode x)) ++ [93%N].
  Definition bracket_de (s : list N) : option X :=
    match s with
    | b :: r =>
        if N.eqb b 91 then
          let d := Codec.span Dec.is_digit r in
          match Dec.undec (fst d) with
          | Some (N.pos p) => if decide (snd d = [93%N]) then decode p else None
          | _ => None
          end
        else None
    | [] => None
    end.
  Definition bracket_codec : Persister_Model.codec X :=
    {| Persister_Model.ser_idx := Codec.json_idx; Persister_Model.par_idx := Codec.parse_json_idx;
       Persister_Model.ser := bracket_ser; Persister_Model.de := bracket_de |}.

  Lemma bracket_de_ser x : bracket_de (bracket_ser x) = Some x.
  Proof.
    unfold bracket_de, bracket_ser. rewrite N.eqb_refl, Codec.span_app; [|apply Dec.dec_is_digit|done].
    simpl fst. rewrite Dec.undec_dec, decide_True by done. apply decode_encode.
  Qed.
  Lemma bracket_ser_nl x : ¬ In Persister_Model.NL (bracket_ser x).
  Proof.
    unfold bracket_ser. intros [?|Hi]; [done|]. apply in_app_or in Hi as [Hi|[?|[]]]; [|done].
    pose proof (Dec.dec_is_digit (N.pos (encode x))) as Hd. rewrite List.Forall_forall in Hd. by specialize (Hd _ Hi).
  Qed.
  Lemma bracket_codec_ok : Codec.codec_ok bracket_codec.
  Proof.
    destruct Codec.demo_codec_ok as [h1 h2 h3 h4 h5 _ _]. split; simpl.
    - exact h1. - exact h2. - exact h3. - exact h4. - exact h5.
    - apply bracket_de_ser. - apply bracket_ser_nl.
  Qed.
  Lemma span_snd f (s : list N) b : In b (snd (Codec.span f s)) → In b s.
  Proof. induction s as [|a s IH]; [done|]. simpl. destruct (f a); simpl; auto. Qed.
  Lemma bracket_prefixes : prefixes_do_not_parse bracket_codec.
  Proof.
    intros e a b Hb Hs. simpl in *. destruct (bracket_de a) as [x|] eqn:Hd; [|done]. exfalso.
    assert (Hin : In 93%N a).
    { unfold bracket_de in Hd. destruct a as [|c r]; [done|]. destruct (N.eqb c 91); [|done].
      destruct (Dec.undec _) as [[|q]|]; [done| |done]. case_decide as Hsp; [|done]. right.
      apply (span_snd Dec.is_digit). rewrite Hsp. by left. }
    unfold bracket_ser in Hs. destruct b as [|c b] using rev_ind; [done|].
    rewrite app_comm_cons, app_assoc in Hs. apply app_inj_tail in Hs as [Hs _].
    assert (Hi : In 93%N (91%N :: Dec.dec (N.pos (encode e)))) by (rewrite Hs; apply in_or_app; by left).
    destruct Hi as [?|Hi]; [done|].
    pose proof (Dec.dec_is_digit (N.pos (encode e))) as Hdd. rewrite List.Forall_forall in Hdd. by specialize (Hdd _ Hi).
  Qed.
End CountableCodec.

Definition fx_schema (_ : unit) : field_spec := FDictionary (fst : nat * nat → nat) (λ (p : nat) (o : nat * nat), (o.1, p)).
Notation fxF := (λ i, to_field (fx_schema i)).
Lemma fx_keys i : patches_keep_keys (fx_schema i).
Proof. done. Qed.
Definition fx_clk (n : nat) : Z := Z.min (Z.of_nat (100 + n)) (2 ^ 63 - 1).

#[local] Instance mutation_eq : EqDecision (mutation nat (nat * nat) nat).
Proof. solve_decision. Defined.
#[local] Instance mutation_countable : Countable (mutation nat (nat * nat) nat).
Proof.
  refine (inj_countable'
    (λ m, match m with Updated us d => inl (us, d) | Deleted us k => inr (inl (us, k)) | Patched us k p => inr (inr (us, k, p)) end)
    (λ x, match x with inl (us, d) => Updated us d | inr (inl (us, k)) => Deleted us k | inr (inr (us, k, p)) => Patched us k p end) _).
  by intros [].
Defined.
Definition fx_pack (t : transaction fxF) : Z * Z * gmap string string * list (mutation nat (nat * nat) nat) :=
  (begin_us (t_meta fxF t), end_us (t_meta fxF t), meta_fields (t_meta fxF t),
   map (λ e : sev fxF, projT2 e) (t_mutations fxF t)).
Definition fx_unpack (x : Z * Z * gmap string string * list (mutation nat (nat * nat) nat)) : transaction fxF :=
  let '(a, b, m, l) := x in Transaction fxF (Meta a b m) (map (λ e, existT tt e : sev fxF) l).
Lemma fx_unpack_pack t : fx_unpack (fx_pack t) = t.
Proof.
  destruct t as [[a b m] l]. unfold fx_pack. simpl. f_equal. rewrite map_map.
  induction l as [|[[] e] l IH]; [done|]. simpl. by f_equal.
Qed.
#[local] Instance fx_eq : EqDecision (transaction fxF).
Proof.
  intros a b. destruct (decide (fx_pack a = fx_pack b)) as [E|E]; [left|right; congruence].
  by rewrite <- (fx_unpack_pack a), E, fx_unpack_pack.
Defined.
#[local] Instance fx_countable : Countable (transaction fxF).
Proof. exact (inj_countable' fx_pack fx_unpack fx_unpack_pack). Defined.
Definition fx_codec : Persister_Model.codec (option (transaction fxF)) := bracket_codec.

Definition fx_do {A} (op : dict_op nat (nat * nat) nat) (k : prog fxF A) : prog fxF A := Do fxF A tt op k.
Definition fx_events : list (fevent fxF) :=
  [Ev _ (OpenMaster fxF); Ev _ (RW fxF (fx_do (DAdd (1, 10)) (fx_do (DAdd (2, 20)) (Return fxF _ 7)))); Ev _ (PublishOther fxF);
   Restart _; Ev _ (OpenMaster fxF);
   Ev _ (RW fxF (fx_do (DPatch 1 11) (fx_do (DErase 2) (Return fxF _ 7)))); Ev _ (UpdateHead fxF)].

(** A run of a few transactions with a restart in the middle meets the hypotheses, and the next
    transaction meets those of the atomicity theorem. *)
Example C66_example :
  Codec.codec_ok fx_codec ∧ prefixes_do_not_parse fx_codec ∧ FilePersister_Spec.sig_ok (Base.bs "s") ∧
  (∀ n, (fx_clk n < 2 ^ 63)%Z) ∧
  ∃ p s p' s', process_reachable fxF fx_codec (Base.bs "s") fx_clk p ∧ y_master fxF (pr_system fxF p) = Some s ∧
    length (st_log fxF (y_stream fxF (pr_system fxF p))) = 3 ∧
    dict_get (s_fields fxF s tt : dict nat (nat * nat)) 1 = Some (1, 11) ∧
    dict_get (s_fields fxF s tt : dict nat (nat * nat)) 2 = None ∧
    fstep fxF fx_codec (Base.bs "s") fx_clk (Ev fxF (RW fxF (fx_do (DAdd (3, 30)) (Return fxF _ 0)))) p = Some p' ∧
    y_master fxF (pr_system fxF p') = Some s' ∧
    length (st_log fxF (y_stream fxF (pr_system fxF p'))) = 4.
Proof.
  assert (HC : Codec.codec_ok fx_codec) by apply bracket_codec_ok.
  assert (HS : FilePersister_Spec.sig_ok (Base.bs "s")).
  { split; [|done]. intros [?|[]]; done. }
  assert (Hclk : ∀ n, (fx_clk n < 2 ^ 63)%Z) by (unfold fx_clk; lia).
  split_and!; [done|apply bracket_prefixes|done|done|].
  destruct (start_empty fxF fx_codec (Base.bs "s") HS 0) as (s0 & H0 & Hh0).
  pose (y := run fxF fx_clk (flat_map (as_events fxF) fx_events) (system_init fxF 0)).
  assert (Hy : ∃ y1 s1, y = Some y1 ∧ y_master fxF y1 = Some s1 ∧ length (st_log fxF (y_stream fxF y1)) = 3 ∧
    dict_get (s_fields fxF s1 tt : dict nat (nat * nat)) 1 = Some (1, 11) ∧
    dict_get (s_fields fxF s1 tt : dict nat (nat * nat)) 2 = None ∧
    ∃ y2 s2, step fxF fx_clk (RW fxF (fx_do (DAdd (3, 30)) (Return fxF _ 0))) y1 = Some y2 ∧ y_master fxF y2 = Some s2 ∧
      length (st_log fxF (y_stream fxF y2)) = 4).
  { assert (Ht : match y with
      | Some y1 =>
        match y_master fxF y1 with
        | Some s1 =>
          bool_decide (length (st_log fxF (y_stream fxF y1)) = 3) &&
          bool_decide (dict_get (s_fields fxF s1 tt : dict nat (nat * nat)) 1 = Some (1, 11)) &&
          bool_decide (dict_get (s_fields fxF s1 tt : dict nat (nat * nat)) 2 = None) &&
          match step fxF fx_clk (RW fxF (fx_do (DAdd (3, 30)) (Return fxF _ 0))) y1 with
          | Some y2 => match y_master fxF y2 with Some _ => bool_decide (length (st_log fxF (y_stream fxF y2)) = 4) | None => false end
          | None => false
          end
        | None => false
        end
      | None => false
      end = true) by (vm_compute; reflexivity).
    clearbody y. destruct y as [y1|]; [|discriminate Ht]. destruct (y_master fxF y1) as [s1|] eqn:E1; [|discriminate Ht].
    rewrite !andb_true_iff in Ht. destruct Ht as [[[H1 H2] H3] H4].
    destruct (step fxF fx_clk _ y1) as [y2|] eqn:E2; [|discriminate H4]. destruct (y_master fxF y2) as [s2|] eqn:E3; [|discriminate H4].
    apply bool_decide_eq_true in H1, H2, H3, H4.
    exists y1, s1. split; [reflexivity|]. split; [exact E1|]. split; [exact H1|]. split; [exact H2|]. split; [exact H3|].
    exists y2, s2. split; [exact E2|]. split; [exact E3|exact H4]. }
  destruct Hy as (y1 & s1 & Ey & E1 & E2 & E3 & E4 & y2 & s2 & E5 & E6 & E7). unfold y in Ey. clear y.
  destruct (run_frun fxF fx_codec (Base.bs "s") fx_clk HC Hclk fx_events (Process fxF (system_init fxF 0) s0) y1 Hh0 Ey) as (p & Hp & Hsys).
  exists p, s1. eexists (Process fxF y2 _), s2. rewrite Hsys.
  split; [exists 0, fx_events, (Process fxF (system_init fxF 0) s0); split; [exact H0|exact Hp]|].
  split; [exact E1|]. split; [exact E2|]. split; [exact E3|]. split; [exact E4|].
  split; [|split; [exact E6|exact E7]].
  cbn [fstep]. rewrite Hsys, E5. reflexivity.
Qed.
Print Assumptions C66_restart_keeps_the_storage.
Print Assumptions C66_restarts_are_transparent.
Print Assumptions C66_commits_are_atomic.
