(** Property C67: RESTful access to a storage. *)
From stdpp Require Import gmap strings sorting.
From Coq Require Import ZArith NArith Lia.
From Verif Require Import StorageContainers_Model StorageContainers_Proofs
  StorageTxn_Model StorageTxn_Spec StorageTxn_Proofs StorageRest_Model StorageRest_Spec StorageRest_Proofs StorageRest_Proofs2.
From Verif Require Dec.

Lemma filter_is_sublist {A} (P : A → Prop) `{∀ x, Decision (P x)} (l : list A) : filter P l `sublist_of` l.
Proof.
  induction l as [|x l IH]; [constructor|]. rewrite filter_cons. destruct (decide (P x)); [apply sublist_skip|apply sublist_cons]; exact IH.
Qed.

Section Props.
  (** Any schema, any field of it, any way of reading keys, bodies and dates. *)
  Context {I : Type} `{EqDecision I} (schema : I -> field_spec).
  Notation F := (λ i, to_field (schema i)).
  Context (keys : ∀ i, patches_keep_keys (schema i)).
  Context (i : I) (cfg : rest_cfg (schema i)) (dates : date_cfg).
  Notation f := (schema i).
  Notation L := (λ i, spec_laws (schema i) (keys i)).
  (** Any strictly increasing clock. *)
  Context (clk : nat -> Z).
  Context (clk_inc : ∀ n, (clk n < clk (S n))%Z) (clk_pos : ∀ n, (0 < clk n)%Z).

  Notation serves q y s gone := (serve schema i cfg dates clk gone q (y_pos F y) (y_stream F y) s).
  Notation view s := (show F (s_fields F s) i).

  Lemma clk_nonneg n : (0 <= clk n)%Z.
  Proof. pose proof (clk_pos n). lia. Qed.

  (** C67. GET by key: the object stored under the key, with the time it was last
      modified in both headers, or 404; on a master and on a follower alike; nothing
      changes. *)
  Theorem C67_get y s q uk gone :
    reachable F clk y → y_master F y = Some s ∨ y_follower F y = Some s → s_destructing F s = false →
    q_verb q = GET → url_key f q = Some uk → q_query q !! "export"%string = None →
    let k := c_parse_key f cfg uk in
    ∃ r, serves q y s gone = Finished F _ [r] (y_pos F y) (y_stream F y) s ∧
      match rget f (view s) k with
      | Some o => r_code r = 200%N ∧ r_body r = BodyRecord o ∧
                  ∃ t, rlm f (view s) k = Some t ∧ r_headers r = dated dates t
      | None => r_code r = 404%N ∧ r_headers r = []
      end.
  Proof.
    intros Hr Hs Ed Ev Ek Ee k. unfold serve, data_handler. rewrite Ev, Ek. unfold export_params. rewrite Ee.
    unfold ro_two_step. rewrite Ed. simpl.
    eexists. split; [unfold send_step; by destruct gone|]. unfold run_get. fold k.
    destruct (replica_prefix schema keys y s (reachable_ok F L clk y Hr) Hs) as (_ & _ & _ & Is & _).
    destruct (rget f (view s) k) as [o|] eqn:Eg; [|done].
    destruct (rget_rlm f (keys i) (s_fields F s i) k o (Is i) Eg) as (_ & t & Et).
    unfold show in *. simpl in *. rewrite Et. split_and!; [done|done|]. exists t. done.
  Qed.

  (** What the master shows and holds is as before. *)
  Definition unchanged (y : system F) (s : storage F) (st' : stream F) (s' : storage F) : Prop :=
    st' = y_stream F y ∧ same_view F (s_fields F s') (s_fields F s).
  Definition others_unchanged (s s' : storage F) : Prop :=
    ∀ j, j ≠ i → show F (s_fields F s') j = show F (s_fields F s) j.
  (** The stream got exactly one more entry, a transaction. *)
  Definition one_transaction (st st' : stream F) : Prop :=
    ∃ us t, st_log F st' = st_log F st ++ [(us, Some t)] ∧ t_mutations F t ≠ [].

  Lemma not_stale_b (get : rkey f → option (robj f)) lm since k (o : robj f) t : get k = Some o → lm k = Some t →
    was_modified since (lm k) = false → ¬ stale get lm since k.
  Proof.
    intros Eg El. rewrite El. unfold was_modified. intros Hb (o' & t' & us & _ & El' & -> & Hlt).
    simplify_eq. apply bool_decide_eq_false in Hb. lia.
  Qed.
  Lemma stale_b (get : rkey f → option (robj f)) lm since k (o : robj f) : get k = Some o →
    was_modified since (lm k) = true → stale get lm since k.
  Proof.
    intros Eg. unfold was_modified. destruct since as [us|] eqn:Es; [|done]. destruct (lm k) as [t|] eqn:El; [|done].
    intros Hb%bool_decide_eq_true. exists o, t, us. split_and!; [done|done|done|lia].
  Qed.

  (** The outcome of a write. *)
  Definition done_as (d : verdict f) (y : system F) (s : storage F) (r : response f)
    (st' : stream F) (s' : storage F) : Prop :=
    match d with
    | Refuse code => r_code r = code ∧ r_headers r = [] ∧ unchanged y s st' s'
    | Store o code =>
        r_code r = code ∧ r_body r = BodyDone (Some (rkey_of f o)) ∧
        stored f o (rget f (view s)) (rget f (view s')) ∧ others_unchanged s s' ∧
        one_transaction (y_stream F y) st' ∧
        ∃ t, rlm f (view s') (rkey_of f o) = Some t ∧ r_headers r = dated dates t ∧
             ∀ k t0, rlm f (view s) k = Some t0 → (t0 < t)%Z
    | Remove k =>
        r_code r = 200%N ∧ removed f k (rget f (view s)) (rget f (view s')) ∧ others_unchanged s s' ∧
        (rget f (view s) k = None → r_headers r = [] ∧ st' = y_stream F y) ∧
        (is_Some (rget f (view s) k) → one_transaction (y_stream F y) st' ∧
           ∃ t, rlm f (view s') k = Some t ∧ r_headers r = dated dates t)
    end.

  (** every time shown is a past reading of the clock *)
  Lemma lm_past y s k t n : reachable F clk y → y_master F y = Some s → y_pos F y ≤ n →
    rlm f (view s) k = Some t → (t < clk n)%Z.
  Proof.
    intros Hr Es Hn El. pose proof (reachable_ok F L clk y Hr) as Hy.
    destruct (replica_prefix schema keys y s Hy (or_introl Es)) as (p & q & Elog & Is & Hv & Hq).
    specialize (Hq Es). subst q. rewrite app_nil_r in Elog. rewrite (Hv i) in El.
    destruct Hy as (Hg & _). unfold good in Hg. rewrite Elog in Hg.
    destruct (replay_touch schema keys _ _ i k (sinv_init F L) Hg) as [[_ E]|(e & He & E)].
    { unfold rebuilt in El. rewrite El, init_view in E. done. }
    unfold rebuilt in El. rewrite El in E. assert (t = sev_us schema e) as -> by congruence.
    destruct (reachable_stamped schema keys clk y Hr) as (l & _ & Hf & Et). rewrite Elog in Et.
    assert (In : sev_us schema e ∈ map clk l) by (rewrite <- Et; by apply elem_of_list_fmap_1).
    apply elem_of_list_fmap in In as (m & -> & Hm). eapply Forall_forall in Hf; [|exact Hm]. simpl in Hf.
    apply clk_lt; [done|lia].
  Qed.

  Lemma refuse_runs y s (f1 : prog F (response f)) gone r :
    reachable F clk y → y_master F y = Some s → s_destructing F s = false →
    alone_run F clk f1 (S (y_pos F y)) (s_fields F s) ∅ = Some (inl r, [], ∅, S (y_pos F y), s_fields F s) →
    ∃ n' st' s', responses schema i (rw_two_step F clk f1 (send_step schema i gone) (y_pos F y) (y_stream F y) s) =
      Finished F _ [r] n' st' s' ∧ unchanged y s st' s'.
  Proof.
    intros Hr Es Ed Ea.
    destruct (write_runs schema keys clk clk_inc clk_nonneg i y s f1 gone _ _ _ _ _ Hr Es Ed Ea) as (st' & s' & E & Ef & Hp).
    eexists _, _, _. split; [exact E|]. simpl in Hp. split; [done|]. by rewrite Ef.
  Qed.

  Lemma publishes_one n np mf n' ms st st' : ms ≠ [] → publishes F clk n np mf n' ms st st' → one_transaction st st'.
  Proof.
    unfold publishes. destruct ms; [done|]. intros _ [_ ->]. eexists _, _. split; [done|]. done.
  Qed.

  Lemma store_runs y s (f1 : prog F (response f)) gone o code :
    reachable F clk y → y_master F y = Some s → s_destructing F s = false →
    (∀ n fs mf, show F fs = show F (s_fields F s) →
       alone_run F clk f1 n fs mf =
       alone_run F clk (Do F _ i (radd f o) (Read F _ (λ v', Return F _ (Response code (BodyDone (Some (rkey_of f o)))
                          (modified_headers dates (rlm f (v' i) (rkey_of f o))))))) n fs mf) →
    ∃ r n' st' s', responses schema i (rw_two_step F clk f1 (send_step schema i gone) (y_pos F y) (y_stream F y) s) =
      Finished F _ [r] n' st' s' ∧ done_as (Store o code) y s r st' s'.
  Proof.
    intros Hr Es Ed Heq. pose proof (reachable_ok F L clk y Hr) as (Hg & Hm & _).
    destruct (Hm s Es) as [(Is & _) _].
    destruct (field_add f (keys i) clk (S (y_pos F y)) o (s_fields F s i) (Is i)) as (log & s1 & n1 & E & Hlog & Hn & _ & Hst & Hlm).
    simpl in *.
    assert (Ea := Heq (S (y_pos F y)) (s_fields F s) ∅ eq_refl). simpl in Ea. rewrite E in Ea. simpl in Ea.
    unfold show in Ea at 1. rewrite supd_same in Ea. rewrite Hlm in Ea.
    destruct (write_runs schema keys clk clk_inc clk_nonneg i y s f1 gone _ _ _ _ _ Hr Es Ed Ea) as (st' & s' & Er & Ef & Hp).
    eexists _, _, _, _. split; [exact Er|]. simpl. unfold show. rewrite Ef, supd_same.
    split_and!; [done|done|exact Hst| | |].
    - intros j Hj. unfold show. rewrite Ef, supd_other; [done|congruence].
    - eapply publishes_one; [|exact Hp]. rewrite app_nil_r. by destruct log.
    - exists (clk (pred n1)). split_and!; [done|done|]. intros k t0 E0. eapply lm_past; [exact Hr|exact Es| |exact E0]. lia.
  Qed.

  Lemma remove_runs y s (f1 : prog F (response f)) gone k :
    reachable F clk y → y_master F y = Some s → s_destructing F s = false →
    (∀ n fs mf, show F fs = show F (s_fields F s) →
       alone_run F clk f1 n fs mf =
       alone_run F clk (Do F _ i (rerase f k) (Read F _ (λ v', Return F _ (Response 200 (BodyDone None)
                          (if bool_decide (is_Some (rget f (view s) k)) then modified_headers dates (rlm f (v' i) k) else []))))) n fs mf) →
    ∃ r n' st' s', responses schema i (rw_two_step F clk f1 (send_step schema i gone) (y_pos F y) (y_stream F y) s) =
      Finished F _ [r] n' st' s' ∧ done_as (Remove k) y s r st' s'.
  Proof.
    intros Hr Es Ed Heq. pose proof (reachable_ok F L clk y Hr) as (Hg & Hm & _).
    destruct (Hm s Es) as [(Is & _) _].
    destruct (field_erase f (keys i) clk (S (y_pos F y)) k (s_fields F s i) (Is i)) as (log & s1 & E & _ & Hst & Hlm & Hno).
    simpl in *.
    assert (Ea := Heq (S (y_pos F y)) (s_fields F s) ∅ eq_refl). simpl in Ea. rewrite E in Ea. simpl in Ea.
    unfold show in Ea. rewrite supd_same in Ea.
    destruct (write_runs schema keys clk clk_inc clk_nonneg i y s f1 gone _ _ _ _ _ Hr Es Ed Ea) as (st' & s' & Er & Ef & Hp).
    eexists _, _, _, _. split; [exact Er|]. simpl. unfold show in *. rewrite Ef, supd_same.
    split_and!; [done|exact Hst| | |].
    - intros j Hj. unfold show. rewrite Ef, supd_other; [done|congruence].
    - intros En. rewrite bool_decide_eq_false_2; [|rewrite En; by intros [? ?]]. split; [done|].
      rewrite (Hno En) in Hp. exact Hp.
    - intros Hsome. rewrite bool_decide_eq_true_2 by done. destruct (Hlm Hsome) as [Hlog Hl].
      split; [eapply publishes_one; [|exact Hp]; rewrite app_nil_r; by destruct log|].
      exists (clk (S (y_pos F y))). split; [done|]. by rewrite Hl.
  Qed.

  (** C67. Every write to a master does what is expected of it on the table of
      resources the master holds, whether or not the client is still there to get
      the response: it is refused and nothing changes, or it is one transaction in the
      stream that stores one object (or removes one), and the response carries the new
      modification time. *)
  Theorem C67_writes y s q gone :
    reachable F clk y → y_master F y = Some s → s_destructing F s = false →
    q_verb q ≠ GET →
    ∃ r n' st' s', serves q y s gone = Finished F _ [r] n' st' s' ∧
      match understood cfg dates q with
      | inl code => r_code r = code ∧ r_headers r = [] ∧ unchanged y s st' s'
      | inr w => ∃ d, expected (rget f (view s)) (rlm f (view s)) w d ∧ done_as d y s r st' s'
      end.
  Proof.
    intros Hr Es Ed Hverb. pose proof (reachable_ok F L clk y Hr) as (Hg & Hm & _).
    destruct (Hm s Es) as [(Is & _) Emaster].
    assert (Hlm : ∀ k o, rget f (view s) k = Some o → rkey_of f o = k ∧ ∃ t, rlm f (view s) k = Some t).
    { intros k o E. exact (rget_rlm f (keys i) (s_fields F s i) k o (Is i) E). }
    assert (Hans : ∀ r, data_handler schema i cfg dates true q = Answer schema i r →
      serves q y s gone = Finished F _ [r] (y_pos F y) (y_stream F y) s ∧ unchanged y s (y_stream F y) s).
    { intros r E. unfold serve. rewrite Emaster, E. split; [done|]. split; done. }
    assert (Hwr : ∀ f1, data_handler schema i cfg dates true q = Writes schema i f1 →
      serves q y s gone = responses schema i (rw_two_step F clk f1 (send_step schema i gone) (y_pos F y) (y_stream F y) s)).
    { intros f1 E. unfold serve. by rewrite Emaster, E. }
    assert (Hsince : match since_of dates q with
                     | inl c => ∃ r, if_unmodified_since schema i dates q = inl r ∧ r_code r = c ∧ r_headers r = [] ∧ c = 400%N
                     | inr since => if_unmodified_since schema i dates q = inr since end).
    { unfold since_of, if_unmodified_since. destruct (q_current_unmodified q) as [h|].
      - destruct (decide (read_i64 h > 0)%Z), (decide (0 < read_i64 h)%Z); try lia; [done|]. by eexists.
      - destruct (q_unmodified q) as [h|]; [|done]. destruct (d_parse dates h); [done|]. by eexists. }
    assert (Hrefuse : ∀ f1 code name, data_handler schema i cfg dates true q = Writes schema i f1 →
      alone_run F clk f1 (S (y_pos F y)) (s_fields F s) ∅ = Some (inl (error schema i code name), [], ∅, S (y_pos F y), s_fields F s) →
      ∃ n' st' s', serves q y s gone = Finished F _ [error schema i code name] n' st' s' ∧ unchanged y s st' s').
    { intros f1 code name E Ea. rewrite (Hwr _ E). by apply refuse_runs. }
    assert (Hstore : ∀ f1 o code, data_handler schema i cfg dates true q = Writes schema i f1 →
      (∀ n fs mf, show F fs = show F (s_fields F s) →
       alone_run F clk f1 n fs mf =
       alone_run F clk (Do F _ i (radd f o) (Read F _ (λ v', Return F _ (Response code (BodyDone (Some (rkey_of f o)))
                          (modified_headers dates (rlm f (v' i) (rkey_of f o))))))) n fs mf) →
      ∃ r n' st' s', serves q y s gone = Finished F _ [r] n' st' s' ∧ done_as (Store o code) y s r st' s').
    { intros f1 o code E Ea. rewrite (Hwr _ E). by apply store_runs. }
    unfold understood. unfold data_handler in Hans, Hwr, Hrefuse, Hstore.
    destruct (q_verb q) eqn:Ev; [done| | | | |]; clear Hverb.
    - (* POST *)
      destruct (q_path_args q) as [|a l].
      2:{ destruct (Hans _ eq_refl) as [E Hu]. eexists _, _, _, _. split; [exact E|]. done. }
      destruct (c_parse_entry f cfg (q_body q)) as [o|].
      2:{ destruct (Hans _ eq_refl) as [E Hu]. eexists _, _, _, _. split; [exact E|]. done. }
      unfold run_post in *. destruct (c_init_key f cfg) as [init|].
      2:{ destruct (Hrefuse _ _ _ eq_refl eq_refl) as (n' & st' & s' & E & Hu). eexists _, _, _, _. split; [exact E|]. done. }
      set (ow := bool_decide (is_Some (q_query q !! "overwrite"%string))) in *.
      destruct (rget f (view s) (rkey_of f (init o))) as [o'|] eqn:Eg.
      + destruct ow.
        * destruct (Hstore _ (init o) 201%N eq_refl) as (r & n' & st' & s' & E & Hd).
          { intros n fs mf Esh. done. }
          eexists _, _, _, _. split; [exact E|]. eexists. split; [apply exp_post_overwrite|exact Hd].
        * destruct (Hrefuse _ 409%N "ResourceAlreadyExists"%string eq_refl) as (n' & st' & s' & E & Hu).
          { simpl. rewrite Eg. done. }
          eexists _, _, _, _. split; [exact E|]. exists (Refuse 409). split; [by eapply exp_post_conflict|done].
      + destruct (Hstore _ (init o) 201%N eq_refl) as (r & n' & st' & s' & E & Hd).
        { intros n fs mf Esh. simpl. rewrite Esh. rewrite Eg. by rewrite orb_true_r. }
        eexists _, _, _, _. split; [exact E|]. eexists. split; [by apply exp_post_new|exact Hd].
    - (* PUT *)
      destruct (since_of dates q) as [c|since].
      { destruct Hsince as (r & Esi & Hc & Hh & ->). rewrite Esi in Hans.
        destruct (Hans _ eq_refl) as [E Hu]. eexists _, _, _, _. split; [exact E|]. done. }
      rewrite Hsince in *. destruct (url_key f q) as [uk|].
      2:{ destruct (Hans _ eq_refl) as [E Hu]. eexists _, _, _, _. split; [exact E|]. done. }
      destruct (c_parse_entry f cfg (q_body q)) as [o|].
      2:{ destruct (Hans _ eq_refl) as [E Hu]. eexists _, _, _, _. split; [exact E|]. done. }
      unfold run_put in *. generalize dependent (c_parse_key f cfg uk). intros k Hans Hwr Hrefuse Hstore.
      destruct (decide (rkey_of f o = k)) as [<-|Hne].
      2:{ destruct (Hrefuse _ _ _ eq_refl eq_refl) as (n' & st' & s' & E & Hu). eexists _, _, _, _. split; [exact E|].
          exists (Refuse 400). split; [by apply exp_put_wrong_key|done]. }
      destruct (rget f (view s) (rkey_of f o)) as [o'|] eqn:Eg.
      + destruct (Hlm _ _ Eg) as (_ & t & Et).
        destruct (was_modified since (rlm f (view s) (rkey_of f o))) eqn:Ew.
        * destruct (Hrefuse _ 412%N "ResourceWasModified"%string eq_refl) as (n' & st' & s' & E & Hu).
          { simpl. rewrite Eg. rewrite Ew. done. }
          eexists _, _, _, _. split; [exact E|]. exists (Refuse 412). split; [|done].
          apply exp_put_stale. by eapply stale_b.
        * destruct (Hstore _ o 200%N eq_refl) as (r & n' & st' & s' & E & Hd).
          { intros n fs mf Esh. simpl. rewrite Esh. rewrite Eg, Ew. done. }
          eexists _, _, _, _. split; [exact E|]. eexists. split; [|exact Hd].
          eapply exp_put_update; [|exact Eg]. by eapply not_stale_b.
      + destruct (Hstore _ o 201%N eq_refl) as (r & n' & st' & s' & E & Hd).
        { intros n fs mf Esh. simpl. rewrite Esh. rewrite Eg. done. }
        eexists _, _, _, _. split; [exact E|]. eexists. split; [by apply exp_put_create|exact Hd].
    - (* PATCH *)
      destruct (since_of dates q) as [c|since].
      { destruct Hsince as (r & Esi & Hc & Hh & ->). rewrite Esi in Hans.
        destruct (Hans _ eq_refl) as [E Hu]. eexists _, _, _, _. split; [exact E|]. done. }
      rewrite Hsince in *. destruct (url_key f q) as [uk|].
      2:{ destruct (Hans _ eq_refl) as [E Hu]. eexists _, _, _, _. split; [exact E|]. done. }
      unfold run_patch in *. generalize dependent (c_parse_key f cfg uk). intros k Hans Hwr Hrefuse Hstore.
      destruct (rget f (view s) k) as [o|] eqn:Eg.
      2:{ destruct (Hrefuse _ 404%N "ResourceNotFound"%string eq_refl) as (n' & st' & s' & E & Hu).
          { simpl. rewrite Eg. done. }
          eexists _, _, _, _. split; [exact E|]. exists (Refuse 404). split; [by apply exp_patch_absent|done]. }
      destruct (Hlm _ _ Eg) as (_ & t & Et).
      destruct (was_modified since (rlm f (view s) k)) eqn:Ew.
      { destruct (Hrefuse _ 412%N "ResourceWasModified"%string eq_refl) as (n' & st' & s' & E & Hu).
        { simpl. rewrite Eg, Ew. done. }
        eexists _, _, _, _. split; [exact E|]. exists (Refuse 412). split; [|done].
        apply exp_patch_stale. by eapply stale_b. }
      assert (Hns : ¬ stale (rget f (view s)) (rlm f (view s)) since k) by (by eapply not_stale_b).
      destruct (c_patch f cfg (q_body q) o) as [o'|] eqn:Ep.
      2:{ destruct (Hrefuse _ 400%N "ParseJSONError"%string eq_refl) as (n' & st' & s' & E & Hu).
          { simpl. rewrite Eg, Ew, Ep. done. }
          eexists _, _, _, _. split; [exact E|]. exists (Refuse 400). split; [by eapply exp_patch_bad|done]. }
      destruct (decide (rkey_of f o' = k)) as [<-|Hne].
      2:{ destruct (Hrefuse _ 400%N "InvalidKey"%string eq_refl) as (n' & st' & s' & E & Hu).
          { simpl. rewrite Eg, Ew, Ep. by rewrite decide_False. }
          eexists _, _, _, _. split; [exact E|]. exists (Refuse 400). split; [by eapply exp_patch_key|done]. }
      destruct (Hstore _ o' 200%N eq_refl) as (r & n' & st' & s' & E & Hd).
      { intros n fs mf Esh. simpl. rewrite Esh. rewrite Eg, Ew, Ep. by rewrite decide_True. }
      eexists _, _, _, _. split; [exact E|]. eexists. split; [by eapply exp_patch|exact Hd].
    - (* DELETE *)
      destruct (since_of dates q) as [c|since].
      { destruct Hsince as (r & Esi & Hc & Hh & ->). rewrite Esi in Hans.
        destruct (Hans _ eq_refl) as [E Hu]. eexists _, _, _, _. split; [exact E|]. done. }
      rewrite Hsince in *. destruct (url_key f q) as [uk|].
      2:{ destruct (Hans _ eq_refl) as [E Hu]. eexists _, _, _, _. split; [exact E|]. done. }
      unfold run_delete in *. generalize dependent (c_parse_key f cfg uk). intros k Hans Hwr Hrefuse Hstore.
      destruct (rget f (view s) k) as [o|] eqn:Eg.
      + destruct (Hlm _ _ Eg) as (_ & t & Et).
        destruct (was_modified since (rlm f (view s) k)) eqn:Ew.
        { destruct (Hrefuse _ 412%N "ResourceWasModified"%string eq_refl) as (n' & st' & s' & E & Hu).
          { simpl. rewrite Eg, Ew. done. }
          eexists _, _, _, _. split; [exact E|]. exists (Refuse 412). split; [|done].
          apply exp_delete_stale. by eapply stale_b. }
        rewrite (Hwr _ eq_refl).
        match goal with |- context [responses schema i (rw_two_step F clk ?p _ _ _ _)] =>
          destruct (remove_runs y s p gone k Hr Es Ed) as (r & n' & st' & s' & E & Hd) end.
        { intros n fs mf Esh. simpl. rewrite Esh. rewrite Eg, Ew. done. }
        eexists _, _, _, _. split; [exact E|]. eexists. split; [|exact Hd].
        apply exp_delete. by eapply not_stale_b.
      + rewrite (Hwr _ eq_refl).
        match goal with |- context [responses schema i (rw_two_step F clk ?p _ _ _ _)] =>
          destruct (remove_runs y s p gone k Hr Es Ed) as (r & n' & st' & s' & E & Hd) end.
        { intros n fs mf Esh. simpl. rewrite Esh. rewrite Eg. done. }
        eexists _, _, _, _. split; [exact E|]. eexists. split; [|exact Hd].
        apply exp_delete. intros (o & ? & ? & Eg' & _). congruence.
    - destruct (Hans _ eq_refl) as [E Hu]. eexists _, _, _, _. split; [exact E|]. done.
  Qed.

  (** C67. A follower refuses every write. *)
  Theorem C67_followers_refuse_writes y s q gone :
    reachable F clk y → y_follower F y = Some s → q_verb q ≠ GET →
    ∃ r, serves q y s gone = Finished F _ [r] (y_pos F y) (y_stream F y) s ∧ r_code r = 405%N.
  Proof.
    intros Hr Es Hv. pose proof (reachable_ok F L clk y Hr) as (_ & _ & Hf).
    destruct (Hf s Es) as (_ & Em & _). unfold serve. rewrite Em. unfold data_handler.
    destruct (q_verb q); [done|..]; eexists; (split; [reflexivity|done]).
  Qed.

  (** A request to the master is one event of the histories of Storage transactions
      (or does not touch the storage), so histories include requests of any clients. *)
  Theorem C67_requests_are_events y s q gone l n' st' s' :
    y_master F y = Some s → serves q y s gone = Finished F _ l n' st' s' →
    System F st' (Some s') (y_follower F y) n' = System F (y_stream F y) (Some s) (y_follower F y) (y_pos F y) ∨
    ∃ ev, step F clk ev y = Some (System F st' (Some s') (y_follower F y) n').
  Proof.
    intros Es. unfold serve. destruct (data_handler schema i cfg dates (s_master F s) q) as [r|f1|f1].
    - intros [= <- <- <- <-]. by left.
    - intros E. right. exists (ROTwoStep F f1 (send_step schema i gone)). simpl. unfold on_master. rewrite Es.
      destruct (ro_two_step F clk f1 (send_step schema i gone) (y_pos F y) (y_stream F y) s) as [[? ?] ? ? ?|? ? ?| |]; simpl in E; simplify_eq. done.
    - intros E. right. exists (RWTwoStep F f1 (send_step schema i gone)). simpl. unfold on_master. rewrite Es.
      destruct (rw_two_step F clk f1 (send_step schema i gone) (y_pos F y) (y_stream F y) s) as [[? ?] ? ? ?|? ? ?| |]; simpl in E; simplify_eq. done.
  Qed.

  Lemma lm_is_reading y s k t : reachable F clk y → y_master F y = Some s ∨ y_follower F y = Some s →
    rlm f (view s) k = Some t → ∃ m, m < y_pos F y ∧ t = clk m.
  Proof.
    intros Hr Es El. pose proof (reachable_ok F L clk y Hr) as Hy.
    destruct (replica_prefix schema keys y s Hy Es) as (p & q & Elog & Is & Hv & _).
    rewrite (Hv i) in El. destruct Hy as (Hg & _). unfold good in Hg. rewrite Elog, (mutations_in_app F) in Hg.
    apply (svalid_all_app F L) in Hg as [Hg _].
    destruct (replay_touch schema keys _ _ i k (sinv_init F L) Hg) as [[_ E]|(e & He & E)].
    { unfold rebuilt in El. rewrite El, init_view in E. done. }
    unfold rebuilt in El. rewrite El in E. assert (t = sev_us schema e) as -> by congruence.
    destruct (reachable_stamped schema keys clk y Hr) as (l & _ & Hf & Et). rewrite Elog, (mutations_in_app F), map_app in Et.
    assert (In : sev_us schema e ∈ map clk l).
    { rewrite <- Et. apply elem_of_app. left. by apply elem_of_list_fmap_1. }
    apply elem_of_list_fmap in In as (m & -> & Hin). exists m. split; [|done]. eapply Forall_forall in Hf; [|exact Hin]. lia.
  Qed.

  (** a write that changed something, under a condition, changed what was not stale *)
  Lemma changed_not_stale y s q gone l n' st' s' uk since o :
    reachable F clk y → y_master F y = Some s → s_destructing F s = false →
    q_verb q = PUT ∨ q_verb q = PATCH ∨ q_verb q = DELETE → url_key f q = Some uk →
    since_of dates q = inr since →
    serves q y s gone = Finished F _ l n' st' s' → st' ≠ y_stream F y →
    rget f (view s) (c_parse_key f cfg uk) = Some o →
    ¬ stale (rget f (view s)) (rlm f (view s)) since (c_parse_key f cfg uk).
  Proof.
    intros Hr Es Ed Hv Ek Esi E Hst Eg.
    destruct (C67_writes y s q gone Hr Es Ed) as (r & n1 & st1 & s1 & E1 & H); [by destruct Hv as [->|[->| ->]]|].
    rewrite E in E1. simplify_eq. unfold understood in H.
    destruct Hv as [Hv|[Hv|Hv]]; rewrite Hv, Ek, Esi in H.
    - destruct (c_parse_entry f cfg (q_body q)) as [o1|]; [|by destruct H as (_ & _ & -> & _)].
      destruct H as (d & Hx & Hd). inversion Hx; subst; try (by destruct Hd as (_ & _ & -> & _)); [done|].
      intros (x & _ & _ & Ex & _). congruence.
    - destruct H as (d & Hx & Hd). inversion Hx; subst; try (by destruct Hd as (_ & _ & -> & _)); done.
    - destruct H as (d & Hx & Hd). inversion Hx; subst; try (by destruct Hd as (_ & _ & -> & _)); done.
  Qed.

  (** C67. No lost updates: a client reads a resource from any replica, and later (after
      any history: other requests, transactions, replication, restarts, a change of the
      master) writes it back with the time it got in [X-Current-If-Unmodified-Since];
      if the write changes anything, then the object it replaces or deletes is the one
      the client had read. *)
  Theorem C67_no_lost_update y y' evs s s' q q' gone gone' uk uk' o r h n1 st1 s1 l n2 st2 s2 :
    (∀ n, n < y_pos F y → (clk n < 2 ^ 63)%Z) →                              (* the clock readings so far are 64-bit numbers *)
    reachable F clk y → y_master F y = Some s ∨ y_follower F y = Some s → s_destructing F s = false →
    (* the read *)
    q_verb q = GET → url_key f q = Some uk → q_query q !! "export"%string = None →
    serves q y s gone = Finished F _ [r] n1 st1 s1 → r_body r = BodyRecord o →
    ("X-Current-Last-Modified"%string, h) ∈ r_headers r →
    (* anything *)
    run F clk evs y = Some y' → y_master F y' = Some s' → s_destructing F s' = false →
    (* the write *)
    q_verb q' = PUT ∨ q_verb q' = PATCH ∨ q_verb q' = DELETE →
    url_key f q' = Some uk' → c_parse_key f cfg uk' = c_parse_key f cfg uk →
    q_current_unmodified q' = Some h →
    serves q' y' s' gone' = Finished F _ l n2 st2 s2 → st2 ≠ y_stream F y' →
    ∀ o', rget f (view s') (c_parse_key f cfg uk) = Some o' → o' = o.
  Proof.
    intros Hmax Hr Hs Ed Ev Ek Ee E Hbody Hh Hrun Es' Ed' Hv' Ek' Ekk Hq' E' Hst o' Eg'.
    destruct (C67_get y s q uk gone Hr Hs Ed Ev Ek Ee) as (r1 & E1 & H). rewrite E in E1. assert (r1 = r) by congruence. subst r1. clear E1.
    set (k := c_parse_key f cfg uk) in *.
    destruct (rget f (view s) k) as [o1|] eqn:Eg.
    2:{ destruct H as (_ & Hn). rewrite Hn in Hh. by apply elem_of_nil in Hh. }
    destruct H as (_ & Hb & t & Et & Hd). rewrite Hbody in Hb. injection Hb as <-.
    assert (h = Dec.zdec t) as ->.
    { rewrite Hd in Hh. unfold dated in Hh. rewrite !elem_of_cons in Hh.
      destruct Hh as [?|[?|?%elem_of_nil]]; [by simplify_eq|by simplify_eq|done]. }
    destruct (lm_is_reading y s k t Hr Hs Et) as (m & Hm & Em).
    assert (Hread : read_i64 (Dec.zdec t) = t).
    { apply read_i64_zdec. pose proof (Hmax m Hm). pose proof (clk_pos m). lia. }
    assert (Hr' : reachable F clk y').
    { destruct Hr as (pos & evs0 & E0). exists pos, (evs0 ++ evs). clear -E0 Hrun.
      revert E0. generalize (system_init F pos). induction evs0 as [|ev l0 IH]; simpl; intros y0.
      - by intros [= ->].
      - destruct (step F clk ev y0); [apply IH|done]. }
    assert (Hns : ¬ stale (rget f (view s')) (rlm f (view s')) (Some t) k).
    { rewrite <- Ekk in *. eapply (changed_not_stale y' s' q' gone'); [done|done|done|done|done| |exact E'|done|exact Eg'].
      unfold since_of. rewrite Hq', Hread. rewrite decide_True; [done|]. pose proof (clk_pos m). lia. }
    destruct (resource_later schema keys clk clk_inc y y' evs s s' i k o t Hr Hs Hrun Es' Eg Et) as [[Eg1 _]|(t' & Et' & Hlt)].
    - congruence.
    - exfalso. apply Hns. exists o', t', t. done.
  Qed.

  (** C67, by the standard headers. When a date is read as the last microsecond of the
      second it was written for, writing back the [Last-Modified] time in
      [If-Unmodified-Since] protects from changes made in later seconds: the object
      replaced is the one the client had read, or one stored within the same second. *)
  Theorem C67_no_lost_update_by_date_partial y y' evs s s' q q' gone gone' uk uk' o r h n1 st1 s1 l n2 st2 s2 :
    (∀ n, n < y_pos F y → d_parse dates (d_format dates (clk n)) = Some (clk n / 1000000 * 1000000 + 999999)%Z) →
    reachable F clk y → y_master F y = Some s ∨ y_follower F y = Some s → s_destructing F s = false →
    q_verb q = GET → url_key f q = Some uk → q_query q !! "export"%string = None →
    serves q y s gone = Finished F _ [r] n1 st1 s1 → r_body r = BodyRecord o →
    ("Last-Modified"%string, h) ∈ r_headers r →
    run F clk evs y = Some y' → y_master F y' = Some s' → s_destructing F s' = false →
    q_verb q' = PUT ∨ q_verb q' = PATCH ∨ q_verb q' = DELETE →
    url_key f q' = Some uk' → c_parse_key f cfg uk' = c_parse_key f cfg uk →
    q_current_unmodified q' = None → q_unmodified q' = Some h →
    serves q' y' s' gone' = Finished F _ l n2 st2 s2 → st2 ≠ y_stream F y' →
    ∀ o', rget f (view s') (c_parse_key f cfg uk) = Some o' →
      o' = o ∨ ∃ t t', rlm f (view s) (c_parse_key f cfg uk) = Some t ∧
                       rlm f (view s') (c_parse_key f cfg uk) = Some t' ∧ (t < t')%Z ∧ (t / 1000000 = t' / 1000000)%Z.
  Proof.
    intros Hdates Hr Hs Ed Ev Ek Ee E Hbody Hh Hrun Es' Ed' Hv' Ek' Ekk Hq0 Hq' E' Hst o' Eg'.
    destruct (C67_get y s q uk gone Hr Hs Ed Ev Ek Ee) as (r1 & E1 & H). rewrite E in E1. assert (r1 = r) by congruence. subst r1. clear E1.
    set (k := c_parse_key f cfg uk) in *.
    destruct (rget f (view s) k) as [o1|] eqn:Eg.
    2:{ destruct H as (_ & Hn). rewrite Hn in Hh. by apply elem_of_nil in Hh. }
    destruct H as (_ & Hb & t & Et & Hd). rewrite Hbody in Hb. injection Hb as <-.
    assert (h = d_format dates t) as ->.
    { rewrite Hd in Hh. unfold dated in Hh. rewrite !elem_of_cons in Hh.
      destruct Hh as [?|[?|?%elem_of_nil]]; [by simplify_eq|by simplify_eq|done]. }
    destruct (lm_is_reading y s k t Hr Hs Et) as (m & Hm & Em).
    assert (Hr' : reachable F clk y').
    { destruct Hr as (pos & evs0 & E0). exists pos, (evs0 ++ evs). clear -E0 Hrun.
      revert E0. generalize (system_init F pos). induction evs0 as [|ev l0 IH]; simpl; intros y0.
      - by intros [= ->].
      - destruct (step F clk ev y0); [apply IH|done]. }
    assert (Hns : ¬ stale (rget f (view s')) (rlm f (view s')) (Some (t / 1000000 * 1000000 + 999999)%Z) k).
    { rewrite <- Ekk in *. eapply (changed_not_stale y' s' q' gone'); [done|done|done|done|done| |exact E'|done|exact Eg'].
      unfold since_of. by rewrite Hq0, Hq', Em, Hdates. }
    destruct (resource_later schema keys clk clk_inc y y' evs s s' i k o t Hr Hs Hrun Es' Eg Et) as [[Eg1 _]|(t' & Et' & Hlt)].
    - left. congruence.
    - right. exists t, t'. split_and!; [done|done|done|].
      assert (t' <= t / 1000000 * 1000000 + 999999)%Z.
      { destruct (Z_le_gt_dec t' (t / 1000000 * 1000000 + 999999)) as [?|Hgt]; [done|]. exfalso. apply Hns.
        eexists _, _, _. split_and!; [exact Eg'|exact Et'|done|lia]. }
      apply Z.div_unique with (r := (t' - 1000000 * (t / 1000000))%Z); [|lia].
      left. pose proof (Z.mul_div_le t 1000000). lia.
  Qed.

  (** C67. Exporting a field from a follower shard by shard gives every entry of the field
      exactly once. *)
  Definition exported_entries (v : f_obs (F i)) (nshards shard : N) : list (rkey f * robj f) :=
    filter (λ x, in_shard schema i cfg (Export false nshards shard) x.1 = true) (rlist f v).
  Theorem C67_shards_partition (v : f_obs (F i)) (nshards : nat) : 0 < nshards →
    concat (map (λ j, exported_entries v (N.of_nat nshards) (N.of_nat j)) (seq 0 nshards)) ≡ₚ rlist f v.
  Proof.
    intros Hn. unfold exported_entries. generalize (rlist f v) as l. intros l.
    induction l as [|x l IH].
    - induction (seq 0 nshards); done.
    - set (h := N.to_nat (c_hash f cfg x.1 mod N.of_nat nshards)%N).
      assert (Hh : h < nshards).
      { unfold h. pose proof (N.mod_lt (c_hash f cfg x.1) (N.of_nat nshards)). lia. }
      assert (Hin : ∀ j, j < nshards → in_shard schema i cfg (Export false (N.of_nat nshards) (N.of_nat j)) x.1 = true ↔ j = h).
      { intros j Hj. unfold in_shard. simpl. unfold h.
        pose proof (N.mod_lt (c_hash f cfg x.1) (N.of_nat nshards)) as Hm.
        destruct (decide (nshards = 1)) as [->|Hne].
        - simpl. split; [|done]. intros _. lia.
        - rewrite (proj2 (N.ltb_lt 1 (N.of_nat nshards))) by lia. simpl.
          rewrite negb_involutive, N.eqb_eq. lia. }
      assert (Hsplit : seq 0 nshards = seq 0 h ++ h :: seq (S h) (nshards - S h)).
      { replace nshards with (h + S (nshards - S h)) at 1 by lia. rewrite seq_app. done. }
      rewrite Hsplit in IH |- *. rewrite !map_app, !concat_app in IH |- *. simpl in IH |- *.
      assert (Hskip : ∀ js, Forall (λ j, j < nshards ∧ j ≠ h) js →
         map (λ j, filter (λ x0, in_shard schema i cfg (Export false (N.of_nat nshards) (N.of_nat j)) x0.1 = true) (x :: l)) js =
         map (λ j, filter (λ x0, in_shard schema i cfg (Export false (N.of_nat nshards) (N.of_nat j)) x0.1 = true) l) js).
      { induction 1 as [|j js [Hj Hne] _ IHj]; simpl; [done|]. rewrite IHj. f_equal.
        rewrite filter_cons_False; [done|]. intros Hc%Hin; done. }
      rewrite (Hskip (seq 0 h)), (Hskip (seq (S h) (nshards - S h))).
      2:{ apply Forall_forall. intros j Hj%elem_of_seq. lia. }
      2:{ apply Forall_forall. intros j Hj%elem_of_seq. lia. }
      rewrite filter_cons_True; [|by apply Hin]. simpl.
      etransitivity; [symmetry; apply Permutation_middle|]. constructor. exact IH.
  Qed.

  (** C67. GET without a key: all the entries. *)
  Theorem C67_get_all y s q gone :
    s_destructing F s = false → q_verb q = GET → url_key f q = None → q_query q !! "export"%string = None →
    serves q y s gone = Finished F _ [Response 200 (BodyEntries (rlist f (view s))) []] (y_pos F y) (y_stream F y) s.
  Proof.
    intros Ed Ev Ek Ee. unfold serve, data_handler. rewrite Ev, Ek. unfold export_params. rewrite Ee.
    unfold ro_two_step. rewrite Ed. simpl. unfold send_step. by destruct gone.
  Qed.

  (** C67. Exporting, end to end. A master refuses; a follower sends every entry whose key
      hashes into the shard asked for, all of them when the request names no shards. *)
  Theorem C67_export y s q gone format :
    s_destructing F s = false → q_verb q = GET → url_key f q = None → q_query q !! "export"%string = Some format →
    let number name := match q_query q !! name with Some t => Z.to_N (read_i64 t) | None => 0%N end in
    let nshards := number "nshards"%string in
    let shard := number "shard"%string in
    ∃ r, serves q y s gone = Finished F _ [r] (y_pos F y) (y_stream F y) s ∧
      if s_master F s then r_code r = 403%N
      else r_code r = 200%N ∧
        ∃ l, (∀ k o, (k, o) ∈ l ↔ (k, o) ∈ rlist f (view s) ∧ ((nshards ≤ 1)%N ∨ (c_hash f cfg k mod nshards = shard)%N)) ∧
             l `sublist_of` rlist f (view s) ∧
             r_body r = if bool_decide (format = [100; 101; 116; 97; 105; 108; 101; 100]%N) (* "detailed" *)
                        then BodyDetailed (map (λ x, (x, rlm f (view s) x.1)) l) else BodyEntries l.
  Proof.
    intros Ed Ev Ek Ee number nshards shard. unfold serve, data_handler. rewrite Ev, Ek. unfold export_params. rewrite Ee.
    unfold ro_two_step. rewrite Ed. simpl. eexists. split; [unfold send_step; by destruct gone|].
    destruct (s_master F s); [done|]. simpl. split; [done|]. eexists. split_and!; [| |reflexivity].
    - intros k o. rewrite elem_of_list_filter. unfold in_shard. simpl. fold number. fold nshards shard.
      rewrite negb_true_iff, andb_false_iff, N.ltb_ge, negb_false_iff, N.eqb_eq. tauto.
    - apply filter_is_sublist.
  Qed.
End Props.
