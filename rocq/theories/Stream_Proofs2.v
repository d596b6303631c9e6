From Verif Require Import Base Persister_Model Persister_Spec Persister_Proofs Stream_Model Stream_Spec Stream_Proofs.
From Coq Require Import Sorted.

Local Ltac conj := repeat match goal with |- _ /\ _ => split end.
Section P.
Context {E F : Type}.
Variable C : codec E.
Variable view : idxts -> E -> option F.
Variable b : N.
Notation sst := (sst E F).
Notation thread_step := (thread_step view b).
Notation sstep := (sstep C view b).
Notation srun := (srun C view b).
Notation sinv := (sinv view b).

(** The thread running alone, the subscriber always answering "go on". *)
Definition alone (k : nat) (s : sst) : option sst := srun s (repeat (LThread true) k).

Lemma srun_app s a c : srun s (a ++ c) = match srun s a with Some s' => srun s' c | None => None end.
Proof.
  revert s. induction a as [|l a IH]; intros s; [reflexivity|]. cbn. destruct (sstep s l); [apply IH|reflexivity].
Qed.

Definition reaches (s : sst) (P : sst -> Prop) : Prop := exists k s', alone k s = Some s' /\ P s'.

Lemma reaches_now s (P : sst -> Prop) : P s -> reaches s P.
Proof. intros H. exists 0, s. auto. Qed.
Lemma reaches_step s s1 (P : sst -> Prop) : thread_step true s = Some s1 -> reaches s1 P -> reaches s P.
Proof. intros H (k & s' & Hk & Hp). exists (S k), s'. split; [|exact Hp]. unfold alone in *. cbn. now rewrite H. Qed.
Lemma reaches_trans s (P Q : sst -> Prop) : reaches s P -> (forall s', P s' -> reaches s' Q) -> reaches s Q.
Proof.
  intros (k & s1 & H1 & Hp) H. destruct (H s1 Hp) as (k2 & s2 & H2 & Hq). exists (k + k2), s2. split; [|exact Hq].
  unfold alone in *. rewrite repeat_app, srun_app, H1. exact H2.
Qed.

(** Log only grows. *)
Definition grows (s s' : sst) : Prop := (exists x, ss_trace s' = ss_trace s ++ x) /\ ss_store s' = ss_store s /\ ss_term s' = ss_term s.
Lemma grows_refl s : grows s s.
Proof. split; [exists []; now rewrite app_nil_r|auto]. Qed.
Lemma grows_trans s1 s2 s3 : grows s1 s2 -> grows s2 s3 -> grows s1 s3.
Proof.
  intros ((x & Hx) & H1 & H1') ((y & Hy) & H2 & H2'). split; [exists (x ++ y); now rewrite Hy, Hx, app_assoc|split; congruence].
Qed.

Lemma grows_ext s s' x : ss_trace s' = ss_trace s ++ x -> ss_store s' = ss_store s -> ss_term s' = ss_term s -> grows s s'.
Proof. intros H H1 H2. split; [eauto|auto]. Qed.
Lemma grows_same s s' : ss_trace s' = ss_trace s -> ss_store s' = ss_store s -> ss_term s' = ss_term s -> grows s s'.
Proof. intros H H1 H2. apply (grows_ext _ _ []); [now rewrite app_nil_r|auto|auto]. Qed.

(** More invariants. *)
Definition fresh (s : sst) : Prop :=
  match ss_pc s with
  | PTop | PSnap | PWaiting =>
      (ss_head s <= mp_head (ss_store s))%Z /\
      forall j t e, at_ (ss_store s) j t e -> (ss_index s <= j)%N -> (ss_head s < t)%Z
  | _ => True
  end.
Definition told (s : sst) : Prop :=
  match ss_pc s with
  | PTop | PSnap | PWaiting | PHead _ _ =>
      ((b < ss_index s)%N -> In (ss_head s) (times (ss_trace s)) \/ exists e, at_ (ss_store s) (ss_index s - 1) (ss_head s) e) /\
      match ss_pc s with PHead size h => ((b < ss_index s)%N -> (ss_index s <= size)%N) | _ => True end
  | _ => True
  end.
Definition sentinv (s : sst) : Prop := ss_sent s = true -> exists r, In (EvTerminate, r) (ss_trace s).

Lemma fresh_init from_us m : (from_us - 1 <= mp_head m)%Z ->
  (forall j t e, at_ m j t e -> (b <= j)%N -> (from_us <= t)%Z) -> fresh (@s_init E F b from_us m).
Proof. intros H1 H2. split; [exact H1|]. cbn. intros j t e Hj Hb. pose proof (H2 _ _ _ Hj Hb). lia. Qed.

Lemma check_cases (s : sst) p : exists sent x,
  check_terminate s true p = {| ss_store := ss_store s; ss_term := ss_term s; ss_sent := sent; ss_head := ss_head s;
                                ss_index := ss_index s; ss_pc := p; ss_trace := ss_trace s ++ x |} /\
  (sent = ss_sent s /\ x = [] \/ sent = true /\ x = [(EvTerminate, true)]).
Proof.
  unfold check_terminate. destruct (negb (ss_sent s) && ss_term s).
  - do 2 eexists. split; [reflexivity|]. right. auto.
  - exists (ss_sent s), []. rewrite app_nil_r. split; [reflexivity|auto].
Qed.

Lemma check_stop (s : sst) p : exists s', check_terminate s false p = s' /\ (ss_pc s' = PStop \/ ss_pc s' = p /\ ss_head s' = ss_head s /\ ss_index s' = ss_index s) /\
   ss_store s' = ss_store s.
Proof.
  unfold check_terminate. destruct (negb (ss_sent s) && ss_term s); eexists; (split; [reflexivity|]); cbn; auto 6.
Qed.

Lemma fresh_step s l s' : sinv s -> fresh s -> sstep s l = Some s' -> fresh s'.
Proof.
  intros Hi Hf. pose proof (v_pc _ _ s Hi) as Hpc. destruct l as [o| |resp]; cbn.
  - intros [= <-]. unfold fresh in *. cbn [ss_pc ss_head ss_store ss_index].
    destruct (mp_step_grow C (ss_store s) o) as (x & Hx & Hh & _).
    destruct (ss_pc s); auto; destruct Hf as [A B]; (split; [lia|]); intros j t e Hj Hge;
      (destruct (at_step C _ _ _ _ _ Hj) as [Hj'|[_ Hj']]; [eauto|lia]).
  - intros [= <-]. exact Hf.
  - unfold Stream_Model.thread_step. unfold fresh in Hf.
    destruct (ss_pc s) as [| |cur size h lu ck|size h| | |] eqn:Hp; try discriminate.
    + intros [= <-]. destruct resp.
      * destruct (check_cases s PSnap) as (sent & x & -> & _). exact Hf.
      * destruct (check_stop s PSnap) as (z & -> & [Hz|(Hz & Hz1 & Hz2)] & Hz3); unfold fresh; rewrite Hz; [exact I|]. rewrite Hz1, Hz2, Hz3. exact Hf.
    + destruct (Z.ltb _ _); [|intros [= <-]; exact Hf].
      destruct (N.ltb _ _); [destruct (snd _) as [[i us]|]|]; intros [= <-]; exact I.
    + destruct (N.eqb cur size); [intros [= <-]; exact I|]. destruct ck; cbn [negb].
      * destruct (nth_error _ _) as [[t e]|]; [|intros [= <-]; exact I].
        destruct (mp_last _) as [last| |]; try (intros [= <-]; exact I).
        destruct (view _ _); [|destruct (N.ltb _ _)]; intros [= <-]; unfold fresh, call, set_pc; cbn; destruct resp; exact I.
      * intros [= <-]. destruct resp.
        -- destruct (check_cases s (PPass cur size h lu true)) as (sent & x & -> & _). exact I.
        -- destruct (check_stop s (PPass cur size h lu true)) as (z & -> & [Hz|(Hz & _)] & _); unfold fresh; rewrite Hz; exact I.
    + unfold pc_ok in Hpc. rewrite Hp in Hpc. destruct Hpc as (P1 & P2 & P3 & P4).
      destruct (_ && _); intros [= <-]; unfold fresh, call; cbn; [destruct resp|]; auto.
    + destruct (wait_done b s); [|discriminate]. intros [= <-]. exact Hf.
Qed.

Lemma sent_step s l s' : sentinv s -> sstep s l = Some s' -> sentinv s'.
Proof.
  intros Hf. destruct l as [o| |resp]; cbn.
  - intros [= <-]. exact Hf.
  - intros [= <-]. exact Hf.
  - assert (Hchk : forall p, sentinv (check_terminate s resp p)).
    { intros p. unfold check_terminate, sentinv in *. destruct (negb (ss_sent s) && ss_term s); cbn; [|exact Hf].
      intros _. exists resp. apply in_app_iff. right. now left. }
    assert (Hcall : forall z x q, ss_sent z = ss_sent s -> ss_trace z = ss_trace s -> sentinv (call z x resp q)).
    { intros z x q Hz1 Hz2. unfold sentinv, call in *. cbn. rewrite Hz1, Hz2. intros Hs. destruct (Hf Hs) as [r Hr].
      exists r. apply in_app_iff. now left. }
    unfold Stream_Model.thread_step. destruct (ss_pc s) as [| |cur size h lu ck|size h| | |] eqn:Hp; try discriminate.
    + intros [= <-]. apply Hchk.
    + destruct (Z.ltb _ _); [|intros [= <-]; exact Hf].
      destruct (N.ltb _ _); [destruct (snd _) as [[i us]|]|]; intros [= <-]; exact Hf.
    + destruct (N.eqb cur size); [intros [= <-]; exact Hf|]. destruct ck; cbn [negb].
      * destruct (nth_error _ _) as [[t e]|]; [|intros [= <-]; exact Hf].
        destruct (mp_last _) as [last| |]; try (intros [= <-]; exact Hf).
        destruct (view _ _); [|destruct (N.ltb _ _)]; intros [= <-]; try exact Hf; now apply Hcall.
      * intros [= <-]. apply Hchk.
    + destruct (_ && _); intros [= <-]; [now apply Hcall|exact Hf].
    + destruct (wait_done b s); [|discriminate]. intros [= <-]. exact Hf.
Qed.

Lemma times_in_app (x y : list (ev F * bool)) z : In z (times x) -> In z (times (x ++ y)).
Proof. intros H. rewrite times_app. apply in_app_iff. now left. Qed.

Lemma told_step s l s' : sinv s -> told s -> sstep s l = Some s' -> told s'.
Proof.
  intros Hi Hf. pose proof (v_pc _ _ s Hi) as Hpc. destruct l as [o| |resp]; cbn.
  - intros [= <-]. unfold told in *. cbn [ss_pc ss_head ss_store ss_index ss_trace].
    destruct (ss_pc s); auto; destruct Hf as [A B]; (split; [|auto]); intros Hb;
      (destruct (A Hb) as [|(e & He)]; [now left|right; exists e; now apply at_step_keep]).
  - intros [= <-]. exact Hf.
  - unfold Stream_Model.thread_step. unfold told in Hf.
    assert (Hchk : forall p, (match p with PSnap => True | PPass _ _ _ _ _ => True | _ => False end) -> (match ss_pc s with PTop => True | PPass _ _ _ _ _ => p <> PSnap | _ => False end) -> told (check_terminate s resp p)).
    { intros p Hp1 Hp2. unfold check_terminate, told, call, set_pc. destruct (negb (ss_sent s) && ss_term s); cbn [ss_pc ss_head ss_index ss_store ss_trace].
      - destruct resp; [|exact I]. destruct p; try contradiction; auto. destruct (ss_pc s); try contradiction.
        destruct Hf as [A _]. split; [|auto]. intros Hb. destruct (A Hb) as [Ht|He]; [|now right].
        left. now apply times_in_app.
      - destruct p; try contradiction; auto. destruct (ss_pc s); try contradiction. exact Hf. }
    destruct (ss_pc s) as [| |cur size h lu ck|size h| | |] eqn:Hp; try discriminate.
    + intros [= <-]. apply Hchk; exact I.
    + pose proof (v_idx _ _ s Hi) as Hidx.
      destruct (head_and_last_cases (ss_store s)) as [[Hl Hz]|(t & e & Hl & Hat & Hz)]; rewrite Hl; cbn [fst snd].
      * destruct (Z.ltb _ _); [|intros [= <-]; exact Hf]. destruct (N.ltb_spec (ss_index s) 0); [lia|].
        intros [= <-]. unfold told, set_pc; cbn [ss_pc ss_head ss_index ss_store ss_trace]. split; [apply Hf|lia].
      * destruct (Z.ltb _ _); [|intros [= <-]; exact Hf].
        replace (mp_size (ss_store s) - 1 + 1)%N with (mp_size (ss_store s)) by lia.
        destruct (N.ltb_spec (ss_index s) (mp_size (ss_store s))); intros [= <-]; [exact I|].
        unfold told, set_pc; cbn [ss_pc ss_head ss_index ss_store ss_trace]. split; [apply Hf|lia].
    + unfold pc_ok in Hpc. rewrite Hp in Hpc. destruct Hpc as (P1 & P2 & P3 & (el & P4) & P5 & P6 & P7 & P8).
      destruct (N.eqb cur size).
      * intros [= <-]. unfold told; cbn [ss_pc ss_head ss_index ss_store ss_trace]. split; [|lia]. intros _. right. eauto.
      * destruct ck; cbn [negb].
        -- destruct (nth_error _ _) as [[t e]|]; [|intros [= <-]; exact I].
           destruct (mp_last _) as [last| |]; try (intros [= <-]; exact I).
           destruct (view _ _); [|destruct (N.ltb _ _)]; intros [= <-]; unfold told, call, set_pc; cbn; destruct resp; exact I.
        -- intros [= <-]. apply Hchk; [exact I|discriminate].
    + destruct Hf as [A B]. unfold pc_ok in Hpc. rewrite Hp in Hpc. destruct Hpc as (P1 & P2 & P3 & P4).
      destruct (N.leb_spec b size), (Z.ltb_spec (ss_head s) h); cbn [andb]; intros [= <-]; unfold told, call;
        cbn [ss_pc ss_head ss_index ss_store ss_trace].
      * destruct resp; [|exact I]. split; [|auto]. intros _. left. rewrite times_app. apply in_app_iff. right. now left.
      * assert (h = ss_head s) as -> by lia. split; [exact A|auto].
      * split; [|auto]. intros Hb. specialize (B Hb). lia.
      * split; [|auto]. intros Hb. specialize (B Hb). lia.
    + destruct (wait_done b s); [|discriminate]. intros [= <-]. exact Hf.
Qed.

Record sinv2 (s : sst) : Prop := { w_inv : sinv s; w_fresh : fresh s; w_told : told s; w_sent : sentinv s }.

Lemma sinv2_init from_us m : mp_inv m -> (from_us - 1 <= mp_head m)%Z ->
  (forall j t e, at_ m j t e -> (b <= j)%N -> (from_us <= t)%Z) -> sinv2 (s_init b from_us m).
Proof.
  intros H1 H2 H3. split.
  - now apply sinv_init.
  - now apply fresh_init.
  - split; [|exact I]. cbn. lia.
  - intros Hf. discriminate.
Qed.

Lemma sinv2_step s l s' : sinv2 s -> sstep s l = Some s' -> sinv2 s'.
Proof.
  intros [A B D G] H. split.
  - eapply sinv_step; eauto.
  - eapply fresh_step; eauto.
  - eapply told_step; eauto.
  - eapply sent_step; eauto.
Qed.

Lemma sinv2_run ls : forall s s', sinv2 s -> srun s ls = Some s' -> sinv2 s'.
Proof.
  induction ls as [|l ls IH]; intros s s' H Hr; cbn in Hr; [now injection Hr as <-|].
  destruct (sstep s l) as [s1|] eqn:Hs; [|discriminate]. apply (IH s1); [|exact Hr]. eapply sinv2_step; eauto.
Qed.

(** Progress. *)
Lemma pass_reaches n : forall s cur size h lu ck,
  sinv2 s -> ss_pc s = PPass cur size h lu ck -> N.to_nat (size - cur) = n ->
  reaches s (fun s' => sinv2 s' /\ ss_pc s' = PHead size h /\ ss_index s' = size /\ ss_head s' = lu /\ grows s s').
Proof.
  induction n as [|n IH]; intros s cur size h lu ck H Hp Hn.
  - pose proof (v_pc _ _ s (w_inv s H)) as Hpc. unfold pc_ok in Hpc. rewrite Hp in Hpc.
    assert (cur = size) as -> by lia.
    eapply reaches_step.
    { unfold Stream_Model.thread_step. rewrite Hp, N.eqb_refl. reflexivity. }
    apply reaches_now. conj; auto.
    + eapply (sinv2_step s (LThread true)); [exact H|]. cbn. unfold Stream_Model.thread_step. rewrite Hp, N.eqb_refl. reflexivity.
    + now apply grows_same.
  - assert (Hck : forall s0, sinv2 s0 -> ss_pc s0 = PPass cur size h lu true ->
       reaches s0 (fun s' => sinv2 s' /\ ss_pc s' = PHead size h /\ ss_index s' = size /\ ss_head s' = lu /\ grows s0 s')).
    { intros s0 H0 Hp0. pose proof (v_pc _ _ s0 (w_inv s0 H0)) as Hpc. unfold pc_ok in Hpc. rewrite Hp0 in Hpc.
      destruct Hpc as (P1 & P2 & _).
      destruct (at_ex (ss_store s0) cur) as (t & e & Hat); [lia|].
      destruct (last_ok _ _ _ _ Hat) as (t' & e' & Hlast & Hat').
      assert (Hstep : exists s1, thread_step true s0 = Some s1 /\ ss_pc s1 = PPass (cur + 1) size h lu false /\ grows s0 s1).
      { unfold Stream_Model.thread_step. rewrite Hp0. destruct (N.eqb_spec cur size); [lia|]. cbn [negb].
        unfold at_ in Hat. rewrite Hat, Hlast.
        destruct (view (cur, t) e); [|destruct (N.ltb _ _)]; eexists; (split; [reflexivity|]); cbn; (split; [reflexivity|]);
          solve [now apply grows_same|eapply grows_ext; reflexivity]. }
      destruct Hstep as (s1 & Hs1 & Hp1 & Hg1).
      eapply reaches_step; [exact Hs1|].
      assert (H1 : sinv2 s1) by (eapply (sinv2_step s0 (LThread true)); eauto).
      eapply reaches_trans; [apply (IH s1 (cur + 1)%N size h lu false H1 Hp1); lia|].
      intros s2 (A & B & D & G & K). apply reaches_now. conj; auto; eapply grows_trans; eauto. }
    destruct ck; [now apply Hck|].
    destruct (check_cases s (PPass cur size h lu true)) as (sent & x & Hc & _).
    assert (Hs1 : thread_step true s = Some (check_terminate s true (PPass cur size h lu true))).
    { unfold Stream_Model.thread_step. rewrite Hp. destruct (N.eqb_spec cur size); [lia|]. reflexivity. }
    eapply reaches_step; [exact Hs1|].
    assert (H1 : sinv2 (check_terminate s true (PPass cur size h lu true))) by (eapply (sinv2_step s (LThread true)); eauto).
    eapply reaches_trans; [apply Hck; [exact H1|rewrite Hc; reflexivity]|].
    intros s2 (A & B & D & G & K). apply reaches_now. conj; auto. eapply grows_trans; [|exact K]. rewrite Hc. now apply (grows_ext _ _ x).
Qed.

Lemma head_reaches s size h : sinv2 s -> ss_pc s = PHead size h ->
  reaches s (fun s' => sinv2 s' /\ ss_pc s' = PTop /\ ss_index s' = ss_index s /\ ss_head s' = h /\ grows s s' /\
     ((b <= size)%N -> (ss_head s < h)%Z -> In h (times (ss_trace s')))).
Proof.
  intros H Hp.
  assert (Hstep : exists s1, thread_step true s = Some s1 /\ ss_pc s1 = PTop /\ ss_index s1 = ss_index s /\ ss_head s1 = h /\ grows s s1 /\
     ((b <= size)%N -> (ss_head s < h)%Z -> In h (times (ss_trace s1)))).
  { unfold Stream_Model.thread_step. rewrite Hp. destruct (N.leb_spec b size), (Z.ltb_spec (ss_head s) h); cbn [andb]; eexists; (split; [reflexivity|]);
      (split; [reflexivity|]); (split; [reflexivity|]); (split; [reflexivity|]);
      (split; [solve [now apply grows_same|eapply grows_ext; reflexivity]|]); intros; try lia.
    cbn [call ss_trace]. rewrite times_app. apply in_app_iff. right. now left. }
  destruct Hstep as (s1 & Hs1 & Hr). eapply reaches_step; [exact Hs1|]. apply reaches_now. split; [|exact Hr].
  eapply (sinv2_step s (LThread true)); eauto.
Qed.

(** From anywhere the thread comes back to the top of its loop, unless it is blocked. *)
Lemma top_reaches s : sinv2 s -> running s ->
  (ss_pc s = PWaiting -> wait_done b s = true) ->
  (ss_pc s = PSnap -> wait_done b s = true) ->
  reaches s (fun s' => sinv2 s' /\ ss_pc s' = PTop /\ grows s s' /\ (ss_index s <= ss_index s')%N).
Proof.
  intros H Hr Hw Hw2. destruct (ss_pc s) as [| |cur size h lu ck|size h| | |] eqn:Hp; try (unfold running in Hr; rewrite Hp in Hr; contradiction).
  - apply reaches_now. conj; auto; try apply grows_refl. lia.
  - (* PSnap *)
    pose proof (head_and_last_cases (ss_store s)) as Hcases.
    assert (Hgo : (ss_head s < mp_head (ss_store s))%Z \/ thread_step true s = Some (set_pc s PWaiting)).
    { unfold Stream_Model.thread_step. rewrite Hp.
      destruct Hcases as [[Hl Hz]|(t & e & Hl & Hat & Hz)]; rewrite Hl; cbn [fst snd];
        destruct (Z.ltb_spec (ss_head s) (mp_head (ss_store s))); auto. }
    destruct Hgo as [Hlt|Hwt].
    + assert (Hst : exists q, thread_step true s = Some (set_pc s q) /\
        ((exists size h lu, q = PPass (ss_index s) size h lu false) \/ exists size h, q = PHead size h)).
      { unfold Stream_Model.thread_step. rewrite Hp.
        destruct Hcases as [[Hl Hz]|(t & e & Hl & Hat & Hz)]; rewrite Hl; cbn [fst snd];
          destruct (Z.ltb_spec (ss_head s) (mp_head (ss_store s))); try lia.
        - destruct (N.ltb_spec (ss_index s) 0); [lia|]. eexists. split; [reflexivity|]. right. eauto.
        - destruct (N.ltb_spec (ss_index s) (mp_size (ss_store s) - 1 + 1)); eexists; (split; [reflexivity|]); [left|right]; eauto. }
      destruct Hst as (q & Hst & Hq). eapply reaches_step; [exact Hst|].
      assert (H1 : sinv2 (set_pc s q)) by (eapply (sinv2_step s (LThread true)); eauto).
      assert (Hg : grows s (set_pc s q)) by (now apply grows_same).
      destruct Hq as [(size & h & lu & ->)|(size & h & ->)].
      * pose proof (v_pc _ _ _ (w_inv _ H1)) as Hpc. cbn in Hpc.
        eapply reaches_trans; [eapply pass_reaches; [exact H1|reflexivity|reflexivity]|].
        intros s2 (A & B & D & G & K). eapply reaches_trans; [eapply head_reaches; eauto|].
        intros s3 (A3 & B3 & D3 & _ & K3 & _). apply reaches_now. split; [exact A3|]. split; [exact B3|]. split; [|lia].
        eapply grows_trans; [exact Hg|]. eapply grows_trans; eauto.
      * eapply reaches_trans; [eapply head_reaches; [exact H1|reflexivity]|].
        intros s3 (A3 & B3 & D3 & _ & K3 & _). apply reaches_now. split; [exact A3|]. split; [exact B3|]. split; [|cbn in D3; lia].
        eapply grows_trans; [exact Hg|exact K3].
    + eapply reaches_step; [exact Hwt|]. eapply reaches_step.
      { unfold Stream_Model.thread_step. cbn [set_pc ss_pc]. replace (wait_done b (set_pc s PWaiting)) with (wait_done b s) by reflexivity.
        rewrite (Hw2 eq_refl). reflexivity. }
      apply reaches_now. split; [|split; [reflexivity|split; [now apply grows_same|cbn; lia]]].
      eapply (sinv2_step (set_pc s PWaiting) (LThread true)); [eapply (sinv2_step s (LThread true)); eauto|].
      cbn. unfold Stream_Model.thread_step. cbn [set_pc ss_pc]. replace (wait_done b (set_pc s PWaiting)) with (wait_done b s) by reflexivity.
      rewrite (Hw2 eq_refl). reflexivity.
  - pose proof (v_pc _ _ _ (w_inv _ H)) as Hpc. unfold pc_ok in Hpc. rewrite Hp in Hpc.
    eapply reaches_trans; [eapply pass_reaches; [exact H|exact Hp|reflexivity]|].
    intros s2 (A & B & D & G & K). eapply reaches_trans; [eapply head_reaches; eauto|].
    intros s3 (A3 & B3 & D3 & _ & K3 & _). apply reaches_now. split; [exact A3|]. split; [exact B3|]. split; [|lia].
    eapply grows_trans; eauto.
  - eapply reaches_trans; [eapply head_reaches; eauto|].
    intros s3 (A3 & B3 & D3 & _ & K3 & _). apply reaches_now. split; [exact A3|]. split; [exact B3|]. split; [exact K3|lia].
  - assert (Hs1 : thread_step true s = Some (set_pc s PTop)).
    { unfold Stream_Model.thread_step. rewrite Hp, (Hw eq_refl). reflexivity. }
    eapply reaches_step; [exact Hs1|]. apply reaches_now.
    split; [eapply (sinv2_step s (LThread true)); eauto|]. split; [reflexivity|]. split; [|cbn; lia].
    now apply grows_same.
Qed.

(** From the top of the loop, with something new in the stream, one full round. *)
Lemma round s : sinv2 s -> ss_pc s = PTop -> (ss_head s < mp_head (ss_store s))%Z ->
  reaches s (fun s' => sinv2 s' /\ ss_pc s' = PTop /\ grows s s' /\ (mp_size (ss_store s) <= ss_index s')%N /\ (ss_index s <= ss_index s')%N /\
     ss_head s' = mp_head (ss_store s)).
Proof.
  intros H Hp Hlt. pose proof (v_idx _ _ s (w_inv s H)) as Hidx.
  destruct (check_cases s PSnap) as (sent & x & Hc & _).
  assert (Hs1 : thread_step true s = Some (check_terminate s true PSnap)).
  { unfold Stream_Model.thread_step. now rewrite Hp. }
  assert (H1 : sinv2 (check_terminate s true PSnap)) by (eapply (sinv2_step s (LThread true)); eauto).
  eapply reaches_step; [exact Hs1|]. rewrite Hc in *.
  set (s1 := {| ss_store := ss_store s |}) in *.
  assert (Hg1 : grows s s1) by (apply (grows_ext _ _ x); reflexivity).
  assert (Hst : exists q, thread_step true s1 = Some (set_pc s1 q) /\
        ((exists lu, q = PPass (ss_index s) (mp_size (ss_store s)) (mp_head (ss_store s)) lu false) \/
         q = PHead (mp_size (ss_store s)) (mp_head (ss_store s)) /\ (mp_size (ss_store s) <= ss_index s)%N)).
  { unfold Stream_Model.thread_step. cbn [s1 ss_pc ss_store ss_head ss_index].
    destruct (head_and_last_cases (ss_store s)) as [[Hl Hz]|(t & e & Hl & Hat & Hz)]; rewrite Hl; cbn [fst snd];
      destruct (Z.ltb_spec (ss_head s) (mp_head (ss_store s))); try lia.
    - destruct (N.ltb_spec (ss_index s) 0); [lia|]. eexists. split; [reflexivity|]. right. rewrite Hz. split; [reflexivity|lia].
    - replace (mp_size (ss_store s) - 1 + 1)%N with (mp_size (ss_store s)) by lia.
      destruct (N.ltb_spec (ss_index s) (mp_size (ss_store s))); eexists; (split; [reflexivity|]); [left|right]; eauto. }
  destruct Hst as (q & Hst & Hq). eapply reaches_step; [exact Hst|].
  assert (H2 : sinv2 (set_pc s1 q)) by (eapply (sinv2_step s1 (LThread true)); eauto).
  assert (Hg2 : grows s (set_pc s1 q)) by (apply (grows_ext _ _ x); reflexivity).
  destruct Hq as [(lu & ->)|[-> Hge]].
  - pose proof (v_pc _ _ _ (w_inv _ H2)) as Hpc. cbn in Hpc.
    eapply reaches_trans; [eapply pass_reaches; [exact H2|reflexivity|reflexivity]|].
    intros s2 (A & B & D & G & K). eapply reaches_trans; [eapply head_reaches; eauto|].
    intros s3 (A3 & B3 & D3 & E3 & K3 & _). apply reaches_now. split; [exact A3|]. split; [exact B3|].
    split; [eapply grows_trans; [exact Hg2|]; eapply grows_trans; eauto|]. split; [lia|]. split; [lia|exact E3].
  - eapply reaches_trans; [eapply head_reaches; [exact H2|reflexivity]|].
    intros s3 (A3 & B3 & D3 & E3 & K3 & _). apply reaches_now. split; [exact A3|]. split; [exact B3|].
    split; [eapply grows_trans; [exact Hg2|exact K3]|]. cbn in D3. split; [lia|]. split; [lia|exact E3].
Qed.

Lemma entry_pos s j t e : sinv2 s -> running s -> (b <= j)%N -> at_ (ss_store s) j t e ->
  reaches s (fun s' => sinv2 s' /\ grows s s' /\ running s' /\ (j < pos s')%N).
Proof.
  intros H Hr Hb Hat. pose proof (at_size _ _ _ _ Hat) as Hsz.
  assert (Htop : forall s' : sst, ss_pc s' = PTop -> running s' /\ pos s' = ss_index s')
    by (intros s' Hp'; unfold running, pos; rewrite Hp'; auto).
  destruct (N.lt_ge_cases j (pos s)) as [Hold|Hnew].
  - apply reaches_now. split; [exact H|]. split; [apply grows_refl|]. split; [exact Hr|exact Hold].
  - assert (Hidx : (ss_index s <= j)%N).
    { unfold pos in Hnew. pose proof (v_pc _ _ _ (w_inv _ H)) as Hpc. unfold pc_ok in Hpc. destruct (ss_pc s); try lia. }
    assert (Hw : wait_done b s = true).
    { unfold wait_done. destruct (N.ltb_spec (ss_index s) (mp_size (ss_store s))); [|lia]. now rewrite orb_true_r. }
    eapply reaches_trans; [apply (top_reaches s H Hr); auto|].
    intros s1 (A & B & D & G). pose proof D as (Dt & Ds & _).
    destruct (N.lt_ge_cases j (ss_index s1)) as [Hd|Hd].
    + apply reaches_now. split; [exact A|]. split; [exact D|]. destruct (Htop s1 B). split; [auto|lia].
    + pose proof (w_fresh _ A) as Hfr. unfold fresh in Hfr. rewrite B in Hfr. destruct Hfr as [_ Hfr].
      rewrite Ds in Hfr. pose proof (Hfr _ _ _ Hat Hd) as Hlt.
      pose proof (at_head _ _ _ _ (v_mp _ _ _ (w_inv _ H)) Hat) as Hh.
      eapply reaches_trans; [apply (round s1 A B); rewrite Ds; lia|].
      intros s2 (A2 & B2 & D2 & G2 & K2 & _). rewrite Ds in G2. apply reaches_now. split; [exact A2|].
      split; [eapply grows_trans; eauto|]. destruct (Htop s2 B2). split; [auto|lia].
Qed.

Lemma entry_reaches s j t e : sinv2 s -> running s -> (b <= j)%N -> at_ (ss_store s) j t e ->
  reaches s (fun s' => sinv2 s' /\ grows s s' /\ forall f, view (j, t) e = Some f -> In ((j, t), f) (delivered (ss_trace s'))).
Proof.
  intros H Hr Hb Hat. eapply reaches_trans; [eapply entry_pos; eauto|].
  intros s' (A & D & Hr' & Hp). apply reaches_now. split; [exact A|]. split; [exact D|].
  intros f Hf. destruct (v_del _ _ _ (w_inv _ A)) as (n & Hn & _ & Hx). destruct D as (_ & Ds & _).
  rewrite Hn, Ds. eapply due_in; eauto. rewrite (Hx Hr'). lia.
Qed.

Lemma head_told s : sinv2 s -> running s -> (b < pos s)%N ->
  (forall j t e, at_ (ss_store s) j t e -> (t < mp_head (ss_store s))%Z) ->
  reaches s (fun s' => sinv2 s' /\ grows s s' /\ In (mp_head (ss_store s)) (times (ss_trace s'))).
Proof.
  intros H Hr Hb Hlast.
  assert (Hdone : forall s', sinv2 s' -> ss_store s' = ss_store s -> ss_pc s' = PTop -> (b < ss_index s')%N ->
            ss_head s' = mp_head (ss_store s) -> In (mp_head (ss_store s)) (times (ss_trace s'))).
  { intros s' H' Hst Hp' Hi Hh. pose proof (w_told _ H') as Ht. unfold told in Ht. rewrite Hp' in Ht.
    destruct (proj1 Ht Hi) as [Hin|(e & He)]; [now rewrite <- Hh|]. rewrite Hst in He. apply Hlast in He. lia. }
  (* bring the thread to the top of the loop, past begin *)
  assert (Htop : ss_pc s = PWaiting /\ wait_done b s = false \/ ss_pc s = PSnap /\ wait_done b s = false \/
     reaches s (fun s' => sinv2 s' /\ ss_pc s' = PTop /\ grows s s' /\ (b < ss_index s')%N)).
  { destruct (ss_pc s) as [| |cur size h lu ck|size h| | |] eqn:Hp; try (unfold running in Hr; rewrite Hp in Hr; contradiction);
      unfold pos in Hb; rewrite Hp in Hb.
    - right; right. apply reaches_now. conj; auto; apply grows_refl.
    - destruct (wait_done b s) eqn:Hw; [right; right|auto].
      eapply reaches_trans; [apply (top_reaches s H Hr); auto|].
      intros s1 (A & B & D & G). apply reaches_now. split; [exact A|]. split; [exact B|]. split; [exact D|lia].
    - right; right. pose proof (v_pc _ _ _ (w_inv _ H)) as Hpc. unfold pc_ok in Hpc. rewrite Hp in Hpc.
      eapply reaches_trans; [eapply pass_reaches; [exact H|exact Hp|reflexivity]|].
      intros s2 (A & B & D & G & K). eapply reaches_trans; [eapply head_reaches; eauto|].
      intros s3 (A3 & B3 & D3 & _ & K3 & _). apply reaches_now. split; [exact A3|]. split; [exact B3|]. split; [eapply grows_trans; eauto|lia].
    - right; right. eapply reaches_trans; [eapply head_reaches; eauto|].
      intros s3 (A3 & B3 & D3 & _ & K3 & _). apply reaches_now. split; [exact A3|]. split; [exact B3|]. split; [exact K3|lia].
    - destruct (wait_done b s) eqn:Hw; [right; right|auto].
      eapply reaches_trans; [apply (top_reaches s H Hr); auto|].
      intros s1 (A & B & D & G). apply reaches_now. split; [exact A|]. split; [exact B|]. split; [exact D|lia]. }
  assert (Hblocked : wait_done b s = false -> (b < ss_index s)%N -> (ss_pc s = PWaiting \/ ss_pc s = PSnap) ->
             reaches s (fun s' => sinv2 s' /\ grows s s' /\ In (mp_head (ss_store s)) (times (ss_trace s')))).
  { intros Hw Hi Hpp. unfold wait_done in Hw. apply orb_false_iff in Hw as [Hw1 Hw2].
    destruct (N.ltb_spec b (ss_index s)); [|lia]. cbn [andb] in Hw2.
    destruct (Z.ltb_spec (ss_head s) (mp_head (ss_store s))) as [|Hge]; [discriminate|].
    pose proof (w_fresh _ H) as Hf. unfold fresh in Hf.
    pose proof (w_told _ H) as Ht. unfold told in Ht.
    assert (Hh : ss_head s = mp_head (ss_store s)) by (destruct Hpp as [Hpp|Hpp]; rewrite Hpp in Hf; lia).
    apply reaches_now. split; [exact H|]. split; [apply grows_refl|].
    destruct Hpp as [Hpp|Hpp]; rewrite Hpp in Ht; (destruct (proj1 Ht Hi) as [Hin|(e & He)]; [now rewrite <- Hh|]; apply Hlast in He; lia). }
  destruct Htop as [[Hp Hw]|[[Hp Hw]|Htop]].
  - apply Hblocked; auto. unfold pos in Hb. now rewrite Hp in Hb.
  - apply Hblocked; auto. unfold pos in Hb. now rewrite Hp in Hb.
  - eapply reaches_trans; [exact Htop|]. intros s1 (A & B & D & G). pose proof D as (_ & Ds & _).
    pose proof (w_fresh _ A) as Hf. unfold fresh in Hf. rewrite B in Hf. destruct Hf as [Hle _]. rewrite Ds in Hle.
    destruct (Z.eq_dec (ss_head s1) (mp_head (ss_store s))) as [Heq|Hne].
    + apply reaches_now. split; [exact A|]. split; [exact D|]. apply Hdone; auto.
    + eapply reaches_trans; [apply (round s1 A B); rewrite Ds; lia|].
      intros s2 (A2 & B2 & D2 & _ & K2 & E2). rewrite Ds in E2. apply reaches_now. split; [exact A2|]. pose proof D2 as (_ & Ds2 & _).
      split; [eapply grows_trans; eauto|]. apply Hdone; auto; [congruence|lia].
Qed.

Lemma terminate_reaches s : sinv2 s -> running s -> ss_term s = true ->
  reaches s (fun s' => sinv2 s' /\ grows s s' /\ exists r, In (EvTerminate, r) (ss_trace s')).
Proof.
  intros H Hr Ht.
  assert (Hw : wait_done b s = true) by (unfold wait_done; now rewrite Ht).
  eapply reaches_trans; [apply (top_reaches s H Hr); auto|]. intros s1 (A & B & D & _).
  pose proof D as (_ & _ & Dt). rewrite Ht in Dt.
  assert (Hs1 : thread_step true s1 = Some (check_terminate s1 true PSnap)).
  { unfold Stream_Model.thread_step. now rewrite B. }
  assert (H1 : sinv2 (check_terminate s1 true PSnap)) by (eapply (sinv2_step s1 (LThread true)); eauto).
  eapply reaches_step; [exact Hs1|]. apply reaches_now. split; [exact H1|].
  destruct (check_cases s1 PSnap) as (sent & x & Hc & _). split.
  - rewrite Hc. eapply grows_trans; [exact D|]. apply (grows_ext _ _ x); reflexivity.
  - unfold check_terminate. rewrite Dt. destruct (ss_sent s1) eqn:Hs; cbn.
    + destruct (w_sent _ A Hs) as [r Hin]. eauto.
    + exists true. apply in_app_iff. right. now left.
Qed.

(** As [head_told], in terms of the stream: it has an entry the subscription covers. *)
Lemma head_told' s : sinv2 s -> running s -> (b < mp_size (ss_store s))%N ->
  (forall j t e, at_ (ss_store s) j t e -> (t < mp_head (ss_store s))%Z) ->
  reaches s (fun s' => sinv2 s' /\ grows s s' /\ In (mp_head (ss_store s)) (times (ss_trace s'))).
Proof.
  intros H Hr Hb Hl. destruct (at_ex _ _ Hb) as (t & e & Hat).
  eapply reaches_trans; [apply (entry_pos s b t e H Hr); [lia|exact Hat]|].
  intros s1 (A & D & Hr1 & Hp1). pose proof D as (_ & Ds & _).
  eapply reaches_trans; [apply (head_told s1 A Hr1 Hp1); rewrite Ds; exact Hl|].
  intros s2 (A2 & D2 & Hin). rewrite Ds in Hin. apply reaches_now. split; [exact A2|]. split; [eapply grows_trans; eauto|exact Hin].
Qed.

(** A blocked thread reaches only its own state. *)
Lemma blocked_reaches s (P : sst -> Prop) : thread_step true s = None -> reaches s P -> P s.
Proof.
  intros H (k & s' & Hk & Hp). destruct k as [|k]; [now injection Hk as <-|].
  unfold alone in Hk. cbn in Hk. now rewrite H in Hk.
Qed.

(** The stream's contents are those of a persister given the publishers' calls. *)
Notation published := (@calls E).
Lemma thread_store r s s' : thread_step r s = Some s' -> ss_store s' = ss_store s.
Proof.
  unfold Stream_Model.thread_step. destruct (ss_pc s) as [| |cur size h lu ck|size h| | |]; try discriminate.
  - intros [= <-]. unfold check_terminate. destruct (_ && _); reflexivity.
  - destruct (Z.ltb _ _); [|intros [= <-]; reflexivity].
    destruct (N.ltb _ _); [destruct (snd _) as [[i us]|]|]; intros [= <-]; reflexivity.
  - destruct (N.eqb _ _); [intros [= <-]; reflexivity|]. destruct ck; cbn [negb].
    + destruct (nth_error _ _) as [[t e]|]; [|intros [= <-]; reflexivity].
      destruct (mp_last _); try (intros [= <-]; reflexivity).
      destruct (view _ _); [|destruct (N.ltb _ _)]; intros [= <-]; reflexivity.
    + intros [= <-]. unfold check_terminate. destruct (_ && _); reflexivity.
  - destruct (_ && _); intros [= <-]; reflexivity.
  - destruct (wait_done _ _); [|discriminate]. intros [= <-]. reflexivity.
Qed.
Lemma mp_run_app m a c : fst (mp_run C m (a ++ c)) = fst (mp_run C (fst (mp_run C m a)) c).
Proof.
  revert m. induction a as [|o a IH]; intros m; [reflexivity|]. cbn.
  apply IH.
Qed.
Lemma srun_store ls : forall s s', srun s ls = Some s' -> ss_store s' = fst (mp_run C (ss_store s) (published ls)).
Proof.
  induction ls as [|l ls IH]; intros s s' H; cbn in H; [now injection H as <-|].
  destruct (sstep s l) as [s1|] eqn:Hs; [|discriminate]. apply IH in H. destruct l as [o| |r]; cbn in Hs.
  - injection Hs as <-. cbn [ss_store] in H. rewrite H. change (published (LPublisher o :: ls)) with ([o] ++ published ls).
    now rewrite mp_run_app.
  - injection Hs as <-. exact H.
  - apply thread_store in Hs. rewrite Hs in H. exact H.
Qed.

Lemma thread_term r s s' : thread_step r s = Some s' -> ss_term s' = ss_term s.
Proof.
  unfold Stream_Model.thread_step. destruct (ss_pc s) as [| |cur size h lu ck|size h| | |]; try discriminate.
  - intros [= <-]. unfold check_terminate. destruct (_ && _); reflexivity.
  - destruct (Z.ltb _ _); [|intros [= <-]; reflexivity].
    destruct (N.ltb _ _); [destruct (snd _) as [[i us]|]|]; intros [= <-]; reflexivity.
  - destruct (N.eqb _ _); [intros [= <-]; reflexivity|]. destruct ck; cbn [negb].
    + destruct (nth_error _ _) as [[t e]|]; [|intros [= <-]; reflexivity].
      destruct (mp_last _); try (intros [= <-]; reflexivity).
      destruct (view _ _); [|destruct (N.ltb _ _)]; intros [= <-]; reflexivity.
    + intros [= <-]. unfold check_terminate. destruct (_ && _); reflexivity.
  - destruct (_ && _); intros [= <-]; reflexivity.
  - destruct (wait_done _ _); [|discriminate]. intros [= <-]. reflexivity.
Qed.
Lemma signal_run ls : forall s s', srun s ls = Some s' -> ss_term s = true \/ In LSignal ls -> ss_term s' = true.
Proof.
  induction ls as [|l ls IH]; intros s s' H Hin; cbn in H; [injection H as <-; destruct Hin as [|[]]; auto|].
  destruct (sstep s l) as [s1|] eqn:Hs; [|discriminate]. apply (IH s1 s' H).
  destruct l as [o| |r]; cbn in Hs.
  - injection Hs as <-. destruct Hin as [|[|]]; auto. discriminate.
  - injection Hs as <-. now left.
  - apply thread_term in Hs. rewrite Hs. destruct Hin as [|[|]]; auto. discriminate.
Qed.

(** Once stopped, always stopped. *)
Lemma stopped_run ls : forall s s', ss_pc s = PStop -> srun s ls = Some s' -> ss_trace s' = ss_trace s /\ ss_pc s' = PStop.
Proof.
  induction ls as [|l ls IH]; intros s s' Hp Hr; cbn in Hr; [injection Hr as <-; auto|].
  destruct (sstep s l) as [s1|] eqn:Hs; [|discriminate].
  assert (ss_pc s1 = PStop /\ ss_trace s1 = ss_trace s) as [H1 H2].
  { destruct l as [o| |resp]; cbn in Hs; [injection Hs as <-; auto|injection Hs as <-; auto|].
    unfold Stream_Model.thread_step in Hs. now rewrite Hp in Hs. }
  destruct (IH s1 s' H1 Hr) as [A B]. split; congruence.
Qed.
End P.
