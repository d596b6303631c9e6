(** Sessions: the subscriber's thread together with the endpoint. *)
From Coq Require Import String Sorted.
From Verif Require Import Base Persister_Model Persister_Spec Persister_Proofs Stream_Model Stream_Spec Stream_Proofs Stream_Props Replicator_Model Replicator_Spec PubSub_Model PubSub_Spec PubSub_Proofs PubSub_Proofs2.
Local Open Scope list_scope.

Lemma SS_app_l (l m : list Z) : StronglySorted Z.lt (l ++ m) -> StronglySorted Z.lt l.
Proof. induction l as [|x l IH]; cbn; intros H; [constructor|]. inversion H as [|? ? H1 H2]; subst. constructor; [auto|]. now apply Forall_app in H2. Qed.
Lemma SS_last (l : list Z) x : StronglySorted Z.lt (l ++ [x]) -> forall y, In y l -> (y < x)%Z.
Proof.
  induction l as [|z l IH]; cbn; intros H y Hy; [easy|]. inversion H as [|? ? H1 H2]; subst. apply Forall_app in H2 as [_ H2]. inversion H2; subst.
  destruct Hy as [->|Hy]; auto.
Qed.

Section Ans.
Context {E : Type}.
Variable W : wire E.
Hypothesis HW : wire_ok W.
Variable M : mode E.
Variable tJ : Z -> bytes.
Variable p : params.
Variable now : Z.
Hypothesis Hper : (0 <= p_period p)%Z.

Notation aJ := (M_idx W M).
Notation bJ := (M_ser W M).
Notation trace := (list (ev E * bool)).

Lemma entry_step e terminate it x last e' out r : (0 <= snd it)%Z ->
  match M with
  | Checked a b => ep_entry b a p e terminate it x last = (e', out, r)
  | Raw => ep_raw W p e terminate (ser_idx (w_codec W) it ++ [TAB] ++ ser (w_codec W) x) (fst it) last = Some (e', out, r)
  end -> ep_entry bJ aJ p e terminate it x last = (e', out, r).
Proof. intros Hp H. destruct M as [a b|]; cbn [M_idx M_ser] in *; [exact H|]. rewrite (raw_entry W) in H by assumption. now injection H as H. Qed.

Lemma ans_inv tr e body : answered W M tJ p now true tr e body -> Forall (fun y => snd y = true) tr -> StronglySorted Z.lt (times tr) -> Forall (fun t => 0 <= t)%Z (times tr) ->
  exists sk se told, inv p now aJ bJ tr e sk se told /\ body = body_of p aJ bJ tJ told.
Proof.
  induction 1 as [|tr e body tm it x last e' out r H IH Ha He|tr e body tm t e' out r H IH Ha He|tr e body e' out r H IH He]; intros HF Hs Hp.
  - exists [], [], []. split; [apply (inv_init p now _ _ tJ)|]. unfold body_of. now destruct (p_array p).
  - apply Forall_app in HF as [HF Hr]. inversion Hr as [|? ? Hr1 _]; subst. cbn in Hr1. subst r. rewrite times_app in Hs, Hp. cbn in Hs, Hp. apply Forall_app in Hp as [Hp Hp1]. inversion Hp1; subst.
    destruct (IH HF (SS_app_l _ _ Hs) Hp) as (sk & se & told & Hi & ->). rewrite (Ha eq_refl) in He. apply entry_step in He; [|assumption].
    destruct (inv_entry p now aJ bJ tJ _ _ _ _ _ _ _ _ _ _ _ Hi (SS_last _ _ Hs) ltac:(assumption) (SS_app_l _ _ Hs) Hper He) as (sk' & se' & told' & Hb & Hi'). exists sk', se', told'. split; [exact Hi'|]. now rewrite Hb, app_nil_r.
  - apply Forall_app in HF as [HF Hr]. inversion Hr as [|? ? Hr1 _]; subst. cbn in Hr1. subst r. rewrite times_app in Hs, Hp. cbn in Hs, Hp. apply Forall_app in Hp as [Hp Hp1]. inversion Hp1; subst.
    destruct (IH HF (SS_app_l _ _ Hs) Hp) as (sk & se & told & Hi & ->). rewrite (Ha eq_refl) in He.
    destruct (inv_head p now aJ bJ tJ _ _ _ _ _ _ _ _ _ Hi (SS_last _ _ Hs) ltac:(assumption) (SS_app_l _ _ Hs) Hper He) as (told' & Hb & Hi'). exists sk, se, told'. auto.
  - apply Forall_app in HF as [_ Hr]. inversion Hr as [|? ? Hr1 _]; subst. cbn in Hr1. subst r. discriminate.
Qed.

Lemma ans_end tr x e body : answered W M tJ p now true (tr ++ [(x, false)]) e body -> x <> EvTerminate -> Forall (fun y => snd y = true) tr -> StronglySorted Z.lt (times (tr ++ [(x, false)])) -> Forall (fun t => 0 <= t)%Z (times (tr ++ [(x, false)])) ->
  exists sk se extra told c, sound p now aJ bJ (tr ++ [(x, false)]) sk se extra told /\ body = body_of p aJ bJ tJ told ++ c /\
    ((c = closing p se /\ why p aJ bJ (tr ++ [(x, false)]) se extra) \/ (c = [] /\ extra = [] /\ exists t, x = EvHead t /\ p_period p <> 0%Z)).
Proof.
  intros H Hx HF Hs Hp. inversion H as [Heq|tr0 e0 body0 tm it y last e' out r H0 Ha He Heq|tr0 e0 body0 tm t e' out r H0 Ha He Heq|tr0 e0 body0 e' out r H0 He Heq]; subst.
  - now destruct tr.
  - apply app_inj_tail in Heq as [-> Heq]. injection Heq as <- ->. rewrite times_app in Hs, Hp. cbn in Hs, Hp. apply Forall_app in Hp as [Hp Hp1]. inversion Hp1; subst.
    destruct (ans_inv _ _ _ H0 HF (SS_app_l _ _ Hs) Hp) as (sk & se & told & Hi & ->). rewrite (Ha eq_refl) in He. apply entry_step in He; [|assumption].
    destruct (inv_entry p now aJ bJ tJ _ _ _ _ _ _ _ _ _ _ _ Hi (SS_last _ _ Hs) ltac:(assumption) (SS_app_l _ _ Hs) Hper He) as (sk' & se' & told' & Hb & extra & Hi' & Hw).
    exists sk', se', extra, told', (closing p se'). split; [exact Hi'|]. split; [exact Hb|]. left. auto.
  - apply app_inj_tail in Heq as [-> Heq]. injection Heq as <- ->. rewrite times_app in Hs, Hp. cbn in Hs, Hp. apply Forall_app in Hp as [Hp Hp1]. inversion Hp1; subst.
    destruct (ans_inv _ _ _ H0 HF (SS_app_l _ _ Hs) Hp) as (sk & se & told & Hi & ->). rewrite (Ha eq_refl) in He.
    destruct (inv_head p now aJ bJ tJ _ _ _ _ _ _ _ _ _ Hi (SS_last _ _ Hs) ltac:(assumption) (SS_app_l _ _ Hs) Hper He) as (told' & Hb & Hi' & Hp').
    exists sk, se, [], told', []. split; [exact Hi'|]. split; [now rewrite app_nil_r|]. right. eauto.
  - apply app_inj_tail in Heq as [_ Heq]. injection Heq as <- _. contradiction.
Qed.
End Ans.

(** The thread of a subscription which is not terminated from outside. *)
Section Thread.
Context {E : Type}.
Variable C : codec E.
Variable b : N.
Definition kinv (s : sst E E) : Prop :=
  ss_term s = false /\ (-1 <= ss_head s)%Z /\
  match ss_pc s with PPass _ _ h lu _ => (0 <= h)%Z /\ (0 <= lu)%Z | PHead _ h => (0 <= h)%Z | _ => True end /\
  Forall (fun y => match fst y with EvTerminate => False | EvHead t => (0 <= t)%Z | _ => True end) (ss_trace s).

Lemma check_no_term (s : sst E E) r q : ss_term s = false -> check_terminate s r q = set_pc s q.
Proof. intros H. unfold check_terminate. rewrite H. now rewrite andb_false_r. Qed.

Lemma kinv_step s l s' : sinv everything b s -> kinv s -> l <> LSignal -> sstep C everything b s l = Some s' -> kinv s'.
Proof.
  intros Hi (K1 & K2 & K3 & K4) Hl H. destruct l as [o| |r]; [|contradiction|].
  - injection H as <-. repeat split; auto.
  - cbn in H. unfold thread_step in H. pose proof (v_pc _ _ _ Hi) as Hpc. unfold pc_ok in Hpc. destruct (ss_pc s) as [| |cur size h lu ck|size h| | |] eqn:Ep; cbn in K3.
    + rewrite check_no_term in H by exact K1. injection H as <-. repeat split; auto.
    + unfold mp_head_and_last in H. destruct (nth_error _ _) as [[t e]|] eqn:En; cbn [fst snd] in H.
      * assert (0 <= t)%Z. { pose proof (inv_nonneg _ (v_mp _ _ _ Hi)) as Hn. rewrite Forall_forall in Hn. apply nth_error_In in En. exact (Hn _ En). }
        destruct (Z.ltb_spec (ss_head s) (mp_head (ss_store s))) as [Hlt|]; [|injection H as <-; repeat split; auto].
        destruct (N.ltb _ _); injection H as <-; repeat split; cbn; auto; lia.
      * destruct (Z.ltb_spec (ss_head s) (mp_head (ss_store s))) as [Hlt|]; [|injection H as <-; repeat split; auto].
        destruct (N.ltb _ _); injection H as <-; repeat split; cbn; auto; lia.
    + destruct (N.eqb cur size); [injection H as <-; cbn; repeat split; auto; cbn; lia|]. destruct ck; cbn [negb] in H.
      * destruct (nth_error _ _) as [[t e]|]; [|now injection H as <-]. destruct (mp_last _); injection H as <-; cbn; try (repeat split; auto; lia).
        repeat split; auto; [|apply Forall_app; split; [exact K4|repeat constructor]]. destruct r; [|exact I]. exact K3.
      * rewrite check_no_term in H by exact K1. injection H as <-. repeat split; cbn; auto; lia.
    + destruct (N.leb b size && Z.ltb (ss_head s) h); injection H as <-; cbn; repeat split; auto; try (cbn; lia); try (now destruct r); try (apply Forall_app; split; [exact K4|repeat constructor; exact K3]).
    + destruct (wait_done b s); [|discriminate]. injection H as <-. repeat split; auto.
    + discriminate.
    + discriminate.
Qed.

Lemma kinv_run ls : forall s s', sinv everything b s -> kinv s -> ~ In LSignal ls -> srun C everything b s ls = Some s' -> kinv s'.
Proof.
  induction ls as [|l ls IH]; cbn; intros s s' Hi K Hn H; [now injection H as <-|]. destruct (sstep C everything b s l) as [s1|] eqn:E1; [|discriminate].
  apply (IH s1); auto. - now apply (sinv_step C everything b s l). - apply (kinv_step s l); auto.
Qed.
End Thread.
