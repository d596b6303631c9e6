(** Proofs about chunks and records. *)
From Verif Require Import Base Codec Persister_Model Replicator_Model Replicator_Spec.
Local Open Scope list_scope.

Lemma is_eol_spec b : is_eol b = true <-> EOL b.
Proof. unfold is_eol, EOL. rewrite orb_true_iff, !N.eqb_eq. tauto. Qed.
Lemma not_eol_spec b : not_eol b = true <-> ~ EOL b.
Proof. unfold not_eol. rewrite negb_true_iff, <- is_eol_spec. destruct (is_eol b); split; intros; congruence. Qed.

Lemma span_spec f s : let r := span f s in s = fst r ++ snd r /\ Forall (fun b => f b = true) (fst r) /\ match snd r with [] => True | b :: _ => f b = false end.
Proof.
  induction s as [|b s IH]; cbn; [auto|]. destruct (f b) eqn:Hb; cbn; [|auto].
  destruct IH as (H1 & H2 & H3). split; [congruence|]. split; [now constructor|exact H3].
Qed.

Lemma Records_det s : forall ls r ls' r', Records s ls r -> Records s ls' r' -> ls = ls' /\ r = r'.
Proof.
  intros ls r ls' r' H. revert ls' r'. induction H as [r Hr|b s ls r Hb H IH|l b s ls r Hl Hn Hb H IH]; intros ls' r' H'.
  - inversion H' as [r1 Hr1|b1 s1 ls1 r1 Hb1 H1|l1 b1 s1 ls1 r1 Hl1 Hn1 Hb1 H1]; subst; [auto| |].
    + inversion Hr; subst; contradiction.
    + apply Forall_app in Hr as [_ Hr]. inversion Hr; subst; contradiction.
  - inversion H' as [r1 Hr1|b1 s1 ls1 r1 Hb1 H1|l1 b1 s1 ls1 r1 Hl1 Hn1 Hb1 H1 Heq]; subst.
    + inversion Hr1; subst; contradiction.
    + now apply IH.
    + destruct l1 as [|c l1]; [contradiction|]. cbn in Heq. injection Heq as <- _. inversion Hn1; subst; contradiction.
  - remember (l ++ b :: s) as w eqn:Hw. destruct H' as [r1 Hr1|b1 s1 ls1 r1 Hb1 H1|l1 b1 s1 ls1 r1 Hl1 Hn1 Hb1 H1]; subst.
    + apply Forall_app in Hr1 as [_ Hr1]. inversion Hr1; subst; contradiction.
    + destruct l as [|c l]; [contradiction|]. injection Hw as -> _. inversion Hn; subst; contradiction.
    + assert (l1 = l /\ s1 = s) as [-> ->].
      { clear - Hw Hn Hn1 Hb Hb1. revert l1 Hn1 Hw. induction Hn as [|c l Hc Hn IH]; intros [|c1 l1] Hn1 Hw; cbn in Hw.
        - now injection Hw as _ ->.
        - injection Hw as -> _. inversion Hn1; subst; contradiction.
        - injection Hw as -> _. contradiction.
        - injection Hw as -> Hw. inversion Hn1; subst. destruct (IH l1) as [-> ->]; auto. }
      destruct (IH _ _ H1) as [-> ->]. auto.
Qed.

Lemma Records_exists s : exists ls r, Records s ls r.
Proof.
  remember (length s) as n eqn:Hn. revert s Hn. induction n as [n IH] using lt_wf_ind. intros s ->.
  destruct (span_spec not_eol s) as (H1 & H2 & H3). destruct (span not_eol s) as [l r] eqn:Hsp. cbn in *. destruct r as [|b r].
  - exists [], s. apply Rec_end. rewrite H1, app_nil_r. eapply Forall_impl; [|exact H2]. intros c. apply not_eol_spec.
  - assert (EOL b) as Hb. { apply is_eol_spec. unfold not_eol in H3. now apply negb_false_iff in H3. }
    destruct (IH (length r)) with (s := r) as (ls & r' & Hr); [rewrite H1, app_length; cbn; lia|reflexivity|].
    destruct l as [|c l].
    + exists ls, r'. rewrite H1. cbn. now apply Rec_skip.
    + exists ((c :: l) :: ls), r'. rewrite H1. apply Rec_line; [discriminate| |exact Hb|exact Hr]. eapply Forall_impl; [|exact H2]. intros d. apply not_eol_spec.
Qed.

Lemma Records_app a ls r : Records a ls r -> forall b ls' r', Records (r ++ b) ls' r' -> Records (a ++ b) (ls ++ ls') r'.
Proof.
  induction 1 as [r Hr|c s ls r Hc H IH|l c s ls r Hl Hn Hc H IH]; intros b ls' r' H'; [exact H'| |].
  - cbn. apply Rec_skip; auto.
  - rewrite <- app_assoc. cbn. apply Rec_line; auto.
Qed.
Lemma Records_rest a ls r : Records a ls r -> Forall (fun b => ~ EOL b) r.
Proof. induction 1; auto. Qed.
Lemma Records_skip a s ls r : Forall EOL a -> Records (a ++ s) ls r -> Records s ls r.
Proof.
  induction 1 as [|b a Hb Ha IH]; [auto|]. cbn. intros H. apply IH. remember (b :: a ++ s) as w eqn:Hw. destruct H as [r Hr|c s' ls r Hc H|l c s' ls r Hl Hn Hc H].
  - subst. inversion Hr; subst; contradiction.
  - now injection Hw as -> ->.
  - destruct l as [|d l]; [contradiction|]. injection Hw as -> _. inversion Hn; subst; contradiction.
Qed.

Section Chunks.
Context {S X : Type}.
Variable pass : S -> bytes -> S * option X.
Notation hand_over := (hand_over pass).

Lemma hand_over_app ls1 ls2 s : hand_over s (ls1 ++ ls2) = match hand_over s ls1 with (s', None) => hand_over s' ls2 | (s', Some x) => (s', Some x) end.
Proof. revert s. induction ls1 as [|l ls1 IH]; intros s; cbn; [reflexivity|]. destruct (pass s l) as [s' [x|]]; [reflexivity|apply IH]. Qed.

(** The result is that of handing over [ls], and what is carried over then is [r]. *)
Definition agrees (s : S) (ls : list bytes) (r : bytes) (res : S * bytes * option X) : Prop :=
  fst (fst res) = fst (hand_over s ls) /\ snd res = snd (hand_over s ls) /\ (snd (hand_over s ls) = None -> snd (fst res) = r).

Lemma chunk_loop_ok fuel : forall s rest ls r, length rest < fuel -> Records rest ls r -> agrees s ls r (chunk_loop pass fuel s rest).
Proof.
  induction fuel as [|f IH]; intros s rest ls r Hf H; [lia|]. cbn [chunk_loop].
  destruct (span_spec is_eol rest) as (H1 & H2 & H3). destruct (span is_eol rest) as [a q]. cbn [fst snd] in *.
  assert (Records q ls r) as Hq. { apply (Records_skip a); [|now rewrite <- H1]. eapply Forall_impl; [|exact H2]. intros c. apply is_eol_spec. }
  destruct q as [|b q].
  { inversion Hq as [r1 Hr1| |l1 b1 s1 ls1 r1 Hl1 Hn1 Hb1 H4 Heq]; subst; [|destruct l1; discriminate]. split; [reflexivity|]. split; reflexivity. }
  assert (~ EOL b) as Hb. { rewrite <- is_eol_spec. congruence. }
  destruct (span_spec not_eol q) as (K1 & K2 & K3). destruct (span not_eol q) as [l q']. cbn [fst snd] in *.
  assert (Forall (fun b => ~ EOL b) (b :: l)) as Hl. { constructor; [exact Hb|]. eapply Forall_impl; [|exact K2]. intros c. apply not_eol_spec. }
  destruct q' as [|c q'].
  { rewrite app_nil_r in K1. subst q. destruct (Records_det _ _ _ _ _ Hq (Rec_end _ Hl)) as [-> ->]. split; [reflexivity|]. split; reflexivity. }
  assert (EOL c) as Hc. { apply is_eol_spec. unfold not_eol in K3. now apply negb_false_iff in K3. }
  destruct (Records_exists q') as (ls' & r' & Hq').
  assert (Records ((b :: l) ++ c :: q') ((b :: l) :: ls') r') as Hq2 by (apply Rec_line; auto; discriminate).
  cbn in Hq2. rewrite <- K1 in Hq2. destruct (Records_det _ _ _ _ _ Hq Hq2) as [-> ->].
  unfold agrees. cbn [Replicator_Spec.hand_over]. destruct (pass s (b :: l)) as [s' [x|]]; cbn [fst snd].
  - repeat split; discriminate.
  - apply IH; [|exact Hq']. pose proof (f_equal (@length N) H1) as L1. pose proof (f_equal (@length N) K1) as L2. rewrite app_length in L1, L2. cbn in L1, L2. lia.
Qed.

Lemma pass_chunk_ok carried s chunk ls r : Forall (fun b => ~ EOL b) carried -> Records (carried ++ chunk) ls r -> agrees s ls r (pass_chunk pass carried s chunk).
Proof.
  intros Hc H. unfold pass_chunk. destruct carried as [|c0 carried]; [apply chunk_loop_ok; [lia|exact H]|].
  destruct (span_spec not_eol chunk) as (K1 & K2 & K3). destruct (span not_eol chunk) as [l q]. cbn [fst snd] in *.
  assert (Forall (fun b => ~ EOL b) ((c0 :: carried) ++ l)) as Hl. { apply Forall_app. split; [exact Hc|]. eapply Forall_impl; [|exact K2]. intros c. apply not_eol_spec. }
  destruct q as [|c q].
  { rewrite app_nil_r in K1. subst l. destruct (Records_det _ _ _ _ _ H (Rec_end _ Hl)) as [-> ->]. split; [reflexivity|]. split; reflexivity. }
  assert (EOL c) as Hcc. { apply is_eol_spec. unfold not_eol in K3. now apply negb_false_iff in K3. }
  destruct (Records_exists q) as (ls' & r' & Hq).
  assert (Records ((c0 :: carried) ++ chunk) (((c0 :: carried) ++ l) :: ls') r') as H2.
  { rewrite K1, app_assoc. apply Rec_line; auto. discriminate. }
  destruct (Records_det _ _ _ _ _ H H2) as [-> ->].
  unfold agrees. cbn [Replicator_Spec.hand_over]. destruct (pass s ((c0 :: carried) ++ l)) as [s' [x|]]; cbn [fst snd].
  - repeat split; discriminate.
  - apply chunk_loop_ok; [|now apply Rec_skip]. rewrite K1, app_length. cbn. lia.
Qed.

Lemma pass_chunks_ok chunks : forall carried s ls r, Forall (fun b => ~ EOL b) carried -> Records (carried ++ concat chunks) ls r -> agrees s ls r (pass_chunks pass carried s chunks).
Proof.
  induction chunks as [|c cs IH]; intros carried s ls r Hc H; cbn [pass_chunks].
  - cbn in H. rewrite app_nil_r in H. destruct (Records_det _ _ _ _ _ H (Rec_end _ Hc)) as [-> ->]. split; [reflexivity|]. split; reflexivity.
  - destruct (Records_exists (carried ++ c)) as (ls1 & r1 & H1). destruct (Records_exists (r1 ++ concat cs)) as (ls2 & r2 & H2).
    pose proof (Records_app _ _ _ H1 _ _ _ H2) as H3. rewrite <- app_assoc in H3. cbn in H. destruct (Records_det _ _ _ _ _ H H3) as [-> ->].
    destruct (pass_chunk_ok carried s c _ _ Hc H1) as (A1 & A2 & A3). destruct (pass_chunk pass carried s c) as [[s' carried'] ox]. cbn [fst snd] in *.
    unfold agrees. rewrite hand_over_app. destruct (hand_over s ls1) as [s1 [x|]]; cbn [fst snd] in *; subst.
    + repeat split; discriminate.
    + rewrite A3 by reflexivity. apply IH; [|exact H2]. now apply Records_rest in H1.
Qed.
End Chunks.
