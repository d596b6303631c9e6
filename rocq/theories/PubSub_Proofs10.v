(** The last index passed with an entry is not below what was the last one at the beginning. *)
From Coq Require Import String Sorted.
From Verif Require Import Base Persister_Model Persister_Spec Persister_Proofs Stream_Model Stream_Spec Stream_Proofs Stream_Proofs2 Stream_Props Replicator_Model Replicator_Spec PubSub_Model PubSub_Spec PubSub_Proofs PubSub_Proofs2 PubSub_Proofs3 PubSub_Proofs4 PubSub_Proofs5 PubSub_Proofs7.
Local Open Scope list_scope.

Section Last.
Context {E : Type}.
Variable C : codec E.
Variable n : N.
Definition linv (s : sst E E) : Prop := (n <= mp_size (ss_store s))%N /\ forall it x last r, In (EvEntry it x last, r) (ss_trace s) -> (n <= fst last + 1)%N.

Lemma linv_trace (s s' : sst E E) y : linv s -> ss_store s' = ss_store s -> ss_trace s' = ss_trace s ++ y -> (forall it x last r, In (EvEntry it x last, r) y -> mp_last (ss_store s) = Ok last) -> linv s'.
Proof.
  intros [H1 H2] Hs Ht Hy. split; [now rewrite Hs|]. intros it x last r Hin. rewrite Ht in Hin. apply in_app_or in Hin as [Hin|Hin]; [eapply H2; eauto|]. pose proof (Hy _ _ _ _ Hin) as Hl.
  unfold mp_last in Hl. destruct (nth_error _ _) as [[t e]|] eqn:En; [|discriminate]. injection Hl as <-. cbn. unfold mp_size in *. lia.
Qed.

Lemma thread_linv begin r s s' : linv s -> thread_step (F:=E) everything begin r s = Some s' -> linv s'.
Proof.
  intros Hi H. assert (Hs := thread_store everything begin r s s' H).
  unfold thread_step in H. destruct (ss_pc s) as [| |cur size h lu ck|size h| | |] eqn:Ep.
  - unfold check_terminate in H. destruct (negb (ss_sent s) && ss_term s); injection H as <-; cbn in *; [apply (linv_trace s _ [(EvTerminate, r)]); auto; intros ? ? ? ? [|[]]; discriminate|].
    apply (linv_trace s _ []); auto; cbn; [now rewrite app_nil_r|easy].
  - destruct (Z.ltb _ _); [destruct (N.ltb _ _); [destruct (snd _) as [[? ?]|]|]|]; injection H as <-; apply (linv_trace s _ []); auto; cbn; try (now rewrite app_nil_r); easy.
  - destruct (N.eqb cur size); [injection H as <-; apply (linv_trace s _ []); auto; cbn; [now rewrite app_nil_r|easy]|]. destruct ck; cbn [negb] in H.
    + destruct (nth_error _ _) as [[t e]|]; [|injection H as <-; apply (linv_trace s _ []); auto; cbn; [now rewrite app_nil_r|easy]].
      destruct (mp_last (ss_store s)) as [last| |] eqn:El; cbn in H; injection H as <-; [|apply (linv_trace s _ []); auto; cbn; [now rewrite app_nil_r|easy]|apply (linv_trace s _ []); auto; cbn; [now rewrite app_nil_r|easy]].
      apply (linv_trace s _ [(EvEntry (cur, t) e last, r)]); auto. intros ? ? ? ? [[= _ _ <- _]|[]]. exact El.
    + unfold check_terminate in H. destruct (negb (ss_sent s) && ss_term s); injection H as <-; cbn in *; [apply (linv_trace s _ [(EvTerminate, r)]); auto; intros ? ? ? ? [|[]]; discriminate|].
      apply (linv_trace s _ []); auto; cbn; [now rewrite app_nil_r|easy].
  - destruct (N.leb begin size && Z.ltb (ss_head s) h); injection H as <-; [apply (linv_trace s _ [(EvHead h, r)]); auto; intros ? ? ? ? [|[]]; discriminate|].
    apply (linv_trace s _ []); auto; cbn; [now rewrite app_nil_r|easy].
  - destruct (wait_done begin s); [|discriminate]. injection H as <-. apply (linv_trace s _ []); auto; cbn; [now rewrite app_nil_r|easy].
  - discriminate.
  - discriminate.
Qed.
Lemma linv_run begin ls : forall s s', linv s -> srun C everything begin s ls = Some s' -> linv s'.
Proof.
  induction ls as [|l ls IH]; intros s s' Hi H; [now injection H as <-|]. cbn [srun] in H. destruct (sstep C everything begin s l) as [s1|] eqn:E1; [|discriminate]. apply (IH s1); [|exact H]. clear IH H.
  destruct l as [o| |r]; cbn in E1.
  - injection E1 as <-. destruct Hi as [H1 H2]. split; [|exact H2]. cbn. destruct (mp_step_grow C (ss_store s) o) as (x & Hx & _). unfold mp_size in *. rewrite Hx, app_length. lia.
  - injection E1 as <-. exact Hi.
  - eapply thread_linv; eauto.
Qed.
End Last.

Lemma last_bound {E} (W : wire E) begin from a b during s : subscription (w_codec W) everything begin from (a ++ b) during s ->
  forall it x last r, In (EvEntry it x last, r) (ss_trace s) -> (N.of_nat (List.length (contents (w_codec W) a)) <= fst last + 1)%N.
Proof.
  intros H. apply (linv_run (w_codec W) (N.of_nat (List.length (contents (w_codec W) a)))) in H; [apply H|]. split; [|easy]. cbn [s_init ss_store].
  destruct (contents_more W a b) as (mo & Hmo). rewrite (contents_length W (a ++ b)), Hmo, app_length. pose proof (contents_length W a) as Hl. unfold mp_size in Hl. lia.
Qed.
