(** A request with `nowait` to a stream at rest comes to its end; and the answer "no content". *)
From Coq Require Import String Sorted.
From Verif Require Import Base Persister_Model Persister_Spec Persister_Proofs Stream_Model Stream_Spec Stream_Proofs Stream_Proofs2 Stream_Props Replicator_Model Replicator_Spec PubSub_Model PubSub_Spec PubSub_Proofs PubSub_Proofs2 PubSub_Proofs3 PubSub_Proofs4 PubSub_Proofs5 PubSub_Proofs6 PubSub_Proofs7 PubSub_Proofs8.
Local Open Scope list_scope.

Section End.
Context {E : Type}.
Variable W : wire E.
Hypothesis HW : wire_ok W.
Variable M : mode E.
Variable tJ : Z -> bytes.
Variable q : query.
Variable now : Z.
Notation C := (w_codec W).
Variable a : list (pop E).
Hypothesis Hsane : sane q now.
Hypothesis Hnowait : q_nowait q = true.
Notation m := (fst (mp_run C mp_init a)).
Notation size := (N.of_nat (List.length (contents C a))).
Hypothesis Hnpos : (size < npos)%N.

Lemma run_bound begin from : (begin < size)%N -> (from - 1 < mp_head m)%Z -> forall during s, thread_only during -> srun C everything begin (s_init begin from m) during = Some s -> ~ at_end (ss_trace s) ->
  jinv m begin from s /\ (N.of_nat (List.length during) + more m s <= 2 * size + 5 \/ ss_pc s = PStop /\ N.of_nat (List.length during) <= 2 * size + 6)%N.
Proof using HW Hsane Hnowait Hnpos M tJ q now.
  intros Hb Hf. assert (Hm : mp_inv m) by apply mp_run_inv, mp_inv_init. assert (Hsz : mp_size m = size) by apply contents_length.
  induction during as [|l during IH] using rev_ind; intros s Ht Hr Hne.
  - injection Hr as <-. split; [apply jinv_init|]. left. unfold more. cbn -[N.mul N.add]. rewrite Hsz. lia.
  - apply Forall_app in Ht as [Ht Hl]. inversion Hl as [|? ? [r ->] _]; subst. rewrite srun_app in Hr. destruct (srun C everything begin (s_init begin from m) during) as [s0|] eqn:E0; [|discriminate].
    assert (Hstep : sstep C everything begin s0 (LThread r) = Some s) by (cbn [srun] in Hr; destruct (sstep C everything begin s0 (LThread r)); [exact Hr|discriminate]). clear Hr.
    destruct (thread_trace begin r s0 s Hstep) as (y & Hy).
    assert (Hne0 : ~ at_end (ss_trace s0)). { intros He. apply Hne. rewrite Hy. now apply at_end_app. }
    destruct (IH s0 Ht eq_refl Hne0) as (J & Hbd).
    assert (Hns : ss_pc s0 <> PStop). { intros Hp. cbn in Hstep. unfold thread_step in Hstep. rewrite Hp in Hstep. discriminate. }
    destruct Hbd as [Hbd|[Hp _]]; [|contradiction].
    split; [apply (jinv_step C m Hm begin from ltac:(rewrite Hsz; exact Hb) Hf r s0); assumption|].
    rewrite app_length. cbn [List.length].
    destruct (jstep C m Hm begin from ltac:(rewrite Hsz; exact Hb) Hf s0 J Hne0 Hns) as [(s1 & H1 & _ & _ & H2)|(it & x & last & H1 & _)].
    + pose proof (eq_trans (eq_sym (H1 r)) Hstep) as [= <-]. left. lia.
    + destruct (H1 r) as (s1 & H2 & _ & _ & H3). pose proof (eq_trans (eq_sym H2) Hstep) as [= <-]. destruct H3 as [H3|[H3|H3]]; [|contradiction|left; lia]. right. split; [exact H3|]. lia.
Qed.

Lemma static_bound during s e body : thread_only during -> session W M tJ q now true a [] [] during s e body -> (N.of_nat (List.length during) <= 2 * size + 6)%N.
Proof using HW Hsane Hnowait Hnpos M tJ q now.
  intros Hthr Hses. destruct (static_jinv W M tJ q now a Hsane Hnowait Hnpos during s e body Hthr Hses) as (begin & from & p & Hserve & Hb & Hf & Hsub & Hans & J & Hpn).
  pose proof (ans_nowait W HW M tJ now p _ _ _ Hpn Hans (trace_pos W a begin from during s Hsub)) as Hne.
  destruct (run_bound begin from Hb Hf during s Hthr Hsub Hne) as [_ [H|[_ H]]]; lia.
Qed.

Lemma static_progress during s e body : thread_only during -> session W M tJ q now true a [] [] during s e body -> ss_pc s <> PStop ->
  exists r s' e' body', session W M tJ q now true a [] [] (during ++ [LThread r]) s' e' body'.
Proof using HW Hsane Hnowait Hnpos M tJ q now.
  intros Hthr Hses Hns. destruct (static_jinv W M tJ q now a Hsane Hnowait Hnpos during s e body Hthr Hses) as (begin & from & p & Hserve & Hb & Hf & Hsub & Hans & J & Hpn).
  pose proof (ans_nowait W HW M tJ now p _ _ _ Hpn Hans (trace_pos W a begin from during s Hsub)) as Hne.
  assert (Hm : mp_inv m) by apply mp_run_inv, mp_inv_init. assert (Hsz : mp_size m = size) by apply contents_length.
  assert (Hsub' : forall r s', sstep C everything begin s (LThread r) = Some s' -> subscription C everything begin from (a ++ [] ++ []) (during ++ [LThread r]) s').
  { intros r s' H. cbn [app]. rewrite app_nil_r. unfold subscription in *. rewrite srun_app, Hsub. cbn [srun]. now rewrite H. }
  assert (Hserve' : serve (mp_size m) (fst (mp_run C mp_init (a ++ []))) now (parse_params q) = Subscribed begin from p) by (rewrite app_nil_r, Hsz; exact Hserve).
  destruct (jstep C m Hm begin from ltac:(rewrite Hsz; exact Hb) Hf s J Hne Hns) as [(s1 & H1 & _ & H2 & _)|(it & x & last & H1 & H2)].
  - exists true, s1, e, body. exists begin, from, p. split; [exact Hserve'|]. split; [now apply Hsub'|]. rewrite H2. exact Hans.
  - destruct (ep_entry (M_ser W M) (M_idx W M) p e false it x last) as [[e' out] r] eqn:Ee. destruct (H1 r) as (s1 & H3 & H4 & _). exists r, s1, e', (body ++ out). exists begin, from, p.
    split; [exact Hserve'|]. split; [now apply Hsub'|]. rewrite H4. apply (an_entry W M tJ p now true _ e body false); [exact Hans|reflexivity|].
    destruct M as [aa bb|]; cbn [M_ser M_idx] in Ee; [exact Ee|]. rewrite (raw_entry W) by assumption. now rewrite Ee.
Qed.
End End.

Definition without_nowait (q : query) : query := {| q_recent := q_recent q; q_since := q_since q; q_i := q_i q; q_tail := q_tail q; q_n := q_n q; q_period := q_period q; q_bytes := q_bytes q; q_nowait := false; q_entries_only := q_entries_only q; q_array := q_array q |}.

Lemma no_content {E} (W : wire E) q now a b : sane q now -> let C := w_codec W in
  let L := contents C (a ++ b) in let size := N.of_nat (List.length (contents C a)) in (N.of_nat (List.length L) < npos)%N ->
  serve (mp_size (fst (mp_run C mp_init a))) (fst (mp_run C mp_init (a ++ b))) now (parse_params q) = NoContent ->
  q_nowait q = true /\ filter (selected q now size) (filter (in_idx_range 0 size) (numbered L)) = [].
Proof.
  intros Hs C L size Hnpos H. unfold C in H. rewrite contents_length in H. fold size in H.
  assert (Hn : q_nowait q = true). { unfold serve in H. cbn [parse_params p_nowait] in H. destruct (q_nowait q); [reflexivity|]. discriminate. }
  split; [exact Hn|].
  set (m := fst (mp_run C mp_init (a ++ b))) in *. assert (Hm : mp_inv m) by apply mp_run_inv, mp_inv_init.
  assert (HLm : mp_entries m = L) by apply (mp_run_entries C (a ++ b) mp_init).
  assert (Hszm : mp_size m = N.of_nat (List.length L)) by apply contents_length.
  assert (exists begin from p, serve size m now (parse_params (without_nowait q)) = Subscribed begin from p /\ (size <= begin)%N) as (begin & from & p & Hsv & Hbe).
  { unfold serve in *. cbn [parse_params p_nowait without_nowait q_nowait] in *. rewrite Hn in H. rewrite andb_true_l in H. rewrite andb_false_l.
    match type of H with (if ?c then _ else _) = _ => destruct c eqn:Hle; [|discriminate] end. apply N.leb_le in Hle. do 3 eexists. split; [reflexivity|exact Hle]. }
  assert (Hle : (size <= mp_size m < npos)%N).
  { split; [|rewrite Hszm; exact Hnpos]. rewrite Hszm. unfold size, L. destruct (contents_more W a b) as (mo & Hmo). fold C in Hmo. rewrite Hmo, app_length. pose proof (contents_length W a) as Hcl. fold C in Hcl. unfold mp_size in Hcl. lia. }
  destruct (serve_facts (without_nowait q) now Hs size m Hm Hle L ltac:(exists []; now rewrite HLm, app_nil_r) ltac:(rewrite <- HLm; apply (inv_nonneg _ Hm)) begin from p Hsv) as (_ & F & _).
  apply filter_none. apply Forall_forall. intros x Hx. apply filter_In in Hx as [Hx1 Hx2]. unfold in_idx_range in Hx2. apply andb_true_iff in Hx2 as [_ Hx2]. apply N.ltb_lt in Hx2. apply (F x Hx1). lia.
Qed.
