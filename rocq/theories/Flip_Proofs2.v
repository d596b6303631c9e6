(** The invariant of two controllers. *)
From Coq Require Import Sorted.
From Verif Require Import Base Codec Persister_Model Persister_Spec Persister_Proofs Stream_Proofs Replicator_Model Replicator_Spec Replicator_Proofs Replicator_Proofs2 Flip_Model Flip_Spec Flip_Proofs.
Local Open Scope list_scope.

Section Flip.
Context {E : Type}.
Variable W : wire E.
Hypothesis HW : wire_ok W.
Notation C := (w_codec W).
Variable rm : bool.

(** What MasterFlipRequest() does under the mutex, unless the controller follows someone. *)
Lemma locked_cases now (c : ctl E) rq : (c_role c = Following -> c_exposed c = None) -> forall c' r, locked W now c rq UpRefused = (c', r) ->
  c_store c' = c_store c /\ (c_exposed c = None -> c_exposed c' = None) /\
  ((c_role c' = c_role c /\ exists k, r = Some (Refused k)) \/
   (c_role c = Master /\ c_role c' = Held /\ exists x b, c_exposed c = Some x /\ r = Some (Diff b) /\ rq_key rq = Some (x_key x) /\ validate W (c_store c) (x_restr x) (next_index rq) (or_zero (rq_head rq)) = Diff b)).
Proof.
  intros Hf c' r H. unfold locked in H. destruct (c_exposed c) as [x|] eqn:Ex; [|injection H as <- <-; repeat split; auto; left; eauto].
  destruct (c_role c) eqn:Er; [|injection H as <- <-; repeat split; auto; try discriminate; left; eauto|discriminate (Hf eq_refl)].
  destruct (Z.ltb now (x_block x)); [injection H as <- <-; repeat split; auto; try discriminate; left; eauto|].
  destruct (_ && _)%bool; [injection H as <- <-; repeat split; auto; try discriminate; left; eauto|].
  destruct (rq_key rq) as [k|]; [|injection H as <- <-; repeat split; cbn; auto; try discriminate; left; eauto].
  destruct (N.eqb_spec k (x_key x)) as [Hk|]; [subst k|injection H as <- <-; repeat split; cbn; auto; try discriminate; left; eauto].
  destruct (validate W _ _ _ _) eqn:Ev; injection H as <- <-; (split; [reflexivity|]); (split; [discriminate|]); [left; eauto|right].
  repeat split; auto. exists x, body. auto.
Qed.

Lemma pass_line_inv (m f : mp E) from l : mp_inv m -> mp_inv f -> prefix_of f m -> genuine W m l \/ garbage W l ->
  let f' := r_store (fst (pass_entry W rm {| r_store := f; r_next := mp_size f; r_from := from |} l)) in mp_inv f' /\ prefix_of f' m /\ grows f f'.
Proof.
  intros Hm Hf Hp Hl. cbn zeta. set (s := {| r_store := f; r_next := mp_size f; r_from := from |}).
  assert (Hr : rinv m s) by (split; auto). pose proof (rinv_line W HW rm m s l Hr Hl) as Hr'.
  assert (mp_inv (r_store (fst (pass_entry W rm s l))) /\ grows f (r_store (fst (pass_entry W rm s l)))); [|split; [tauto|split; [apply (ri_prefix _ _ Hr')|tauto]]].
  destruct Hl as [[(i & t & e & Hn & ->)|(t & Ht & H0 & ->)]|G].
  - pose proof (at_nonneg _ _ _ _ Hm Hn) as Ht. destruct (pass_entry_line W HW rm s i t e) as [[x Hx]|(Hi & Hlt & Hx)]; [lia|reflexivity| |]; rewrite Hx in Hr' |- *; cbn [fst r_store s] in *; [split; [exact Hf|apply grows_refl]|].
    split.
    + now apply mp_inv_append.
    + exists [(t, e)]. cbn. split; [reflexivity|]. split; [repeat constructor; exact Hlt|lia].
  - destruct (pass_head_line W HW rm s t H0) as [[x Hx]|(Hlt & Hx)]; rewrite Hx in Hr' |- *; cbn [fst r_store s] in *; [split; [exact Hf|apply grows_refl]|].
    split.
    + destruct Hf as [S1 S2 S3 S4]. split; cbn [mp_entries mp_head]; auto; [|lia]. eapply Forall_impl; [|exact S3]; cbn; intros; lia.
    + exists []. cbn. rewrite app_nil_r. split; [reflexivity|]. split; [constructor|lia].
  - destruct (pass_garbage W rm s l G) as [x ->]. cbn. split; [exact Hf|apply grows_refl].
Qed.
(** The records of one which is behind change nothing. *)
Lemma pass_line_behind (m f : mp E) from l : mp_inv m -> mp_inv f -> prefix_of f m -> genuine W f l \/ garbage W l ->
  r_store (fst (pass_entry W rm {| r_store := m; r_next := mp_size m; r_from := from |} l)) = m.
Proof.
  intros Hm Hf [[rest Hp] Hh] Hl. set (s := {| r_store := m; r_next := mp_size m; r_from := from |}). destruct Hl as [[(i & t & e & Hn & ->)|(t & Ht & H0 & ->)]|G].
  - pose proof (at_nonneg _ _ _ _ Hf Hn) as Ht. destruct (pass_entry_line W HW rm s i t e) as [[x Hx]|(Hi & Hlt & Hx)]; [lia|reflexivity|now rewrite Hx|]. cbn in Hlt. lia.
  - destruct (pass_head_line W HW rm s t H0) as [[x Hx]|(Hlt & Hx)]; [now rewrite Hx|]. cbn in Hlt. lia.
  - destruct (pass_garbage W rm s l G) as [x ->]. reflexivity.
Qed.
Lemma prefix_refl (m : mp E) : prefix_of m m.
Proof. split; [exists []; now rewrite app_nil_r|lia]. Qed.
Lemma prefix_trans (a b c : mp E) : prefix_of a b -> prefix_of b c -> prefix_of a c.
Proof. intros [[r H1] H2] [[q H3] H4]. split; [exists (r ++ q); rewrite H3, H1; now rewrite app_assoc|lia]. Qed.
Lemma grows_prefix (a b : mp E) : grows a b -> prefix_of a b.
Proof. intros (r & H1 & _ & H2). split; eauto. Qed.
Lemma facts_prefix_grows (f m : mp E) : prefix_of f m -> mp_inv f -> forall next, facts m (mp_head f) next -> next = mp_size f -> grows f m.
Proof.
  intros [[rest Hr] Hh] Hf next (F1 & F2 & F3) ->. exists rest. split; [exact Hr|]. split; [|exact Hh]. apply Forall_forall. intros [t e] Hin. apply In_nth_error in Hin as [j Hj]. cbn.
  destruct (Z.lt_ge_cases (mp_head f) t) as [|Hge]; [assumption|]. exfalso.
  assert (Hn : nth_error (mp_entries m) (length (mp_entries f) + j) = Some (t, e)) by (rewrite Hr, nth_error_app2 by lia; replace (length (mp_entries f) + j - length (mp_entries f)) with j by lia; exact Hj).
  apply (F3 _ _ _ Hn) in Hge. unfold mp_size in Hge. lia.
Qed.
End Flip.
