(** What is sent, and when. *)
From Verif Require Import Base Codec Persister_Model Persister_Spec Persister_Proofs Stream_Proofs Replicator_Model Replicator_Spec Replicator_Proofs Replicator_Proofs2 Flip_Model Flip_Spec Flip_Proofs Flip_Proofs2 Flip_Proofs3.
Local Open Scope list_scope.

Section Flip.
Context {E : Type}.
Variable W : wire E.
Notation C := (w_codec W).

Lemma missing_lines_from m n : missing W m n = flat_map (fun x => x ++ [NL]) (lines_from W n (skipn (N.to_nat n) (mp_entries m))).
Proof. unfold missing, lines_from. rewrite flat_map_concat_map, map_map. reflexivity. Qed.
Lemma diff_loop_iff max l : forall acc i body, diff_loop W max acc i l = Some body <->
  body = acc ++ flat_map (fun x => x ++ [NL]) (lines_from W i l) /\ (max = 0%N \/ l = [] \/ (N.of_nat (length (acc ++ flat_map (fun x => x ++ [NL]) (lines_from W i l))) <= max)%N).
Proof.
  induction l as [|[t e] l IH]; intros acc i body; cbn [diff_loop].
  - cbn. rewrite app_nil_r. split; [intros H; injection H as <-; auto|intros [-> _]; reflexivity].
  - set (line := ser_idx C (i, t) ++ [TAB] ++ ser C e ++ [NL]).
    assert (Hl : acc ++ flat_map (fun x => x ++ [NL]) (lines_from W i ((t, e) :: l)) = (acc ++ line) ++ flat_map (fun x => x ++ [NL]) (lines_from W (i + 1) l)).
    { unfold lines_from, line. cbn [numbered_from map flat_map fst snd]. unfold entry_line. rewrite <- !app_assoc. reflexivity. }
    rewrite Hl. destruct (negb (N.eqb max 0) && N.ltb max (N.of_nat (length (acc ++ line))))%bool eqn:Hc.
    + apply andb_prop in Hc as [Hc1 Hc2]. rewrite negb_true_iff in Hc1. apply N.eqb_neq in Hc1. apply N.ltb_lt in Hc2. split; [discriminate|]. intros [_ [|[|H]]]; [contradiction|discriminate|]. rewrite app_length in H. lia.
    + rewrite IH. apply andb_false_iff in Hc. split; intros [-> H]; split; auto.
      * destruct H as [|[->|]]; auto. destruct Hc as [Hc|Hc]; [left; now apply N.eqb_eq, negb_false_iff|right; right]. apply N.ltb_ge in Hc. cbn [flat_map lines_from numbered_from map]. now rewrite app_nil_r.
      * destruct H as [|[|]]; auto; discriminate.
Qed.
Lemma last_time_eq (m : mp E) : last_time m = match rev (mp_entries m) with [] => None | x :: _ => Some (fst x) end.
Proof. unfold last_time. now destruct (rev (mp_entries m)). Qed.
Lemma validate_iff m r n h b : (n <= mp_size m)%N -> validate W m r n h = Diff b <-> within W r m n h /\ b = the_diff W m n h.
Proof.
  intros Hn. unfold validate, within, the_diff. rewrite head_and_last, last_time_eq, missing_lines_from. cbn [fst snd].
  set (A := (negb (N.eqb (max_index_diff r) 0) && negb (N.eqb n 0) && _)%bool).
  assert (HA : A = false <-> max_index_diff r = 0%N \/ n = 0%N \/ (mp_size m - n <= max_index_diff r)%N).
  { unfold A. destruct (N.eqb_spec (max_index_diff r) 0); cbn [negb andb]; [tauto|]. destruct (N.eqb_spec n 0); cbn [negb andb]; [tauto|]. destruct (rev (mp_entries m)) as [|y l] eqn:Er.
    - apply (f_equal (@length _)) in Er. rewrite rev_length in Er. cbn in Er. unfold mp_size in *. rewrite Er in *. split; [lia|reflexivity].
    - apply (f_equal (@length _)) in Er. rewrite rev_length in Er. cbn in Er. cbn [fst]. rewrite N.leb_gt. unfold mp_size in *. lia. }
  destruct A; [split; [discriminate|]; intros [[H _] _]; apply HA in H; discriminate|].
  destruct (Z.ltb 0 (max_head_diff r) && Z.ltb (h + max_head_diff r) (mp_head m))%bool eqn:HB; [split; [discriminate|]; intros [[_ [H _]] _]; lia|].
  assert (HS : skipn (N.to_nat n) (mp_entries m) = [] <-> n = mp_size m).
  { unfold mp_size in *. split; intros H; [apply (f_equal (@length _)) in H; rewrite skipn_length in H; cbn in H; lia|]. apply skipn_all2. lia. }
  destruct (diff_loop W (max_diff_size r) [] n _) as [b0|] eqn:Ed.
  - apply diff_loop_iff in Ed as [-> Hd]. cbn [app] in *. rewrite HS in Hd.
    replace (ended (head_line W (mp_head m))) with (ser_ts W (mp_head m) ++ [NL]) by reflexivity.
    replace (match match rev (mp_entries m) with [] => None | x :: _ => Some (fst x) end with Some t => Z.ltb t (mp_head m) | None => true end)
      with (match match rev (mp_entries m) with [] => None | x :: _ => Some ((mp_size m - 1)%N, fst x) end with Some last => Z.ltb (snd last) (mp_head m) | None => true end) by (now destruct (rev (mp_entries m))).
    split; [intros H; injection H as <-|intros [_ ->]; reflexivity]. split; [|reflexivity]. split; [now apply HA|]. split; [lia|exact Hd].
  - split; [discriminate|]. intros [[_ [_ Hd]] _]. rewrite <- HS in Hd. change (flat_map (fun x => x ++ [NL]) (lines_from W n (skipn (N.to_nat n) (mp_entries m)))) with ([] ++ flat_map (fun x => x ++ [NL]) (lines_from W n (skipn (N.to_nat n) (mp_entries m)))) in Hd.
    assert (diff_loop W (max_diff_size r) [] n (skipn (N.to_nat n) (mp_entries m)) = Some ([] ++ flat_map (fun x => x ++ [NL]) (lines_from W n (skipn (N.to_nat n) (mp_entries m))))) as E0 by (apply diff_loop_iff; split; [reflexivity|exact Hd]). congruence.
Qed.

(** An honest follower passes the first checks. *)
Lemma in_time_facts (m f : mp E) : mp_inv m -> mp_inv f -> prefix_of f m -> in_time m f -> facts m (mp_head f) (mp_size f).
Proof.
  intros Hm Hf [[rest Hr] Hh] Ht. split; [exact Hh|]. assert (Hsz : (mp_size f <= mp_size m)%N) by (unfold mp_size; rewrite Hr, app_length; lia). split; [exact Hsz|].
  intros j t e Hj. destruct (Nat.lt_ge_cases j (N.to_nat (mp_size f))) as [Hlt|Hge].
  - split; [intros _; exact Hlt|intros _]. assert (Hf' : nth_error (mp_entries f) j = Some (t, e)). { rewrite Hr, nth_error_app1 in Hj; [exact Hj|]. unfold mp_size in Hlt. lia. }
    pose proof (at_nonneg _ _ _ _ Hf Hf'). lia.
  - pose proof (Ht _ _ _ Hj ltac:(lia)). split; lia.
Qed.
Lemma precheck_ok (m f : mp E) key clock checked : mp_inv m -> (mp_size m < npos)%N -> mp_inv f -> prefix_of f m -> facts m (mp_head f) (mp_size f) ->
  precheck m (flip_request f key clock checked) = None.
Proof.
  intros Hm Hsz Hf Hp (F1 & F2 & F3). pose proof Hp as [[rest Hr] Hh]. assert (Hfs : (mp_size f < npos)%N) by lia. unfold precheck. rewrite request_next by exact Hfs. rewrite head_and_last. cbn [flip_request rq_get rq_head rq_key rq_i negb fst snd].
  destruct (Z.ltb_spec (mp_head m) (mp_head f)); [lia|]. rewrite head_and_last. cbn [snd]. destruct (rev (mp_entries m)) as [|[tl el] rl] eqn:Er.
  - assert (mp_entries m = []) as En by (rewrite <- (rev_involutive (mp_entries m)), Er; reflexivity). rewrite En in Hr. symmetry in Hr. apply app_eq_nil in Hr as [-> _]. reflexivity.
  - assert (0 < mp_size m)%N as Hpos. { unfold mp_size. apply (f_equal (@length _)) in Er. rewrite rev_length in Er. cbn in Er. lia. }
    cbn [fst]. replace (mp_size m - 1 + 1)%N with (mp_size m) by lia.
    match goal with |- (if ?c then _ else _) = _ => assert (c = false) as -> end.
    { destruct (rev (mp_entries f)) as [|y l]; cbn [option_map]; [reflexivity|]. apply N.ltb_ge. exact F2. }
    assert (N.min (fst (mp_index_range m (mp_head f + 1) 0)) (mp_size m) = mp_size f) as ->; [|now rewrite N.eqb_refl].
    assert (Hd : forall i u x, nth_error (mp_entries m) i = Some (u, x) -> mp_deref m (N.of_nat i) = Some ((N.of_nat i, u), x)) by (intros i u x Hi; unfold mp_deref; now rewrite Nat2N.id, Hi).
    assert (Hnth : (mp_size f < mp_size m)%N -> exists u x, nth_error (mp_entries m) (N.to_nat (mp_size f)) = Some (u, x)).
    { intros Hlt. destruct (nth_error (mp_entries m) (N.to_nat (mp_size f))) as [[u x]|] eqn:En; [eauto|]. apply nth_error_None in En. unfold mp_size in *. lia. }
    destruct (mp_index_range_spec m (mp_head f + 1) 0 Hm Hsz) as [[[A B]|(u & x & A & B & D)] _].
    + rewrite A. destruct (N.lt_ge_cases (mp_size f) (mp_size m)) as [Hlt|]; [|lia]. exfalso. destruct (Hnth Hlt) as (u & x & Hx). pose proof (B _ _ _ (Hd _ _ _ Hx)) as Hb.
      assert (u <= mp_head f)%Z as Hle by lia. apply (F3 _ _ _ Hx) in Hle. lia.
    + set (k0 := fst (mp_index_range m (mp_head f + 1) 0)) in *. unfold mp_deref in A. destruct (nth_error (mp_entries m) (N.to_nat k0)) as [[u' x']|] eqn:Ek; [|discriminate]. injection A as -> ->.
      assert (Hks : N.to_nat k0 < length (mp_entries m)) by (apply nth_error_Some; congruence). assert (~ (u <= mp_head f)%Z) as Hn by lia. rewrite (F3 _ _ _ Ek) in Hn.
      assert (k0 = mp_size f); [|unfold mp_size in *; lia]. destruct (N.lt_ge_cases (mp_size f) k0) as [Hlt|]; [|lia]. exfalso.
      destruct (Hnth ltac:(unfold mp_size in *; lia)) as (v & y & Hy). pose proof (D _ _ _ (Hd _ _ _ Hy) ltac:(lia)) as Hb. assert (v <= mp_head f)%Z as Hle by lia. apply (F3 _ _ _ Hy) in Hle. lia.
Qed.
End Flip.
