(** Proofs about the flip: what the checks mean, and what the diff does. *)
From Coq Require Import Sorted.
From Verif Require Import Base Codec Persister_Model Persister_Spec Persister_Proofs Stream_Proofs Replicator_Model Replicator_Spec Replicator_Proofs Replicator_Proofs2 Flip_Model Flip_Spec.
Local Open Scope list_scope.

Section Flip.
Context {E : Type}.
Variable W : wire E.
Hypothesis HW : wire_ok W.
Notation C := (w_codec W).

Definition grows (m m' : mp E) : Prop := exists rest, mp_entries m' = mp_entries m ++ rest /\ Forall (fun x => mp_head m < fst x)%Z rest /\ (mp_head m <= mp_head m')%Z.
Lemma grows_refl m : grows m m.
Proof. exists []. rewrite app_nil_r. repeat split; [constructor|lia]. Qed.
Lemma grows_step m o : grows m (fst (mp_step C m o)).
Proof. destruct (mp_step_grow C m o) as (x & H1 & H2 & H3). exists x. auto. Qed.

(** What the checks of a request establish. *)
Definition facts (m : mp E) (h : Z) (next : N) : Prop :=
  (h <= mp_head m)%Z /\ (next <= mp_size m)%N /\ forall j t e, nth_error (mp_entries m) j = Some (t, e) -> ((t <= h)%Z <-> j < N.to_nat next).
Lemma facts_grows m m' h next : facts m h next -> grows m m' -> facts m' h next.
Proof.
  intros (H1 & H2 & H3) (rest & G1 & G2 & G3). split; [lia|]. split; [unfold mp_size in *; rewrite G1, app_length; lia|]. intros j t e Hj. rewrite G1 in Hj.
  destruct (Nat.lt_ge_cases j (length (mp_entries m))) as [Hlt|Hge]; [rewrite nth_error_app1 in Hj by exact Hlt; now apply (H3 j t e)|].
  rewrite nth_error_app2 in Hj by exact Hge. apply nth_error_In in Hj. rewrite Forall_forall in G2. specialize (G2 _ Hj). cbn in G2. unfold mp_size in H2. split; lia.
Qed.

Lemma head_and_last m : mp_head_and_last (E:=E) m = (mp_head m, match rev (mp_entries m) with [] => None | x :: _ => Some ((mp_size m - 1)%N, fst x) end).
Proof.
  unfold mp_head_and_last. destruct (list_snoc_cases (mp_entries m)) as [Hn|(l & [t e] & Hl)].
  - rewrite Hn. reflexivity.
  - rewrite Hl, rev_app_distr, app_length. cbn [rev app length fst]. replace (pred (length l + 1)) with (length l) by lia. rewrite nth_error_app2, Nat.sub_diag by lia. cbn [nth_error].
    unfold mp_size. rewrite Hl, app_length. cbn [length]. reflexivity.
Qed.

Lemma precheck_facts m rq h : mp_inv m -> (mp_size m < npos)%N -> precheck m rq = None -> rq_head rq = Some h -> facts m h (next_index rq).
Proof.
  intros Hm Hsz H Hh. unfold precheck in H. destruct (rq_get rq); cbn [negb] in H; [|discriminate]. rewrite Hh in H. destruct (rq_key rq) as [k|]; [|discriminate]. rewrite head_and_last in H. cbn [fst snd] in H.
  destruct (Z.ltb_spec (mp_head m) h) as [|Hle]; [discriminate|]. destruct (rev (mp_entries m)) as [|[tl el] rl] eqn:Er.
  - assert (mp_entries m = []) as En by (rewrite <- (rev_involutive (mp_entries m)), Er; reflexivity). destruct (rq_i rq) eqn:Ei; [discriminate|]. unfold next_index. rewrite Ei. split; [exact Hle|]. split; [lia|].
    intros j t e Hj. rewrite En in Hj. destruct j; discriminate.
  - cbn [fst snd] in H. match type of H with (if ?c then _ else _) = _ => destruct c; [discriminate|] end. destruct (N.eqb_spec (N.min (fst (mp_index_range m (h + 1) 0)) (mp_size m - 1 + 1)) (next_index rq)) as [Heq|]; [|discriminate].
    assert (0 < mp_size m)%N as Hpos. { unfold mp_size. apply (f_equal (@length _)) in Er. rewrite rev_length in Er. cbn in Er. lia. }
    split; [exact Hle|]. split; [lia|]. intros j t e Hj.
    assert (Hd : forall i u x, nth_error (mp_entries m) i = Some (u, x) -> mp_deref m (N.of_nat i) = Some ((N.of_nat i, u), x)) by (intros i u x Hi; unfold mp_deref; now rewrite Nat2N.id, Hi).
    assert (Hjs : j < length (mp_entries m)) by (apply nth_error_Some; congruence). assert (N.of_nat j < mp_size m)%N as Hjs' by (unfold mp_size; lia).
    destruct (mp_index_range_spec m (h + 1) 0 Hm Hsz) as [[[A B]|(u & x & A & B & D)] _].
    + pose proof (B _ _ _ (Hd _ _ _ Hj)). rewrite A in Heq. split; lia.
    + set (k0 := fst (mp_index_range m (h + 1) 0)) in *. unfold mp_deref in A. destruct (nth_error (mp_entries m) (N.to_nat k0)) as [[u' x']|] eqn:Ek; [|discriminate]. injection A as -> ->.
      assert (Hks : N.to_nat k0 < length (mp_entries m)) by (apply nth_error_Some; congruence). assert (next_index rq = k0) as -> by (unfold mp_size in *; lia). split; intros Hlt.
      * destruct (Nat.lt_ge_cases j (N.to_nat k0)) as [|Hge]; [assumption|]. exfalso. assert (u <= t)%Z; [|lia].
        destruct (Nat.eq_dec j (N.to_nat k0)) as [->|Hne]; [rewrite Hj in Ek; injection Ek as -> ->; lia|].
        assert (u < t)%Z; [|lia]. apply (SS_nth (map fst (mp_entries m)) (inv_sorted _ Hm) (N.to_nat k0) j); [lia|now rewrite nth_error_map, Ek|now rewrite nth_error_map, Hj].
      * pose proof (D _ _ _ (Hd _ _ _ Hj)). lia.
Qed.

(** The diff consists of the records of the missing entries, and of the head's. *)
Definition lines_from (i : N) (l : list (Z * E)) : list bytes := map (fun x : idxts * E => entry_line W (fst (fst x)) (snd (fst x)) (snd x)) (numbered_from i l).
Lemma diff_loop_ok max l : forall acc i body, diff_loop W max acc i l = Some body -> body = acc ++ flat_map (fun x => x ++ [NL]) (lines_from i l).
Proof.
  induction l as [|[t e] l IH]; intros acc i body H; cbn [diff_loop] in H; [injection H as <-; cbn; now rewrite app_nil_r|].
  destruct (_ && _)%bool; [discriminate|]. apply IH in H. rewrite H. unfold lines_from. cbn [numbered_from map flat_map fst snd]. unfold entry_line. rewrite <- !app_assoc. reflexivity.
Qed.
Lemma diff_loop_all l : forall acc i, diff_loop W 0 acc i l = Some (acc ++ flat_map (fun x => x ++ [NL]) (lines_from i l)).
Proof.
  induction l as [|[t e] l IH]; intros acc i; cbn [diff_loop]; [cbn; now rewrite app_nil_r|]. change (negb (N.eqb 0 0)) with false. cbn [andb]. rewrite IH.
  unfold lines_from. cbn [numbered_from map flat_map fst snd]. unfold entry_line. rewrite <- !app_assoc. reflexivity.
Qed.

Lemma entry_line_clean i t e : entry_line W i t e <> [] /\ Forall (fun b => ~ EOL b) (entry_line W i t e).
Proof.
  unfold entry_line. split; [destruct (wk_nonempty W HW) as (N1 & _); intros Hn; apply app_eq_nil in Hn as [Hn _]; exact (N1 _ Hn)|].
  apply Forall_app. split; [|constructor].
  - apply Forall_forall. intros b Hb He. destruct (wk_plain W HW b (or_intror He)) as (P & _). exact (P _ Hb).
  - intros [H|H]; discriminate.
  - apply Forall_forall. intros b Hb He. destruct (wk_plain W HW b (or_intror He)) as (_ & _ & P). exact (P _ Hb).
Qed.
Lemma head_line_clean t : head_line W t <> [] /\ Forall (fun b => ~ EOL b) (head_line W t).
Proof.
  split; [apply (wk_nonempty W HW)|]. apply Forall_forall. intros b Hb He. destruct (wk_plain W HW b (or_intror He)) as (_ & P & _). exact (P _ Hb).
Qed.
Lemma Records_lines ls : Forall (fun l => l <> [] /\ Forall (fun b => ~ EOL b) l) ls -> Records (flat_map (fun x => x ++ [NL]) ls) ls [].
Proof.
  induction 1 as [|l ls [H1 H2] _ IH]; cbn; [apply Rec_end; constructor|]. rewrite <- app_assoc. cbn. apply Rec_line; auto. now left.
Qed.

(** Receiving the diff makes the follower's data those of the master. *)
Lemma flip_ok rm m f r body rq : mp_inv m -> mp_inv f -> prefix_of f m -> rq_i rq = option_map fst (snd (mp_head_and_last f)) -> facts m (mp_head f) (next_index rq) ->
  validate W m r (next_index rq) (mp_head f) = Diff body -> receive W rm f body = (m, None).
Proof.
  intros Hm Hf Hp Hi (F1 & F2 & F3) Hv. destruct Hp as [[rest Hr] Hh].
  assert (Hnext : next_index rq = mp_size f).
  { unfold next_index in *. rewrite Hi in *. rewrite head_and_last in *. cbn [snd fst] in *. destruct (rev (mp_entries f)) as [|[tl el] rl] eqn:Er; cbn [option_map fst] in *.
    - assert (mp_entries f = []) as En by (rewrite <- (rev_involutive (mp_entries f)), Er; reflexivity). unfold mp_size. now rewrite En.
    - assert (mp_entries f = rev rl ++ [(tl, el)]) as En by (rewrite <- (rev_involutive (mp_entries f)), Er; reflexivity).
      assert (Hl : length (mp_entries f) = S (length rl)) by (rewrite En, app_length, rev_length; cbn; lia).
      assert (0 < mp_size f)%N as Hpos by (unfold mp_size; lia). replace (mp_size f - 1 + 1)%N with (mp_size f) in * by lia.
      assert (Hin : nth_error (mp_entries m) (length rl) = Some (tl, el)). { rewrite Hr, En, <- app_assoc, nth_error_app2 by (rewrite rev_length; lia). rewrite rev_length, Nat.sub_diag. reflexivity. }
      assert (tl <= mp_head f)%Z as Htl. { pose proof (inv_head _ Hf) as H. rewrite Forall_forall in H. apply (H (tl, el)). rewrite En. apply in_or_app. right. now left. }
      apply (F3 _ _ _ Hin) in Htl. pose proof (N.mod_le (mp_size f) (2 ^ 64) ltac:(discriminate)) as Hmod. unfold mp_size in *. lia. }
  rewrite Hnext in *. unfold validate in Hv. rewrite head_and_last in Hv. cbn [fst snd] in Hv.
  destruct (_ && _ && _)%bool; [discriminate|]. destruct (_ && _)%bool; [discriminate|]. destruct (diff_loop _ _ _ _ _) as [b0|] eqn:Ed; [|discriminate]. injection Hv as <-.
  apply diff_loop_ok in Ed. cbn [app] in Ed.
  assert (Hskip : skipn (N.to_nat (mp_size f)) (mp_entries m) = rest). { rewrite Hr. unfold mp_size. rewrite Nat2N.id, skipn_app, Nat.sub_diag. rewrite skipn_all. reflexivity. }
  rewrite Hskip in Ed. subst b0.
  set (hd := if (Z.ltb (mp_head f) (mp_head m) && match match rev (mp_entries m) with [] => None | x :: _ => Some ((mp_size m - 1)%N, fst x) end with None => true | Some last => Z.ltb (snd last) (mp_head m) end)%bool then [head_line W (mp_head m)] else []).
  assert (Hbody : flat_map (fun x => x ++ [NL]) (lines_from (mp_size f) rest) ++ (if (Z.ltb (mp_head f) (mp_head m) && match match rev (mp_entries m) with [] => None | x :: _ => Some ((mp_size m - 1)%N, fst x) end with None => true | Some last => Z.ltb (snd last) (mp_head m) end)%bool then ser_ts W (mp_head m) ++ [NL] else [])
     = flat_map (fun x => x ++ [NL]) (lines_from (mp_size f) rest ++ hd)).
  { rewrite flat_map_app. f_equal. unfold hd. destruct (_ && _)%bool; cbn; [|reflexivity]. unfold head_line. now rewrite app_nil_r. }
  rewrite Hbody.
  assert (Hrec : Records (flat_map (fun x => x ++ [NL]) (lines_from (mp_size f) rest ++ hd)) (lines_from (mp_size f) rest ++ hd) []).
  { apply Records_lines. apply Forall_app. split.
    - unfold lines_from. rewrite Forall_map. apply Forall_forall. intros [[i t] e] _. apply entry_line_clean.
    - unfold hd. destruct (_ && _)%bool; constructor; [apply head_line_clean|constructor]. }
  unfold receive. set (start := match snd (mp_head_and_last f) with Some last => _ | None => _ end).
  assert (start = mp_size f) as ->.
  { unfold start. rewrite head_and_last. cbn [snd]. destruct (rev (mp_entries f)) as [|[tl el] rl] eqn:Er; cbn [fst].
    - assert (mp_entries f = []) as En by (rewrite <- (rev_involutive (mp_entries f)), Er; reflexivity). unfold mp_size. now rewrite En.
    - apply (f_equal (@length _)) in Er. rewrite rev_length in Er. cbn in Er. unfold mp_size. lia. }
  set (s0 := {| r_store := f; r_next := mp_size f; r_from := 0 |}).
  assert (Hstep : in_step m s0).
  { split; [split; [exact Hm|split; [exists rest; exact Hr|exact Hh]|reflexivity]| |].
    - cbn. intros j t e Hj Hl. destruct (Z.lt_ge_cases (mp_head f) t) as [|Hge]; [assumption|]. apply (F3 _ _ _ Hj) in Hge. unfold mp_size in Hge. lia.
    - cbn. pose proof (inv_headm1 _ Hf). lia. }
  destruct (catch_up W HW rm m s0 [] rest) as (s1 & C1 & C2 & C3 & C4 & C5); [cbn; now rewrite app_nil_r|exact Hstep|]. cbn [s0 r_store] in C1, C3, C4.
  assert (Hents : mp_entries (r_store s1) = mp_entries m) by (rewrite C3; now rewrite Hr).
  destruct (pass_chunk_ok (pass_entry W rm) [] s0 (flat_map (fun x => x ++ [NL]) (lines_from (mp_size f) rest ++ hd)) _ [] ltac:(constructor) Hrec) as (A1 & A2 & A3).
  assert (Hover : exists s2, hand_over (pass_entry W rm) s0 (lines_from (mp_size f) rest ++ hd) = (s2, None) /\ r_store s2 = m).
  { rewrite hand_over_app. unfold lines_from. rewrite C1. unfold hd.
    destruct (Z.ltb_spec (mp_head f) (mp_head m)) as [Hlt|Hge]; cbn [andb].
    - destruct (rev rest) as [|[tl el] rl] eqn:Err.
      + assert (rest = []) as -> by (rewrite <- (rev_involutive rest), Err; reflexivity). rewrite app_nil_r in Hr.
        assert (Hcond : match match rev (mp_entries m) with [] => None | x :: _ => Some ((mp_size m - 1)%N, fst x) end with None => true | Some last => Z.ltb (snd last) (mp_head m) end = true).
        { rewrite Hr. destruct (rev (mp_entries f)) as [|[tl el] rl] eqn:Er; [reflexivity|]. cbn. apply Z.ltb_lt. assert (tl <= mp_head f)%Z; [|lia].
          pose proof (inv_head _ Hf) as H. rewrite Forall_forall in H. apply (H (tl, el)). apply in_rev. rewrite Er. now left. }
        rewrite Hcond. cbn [hand_over]. destruct (pass_head_ok W HW rm m s1 (mp_head m) C2) as [Hpe Hst].
        * rewrite C4. lia.
        * pose proof (inv_headm1 _ Hf). lia.
        * intros j t e Hj Hl. exfalso. rewrite Hents in Hl. assert (j < length (mp_entries m)) by (apply nth_error_Some; congruence). lia.
        * rewrite Hpe. eexists. split; [reflexivity|]. cbn. rewrite Hents. now destruct m.
      + assert (rev (mp_entries m) = (tl, el) :: rl ++ rev (mp_entries f)) as Erm by (rewrite Hr, rev_app_distr, Err; reflexivity). rewrite Erm. cbn [fst snd] in *.
        destruct (Z.ltb_spec tl (mp_head m)) as [Hlt2|Hge2].
        * cbn [hand_over]. destruct (pass_head_ok W HW rm m s1 (mp_head m) C2) as [Hpe Hst].
          -- rewrite C4. lia.
          -- pose proof (inv_headm1 _ Hf). lia.
          -- intros j t e Hj Hl. exfalso. rewrite Hents in Hl. assert (j < length (mp_entries m)) by (apply nth_error_Some; congruence). lia.
          -- rewrite Hpe. eexists. split; [reflexivity|]. cbn. rewrite Hents. now destruct m.
        * cbn [hand_over]. eexists. split; [reflexivity|]. assert (mp_head (r_store s1) = mp_head m). { rewrite C4. assert (tl <= mp_head m)%Z; [|lia]. pose proof (inv_head _ Hm) as H. rewrite Forall_forall in H. apply (H (tl, el)). apply in_rev. rewrite Erm. now left. }
          destruct (r_store s1), m; cbn in *; congruence.
    - assert (mp_head f = mp_head m) as Heq by lia. cbn [hand_over]. eexists. split; [reflexivity|].
      assert (rest = []) as Hre. { destruct rest as [|[t e] rest']; [reflexivity|]. exfalso. assert (Hj : nth_error (mp_entries m) (length (mp_entries f)) = Some (t, e)) by (rewrite Hr, nth_error_app2, Nat.sub_diag by lia; reflexivity).
        pose proof (is_before _ _ Hstep _ _ _ Hj ltac:(cbn; lia)) as Hb. cbn in Hb. pose proof (at_nonneg m _ _ _ Hm Hj). lia. }
      rewrite Hre in C4. cbn in C4. destruct (r_store s1), m; cbn in *; congruence. }
  destruct Hover as (s2 & Ho & Hs2). rewrite Ho in A1, A2. destruct (pass_chunk (pass_entry W rm) [] s0 _) as [[f' c'] x']. cbn in A1, A2. subst f' x'. now rewrite Hs2.
Qed.
End Flip.
