(** A file whose last line is cut: what can be read back (for C66). *)
From Verif Require Import Base Dec Codec Persister_Model Persister_Spec Persister_Proofs
  FilePersister_Model FilePersister_Spec FilePersister_Proofs FilePersister_Proofs2.

#[local] Arguments FilePersister_Model.replay_line : simpl never.

Section P.
Context {E : Type}.
Variable C : codec E.
Variable sig : bytes.
Hypothesis HC : codec_ok C.
Notation finv := (finv C sig).

Fixpoint weight (ls : list bytes) : nat := match ls with [] => 0 | l :: r => length l + 1 + weight r end.
Lemma weight_app a b : weight (a ++ b) = weight a + weight b.
Proof. induction a as [|x a IH]; cbn; [reflexivity|]. rewrite IH. lia. Qed.

Lemma it_scan_found i nxt pos ls it e pos' nxt' :
  it_scan C i nxt pos ls = Ok ((it, e), (pos', nxt')) ->
  exists ls1 l ls2 pre post t, ls = ls1 ++ l :: ls2 /\ pos' = (pos + N.of_nat (weight (ls1 ++ [l])))%N /\
    is_directive l = false /\ cut_at TAB l = Some (pre, post) /\ par_idx C pre = Some (i, t) /\ de C post = Some e.
Proof.
  revert nxt pos. induction ls as [|l ls IH]; intros nxt pos; [discriminate|]. cbn [it_scan].
  destruct (process_line C nxt l) as [v|[j t] pl|x] eqn:Hp; [| |discriminate].
  - intros H. destruct (IH _ _ H) as (ls1 & l0 & ls2 & pre & post & t & -> & -> & ? & ? & ? & ?).
    exists (l :: ls1), l0, ls2, pre, post, t. repeat split; auto. cbn [app weight]. lia.
  - destruct (N.eqb_spec j i) as [->|Hne].
    + destruct (de C pl) as [e0|] eqn:Hd; [|discriminate]. intros H. injection H as <- <- <- _.
      unfold process_line in Hp. destruct (is_directive l) eqn:Hdi; [discriminate|].
      destruct (cut_at TAB l) as [[pre post]|] eqn:Hc; [|discriminate].
      destruct (par_idx C pre) as [[i0 t0]|] eqn:Hpi; [|discriminate].
      destruct (negb _); [discriminate|]. destruct (Z.ltb _ _); [discriminate|]. injection Hp as -> -> ->.
      exists [], l, ls, pre, pl, t. repeat split; auto. cbn. lia.
    + destruct (N.ltb i j); [discriminate|]. intros H.
      destruct (IH _ _ H) as (ls1 & l0 & ls2 & pre & post & t0 & -> & -> & ? & ? & ? & ?).
      exists (l :: ls1), l0, ls2, pre, post, t0. repeat split; auto. cbn [app weight]. lia.
Qed.

Lemma lines_snoc x : x <> [] -> List.last x 0%N <> NL -> lines_of (x ++ [NL]) = lines_of x /\ weight (lines_of x) = length x + 1.
Proof.
  induction x as [|b x IH]; intros Hne Hl; [congruence|]. cbn [app lines_of]. destruct x as [|c x].
  - cbn in Hl |- *. destruct (N.eqb_spec b NL) as [->|Hb]; [congruence|]. cbn. auto.
  - destruct IH as [IH1 IH2]; [discriminate|exact Hl|]. rewrite IH1.
    destruct (N.eqb_spec b NL) as [->|Hb]; cbn [weight length] in *; [split; [reflexivity|lia]|].
    destruct (lines_of (c :: x)) as [|y ys] eqn:Hy; cbn [weight length] in *; [lia|]. split; [reflexivity|lia].
Qed.

Lemma last_app_ne (x y : bytes) d : y <> [] -> List.last (x ++ y) d = List.last y d.
Proof.
  intros Hy. induction x as [|a x IH]; [reflexivity|]. cbn [app]. rewrite <- IH.
  destruct (x ++ y) eqn:H; [|reflexivity]. apply app_eq_nil in H as [_ ?]. congruence.
Qed.
Lemma last_in (y : bytes) d : y <> [] -> In (List.last y d) y.
Proof.
  induction y as [|a y IH]; [congruence|]. intros _. destruct y as [|b y]; [now left|]. right. apply IH. discriminate.
Qed.

(** The state after opening the cut file differs from the one after the whole line has been appended by the newline only. *)
Definition torn (s : fp) (line : bytes) (t : Z) : fp :=
  {| fp_file := fp_file s ++ line; fp_pos := N.of_nat (length (fp_file s ++ line));
     fp_offs := fp_offs s ++ [fp_pos s]; fp_ts := fp_ts s ++ [t]; fp_headoff := 0;
     fp_next := (fp_next s + 1)%N; fp_last := t; fp_head := t |}.

Lemma open_torn s m ls t p :
  finv s m ls -> (fp_head s < t)%Z -> no_nl p ->
  fp_open C sig (fp_file s ++ ser_idx C (fp_next s, t) ++ [TAB] ++ p) = Ok (torn s (ser_idx C (fp_next s, t) ++ [TAB] ++ p) t).
Proof.
  intros H Ht Hk. pose proof (finv_head_ge _ _ _ _ _ H) as Hge.
  set (line := ser_idx C (fp_next s, t) ++ [TAB] ++ p).
  assert (Hnl : no_nl line).
  { unfold no_nl, line. rewrite !in_app_iff. intros [Hi|[Hi|Hi]].
    - now apply (ok_idx_nl C HC) in Hi.
    - cbn in Hi. destruct Hi as [Hi|[]]. discriminate.
    - exact (Hk Hi). }
  assert (Hc : cut_at TAB line = Some (ser_idx C (fp_next s, t), p)).
  { apply cut_at_app. apply (ok_idx_tab C HC). }
  assert (Hp : par_idx C (ser_idx C (fp_next s, t)) = Some (fp_next s, t)) by (apply (ok_idx C HC); cbn; lia).
  destruct (replay_entry_line C sig HC s m ls line _ _ t H Hc Hp Ht) as [Hd Hr].
  assert (Hlo : lines_of (fp_file s ++ line) = ls ++ lines_of line).
  { rewrite (f_file _ _ _ _ _ H). apply lines_of_unlines_app. apply H. }
  unfold fp_open. rewrite Hlo.
  rewrite lines_of_no_nl by exact Hnl. clearbody line.
  assert (Hne : line <> []) by (intros ->; discriminate).
  destruct line as [|b l] eqn:Hl; [congruence|]. rewrite replay_lines_app, (f_replay _ _ _ _ _ H).
  cbn [obind FilePersister_Model.replay_lines]. rewrite Hr. cbn [obind].
  cbn [rs_of append_entry r_off r_next r_head r_headoff r_offs r_ts fp_next fp_last fp_head fp_headoff fp_file fp_offs fp_ts fst snd].
  assert (Hz : N.eqb (N.of_nat (length (fp_file s ++ (b :: l) ++ [NL]))) 0 = false).
  { rewrite !app_length. cbn. lia. }
  rewrite Hz. unfold torn. do 2 f_equal. lia.
Qed.

Section Torn.
Variables (s : fp) (m : mp E) (ls : list bytes) (t : Z) (p : bytes).
Hypothesis H : finv s m ls.
Hypothesis Ht : (fp_head s < t)%Z.
Hypothesis Hp : no_nl p.
Let line := ser_idx C (fp_next s, t) ++ [TAB] ++ p.

Lemma line_nl : no_nl line.
Proof.
  unfold no_nl, line. rewrite !in_app_iff. intros [Hi|[Hi|Hi]].
  - now apply (ok_idx_nl C HC) in Hi.
  - cbn in Hi. destruct Hi as [Hi|[]]. discriminate.
  - exact (Hp Hi).
Qed.
Lemma line_ne : line <> [].
Proof. unfold line. intros Hx. apply app_eq_nil in Hx as [_ Hx]. discriminate. Qed.
Lemma line_cut : cut_at TAB line = Some (ser_idx C (fp_next s, t), p).
Proof. apply cut_at_app. apply (ok_idx_tab C HC). Qed.
Lemma line_par : par_idx C (ser_idx C (fp_next s, t)) = Some (fp_next s, t).
Proof. pose proof (finv_head_ge _ _ _ _ _ H). apply (ok_idx C HC). cbn. lia. Qed.

Lemma torn_lines pos : pos <= length (fp_file s) ->
  lines_of (skipn pos (fp_file (torn s line t))) = lines_of (skipn pos (fp_file (append_entry s line t))) /\
  weight (lines_of (skipn pos (fp_file (torn s line t)))) = length (fp_file s) + length line - pos + 1 .
Proof.
  intros Hpos. cbn [torn append_entry fp_file].
  rewrite (app_assoc (fp_file s) line [NL]). rewrite !skipn_app.
  replace (pos - length (fp_file s)) with 0 by lia. replace (pos - length (fp_file s ++ line)) with 0 by (rewrite app_length; lia).
  cbn [skipn].
  assert (Hl : List.last (skipn pos (fp_file s) ++ line) 0%N <> NL).
  { rewrite last_app_ne by apply line_ne. intros Hx. apply line_nl. rewrite <- Hx. apply last_in, line_ne. }
  destruct (lines_snoc (skipn pos (fp_file s) ++ line)) as [H1 H2].
  { intros Hx. apply app_eq_nil in Hx as [_ Hx]. now apply line_ne. }
  { exact Hl. }
  split; [now rewrite H1|]. rewrite H2, app_length, skipn_length; lia.
Qed.

(** Reading from the positions where lines begin. *)
Inductive boundary : nat -> Prop := at_line ls1 ls2 : ls = ls1 ++ ls2 -> boundary (length (unlines ls1)).
Lemma boundary_le pos : boundary pos -> pos <= length (fp_file s).
Proof. intros [ls1 ls2 Hls]. rewrite (f_file _ _ _ _ _ H), Hls, unlines_app, app_length. lia. Qed.
Lemma unlines_weight l : length (unlines l) = weight l.
Proof. induction l as [|x l IH]; [reflexivity|]. rewrite unlines_length_cons. cbn. lia. Qed.
Lemma boundary_lines pos : boundary pos -> exists ls1 ls2, ls = ls1 ++ ls2 /\ pos = weight ls1 /\
  lines_of (skipn pos (fp_file (torn s line t))) = ls2 ++ [line] /\ lines_of (skipn pos (fp_file (append_entry s line t))) = ls2 ++ [line].
Proof.
  intros Hb. destruct (torn_lines pos) as [Hq _]; [now apply boundary_le|]. destruct Hb as [ls1 ls2 Hls]. exists ls1, ls2.
  split; [exact Hls|]. split; [apply unlines_weight|]. rewrite <- Hq.
  assert (Hx : lines_of (skipn (length (unlines ls1)) (fp_file (torn s line t))) = ls2 ++ [line]); [|auto].
  cbn [torn fp_file]. rewrite (f_file _ _ _ _ _ H), Hls, unlines_app, <- app_assoc, skipn_app, skipn_all, Nat.sub_diag. cbn [skipn app].
  rewrite lines_of_unlines_app.
  - f_equal. rewrite lines_of_no_nl by apply line_nl. pose proof line_ne. now destruct line.
  - pose proof (f_nl _ _ _ _ _ H) as Hnl. rewrite Hls in Hnl. now apply Forall_app in Hnl.
Qed.

Lemma it_run_torn fuel : forall i pos nxt, boundary (N.to_nat pos) -> (i + N.of_nat fuel = fp_next s + 1)%N ->
  it_run C fuel (torn s line t) i pos nxt = it_run C fuel (append_entry s line t) i pos nxt /\
  (forall l, 0 < fuel -> it_run C fuel (torn s line t) i pos nxt = Ok l -> de C p <> None).
Proof.
  induction fuel as [|f IH]; intros i pos nxt Hb Hi; [split; [reflexivity|lia]|]. cbn [it_run].
  destruct (boundary_lines _ Hb) as (ls1 & ls2 & Hls & Hpos & -> & ->).
  destruct (it_scan C i nxt pos (ls2 ++ [line])) as [[[it e] [pos' nxt']]|x|] eqn:Hsc; cbn [obind]; [|split; [reflexivity|discriminate]..].
  cbn [fst snd].
  destruct (it_scan_found _ _ _ _ _ _ _ _ Hsc) as (q1 & l & q2 & pre & post & t0 & Hq & Hpos' & Hdir & Hcut & Hpar & Hde).
  destruct f as [|f].
  - split; [reflexivity|]. intros l0 _ _. cbn [N.of_nat] in Hi. assert (i = fp_next s) as -> by lia.
    destruct q2 as [|z q2] using rev_ind.
    + apply app_inj_tail in Hq as [_ <-]. rewrite line_cut in Hcut. injection Hcut as <- <-. congruence.
    + clear IHq2. exfalso. rewrite app_comm_cons, app_assoc in Hq. apply app_inj_tail in Hq as [Hq _].
      (* the index fp_next s does not occur in ls *)
      assert (Hin : In ((fp_next s, t0), de C post) (parsed C ls)).
      { rewrite Hls, parsed_app, Hq, parsed_app. apply in_app_iff. right. apply in_app_iff. right.
        unfold parsed. cbn [flat_map]. apply in_app_iff. left. unfold parsed1. rewrite Hdir, Hcut, Hpar. now left. }
      rewrite (f_ents _ _ _ _ _ H), in_map_iff in Hin. destruct Hin as ([[j u] v] & Hj & Hin).
      cbn in Hj. injection Hj as -> _ _.
      pose proof (finv_next _ _ _ _ _ H) as Hn. unfold mp_size in Hn.
      revert Hin. unfold numbered. rewrite Hn.
      assert (Hgen : forall (l : list (Z * E)) k, ~ In ((k + N.of_nat (length l))%N, u, v) (numbered_from k l)).
      { clear. induction l as [|[a b] l IH]; intros k; cbn [numbered_from length]; [easy|].
        intros [Hx|Hx]; [injection Hx; lia|]. apply (IH (k + 1)%N). now replace (k + 1 + N.of_nat (length l))%N with (k + N.of_nat (S (length l)))%N by lia. }
      apply (Hgen (mp_entries m) 0%N).
  - assert (Hb' : boundary (N.to_nat pos')).
    { destruct q2 as [|z q2] using rev_ind.
      - exfalso. apply app_inj_tail in Hq as [_ <-]. rewrite line_cut in Hcut. injection Hcut as <- <-. rewrite line_par in Hpar. injection Hpar as <- _. lia.
      - clear IHq2. rewrite app_comm_cons, app_assoc in Hq. apply app_inj_tail in Hq as [Hq _].
        replace (N.to_nat pos') with (length (unlines (ls1 ++ q1 ++ [l]))).
        + apply (at_line _ q2). rewrite Hls, Hq, <- !app_assoc. reflexivity.
        + rewrite unlines_weight, weight_app. lia. }
    destruct (IH (i + 1)%N pos' nxt' Hb' ltac:(lia)) as [IH1 IH2]. rewrite IH1. split; [reflexivity|].
    intros l0 _ Hok. rewrite <- IH1 in Hok.
    destruct (it_run C (S f) (torn s line t) (i + 1) pos' nxt') as [l1| |] eqn:Hr; try discriminate.
    apply (IH2 l1); [lia|reflexivity].
Qed.

Lemma first_entry_boundary : boundary (N.to_nat (nth 0 (fp_offs s ++ [fp_pos s]) 0%N)).
Proof.
  pose proof (finv_next _ _ _ _ _ H) as Hn. unfold mp_size in Hn.
  destruct (mp_entries m) as [|x0 xs] eqn:Hm.
  - assert (Hlen : fp_offs s = []).
    { pose proof (replay_facts C sig _ _ _ (f_replay _ _ _ _ _ H)) as Hf.
      pose proof (f_ents _ _ _ _ _ H) as He. rewrite Hm in He. cbn in He.
      destruct Hf as (_ & _ & _ & _ & Hof). cbn in Hof. unfold parsed in *. rewrite He in Hof. cbn in Hof. now destruct (fp_offs s). }
    rewrite Hlen. cbn [app nth]. rewrite (f_pos _ _ _ _ _ H), (f_file _ _ _ _ _ H), Nat2N.id. apply (at_line ls []). now rewrite app_nil_r.
  - assert (Hlen : length (parsed C ls) = S (length xs)).
    { rewrite (f_ents _ _ _ _ _ H), map_length, Hm. unfold numbered. now rewrite numbered_from_length. }
    destruct (replay_locate C sig _ _ _ (f_replay _ _ _ _ _ H) 0) as (p0 & q & rp & Hls & H1 & H2' & H3 & H4 & _); [fold (parsed C ls); lia|].
    cbn [rs_of r_offs rs_init length Nat.add] in H3.
    destruct (fp_offs s) as [|o os] eqn:Hoff; [discriminate|]. cbn in H3. injection H3 as ->. cbn [app nth].
    pose proof (replay_facts C sig _ _ _ H1) as (Ho & _). cbn in Ho. rewrite Ho, N.add_0_l, Nat2N.id. eapply at_line; eauto.
Qed.

Lemma torn_query : (fp_next s + 1 < npos)%N ->
  fp_query C (torn s line t) (QIterate 0 npos) = fp_query C (append_entry s line t) (QIterate 0 npos) /\
  (forall l, fp_query C (torn s line t) (QIterate 0 npos) = AEntries (Ok l) -> de C p <> None).
Proof.
  intros Hnp. pose proof first_entry_boundary as Hb. revert Hb.
  cbn [fp_query]. unfold fp_iterate. cbn [torn append_entry fp_next fp_offs].
  rewrite N.eqb_refl. destruct (N.ltb_spec (fp_next s + 1) (fp_next s + 1)) as [?|_]; [lia|].
  destruct (N.eqb_spec 0 (fp_next s + 1)) as [?|_]; [lia|]. destruct (N.ltb_spec (fp_next s + 1) 0) as [?|_]; [lia|].
  change (N.to_nat 0) with 0. destruct (fp_offs s ++ [fp_pos s]) as [|o os] eqn:Hoff; [destruct (fp_offs s); discriminate|].
  cbn [nth nth_error obind fp_read]. intros Hb.
  fold (torn s line t) (append_entry s line t). 
  destruct (it_run_torn (N.to_nat (fp_next s + 1 - 0)) 0%N o (0%N, 0%Z) Hb ltac:(lia)) as [H1 H2].

  split; [f_equal; exact H1|]. intros l Hl. injection Hl as Hl. eapply H2; [lia|exact Hl].
Qed.
End Torn.

Lemma mp_query_all (m : mp E) l : mp_query C m (QIterate 0 npos) = AEntries (Ok l) -> l = numbered (mp_entries m).
Proof.
  cbn [mp_query]. destruct (mp_iterate m 0 npos) as [r| |] eqn:Hr; cbn [obind]; try discriminate.
  intros Hq. injection Hq as Hq. apply mp_iterate_ok in Hr. cbn zeta in Hr. rewrite N.eqb_refl in Hr.
  destruct Hr as (_ & _ & [->|[Hz ->]]).
  - rewrite mp_read_all in Hq. now injection Hq.
  - unfold mp_size in Hz. destruct (mp_entries m) eqn:Hm; [|cbn in Hz; lia]. cbn in Hq. now injection Hq.
Qed.

Lemma mp_query_all_ok (m : mp E) : mp_query C m (QIterate 0 npos) = AEntries (Ok (numbered (mp_entries m))).
Proof.
  cbn [mp_query]. destruct (proj2 (mp_iterate_iff m 0 npos)) as [r Hr]; [cbn zeta; rewrite N.eqb_refl; lia|].
  rewrite Hr. cbn [obind]. pose proof (mp_iterate_read _ _ _ _ Hr) as Hd. rewrite N.eqb_refl in Hd.
  apply mp_iterate_ok in Hr. cbn zeta in Hr. rewrite N.eqb_refl in Hr. destruct Hr as (_ & _ & [->|[Hz ->]]).
  - now rewrite mp_read_all.
  - unfold mp_size in Hz. destruct (mp_entries m) eqn:Hm; [reflexivity|cbn in Hz; lia].
Qed.

(** A crash while an entry is being appended: what can be read back, if anything can. *)
Lemma torn_publish s m ls t e k s' l :
  finv s m ls -> (fp_head s < t)%Z -> (fp_next s + 1 < npos)%N ->
  (forall q z, z <> [] -> ser C e = q ++ z -> de C q = None) ->
  fp_open C sig (fp_file s ++ firstn k (ser_idx C (fp_next s, t) ++ [TAB] ++ ser C e ++ [NL])) = Ok s' ->
  fp_query C s' (QIterate 0 npos) = AEntries (Ok l) ->
  s' = s \/ (l = numbered (mp_entries m ++ [(t, e)]) /\ fp_head s' = t).
Proof.
  intros H Ht Hnp Hpre Hop Hq. pose proof (finv_head_ge _ _ _ _ _ H) as Hge.
  set (a := ser_idx C (fp_next s, t)) in *.
  destruct k as [|k].
  { left. cbn [firstn] in Hop. rewrite app_nil_r, (fp_open_reopen C sig s m ls H) in Hop. now injection Hop. }
  destruct (Nat.le_gt_cases (S k) (length a)) as [Hk|Hk].
  { exfalso. rewrite firstn_app, (proj2 (Nat.sub_0_le _ _) Hk), firstn_O, app_nil_r in Hop.
    unfold a in *. pose proof (crash_before_tab C sig HC s m ls t (S k) H ltac:(lia) ltac:(lia)) as Hcr. congruence. }
  rewrite firstn_app, firstn_all2 in Hop by lia.
  destruct (S k - length a) as [|j] eqn:Hj; [lia|]. cbn [app firstn] in Hop.
  right.
  destruct (Nat.le_gt_cases j (length (ser C e))) as [Hjl|Hjl].
  - rewrite firstn_app, (proj2 (Nat.sub_0_le _ _) Hjl), firstn_O, app_nil_r in Hop.
    assert (Hnl : no_nl (firstn j (ser C e))).
    { intros Hi. apply (ok_ser_nl C HC e). rewrite <- (firstn_skipn j (ser C e)). apply in_app_iff. now left. }
    change (TAB :: firstn j (ser C e)) with ([TAB] ++ firstn j (ser C e)) in Hop.
    unfold a in Hop. pose proof (open_torn s m ls t _ H Ht Hnl) as Hot. rewrite Hot in Hop.
    assert (Hs' : s' = torn s (ser_idx C (fp_next s, t) ++ [TAB] ++ firstn j (ser C e)) t) by (symmetry; congruence). rewrite Hs' in *.
    destruct (torn_query s m ls t _ H Ht Hnl Hnp) as [Hq1 Hq2]. specialize (Hq2 _ Hq). rewrite Hq1 in Hq.
    assert (Hfull : firstn j (ser C e) = ser C e).
    { destruct (skipn j (ser C e)) as [|z zs] eqn:Hz.
      - rewrite <- (firstn_skipn j (ser C e)) at 2. now rewrite Hz, app_nil_r.
      - exfalso. apply Hq2. apply (Hpre _ (z :: zs)); [discriminate|]. now rewrite <- Hz, firstn_skipn. }
    rewrite Hfull in Hq |- *.
    assert (Hf : finv (append_entry s (ser_idx C (fp_next s, t) ++ [TAB] ++ ser C e) t) {| mp_entries := mp_entries m ++ [(t, e)]; mp_head := t |} (ls ++ [ser_idx C (fp_next s, t) ++ [TAB] ++ ser C e])).
    { eapply (finv_append C sig HC s m ls _ (ser_idx C (fp_next s, t)) (ser C e)); auto.
      - rewrite Hfull in Hnl. exact (line_nl s t _ Hnl).
      - apply cut_at_app. apply (ok_idx_tab C HC).
      - apply (ok_idx C HC). cbn. lia.
      - apply (ok_de C HC). }
    rewrite (fp_query_sim C sig _ _ _ (QIterate 0 npos) Hf eq_refl) in Hq. cbn [torn fp_head]. split; [|reflexivity].
    apply (mp_query_all _ _ Hq).
  - rewrite firstn_all2 in Hop by (rewrite app_length; cbn; lia).
    assert (Hf : finv (append_entry s (ser_idx C (fp_next s, t) ++ [TAB] ++ ser C e) t) {| mp_entries := mp_entries m ++ [(t, e)]; mp_head := t |} (ls ++ [ser_idx C (fp_next s, t) ++ [TAB] ++ ser C e])).
    { eapply (finv_append C sig HC s m ls _ (ser_idx C (fp_next s, t)) (ser C e)); auto.
      - exact (line_nl s t _ (ok_ser_nl C HC e)).
      - apply cut_at_app. apply (ok_idx_tab C HC).
      - apply (ok_idx C HC). cbn. lia.
      - apply (ok_de C HC). }
    pose proof (fp_open_reopen C sig _ _ _ Hf) as Hro. cbn [append_entry fp_file] in Hro. unfold a in Hop.
    change (TAB :: ser C e ++ [NL]) with ([TAB] ++ ser C e ++ [NL]) in Hop.
    rewrite <- !app_assoc in Hro. rewrite Hro in Hop. assert (Hs' : s' = append_entry s (ser_idx C (fp_next s, t) ++ [TAB] ++ ser C e) t) by congruence. rewrite Hs' in *.
    rewrite (fp_query_sim C sig _ _ _ (QIterate 0 npos) Hf eq_refl) in Hq. split; [|reflexivity]. apply (mp_query_all _ _ Hq).
Qed.
End P.
