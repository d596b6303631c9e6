(** A follower which subscribes: the session. *)
From Coq Require Import Sorted.
From Verif Require Import Base Codec Persister_Model Persister_Spec Persister_Proofs Stream_Model Stream_Spec Stream_Proofs Stream_Proofs2 Stream_Props Replicator_Model Replicator_Spec Replicator_Proofs Replicator_Proofs2
  PubSub_Model PubSub_Spec PubSub_Proofs4 PubSub_Proofs5 PubSub_Props Flip_Model Flip_Spec Flip_Proofs Flip_Proofs4 Reconnect_Model Reconnect_Proofs.
Local Open Scope list_scope.

Section R.
Context {E : Type}.
Variable W : wire E.
Hypothesis HW : wire_ok W.
Notation C := (w_codec W).
Variable rm : bool.
Variable M : mode E.
Hypothesis HMi : M_idx W M = ser_idx C.
Hypothesis HMs : M_ser W M = ser C.

Lemma serve_since (p : params) size (m : mp E) now : p_tail p = 0%N -> (0 < p_since p)%Z -> p_nowait p = false -> p_recent p = 0%Z ->
  serve size m now p = Subscribed (N.min (fst (mp_index_range m (p_since p) 0)) size) (p_since p) (with_tail p 0).
Proof.
  intros A B D F. unfold serve. rewrite A, D, F. change (N.eqb 0 0) with true. change (Z.ltb 0 0) with false. cbn [negb andb orb].
  assert (Z.ltb 0 (p_since p) = true) as Hl by lia. rewrite !Hl. rewrite N.max_r by lia. reflexivity.
Qed.
Lemma subscribed_lines (f : rep E) now a b c during s e body :
  let q := resubscribe (mp_size (r_store f)) (r_from f) in
  let log := contents C (a ++ b ++ c ++ calls during) in
  let m := fst (mp_run C mp_init a) in
  mp_inv (r_store f) -> prefix_of (r_store f) m -> in_time m (r_store f) -> r_from f = 0%Z \/ r_from f = (mp_head (r_store f) + 1)%Z ->
  ~ In LSignal during -> session W M (ser_ts W) q now true a b c during s e body -> (N.of_nat (List.length log) < npos)%N ->
  exists lines hi, body = flat_map (fun l => l ++ [NL]) (map (raw_line W) lines) /\ StronglySorted Z.lt (map line_time lines) /\
    entries_of lines = numbered_from (mp_size (r_store f)) (firstn (N.to_nat (hi - mp_size (r_store f))) (skipn (N.to_nat (mp_size (r_store f))) log)) /\
    (forall x, In (LEntry x) lines -> mp_head (r_store f) < snd (fst x))%Z /\
    (r_from f <> 0%Z -> forall t, In (LHead t) lines -> mp_head (r_store f) < t)%Z /\
    (forall t, In (LHead t) lines -> (0 <= t <= mp_head (fst (mp_run C mp_init (a ++ b ++ c ++ calls during))))%Z /\ forall x, In x (numbered log) -> (snd (fst x) <= t)%Z -> (fst (fst x) < hi)%N) /\
    (forall x, In x (numbered log) -> ((mp_size (r_store f) <= fst (fst x))%N <-> (mp_head (r_store f) < snd (fst x))%Z)).
Proof.
  intros q log m Hif Hp Ht Hfrom Hsig Hses Hn.
  assert (Him : mp_inv m) by (apply mp_run_inv, mp_inv_init).
  assert (Hlog : mp_entries (fst (mp_run C m (b ++ c ++ calls during))) = log).
  { unfold m. rewrite <- mp_run_app. apply (mp_run_entries C _ mp_init). }
  assert (Hlast : forall x, In x (numbered log) -> ((mp_size (r_store f) <= fst (fst x))%N <-> (mp_head (r_store f) < snd (fst x))%Z)).
  { intros [[i t] x] Hx. destruct (in_time_run W m (r_store f) (b ++ c ++ calls during) Him Hif Hp Ht) as [T1 T2].
    assert (Hm' : mp_inv (fst (mp_run C m (b ++ c ++ calls during)))) by (apply mp_run_inv; exact Him).
    destruct (in_time_facts _ _ Hm' Hif T2 T1) as (_ & _ & F3). apply numbered_in in Hx. rewrite <- Hlog in Hx. specialize (F3 _ _ _ Hx). cbn [fst snd]. lia. }
  assert (Htext : forall q0 lines, q_array q0 = false -> q_entries_only q0 = false -> flat_map (line_of q0 (M_idx W M) (M_ser W M) (ser_ts W)) lines = flat_map (fun l => l ++ [NL]) (map (raw_line W) lines)).
  { intros q0 lines E1 E2. induction lines as [|x lines IH]; [reflexivity|]. cbn [flat_map map]. rewrite IH. f_equal. destruct x as [[[i t] x]|t]; [|reflexivity].
    cbn [line_of raw_line]. unfold text_of, entry_line. rewrite E1, E2, HMi, HMs. cbn [orb fst snd]. reflexivity. }
  destruct (Z.ltb_spec 0 (r_from f)) as [Hpos|Hzero].
  - (* since *)
    destruct Hfrom as [Hfrom|Hfrom]; [lia|].
    assert (Hses' : session W M (ser_ts W) (since_only (r_from f)) now true a b c during s e body).
    { destruct Hses as (begin & from & p & S1 & S2 & S3). exists begin, from, (no_i p).
      assert (Hq : parse_params (since_only (r_from f)) = no_i (parse_params q)). { unfold q, resubscribe, since_only, parse_params, no_i. cbn. replace (Z.ltb 0 (r_from f)) with true by lia. reflexivity. }
      assert (Hsince : p_since (parse_params q) = r_from f). { unfold q, resubscribe, parse_params. cbn. replace (Z.ltb 0 (r_from f)) with true by lia. cbn. lia. }
      assert (Hrec : p_recent (parse_params q) = 0%Z) by reflexivity. assert (Htl : p_tail (parse_params q) = 0%N) by reflexivity. assert (Hnw : p_nowait (parse_params q) = false) by reflexivity.
      assert (Hpi : p_i (parse_params q) = mp_size (r_store f)) by reflexivity.
      rewrite (serve_since (parse_params q)) in S1 by (rewrite ?Hsince; auto). rewrite Hsince in S1. remember (fst (mp_index_range (fst (mp_run C mp_init (a ++ b))) (r_from f) 0)) as rg eqn:Erg. injection S1 as Hb Hfr Hpp.
      split; [|split; [exact S2|]].
      - rewrite Hq. rewrite (serve_since (no_i (parse_params q))) by (cbn [no_i p_tail p_since p_recent p_nowait]; rewrite ?Hsince; auto). change (p_since (no_i (parse_params q))) with (p_since (parse_params q)).
        rewrite Hsince, <- Erg, <- Hb, <- Hfr, <- Hpp. reflexivity.
      - eapply answered_no_i; [exact S3|].
        assert (Hbegin : begin = mp_size (r_store f)).
        { destruct (in_time_run W m (r_store f) b Him Hif Hp Ht) as [T1 T2]. destruct (grows_run W m b Him) as (r & G1 & _). unfold m in T1, T2, G1. rewrite <- mp_run_app in T1, T2, G1.
          assert (Hinv : mp_inv (fst (mp_run C mp_init (a ++ b)))) by (apply mp_run_inv, mp_inv_init).
          assert (Hsz : (mp_size (fst (mp_run C mp_init (a ++ b))) < npos)%N).
          { destruct (contents_more W (a ++ b) (c ++ calls during)) as (mo & Hmo). rewrite <- app_assoc in Hmo. fold log in Hmo. unfold mp_size. rewrite Hmo, app_length in Hn. lia. }
          pose proof (first_since (fst (mp_run C mp_init (a ++ b))) (r_store f) Hinv Hsz Hif T2 T1) as Hfs. rewrite <- Hfrom, <- Erg in Hfs.
          assert (mp_size m <= mp_size (fst (mp_run C mp_init (a ++ b))))%N by (unfold mp_size, m; rewrite G1, app_length; lia). destruct (in_time_facts m _ Him Hif Hp Ht) as (_ & F2 & _). unfold m in *. lia. }
        destruct (C10_delivered_in_order_exactly_once E C begin from _ _ _ S2) as (n & _ & Hd).
        apply Forall_forall. intros [ev r] Hin. cbn. destruct ev as [it x la|it|h|]; auto.
        assert (Hi : In (it, x) (delivered (ss_trace s))) by (unfold delivered; apply in_flat_map; exists (EvEntry it x la, r); split; [exact Hin|now left]).
        rewrite Hd in Hi. apply filter_In in Hi as [_ Hi]. unfold in_idx_range in Hi. cbn [fst] in Hi. rewrite <- Hpp. cbn [with_tail p_i]. rewrite Hpi. lia. }
    assert (Hsane : sane (since_only (r_from f)) now) by (unfold sane, since_only; cbn; repeat split; try congruence; auto).
    destruct (C15_what_is_sent E W M (ser_ts W) (since_only (r_from f)) now a b c during s e body HW Hsane Hsig Hses' Hn) as (lines & closed & A1 & _ & _ & A4 & A5 & _ & A7 & _ & _ & _ & A11).
    fold log in A7, A11. cbn [since_only q_array] in A1. rewrite Htext in A1 by reflexivity.
    destruct A11 as (hi & B & _ & B2); [right; split; reflexivity|].
    assert (Hsel : forall l, (forall x, In x l -> In x (numbered log)) -> filter (selected (since_only (r_from f)) now (N.of_nat (List.length (contents C a)))) l = filter (fun x : idxts * E => N.leb (mp_size (r_store f)) (fst (fst x))) l).
    { intros l Hl. apply filter_ext_in. intros x Hx. unfold selected, since_only, required. cbn. rewrite andb_true_r. rewrite Z2N.id by lia. specialize (Hlast x (Hl x Hx)). rewrite Hfrom.
      destruct (Z.leb_spec (mp_head (r_store f) + 1) (snd (fst x))), (N.leb_spec (mp_size (r_store f)) (fst (fst x))); try reflexivity; lia. }
    rewrite Hsel in B by (intros x Hx; apply filter_In in Hx; tauto). rewrite numbered_from_range in B.
    exists lines, hi. split; [exact A1|]. split; [exact A4|]. split; [exact B|]. split; [|split].
    + intros x Hx. assert (In x (entries_of lines)) as Hx' by (unfold entries_of; apply in_flat_map; exists (LEntry x); split; [exact Hx|now left]). rewrite <- (numbered_from_range log (mp_size (r_store f)) hi) in B. rewrite B in Hx'.
      apply filter_In in Hx' as [Hx1 Hx2]. apply filter_In in Hx1 as [Hx1 _]. apply (Hlast x Hx1). lia.
    + intros _ t Hh. destruct (A5 t Hh) as (Hs & _). unfold required, since_only in Hs. cbn in Hs. rewrite Z2N.id in Hs by lia. lia.
    + split; [|exact Hlast]. intros t Hh. split; [|intros x Hx Hle; exact (B2 eq_refl t x Hh Hx Hle)]. destruct (A5 t Hh) as (_ & _ & Hs). rewrite (mp_run_head C _ mp_init). exact Hs.
  - assert (Hq : q_since q = None) by (unfold q, resubscribe; cbn; replace (Z.ltb 0 (r_from f)) with false by lia; reflexivity).
    assert (Hsane : sane q now) by (unfold sane; rewrite Hq; unfold q, resubscribe; cbn; repeat split; try congruence; auto).
    destruct (C15_what_is_sent E W M (ser_ts W) q now a b c during s e body HW Hsane Hsig Hses Hn) as (lines & closed & A1 & _ & _ & A4 & A5 & _ & A7 & _ & _ & _ & A11).
    fold log in A7, A11. rewrite Htext in A1 by reflexivity. change (q_array q) with false in A1. cbv iota in A1.
    destruct A11 as (hi & B & _ & B2); [left; unfold time_bound; rewrite Hq; reflexivity|].
    assert (Hsel : forall l, filter (selected q now (N.of_nat (List.length (contents C a)))) l = filter (fun x : idxts * E => N.leb (mp_size (r_store f)) (fst (fst x))) l).
    { intros l. apply filter_ext_in. intros x Hx. unfold selected. rewrite Hq. unfold required, q, resubscribe. cbn. now rewrite !andb_true_r. }
    rewrite Hsel, numbered_from_range in B.
    exists lines, hi. split; [exact A1|]. split; [exact A4|]. split; [exact B|]. split; [|split].
    + intros x Hx. assert (In x (entries_of lines)) as Hx' by (unfold entries_of; apply in_flat_map; exists (LEntry x); split; [exact Hx|now left]). rewrite <- (numbered_from_range log (mp_size (r_store f)) hi) in B. rewrite B in Hx'.
      apply filter_In in Hx' as [Hx1 Hx2]. apply filter_In in Hx1 as [Hx1 _]. apply (Hlast x Hx1). lia.
    + intros Hne. pose proof (inv_headm1 _ Hif). lia.
    + split; [|exact Hlast]. intros t Hh. split; [|intros x Hx Hle; exact (B2 eq_refl t x Hh Hx Hle)]. destruct (A5 t Hh) as (_ & _ & Hs). rewrite (mp_run_head C _ mp_init). exact Hs.
Qed.

Lemma raw_ok (l : line E) : raw_line W l <> [] /\ Forall (fun b => ~ EOL b) (raw_line W l).
Proof.
  destruct (wk_nonempty W HW) as (N1 & N2 & N3). destruct l as [[[i t] x]|t]; cbn [raw_line fst snd].
  - unfold entry_line. split. { intros H. apply app_eq_nil in H as [H _]. now apply N1 in H. }
    apply Forall_app. split; [|constructor].
    + apply Forall_forall. intros b Hb He. destruct (wk_plain W HW b (or_intror He)) as (P & _). exact (P _ Hb).
    + intros [H|H]; discriminate.
    + apply Forall_forall. intros b Hb He. destruct (wk_plain W HW b (or_intror He)) as (_ & _ & P). exact (P _ Hb).
  - split; [apply N2|]. apply Forall_forall. intros b Hb He. destruct (wk_plain W HW b (or_intror He)) as (_ & P & _). exact (P _ Hb).
Qed.
Lemma last_snoc {A} (l : list A) x d : List.last (l ++ [x]) d = x.
Proof. induction l as [|y l IH]; [reflexivity|]. cbn [app]. destruct (l ++ [x]) eqn:Ee; [destruct l; discriminate|]. exact IH. Qed.
Lemma exists_last_or {A} (l : list A) : l = [] \/ exists i z, l = i ++ [z].
Proof. destruct l as [|x l]; [now left|]. right. destruct (exists_last (l := x :: l)) as (i & z & H); [discriminate|]. eauto. Qed.
Lemma entries_of_app (x y : list (line E)) : entries_of (x ++ y) = entries_of x ++ entries_of y.
Proof. apply flat_map_app. Qed.
Lemma entries_of_in (lines : list (line E)) x : In x (entries_of lines) <-> In (LEntry x) lines.
Proof.
  unfold entries_of. rewrite in_flat_map. split; [intros (y & Hy & Hx); destruct y; cbn in Hx; [destruct Hx as [->|[]]; exact Hy|contradiction]|]. intros H. exists (LEntry x). split; [exact H|now left].
Qed.
Lemma sorted_split (x y : list (line E)) u v : StronglySorted Z.lt (map line_time (x ++ y)) -> In u x -> In v y -> (line_time u < line_time v)%Z.
Proof.
  induction x as [|z x IH]; intros H Hu Hv; [contradiction|]. cbn in H. inversion H as [|? ? H1 H2]; subst. destruct Hu as [->|Hu]; [|exact (IH H1 Hu Hv)].
  rewrite Forall_forall in H2. apply H2. rewrite map_app. apply in_or_app. right. now apply in_map.
Qed.

Lemma bad_head (f : rep E) t : (0 <= t)%Z -> (t <= mp_head (r_store f))%Z -> r_from f = 0%Z -> fst (pass_entry W rm f (raw_line W (LHead t))) = f /\ snd (pass_entry W rm f (raw_line W (LHead t))) <> None.
Proof.
  intros H0 Hle Hf. cbn [raw_line]. destruct (wk_plain W HW TAB (or_introl eq_refl)) as (P1 & P2 & P3). destruct (wk_nonempty W HW) as (N1 & N2 & N3). unfold head_line. destruct rm; cbn [pass_entry].
  - unfold pass_checked. rewrite tab_split1 by auto. rewrite (wk_tsopt_head W HW) by lia. rewrite Hf. change (Z.ltb 0 0) with false. cbn [andb].
    unfold rep_head, mp_update_head. destruct (Z.ltb_spec (mp_head (r_store f)) t); [lia|]. cbn. split; [reflexivity|discriminate].
  - unfold pass_unchecked. rewrite cut_at_none by auto. rewrite (wk_ts W HW) by lia. unfold rep_head, mp_update_head. destruct (Z.ltb_spec (mp_head (r_store f)) t); [lia|]. cbn. split; [reflexivity|discriminate].
Qed.
Lemma numbered_from_in (n : N) (l : list (Z * E)) x : In x (numbered_from n l) -> (n <= fst (fst x) < n + N.of_nat (List.length l))%N.
Proof. revert n. induction l as [|[t e] l IH]; intros n H; cbn in *; [contradiction|]. destruct H as [<-|H]; [cbn; lia|]. apply IH in H. lia. Qed.
Lemma numbered_from_strip (n : N) (l : list (Z * E)) : map (fun x : idxts * E => (snd (fst x), snd x)) (numbered_from n l) = l.
Proof. revert n. induction l as [|[t e] l IH]; intros n; cbn; [reflexivity|]. now rewrite IH. Qed.

Lemma taken (f : rep E) now a b c during s e body chunks lost :
  let q := resubscribe (mp_size (r_store f)) (r_from f) in
  let mF := fst (mp_run C mp_init (a ++ b ++ c ++ calls during)) in
  let log := contents C (a ++ b ++ c ++ calls during) in
  let m := fst (mp_run C mp_init a) in
  mp_inv (r_store f) -> prefix_of (r_store f) m -> in_time m (r_store f) -> r_from f = 0%Z \/ r_from f = (mp_head (r_store f) + 1)%Z -> r_next f = mp_size (r_store f) ->
  ~ In LSignal during -> session W M (ser_ts W) q now true a b c during s e body -> (N.of_nat (List.length log) < npos)%N -> body = concat chunks ++ lost ->
  exists lines, body = flat_map (fun l => l ++ [NL]) (map (raw_line W) lines) /\
  match pass_chunks (pass_entry W rm) [] f chunks with
  | (f', carried, x) =>
    (x = None /\ r_next f' = mp_size (r_store f') /\ (r_from f' = 0%Z \/ r_from f' = (mp_head (r_store f') + 1)%Z) /\ prefix_of (r_store f') mF /\ in_time mF (r_store f') /\
     (exists more, mp_entries (r_store f') = mp_entries (r_store f) ++ more) /\
     (lost = [] -> carried = [] /\ mp_entries (r_store f') = mp_entries (r_store f) ++ map (fun x => (snd (fst x), snd x)) (entries_of lines))) \/
    (r_from f = 0%Z /\ f' = f /\ exists t rest, lines = LHead t :: rest /\ (0 <= t <= mp_head (r_store f))%Z)
  end.
Proof.
  intros q mF log m Hif Hp Ht Hfrom Hnext Hsig Hses Hn Hbody.
  destruct (subscribed_lines f now a b c during s e body Hif Hp Ht Hfrom Hsig Hses Hn) as (lines & hi & A1 & A2 & A3 & A4 & A5 & A6 & A7). fold log in A3, A6, A7. fold mF in A6.
  exists lines. split; [exact A1|].
  assert (HF : Forall (fun l => l <> [] /\ Forall (fun b => ~ EOL b) l) (map (raw_line W) lines)) by (apply Forall_map, Forall_forall; intros l _; apply raw_ok).
  rewrite A1 in Hbody. destruct (records_prefix _ HF _ _ Hbody) as (k & r & R1 & R2). rewrite firstn_map in R1. rewrite map_length in R2.
  pose proof (pass_chunks_ok (pass_entry W rm) chunks [] f _ r (Forall_nil _) R1) as (B1 & B2 & B3).
  destruct (pass_chunks (pass_entry W rm) [] f chunks) as [[f' carried] x]. cbn [fst snd] in B1, B2, B3.
  assert (Hheadpos : forall t, In (LHead t) lines -> (0 <= t)%Z \/ True) by auto.
  assert (Hinv : mp_inv mF) by (apply mp_run_inv, mp_inv_init).
  assert (Hlog : mp_entries mF = log) by apply (mp_run_entries C _ mp_init).
  assert (Hgood : (forall t rest, lines = LHead t :: rest -> (mp_head (r_store f) < t)%Z) \/ (exists t rest, lines = LHead t :: rest /\ (t <= mp_head (r_store f))%Z)).
  { destruct lines as [|[y|t] rest]; [left; discriminate|left; discriminate|]. destruct (Z.lt_ge_cases (mp_head (r_store f)) t); [left; intros ? ? [= <- <-]; auto|right; eauto]. }
  destruct Hgood as [Hgood|(t & rest & Hl & Hle)].
  - left.
    assert (Hlater : Forall (fun t => mp_head (r_store f) < t)%Z (map line_time lines)).
    { destruct lines as [|y rest]; [constructor|]. assert (Hy : (mp_head (r_store f) < line_time y)%Z) by (destruct y as [y|t]; [apply (A4 y); now left|cbn; eapply Hgood; reflexivity]).
      cbn in A2 |- *. inversion A2 as [|? ? S1 S2]; subst. constructor; [exact Hy|]. eapply Forall_impl; [|exact S2]. cbn. intros. lia. }
    destruct (firstn_lines k lines _ _ A3) as (j & C1 & C2).
    set (l0 := firstn (N.to_nat (hi - mp_size (r_store f))) (skipn (N.to_nat (mp_size (r_store f))) log)) in *.
    assert (Hsplit : lines = firstn k lines ++ skipn k lines) by (symmetry; apply firstn_skipn).
    assert (HS : StronglySorted Z.lt (map line_time (firstn k lines))).
    { rewrite Hsplit, map_app in A2. clear - A2. revert A2. generalize (map line_time (skipn k lines)). induction (map line_time (firstn k lines)) as [|y l IH]; intros w H; [constructor|]. cbn in H. inversion H as [|? ? H1 H2]; subst. constructor; [eapply IH; eauto|]. now apply Forall_app in H2 as [H2 _]. }
    assert (HL : Forall (fun t => mp_head (r_store f) < t)%Z (map line_time (firstn k lines))) by (rewrite Hsplit, map_app in Hlater; now apply Forall_app in Hlater as [Hlater _]).
    destruct (take_lines W HW rm (firstn k lines) f (firstn j l0) Hnext Hfrom (inv_headm1 _ Hif) HS HL C1) as (s' & T1 & T2 & T3 & T4 & T5).
    rewrite T1 in B1, B2, B3. cbn [fst snd] in B1, B2, B3. subst f' x. specialize (B3 eq_refl). subst carried.
    (* the entries *)
    assert (Hpre : exists rest, log = mp_entries (r_store s') ++ rest).
    { destruct (in_time_run W m (r_store f) (b ++ c ++ calls during) (mp_run_inv C a mp_init mp_inv_init) Hif Hp Ht) as [_ [[w Hw] _]]. unfold m in Hw. rewrite <- mp_run_app in Hw. fold mF in Hw. rewrite Hlog in Hw.
      assert (Hsk : skipn (N.to_nat (mp_size (r_store f))) log = w). { rewrite Hw. unfold mp_size. rewrite Nat2N.id. rewrite skipn_app, skipn_all, Nat.sub_diag. reflexivity. }
      rewrite T2. unfold l0. rewrite Hsk, firstn_firstn. eexists. rewrite Hw at 1. rewrite <- app_assoc. f_equal. symmetry. apply firstn_skipn. }
    assert (Hsize : (mp_size (r_store f) <= mp_size (r_store s'))%N) by (unfold mp_size; rewrite T2, app_length; lia).
    assert (Hin_taken : forall y, In (LEntry y) (firstn k lines) -> (fst (fst y) < mp_size (r_store s'))%N).
    { intros y Hy. apply entries_of_in in Hy. rewrite C1 in Hy. apply numbered_from_in in Hy. unfold mp_size in *. rewrite T2, app_length. lia. }
    assert (Hnum : forall y, In (LEntry y) lines -> In y (numbered log)).
    { intros y Hy. apply entries_of_in in Hy. rewrite A3 in Hy. unfold l0 in Hy. rewrite <- (numbered_from_range log (mp_size (r_store f)) hi) in Hy. apply filter_In in Hy as [Hy _]. apply filter_In in Hy as [Hy _]. exact Hy. }
    assert (Hsorted : forall i1 t1 e1 i2 t2 e2, In ((i1, t1), e1) (numbered log) -> In ((i2, t2), e2) (numbered log) -> (i1 < i2)%N -> (t1 < t2)%Z).
    { intros i1 t1 e1 i2 t2 e2 H1 H2 Hlt. apply numbered_in in H1, H2. pose proof (inv_sorted _ Hinv) as Hs0. rewrite Hlog in Hs0. apply (SS_nth _ Hs0 (N.to_nat i1) (N.to_nat i2)); [lia|now rewrite nth_error_map, H1|now rewrite nth_error_map, H2]. }
    assert (Htime : forall y, In y (numbered log) -> (mp_size (r_store s') <= fst (fst y))%N -> (mp_head (r_store s') < snd (fst y))%Z).
    { intros y Hy Hge. rewrite T4. destruct (Z.lt_ge_cases (List.last (map line_time (firstn k lines)) (mp_head (r_store f))) (snd (fst y))) as [|Hle]; [assumption|exfalso].
      destruct (exists_last (l := firstn k lines)) as (init & z & Hz).
      { intros He. rewrite He in Hle. cbn in Hle. apply A7 in Hy. lia. }
      rewrite Hz, map_app in Hle. cbn [map] in Hle. rewrite last_snoc in Hle.
      assert (Hzin : In z (firstn k lines)) by (rewrite Hz; apply in_or_app; right; now left). assert (Hzl : In z lines) by (rewrite Hsplit; apply in_or_app; now left).
      destruct z as [z|t].
      - cbn [line_time] in Hle. pose proof (Hin_taken _ Hzin) as Hlt. destruct z as [[i1 t1] e1], y as [[i2 t2] e2]. cbn [fst snd] in *. pose proof (Hsorted _ _ _ _ _ _ (Hnum _ Hzl) Hy ltac:(lia)). lia.
      - cbn [line_time] in Hle. destruct (A6 t Hzl) as [_ A6']. pose proof (A6' _ Hy Hle) as Hlt.
        assert (Hyl : In (LEntry y) lines).
        { apply entries_of_in. rewrite A3. unfold l0. rewrite <- (numbered_from_range log (mp_size (r_store f)) hi). apply filter_In. split; [apply filter_In; split; [exact Hy|unfold in_idx_range; lia]|]. lia. }
        rewrite Hsplit in Hyl. apply in_app_or in Hyl as [Hyl|Hyl]; [apply Hin_taken in Hyl; lia|]. rewrite Hsplit in A2. pose proof (sorted_split _ _ _ _ A2 Hzin Hyl) as Hc. cbn [line_time] in Hc. lia. }
    split; [reflexivity|]. split; [exact T3|]. split; [exact T5|]. split; [|split; [|split; [eauto|]]].
    + split; [destruct Hpre as (w & Hw); exists w; now rewrite Hlog|]. rewrite T4. destruct (exists_last_or (firstn k lines)) as [He|(init & z & Hz)].
      * rewrite He. cbn. destruct Hp as [_ Hh]. destruct (grows_run W m (b ++ c ++ calls during) (mp_run_inv C a mp_init mp_inv_init)) as (w & _ & _ & G). unfold m in G. rewrite <- mp_run_app in G. fold mF in G. unfold m in Hh. lia.
      * rewrite Hz, map_app. cbn [map]. rewrite last_snoc. assert (Hzl : In z lines) by (rewrite Hsplit, Hz; apply in_or_app; left; apply in_or_app; right; now left). destruct z as [[[i u] y]|t]; cbn [line_time].
        -- apply Hnum in Hzl. apply numbered_in in Hzl. rewrite <- Hlog in Hzl. pose proof (at_nonneg _ _ _ _ Hinv Hzl). cbn [fst snd]. lia.
        -- apply (A6 t Hzl).
    + intros i t x Hi Hge. rewrite Hlog in Hi. apply (Htime ((N.of_nat i, t), x)); [|exact Hge]. apply numbered_in. now rewrite Nat2N.id.
    + intros ->. destruct (R2 eq_refl) as [-> ->]. split; [reflexivity|]. rewrite T2, (C2 eq_refl). f_equal. rewrite A3. now rewrite numbered_from_strip.
  - right.
    assert (Hf0 : r_from f = 0%Z). { destruct (Z.eq_dec (r_from f) 0) as [|Hne]; [assumption|]. exfalso. assert (mp_head (r_store f) < t)%Z by (apply (A5 Hne); rewrite Hl; now left). lia. }
    assert (Htp : (0 <= t)%Z). { apply (A6 t). rewrite Hl. now left. }
    split; [exact Hf0|]. split; [|exists t, rest; auto].
    rewrite Hl in B1. destruct k as [|k]; [exact B1|]. cbn [firstn map hand_over] in B1. destruct (bad_head f t Htp Hle Hf0) as [D1 D2]. destruct (pass_entry W rm f (raw_line W (LHead t))) as [g [ex|]]; cbn [fst snd] in *; [congruence|contradiction].
Qed.
End R.
