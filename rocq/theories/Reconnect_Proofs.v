(** A follower which subscribes: it takes everything it is sent. *)
From Coq Require Import Sorted.
From Verif Require Import Base Codec Persister_Model Persister_Spec Persister_Proofs Stream_Model Stream_Spec Stream_Proofs Stream_Proofs2 Replicator_Model Replicator_Spec Replicator_Proofs Replicator_Proofs2
  PubSub_Model PubSub_Spec PubSub_Proofs5 PubSub_Props Flip_Model Flip_Spec Flip_Proofs Flip_Proofs4 Reconnect_Model.
Local Open Scope list_scope.

Section R.
Context {E : Type}.
Variable W : wire E.
Hypothesis HW : wire_ok W.
Notation C := (w_codec W).
Variable rm : bool.

Definition raw_line (l : line E) : bytes := match l with LEntry x => entry_line W (fst (fst x)) (snd (fst x)) (snd x) | LHead t => head_line W t end.

Lemma last_cons (l : list Z) a b : List.last (a :: l) b = List.last l a.
Proof. revert a b. induction l as [|y r IHr]; intros a b; [reflexivity|]. change (List.last (a :: y :: r) b) with (List.last (y :: r) b). rewrite IHr. now rewrite IHr. Qed.
(** Lines with increasing times, all of them later than the follower's head, with the entries numbered from its size on. *)
Lemma take_lines lines : forall (s : rep E) l, r_next s = mp_size (r_store s) -> r_from s = 0%Z \/ r_from s = (mp_head (r_store s) + 1)%Z -> (-1 <= mp_head (r_store s))%Z ->
  StronglySorted Z.lt (map line_time lines) -> Forall (fun t => mp_head (r_store s) < t)%Z (map line_time lines) -> entries_of lines = numbered_from (mp_size (r_store s)) l ->
  exists s', hand_over (pass_entry W rm) s (map raw_line lines) = (s', None) /\ mp_entries (r_store s') = mp_entries (r_store s) ++ l /\ r_next s' = mp_size (r_store s') /\
    mp_head (r_store s') = List.last (map line_time lines) (mp_head (r_store s)) /\ (r_from s' = 0%Z \/ r_from s' = (mp_head (r_store s') + 1)%Z).
Proof.
  induction lines as [|x lines IH]; intros s l Hn Hf Hh HS HF He.
  - destruct l as [|p l]; [|destruct p; discriminate He]. exists s. cbn. rewrite app_nil_r. auto.
  - cbn [map] in *. inversion HS as [|? ? HS1 HS2]; subst. inversion HF as [|? ? HF1 HF2]; subst. destruct x as [[[i t] e]|t]; cbn [line_time fst snd] in *.
    + cbn [entries_of flat_map app] in He. destruct l as [|[t' e'] l]; [discriminate He|]. cbn [numbered_from] in He. injection He as -> <- <- He.
      set (s1 := {| r_store := {| mp_entries := mp_entries (r_store s) ++ [(t, e)]; mp_head := t |}; r_next := r_next s + 1; r_from := 0 |}).
      assert (Hp : pass_entry W rm s (raw_line (LEntry ((mp_size (r_store s), t), e))) = (s1, None)).
      { cbn [raw_line fst snd]. destruct (wk_plain W HW TAB (or_introl eq_refl)) as (P1 & P2 & P3). destruct (wk_nonempty W HW) as (N1 & N2 & N3). unfold entry_line. destruct rm; cbn [pass_entry].
        - unfold pass_checked. rewrite tab_split by auto. rewrite (wk_tsopt W HW) by (cbn; lia). cbn [fst snd]. replace (Z.ltb t (r_from s)) with false by lia. rewrite andb_false_r.
          rewrite Hn, N.eqb_refl. cbn [negb]. rewrite (wk_de W HW). unfold rep_entry, mp_publish. destruct (Z.ltb_spec (mp_head (r_store s)) t); [unfold s1; now rewrite Hn|lia].
        - unfold pass_unchecked. rewrite cut_at_tab by auto. unfold rep_raw, mp_publish_unsafe. rewrite cut_at_tab by auto. rewrite (wk_idx W HW) by (cbn; lia).
          rewrite N.eqb_refl. cbn [negb]. destruct (Z.ltb_spec (mp_head (r_store s)) t); [|lia]. cbn [negb]. rewrite (wk_de W HW). reflexivity. }
      cbn [hand_over]. rewrite Hp.
      destruct (IH s1 l) as (s' & A1 & A2 & A3 & A4 & A5); unfold s1; cbn [r_store r_next r_from mp_head]; auto; try lia.
      * rewrite size_snoc. lia.
      * rewrite size_snoc. exact He.
      * fold s1. exists s'. split; [exact A1|]. split; [|split; [exact A3|split; [|exact A5]]].
        -- rewrite A2. cbn. now rewrite <- app_assoc.
        -- rewrite A4. cbn [r_store mp_head]. now rewrite last_cons.
    + set (s1 := {| r_store := {| mp_entries := mp_entries (r_store s); mp_head := t |}; r_next := r_next s; r_from := (t + 1)%Z |}).
      assert (Hp : pass_entry W rm s (raw_line (LHead t)) = (s1, None)).
      { cbn [raw_line]. destruct (wk_plain W HW TAB (or_introl eq_refl)) as (P1 & P2 & P3). destruct (wk_nonempty W HW) as (N1 & N2 & N3). unfold head_line. destruct rm; cbn [pass_entry].
        - unfold pass_checked. rewrite tab_split1 by auto. rewrite (wk_tsopt_head W HW) by lia. replace (Z.ltb t (r_from s)) with false by lia. rewrite andb_false_r.
          unfold rep_head, mp_update_head. destruct (Z.ltb_spec (mp_head (r_store s)) t); [reflexivity|lia].
        - unfold pass_unchecked. rewrite cut_at_none by auto. rewrite (wk_ts W HW) by lia. unfold rep_head, mp_update_head. destruct (Z.ltb_spec (mp_head (r_store s)) t); [reflexivity|lia]. }
      cbn [hand_over]. rewrite Hp. cbn [entries_of flat_map app] in He.
      destruct (IH s1 l) as (s' & A1 & A2 & A3 & A4 & A5); unfold s1; cbn [r_store r_next r_from mp_head]; auto; try lia.
      fold s1. exists s'. split; [exact A1|]. split; [exact A2|split; [exact A3|split; [|exact A5]]].
      rewrite A4. cbn [r_store mp_head]. now rewrite last_cons.
Qed.

(** ** The index of the request makes no difference if it is that of the first entry since the time of the request. *)
Definition no_i (p : params) : params := {| p_recent := p_recent p; p_since := p_since p; p_i := 0; p_tail := p_tail p; p_n := p_n p; p_period := p_period p; p_nowait := p_nowait p; p_bytes := p_bytes p;
  p_entries_only := p_entries_only p; p_array := p_array p |}.
Lemma lambda_no_i p e tm i us last text : (p_i p <= i)%N -> ep_lambda (no_i p) e tm i us last text = ep_lambda p e tm i us last text.
Proof. intros H. unfold ep_lambda. cbn [no_i p_i p_tail p_nowait p_period p_bytes p_array]. replace (N.leb (p_i p) i) with true by lia. replace (N.leb 0 i) with true by lia. reflexivity. Qed.
Lemma answered_no_i (M : mode E) tJ p now alive tr e body : answered W M tJ p now alive tr e body -> Forall (fun y => match fst y with EvEntry it _ _ => (p_i p <= fst it)%N | _ => True end) tr ->
  answered W M tJ (no_i p) now alive tr e body.
Proof.
  induction 1 as [|tr e body tm it x last e' out r H IH Ha He|tr e body tm t e' out r H IH Ha He|tr e body e' out r H IH He]; intros HF.
  - change (ep_init p now) with (ep_init (no_i p) now). constructor.
  - apply Forall_app in HF as [HF Hr]. inversion Hr as [|? ? Hr1 _]; subst. cbn in Hr1. eapply an_entry; [exact (IH HF)|exact Ha|].
    destruct M as [ja jb|].
    + unfold ep_entry in *. cbn [no_i p_entries_only]. rewrite lambda_no_i by exact Hr1. exact He.
    + unfold ep_raw in *. cbn [no_i p_entries_only]. destruct (par_ts W _); [|discriminate]. rewrite lambda_no_i by exact Hr1. exact He.
  - apply Forall_app in HF as [HF Hr]. eapply an_head; [exact (IH HF)|exact Ha|exact He].
  - apply Forall_app in HF as [HF Hr]. eapply an_terminate; [exact (IH HF)|exact He].
Qed.
Definition since_only (from : Z) : query := {|
  q_recent := None; q_since := Some (Z.to_N from); q_i := None; q_tail := None; q_n := None; q_period := None; q_bytes := None; q_nowait := false; q_entries_only := false; q_array := false |}.

Lemma grows_run (m : mp E) ops : mp_inv m -> grows m (fst (mp_run C m ops)).
Proof.
  revert m. induction ops as [|o ops IH]; intros m Hm; [apply grows_refl|]. cbn [mp_run fst]. destruct (grows_step W m o) as (r & A1 & A2 & A3). destruct (IH _ (mp_step_inv C m o Hm)) as (q & B1 & B2 & B3).
  exists (r ++ q). split; [rewrite B1, A1; now rewrite app_assoc|]. split; [|lia]. apply Forall_app. split; [exact A2|]. eapply Forall_impl; [|exact B2]. cbn. intros. lia.
Qed.
Lemma in_time_run (m f : mp E) ops : mp_inv m -> mp_inv f -> prefix_of f m -> in_time m f -> in_time (fst (mp_run C m ops)) f /\ prefix_of f (fst (mp_run C m ops)).
Proof.
  intros Hm Hf [[r Hr] Hh] Ht. destruct (grows_run m ops Hm) as (x & A1 & A2 & A3). split.
  - intros j t e Hj Hl. rewrite A1 in Hj. destruct (Nat.lt_ge_cases j (length (mp_entries m))) as [Hlt|Hge]; [rewrite nth_error_app1 in Hj by exact Hlt; exact (Ht _ _ _ Hj Hl)|].
    rewrite nth_error_app2 in Hj by exact Hge. apply nth_error_In in Hj. rewrite Forall_forall in A2. specialize (A2 _ Hj). cbn in A2. lia.
  - split; [exists (r ++ x); rewrite A1, Hr; now rewrite app_assoc|lia].
Qed.

(** The first index since [head + 1] is the follower's size, or there is none. *)
Lemma first_since (m f : mp E) : mp_inv m -> (mp_size m < npos)%N -> mp_inv f -> prefix_of f m -> in_time m f ->
  N.min (fst (mp_index_range m (mp_head f + 1) 0)) (mp_size m) = mp_size f.
Proof.
  intros Hm Hsz Hf Hp Ht. destruct (in_time_facts m f Hm Hf Hp Ht) as (F1 & F2 & F3).
  assert (Hd : forall i u x, nth_error (mp_entries m) i = Some (u, x) -> mp_deref m (N.of_nat i) = Some ((N.of_nat i, u), x)) by (intros i u x Hi; unfold mp_deref; now rewrite Nat2N.id, Hi).
  assert (Hnth : (mp_size f < mp_size m)%N -> exists u x, nth_error (mp_entries m) (N.to_nat (mp_size f)) = Some (u, x)).
  { intros Hlt. destruct (nth_error (mp_entries m) (N.to_nat (mp_size f))) as [[u x]|] eqn:En; [eauto|]. apply nth_error_None in En. unfold mp_size in *. lia. }
  destruct (mp_index_range_spec m (mp_head f + 1) 0 Hm Hsz) as [[[A B]|(u & x & A & B & D)] _].
  + rewrite A. destruct (N.lt_ge_cases (mp_size f) (mp_size m)) as [Hlt|]; [|lia]. exfalso. destruct (Hnth Hlt) as (u & x & Hx). pose proof (B _ _ _ (Hd _ _ _ Hx)) as Hb.
    assert (u <= mp_head f)%Z as Hle by lia. apply (F3 _ _ _ Hx) in Hle. lia.
  + set (k0 := fst (mp_index_range m (mp_head f + 1) 0)) in *. unfold mp_deref in A. destruct (nth_error (mp_entries m) (N.to_nat k0)) as [[u' x']|] eqn:Ek; [|discriminate]. injection A as -> ->.
    assert (Hks : N.to_nat k0 < length (mp_entries m)) by (apply nth_error_Some; congruence). assert (~ (u <= mp_head f)%Z) as Hn by lia. rewrite (F3 _ _ _ Ek) in Hn.
    assert (k0 = mp_size f); [|unfold mp_size in *; lia]. destruct (N.lt_ge_cases (mp_size f) k0) as [Hlt|]; [|lia]. exfalso.
    destruct (Hnth ltac:(unfold mp_size in *; lia)) as (v & y & Hy). pose proof (D _ _ _ (Hd _ _ _ Hy) ltac:(lia)) as Hb. assert (v <= mp_head f)%Z as Hle by lia. apply (F3 _ _ _ Hy) in Hle. lia.
Qed.
Lemma numbered_from_range (l : list (Z * E)) n hi : filter (fun x : idxts * E => N.leb n (fst (fst x))) (filter (in_idx_range 0 hi) (numbered l)) = numbered_from n (firstn (N.to_nat (hi - n)) (skipn (N.to_nat n) l)).
Proof.
  assert (filter (fun x : idxts * E => N.leb n (fst (fst x))) (filter (in_idx_range 0 hi) (numbered l)) = filter (in_idx_range n hi) (numbered l)) as ->.
  { generalize (numbered l). intros q. induction q as [|x q IH]; [reflexivity|]. cbn [filter].
    assert (in_idx_range n hi x = (N.leb n (fst (fst x)) && in_idx_range 0 hi x)%bool) as -> by (unfold in_idx_range; destruct (N.leb_spec n (fst (fst x))), (N.leb_spec 0 (fst (fst x))), (N.ltb_spec (fst (fst x)) hi); cbn; try reflexivity; lia).
    destruct (in_idx_range 0 hi x); cbn [filter]; destruct (N.leb n (fst (fst x))); cbn [andb]; now rewrite IH. }
  unfold numbered. rewrite filter_idx_slice. rewrite N.max_r, N.sub_0_r by lia. reflexivity.
Qed.

(** ** The bytes of some lines, or of the beginning of them. *)
Lemma records_prefix (ls : list bytes) : Forall (fun l => l <> [] /\ Forall (fun b => ~ EOL b) l) ls -> forall x y, flat_map (fun l => l ++ [NL]) ls = x ++ y ->
  exists k r, Records x (firstn k ls) r /\ (y = [] -> k = List.length ls /\ r = []).
Proof.
  induction ls as [|l ls IH]; intros HF x y H.
  - cbn in H. symmetry in H. apply app_eq_nil in H as [-> ->]. exists 0, []. split; [repeat constructor|]. auto.
  - inversion HF as [|? ? [H1 H2] HF']; subst. cbn [flat_map] in H. rewrite <- app_assoc in H. cbn in H.
    destruct (Nat.lt_ge_cases (List.length l) (List.length x)) as [Hlt|Hge].
    + assert (exists x', x = l ++ NL :: x') as [x' ->].
      { pose proof (f_equal (firstn (List.length l + 1)) H) as Hp. rewrite firstn_app_2 in Hp. cbn [firstn] in Hp. rewrite firstn_app in Hp.
        replace (List.length l + 1 - List.length x) with 0 in Hp by lia. cbn [firstn] in Hp. rewrite app_nil_r in Hp. exists (skipn (List.length l + 1) x).
        rewrite <- (firstn_skipn (List.length l + 1) x) at 1. rewrite <- Hp. now rewrite <- app_assoc. }
      rewrite <- app_assoc in H. apply app_inv_head in H. cbn in H. injection H as H. destruct (IH HF' _ _ H) as (k & r & A & B). exists (Datatypes.S k), r. split.
      * cbn [firstn]. constructor; auto. left. reflexivity.
      * intros Hy. destruct (B Hy) as [-> ->]. auto.
    + exists 0, x. split; [constructor|].
      * pose proof (f_equal (firstn (List.length x)) H) as Hp. rewrite firstn_app, firstn_app, Nat.sub_diag in Hp. replace (List.length x - List.length l) with 0 in Hp by lia. cbn [firstn] in Hp. rewrite !app_nil_r, firstn_all in Hp.
        rewrite <- Hp. apply Forall_forall. intros b Hb. rewrite Forall_forall in H2. apply H2. rewrite <- (firstn_skipn (List.length x) l). apply in_or_app. now left.
      * intros ->. rewrite app_nil_r in H. apply (f_equal (@List.length _)) in H. rewrite app_length in H. cbn in H. lia.
Qed.
Lemma firstn_lines k (lines : list (line E)) n l : entries_of lines = numbered_from n l -> exists j, entries_of (firstn k lines) = numbered_from n (firstn j l) /\ (k = List.length lines -> firstn j l = l).
Proof.
  revert k n l. induction lines as [|x lines IH]; intros k n l H.
  - exists (List.length l). rewrite firstn_nil. split; [|intros; apply firstn_all]. rewrite firstn_all. exact H.
  - destruct k as [|k]; [exists 0; split; [reflexivity|discriminate]|]. cbn [firstn]. destruct x as [x|t].
    + cbn [entries_of flat_map app] in *. destruct l as [|[t e] l]; [discriminate|]. cbn [numbered_from] in H. injection H as -> H. destruct (IH k _ _ H) as (j & A & B). exists (Datatypes.S j). split; [|intros [=Hk]; cbn [firstn]; now rewrite (B Hk)].
      cbn [firstn numbered_from]. f_equal. exact A.
    + cbn [entries_of flat_map app] in *. destruct (IH k _ _ H) as (j & A & B). exists j. split; [exact A|]. intros [=Hk]. auto.
Qed.
End R.
