(** The whole answer to a request with `nowait`. *)
From Coq Require Import String Sorted.
From Verif Require Import Base Persister_Model Persister_Spec Persister_Proofs Stream_Model Stream_Spec Stream_Proofs Stream_Proofs2 Stream_Props Replicator_Model Replicator_Spec PubSub_Model PubSub_Spec PubSub_Proofs PubSub_Proofs2 PubSub_Proofs3 PubSub_Proofs4 PubSub_Proofs5 PubSub_Proofs6 PubSub_Proofs7.
Local Open Scope list_scope.

Definition thread_only {E} (ls : list (label E)) : Prop := Forall (fun l => exists r, l = LThread r) ls.

Lemma thread_only_calls {E} (ls : list (label E)) : thread_only ls -> calls ls = [] /\ ~ In LSignal ls.
Proof.
  induction 1 as [|l ls [r ->] _ [IH1 IH2]]; [split; [reflexivity|easy]|]. split; [exact IH1|]. intros [H|H]; [discriminate|contradiction].
Qed.

Section Static.
Context {E : Type}.
Variable W : wire E.
Hypothesis HW : wire_ok W.
Variable M : mode E.
Variable tJ : Z -> bytes.
Variable q : query.
Variable now : Z.
Notation C := (w_codec W).
Notation aJ := (M_idx W M).
Notation bJ := (M_ser W M).
Variable a : list (pop E).
Hypothesis Hsane : sane q now.
Hypothesis Hnowait : q_nowait q = true.
Let m := fst (mp_run C mp_init a).
Let L := contents C a.
Let size := N.of_nat (List.length L).
Hypothesis Hnpos : (size < npos)%N.

Lemma m_entries : mp_entries m = L.
Proof. apply (mp_run_entries C a mp_init). Qed.
Lemma m_inv : mp_inv m.
Proof. apply mp_run_inv, mp_inv_init. Qed.
Lemma m_size : mp_size m = size.
Proof. apply contents_length. Qed.

Lemma static_from begin from p : serve size m now (parse_params q) = Subscribed begin from p -> (begin < size)%N -> (from - 1 < mp_head m)%Z.
Proof.
  intros H Hb. pose proof m_inv as Hm. destruct (at_ex m begin) as (t & x & Hat); [rewrite m_size; exact Hb|].
  pose proof (at_head m begin t x Hm Hat) as Hh. pose proof (inv_nonneg _ Hm) as Hn. rewrite Forall_forall in Hn. pose proof (Hn _ (nth_error_In _ _ Hat)) as Ht. cbn in Ht.
  assert (Hgen : forall f b0, (if Z.ltb 0 f then N.max b0 (N.min (fst (mp_index_range m f 0)) size) else b0) = begin -> (f - 1 < mp_head m)%Z).
  { intros f b0 Hf. destruct (Z.ltb_spec 0 f); [|lia]. destruct (mp_index_range_spec m f 0 Hm ltac:(rewrite m_size; exact Hnpos)) as [[[A _]|(t' & e' & A & B & _)] _].
    - rewrite A in Hf. lia.
    - unfold mp_deref in A. destruct (nth_error (mp_entries m) (N.to_nat (fst (mp_index_range m f 0)))) as [[u y]|] eqn:En; [|discriminate]. injection A as -> ->.
      pose proof (at_head m _ _ _ Hm En). lia. }
  unfold serve in H. match goal with [ H : (if ?c then NoContent else Subscribed ?x ?f ?pp) = _ |- _ ] => destruct c; [discriminate|]; injection H as H1 H2 _; apply (Hgen _ _ (eq_trans (f_equal _ eq_refl) H1)) || idtac end.
  rewrite <- H2. eapply Hgen. exact H1.
Qed.

Section Ses.
Variables (during : list (label E)) (s : sst E E) (e : ep) (body : bytes).
Hypothesis Hthr : thread_only during.
Hypothesis Hses : session W M tJ q now true a [] [] during s e body.

Lemma static_jinv : exists begin from p, serve size m now (parse_params q) = Subscribed begin from p /\ (begin < size)%N /\ (from - 1 < mp_head m)%Z /\
  subscription C everything begin from a during s /\ answered W M tJ p now true (ss_trace s) e body /\ jinv m begin from s /\ p_nowait p = true.
Proof.
  destruct Hses as (begin & from & p & Hserve & Hsub & Hans). rewrite !app_nil_r in *. rewrite contents_length in Hserve. fold L in Hserve. fold size m in Hserve.
  assert (Hb : (begin < size)%N). { pose proof (serve_facts q now Hsane size m m_inv ltac:(rewrite m_size; lia) L ltac:(exists []; now rewrite m_entries, app_nil_r)) as F.
    destruct (F ltac:(rewrite <- m_entries; apply (inv_nonneg _ m_inv)) begin from p Hserve) as (_ & _ & _ & _ & F5 & _). auto. }
  pose proof (static_from _ _ _ Hserve Hb) as Hf.
  exists begin, from, p. repeat (split; [assumption|]). split.
  - unfold subscription in Hsub. fold m in Hsub. clear -Hsub Hthr Hb Hf Hnpos.
    assert (forall ls s0 s, thread_only ls -> jinv m begin from s0 -> srun C everything begin s0 ls = Some s -> jinv m begin from s) as H.
    { clear -Hb Hf Hnpos. induction ls as [|l ls IH]; intros s0 s Ht J H; [now injection H as <-|]. inversion Ht as [|? ? [r ->] Ht']; subst. cbn [srun] in H. destruct (sstep C everything begin s0 (LThread r)) as [s1|] eqn:E1; [|discriminate].
      apply (IH s1); [exact Ht'| |exact H]. apply (jinv_step C m m_inv begin from ltac:(rewrite m_size; exact Hb) Hf r s0); assumption. }
    apply (H during (s_init begin from m)); [exact Hthr|apply jinv_init|exact Hsub].
  - destruct (serve_facts q now Hsane size m m_inv ltac:(rewrite m_size; lia) L ltac:(exists []; now rewrite m_entries, app_nil_r) ltac:(rewrite <- m_entries; apply (inv_nonneg _ m_inv)) begin from p Hserve) as (-> & _). exact Hnowait.
Qed.
End Ses.

Lemma ans_nowait p tr e body : p_nowait p = true -> answered W M tJ p now true tr e body -> Forall (fun y => match fst y with EvEntry it _ _ => (0 <= snd it)%Z | _ => True end) tr -> ~ at_end tr.
Proof.
  intros Hn. induction 1 as [|tr e body tm it x last e' out r H IH Ha He|tr e body tm t e' out r H IH Ha He|tr e body e' out r H IH He]; intros Hp.
  - intros (? & ? & ? & [] & _).
  - apply Forall_app in Hp as [Hp Hp1]. inversion Hp1 as [|? ? Hp2 _]; subst. cbn in Hp2. apply (entry_step W HW M) in He; [|exact Hp2]. rewrite (Ha eq_refl) in He.
    intros (it' & x' & last' & Hin & Heq). apply in_app_or in Hin as [Hin|[Hin|[]]]; [apply (IH Hp); exists it', x', last'; auto|]. injection Hin as -> -> -> ->.
    unfold ep_entry, finish in He. match type of He with context [ep_lambda ?a ?b ?c ?d ?e ?f ?g] => destruct (ep_lambda a b c d e f g) as [[e1 o1] r1] eqn:El end.
    assert (r1 = true) as -> by (destruct r1, (p_array p); congruence). apply lambda_cases in El. rewrite Heq, N.eqb_refl, Hn in El. cbn in El. rewrite !orb_true_r in El. cbn in El.
    destruct El as [(_ & _ & _ & _ & El)|(_ & [(_ & _ & _ & _ & El)|(_ & _ & _ & El)])]; discriminate.
  - apply Forall_app in Hp as [Hp _]. intros (it' & x' & last' & Hin & Heq). apply in_app_or in Hin as [Hin|[Hin|[]]]; [apply (IH Hp); exists it', x', last'; auto|discriminate].
  - apply Forall_app in Hp as [Hp _]. intros (it' & x' & last' & Hin & Heq). apply in_app_or in Hin as [Hin|[Hin|[]]]; [apply (IH Hp); exists it', x', last'; auto|discriminate].
Qed.

Lemma trace_pos begin from during s : subscription C everything begin from a during s -> Forall (fun y => match fst y with EvEntry it _ _ => (0 <= snd it)%Z | _ => True end) (ss_trace s).
Proof.
  intros Hsub. pose proof (sub_inv _ _ _ _ _ _ _ Hsub) as Hi. apply Forall_forall. intros [x r] Hx. cbn. destruct x as [it f la| | |]; auto.
  destruct (v_del _ _ _ Hi) as (n & Hd & _). assert (In (it, f) (delivered (ss_trace s))) as Hin. { unfold delivered. apply in_flat_map. exists (EvEntry it f la, r). split; [exact Hx|now left]. }
  rewrite Hd in Hin. unfold due in Hin. apply in_flat_map in Hin as ([[i t] e'] & Hy & Hin). cbn in Hin. destruct (N.leb begin i && N.ltb i n); [|contradiction]. destruct Hin as [[= <- <-]|[]]. apply numbered_in in Hy. apply nth_error_In in Hy.
  pose proof (inv_nonneg _ (v_mp _ _ _ Hi)) as Hpos. rewrite Forall_forall in Hpos. exact (Hpos _ Hy).
Qed.

Lemma selected_mono (x y : idxts * E) : (0 <= snd (fst x))%Z -> (fst (fst x) <= fst (fst y))%N -> (snd (fst x) <= snd (fst y))%Z -> selected q now size x = true -> selected q now size y = true.
Proof.
  intros _ H1 H2. unfold selected. rewrite !andb_true_iff. intros [[[A1 A2] A3] A4].
  destruct (q_i q), (q_tail q), (q_since q), (q_recent q); cbn [required] in *; repeat split; auto; (apply N.leb_le || apply Z.leb_le); (apply N.leb_le in A1 || idtac); (apply N.leb_le in A2 || idtac); (apply Z.leb_le in A3 || idtac); (apply Z.leb_le in A4 || idtac); lia.
Qed.

(** On a stream at rest an entry starts the output if, and only if, it is asked for. *)
Lemma starts_selected p begin (x : idxts * E) last : p = with_tail (parse_params q) (p_tail p) -> (q_tail q = None -> p_tail p = 0%N) -> (forall t, q_tail q = Some t -> t <> 0%N -> p_tail p = t) ->
  q_tail q <> Some 0%N \/ p_tail p = size -> q_tail q <> Some 0%N -> (begin < size)%N -> (fst (fst x) < size)%N -> (0 <= snd (fst x))%Z -> fst last = (size - 1)%N -> time_bound q = true -> starts p now x last = selected q now size x.
Proof.
  intros Hp Ht0 Ht _ Hnt Hb Hx Hpos Hl Hbound. rewrite selected_split. rewrite (init_from q now Hsane (p_tail p)) by exact Hpos. rewrite Hbound. cbn [negb orb]. unfold starts, start, init. rewrite <- Hp.
  pose proof (init_from_pos q now Hsane (p_tail p)) as Hfp. rewrite <- Hp in Hfp. set (f := e_from (ep_init p now)) in *. clearbody f.
  assert (Hi : p_i p = or0 (q_i q)) by (rewrite Hp; reflexivity). rewrite Hi, Hl. f_equal.
  - unfold sel_idx. f_equal.
    + destruct (q_i q); [reflexivity|]. cbn. apply N.leb_le. lia.
    + destruct (q_tail q) as [t|] eqn:Et; cbn [required].
      * assert (t <> 0%N) as Htn by congruence. rewrite (Ht t eq_refl Htn). destruct (N.eqb_spec t 0); [contradiction|]. cbn [orb].
        destruct (N.ltb_spec (size - 1 - fst (fst x)) t), (N.leb_spec (size - t) (fst (fst x))); try reflexivity; lia.
      * rewrite Ht0 by reflexivity. reflexivity.
  - destruct (Z.eqb_spec f 0); [|reflexivity]. cbn. symmetry. apply Z.leb_le. lia.
Qed.

Lemma static_body during s e body : thread_only during -> session W M tJ q now true a [] [] during s e body -> ss_pc s = PStop -> body = answer_body q now size aJ bJ L.
Proof.
  intros Hthr Hses Hstop. destruct (static_jinv during s e body Hthr Hses) as (begin & from & p & Hserve & Hb & Hf & Hsub & Hans & J & Hpn).
  destruct (thread_only_calls during Hthr) as [Hcalls Hsig].
  destruct (session_sound W HW M tJ q now a [] [] during s e body Hsane Hsig Hses) as (begin' & from' & p' & sk & se & extra & told & cl & Hserve' & (F1 & F2 & F3 & F4 & F5 & F6 & F7) & _ & (n & Hdel) & S & Hbody & Htimes & Hend).
  { rewrite Hcalls, !app_nil_r. exact Hnpos. }
  cbn [app] in *. rewrite Hcalls, app_nil_r in F2. rewrite Hcalls, app_nil_r in Hdel. rewrite app_nil_r in Hserve'. pose proof (eq_trans (eq_sym Hserve) Hserve') as Hsv. injection Hsv as <- <- <-. clear Hserve'. change (contents C a) with L in F2, F3, F4, F5, F6, F7, Hdel, Hend. change (N.of_nat (List.length L)) with size in F2, F3, F4, F5, F6, F7, Hdel, Hend.
  pose proof (sub_inv _ _ _ _ _ _ _ Hsub) as Hi. pose proof (sub_contents _ _ _ _ _ _ _ Hsub) as [HLs _]. rewrite Hcalls, app_nil_r in HLs. fold L in HLs.
  pose proof (ans_nowait p _ _ _ Hpn Hans (trace_pos begin from during s Hsub)) as Hne.
  destruct J as (_ & _ & [J|(Jh & Jl & _)]); [contradiction|].
  destruct Hend as [(_ & _ & [Hend|[Hend _]])|(_ & -> & Hwhy)]; [contradiction|contradiction|].
  assert (Hpos : Forall (fun x => 0 <= fst x)%Z L) by (rewrite <- m_entries; apply (inv_nonneg _ m_inv)).
  assert (Hsort : StronglySorted Z.lt (map fst L)) by (rewrite <- m_entries; apply (inv_sorted _ m_inv)).
  assert (Hse : entries_of told = se) by apply S.
  rewrite Hbody, <- Hse. rewrite (closed_eq p q aJ bJ tJ F1). unfold answer_body. rewrite Hse.
  assert (Hans' : answer_entries q now size aJ bJ L = se).
  { destruct (m_last m begin ltac:(rewrite m_size; exact Hb)) as (tl & Hml & _). rewrite m_size in Hml.
    assert (Hlast : forall x last r, passed_at (ss_trace s) x last r -> fst last = (size - 1)%N). { intros x last r Hx. pose proof (Jl _ _ _ _ Hx) as Hx'. rewrite Hml in Hx'. now injection Hx' as <-. }
    assert (Hnt : q_tail q <> Some 0%N).
    { intros Ht. unfold serve in Hserve. cbn [parse_params p_tail p_nowait] in Hserve. rewrite Ht in Hserve. change (negb (N.eqb npos 0)) with true in Hserve. rewrite N.eqb_refl in Hserve. cbv iota in Hserve. change (Z.ltb 0 0) with false in Hserve. cbv iota in Hserve. rewrite Hnowait, N.leb_refl in Hserve. discriminate. }
    pose proof (o_del _ _ _ _ _ _ _ _ _ S) as Hd. rewrite Hdel in Hd.
    assert (Hall : forall x, In x (sk ++ se ++ extra) -> In x (numbered L) /\ (begin <= fst (fst x))%N /\ (fst (fst x) < size)%N /\ (0 <= snd (fst x))%Z).
    { intros x Hx. pose proof (all_in p now aJ bJ L Hpos begin n (ss_trace s) sk se extra told S Hdel x Hx) as (A1 & A2 & A3). repeat split; auto.
      unfold numbered in A1. pose proof (numbered_bounds 0 L) as Hbd. rewrite Forall_forall in Hbd. pose proof (Hbd x A1). fold size in H. lia. }
    pose proof (sub_sorted L Hsort begin n (ss_trace s) Hdel) as Hss. rewrite (o_del _ _ _ _ _ _ _ _ _ S) in Hss.
    assert (Hstarts : forall x last r, time_bound q = true -> In x (sk ++ se ++ extra) -> passed_at (ss_trace s) x last r -> starts p now x last = selected q now size x).
    { intros x last r Htb Hx Hpa. apply (starts_selected p begin); auto; try (apply Hall; exact Hx). eapply Hlast; exact Hpa. }
    assert (Hsk : Forall (fun x => selected q now size x = false) sk).
    { destruct (time_bound q) eqn:Eb.
      - pose proof (o_skip _ _ _ _ _ _ _ _ _ S) as Hk. rewrite Forall_forall in Hk |- *. intros x Hx. destruct (Hk x Hx) as (last & r & A & B). rewrite <- B. symmetry. eapply Hstarts; eauto. apply in_or_app. now left.
      - apply (sk_unselected p q now aJ bJ tJ Hsane F1 size L Hpos begin n (ss_trace s) sk se extra told S Hdel); [rewrite Eb; exact F3|exact F6|now left]. }
    assert (Hse1 : Forall (fun x => selected q now size x = true) (se ++ extra)).
    { destruct (time_bound q) eqn:Eb.
      - destruct se as [|x0 se0] eqn:Ese.
        + inversion Hwhy as [Hn Hn'|Hn Hn'|? ? Hn Hn'|x t Hn Hn' [Hn''|(y & l & Hn'' & _)]]; subst; cbn; [constructor|constructor|constructor|rewrite Jh in Hn''; contradiction|discriminate].
        + assert (selected q now size x0 = true) as Hx0.
          { destruct (o_why _ _ _ _ _ _ _ _ _ S) as [Hw|[(t & Hw & _)|(x & l & last & r & Hw1 & Hw2 & Hw3)]]; [discriminate| | |].
            - pose proof (init_serving q now Hsane (p_tail p)) as Hi'. rewrite <- F1, Eb in Hi'. unfold init in Hw. rewrite Hi' in Hw. discriminate.
            - rewrite Jh in Hw. contradiction.
            - injection Hw1 as <- <-. rewrite <- Hw3. symmetry. eapply Hstarts; eauto. apply in_or_app. right. now left. }
          cbn [app]. constructor; [exact Hx0|]. cbn [app] in Hall, Hd, Hss.
          assert (Forall (fun y => (snd (fst x0) <= snd (fst y))%Z /\ (fst (fst x0) <= fst (fst y))%N) (se0 ++ extra)) as Hle.
          { pose proof (range_suffix L begin n sk _ Hd) as Hr. rewrite filter_range_length in Hr. clear -Hss Hr.
            rewrite map_app in Hss. assert (StronglySorted Z.lt (map (fun x => snd (fst x)) (x0 :: se0 ++ extra))) as Hss'. { revert Hss. generalize (map (fun x : idxts * E => snd (fst x)) sk) as u. induction u as [|y u IH]; cbn; intros H; [exact H|]. inversion H; auto. }
            cbn in Hss'. inversion Hss' as [|? ? _ H2]; subst. rewrite Forall_map in H2.
            destruct (firstn _ _) as [|[t0 e0] l0]; [discriminate|]. cbn [numbered_from] in Hr. injection Hr as -> Hr. rewrite Hr in H2 |- *.
            pose proof (numbered_bounds (begin + N.of_nat (List.length sk) + 1) l0) as Hbd. rewrite Forall_forall in *. intros y Hy. specialize (H2 y Hy). specialize (Hbd y Hy). cbn in *. lia. }
          rewrite Forall_forall in Hle |- *. intros y Hy. destruct (Hle y Hy) as [L1 L2]. apply (selected_mono x0 y); auto. apply (Hall x0). apply in_or_app. right. now left.
      - apply Forall_forall. intros x Hx. rewrite selected_split. destruct (Hall x) as (_ & A & _ & B); [apply in_or_app; now right|]. rewrite F3 by auto. rewrite (init_from q now Hsane (p_tail p)) by exact B. now rewrite Eb. }
    pose proof (range_prefix L begin n (sk ++ se ++ extra) []) as Hr. rewrite app_nil_r in Hr. specialize (Hr Hd). set (n' := (begin + _)%N) in Hr.
    set (R := filter (in_idx_range n' (N.max n' size)) (numbered L)).
    assert (Hnum : numbered L = filter (in_idx_range 0 begin) (numbered L) ++ (sk ++ se ++ extra) ++ R).
    { rewrite <- (filter_all (in_idx_range 0 (N.max n' size)) (numbered L)) at 1.
      - rewrite (range_cat L 0 begin (N.max n' size)) by (unfold n'; lia). f_equal. rewrite Hr. apply range_cat. unfold n'. lia.
      - pose proof (numbered_bounds 0 L) as Hbd. unfold numbered. eapply Forall_impl; [|exact Hbd]. intros x [_ Hx]. fold size in Hx. unfold in_idx_range. apply andb_true_iff. split; [apply N.leb_le; lia|apply N.ltb_lt; lia]. }
    unfold answer_entries. rewrite Hnum, !filter_app.
    rewrite (filter_none _ (filter (in_idx_range 0 begin) (numbered L))).
    2: { apply Forall_forall. intros x Hx. apply filter_In in Hx as [Hx1 Hx2]. apply F2; [exact Hx1|]. unfold in_idx_range in Hx2. lia. }
    rewrite (filter_none _ sk) by exact Hsk. apply Forall_app in Hse1 as [Hs1 Hs2]. rewrite (filter_all _ se), (filter_all _ extra) by assumption. cbn [app]. rewrite <- app_assoc.
    assert (Htot : forall l, sum (text_size q aJ bJ) l = total p aJ bJ l). { intros l. unfold sum, total. induction l as [|x l IH]; cbn; [reflexivity|]. now rewrite IH, (sizeof_eq p q aJ bJ F1). }
    assert (Hpn' : p_n p = or0 (q_n q)) by (rewrite F1; reflexivity). assert (Hpb : p_bytes p = or0 (q_bytes q)) by (rewrite F1; reflexivity). assert (Hpp : p_period p = Z.of_N (or0 (q_period q))) by (rewrite F1; reflexivity).
    apply cut_ok.
    - apply Hsane.
    - intros d Hdd Hd0 x y Hx Hy. pose proof (o_period _ _ _ _ _ _ _ _ _ S) as Ho. rewrite Hpp, Hdd in Ho. cbn [or0] in Ho. apply Ho; auto. lia.
    - intros k Hk. pose proof (o_n _ _ _ _ _ _ _ _ _ S) as Ho. rewrite Hpn', Hk in Ho. cbn [or0] in Ho. apply Ho. intros ->. destruct Hsane as (_ & Hz & _). contradiction.
    - intros B HB HB0 l x Hl. pose proof (o_bytes _ _ _ _ _ _ _ _ _ S l x Hl) as Ho. rewrite Hpb, HB in Ho. cbn [or0] in Ho. rewrite Htot. auto.
    - inversion Hwhy as [Hn Hn'|Hn Hn'|x last Hn Hn' Hn2|x t Hn Hn' [Hn''|(y & l & Hn'' & Hn3)]]; subst extra.
      + right. left. rewrite Hpn' in Hn, Hn'. destruct (q_n q); cbn [or0] in *; [now rewrite Hn'|contradiction].
      + right. right. left. rewrite Hpb in Hn, Hn'. destruct (q_bytes q) as [B|]; cbn [or0] in *; [|contradiction]. exists B. rewrite Htot. auto.
      + left. cbn [app]. rewrite (Hlast _ _ _ Hn') in Hn2.
        assert (In x (sk ++ se)) as Hx. { rewrite app_nil_r in Hd. rewrite <- Hd, <- Hdel. unfold delivered. apply in_flat_map. eexists. split; [exact Hn'|]. left. now destruct x. }
        assert (size <= n')%N as Hsz.
        { rewrite app_nil_r in Hr. rewrite Hr in Hx. apply filter_In in Hx as [_ Hx]. unfold in_idx_range in Hx. apply andb_true_iff in Hx as [_ Hx]. apply N.ltb_lt in Hx. lia. }
        apply filter_none. unfold R. rewrite N.max_l by exact Hsz. apply Forall_forall. intros z Hz. apply filter_In in Hz as [_ Hz]. unfold in_idx_range in Hz. lia.
      + rewrite Jh in Hn''. contradiction.
      + right. right. right. rewrite Hpp in Hn, Hn'. destruct (q_period q) as [d|]; cbn [or0] in *; [|contradiction]. exists d, y, l, x, (filter (selected q now size) R). repeat split; auto; [lia|]. now rewrite <- Hn3. }
  rewrite Hans'. destruct (q_array q) eqn:Ea; [reflexivity|].
  destruct (q_entries_only q) eqn:Eo.
  - rewrite (o_plain _ _ _ _ _ _ _ _ _ S). 2: { rewrite F1. cbn. rewrite Eo. apply orb_true_r. }
    unfold plain_body. clear. induction se as [|x se IH]; cbn; [reflexivity|]. now rewrite IH.
  - assert (told = map LEntry se) as ->.
    { assert (forall t, ~ In (LHead t) told) as Hh.
      { intros t Ht. assert (In t (heads (ss_trace s))) as Hin; [|rewrite Jh in Hin; contradiction].
        exact (o_heads _ _ _ _ _ _ _ _ _ S t Ht). }
      rewrite <- Hse. clear -Hh. induction told as [|[x|t] l IH]; cbn; [reflexivity| |exfalso; apply (Hh t); now left]. f_equal. apply IH. intros t Ht. apply (Hh t). now right. }
    unfold plain_body. clear. induction se as [|x se IH]; cbn; [reflexivity|]. now rewrite IH.
Qed.
End Static.
