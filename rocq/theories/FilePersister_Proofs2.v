From Verif Require Import Base Dec Codec Persister_Model Persister_Spec Persister_Proofs
  FilePersister_Model FilePersister_Spec FilePersister_Proofs.
From Coq Require Import Sorted.

#[local] Arguments FilePersister_Model.replay_line : simpl never.
#[local] Arguments head_line : simpl never.
#[local] Arguments head_str : simpl never.
#[local] Arguments pad : simpl never.
#[local] Arguments sig_line : simpl never.

Section P.
Context {E : Type}.
Variable C : codec E.
Variable sig : bytes.
Hypothesis HC : codec_ok C.
Hypothesis Hsig : sig_ok sig.
Notation replay_line := (replay_line C sig).
Notation replay_lines := (replay_lines C sig).
Notation finv := (finv C sig).
Notation parsed := (parsed C).
Notation parsed1 := (parsed1 C).

(** ** Raw lines. *)
Definition canon (it : idxts) (e : E) : bytes := ser_idx C it ++ [TAB] ++ ser C e.
Definition canon_line (l : bytes) : Prop :=
  is_directive l = true \/ exists it e, l = canon it e /\ (-1 <= snd it)%Z.

Lemma canon_directive it e : (-1 <= snd it)%Z -> is_directive (canon it e) = false.
Proof.
  intros Ht. unfold canon. pose proof (ok_idx C HC it Ht) as Hi.
  destruct (ser_idx C it) as [|b r]; [rewrite (ok_par_nil C HC) in Hi; discriminate|].
  cbn. destruct (N.eqb_spec b HASH) as [->|]; [|reflexivity]. rewrite (ok_par_hash C HC) in Hi. discriminate.
Qed.

Lemma canon_parsed it e : (-1 <= snd it)%Z -> parsed1 (canon it e) = [(it, Some e)].
Proof.
  intros Ht. unfold FilePersister_Proofs.parsed1. rewrite canon_directive by exact Ht.
  unfold canon. cbn [app]. rewrite cut_at_app by apply (ok_idx_tab C HC).
  rewrite (ok_idx C HC) by exact Ht. now rewrite (ok_de C HC).
Qed.

Lemma canon_step s m ls o :
  finv s m ls -> Forall canon_line ls -> op_ok C o -> op_canonical C o ->
  exists ls', finv (fst (fp_step C s o)) (fst (mp_step C m o)) ls' /\ Forall canon_line ls' /\ ext ls ls'.
Proof.
  intros H Hc Hok Hcan. destruct (finv_step C sig HC s m ls o H Hok) as (_ & ls' & H' & He).
  exists ls'. split; [exact H'|]. split; [|exact He].
  destruct He as [->|[[l ->]|(ls0 & t0 & t & -> & ->)]]; [exact Hc| |].
  2:{ apply Forall_snoc in Hc. apply Forall_snoc. split; [apply Hc|left; reflexivity]. }
  apply Forall_snoc. split; [exact Hc|].
  (* the appended line *)
  pose proof (f_file _ _ _ _ _ H) as Hf. pose proof (f_file _ _ _ _ _ H') as Hf'.
  rewrite unlines_app, unlines_one, <- Hf in Hf'.
  assert (Happ : forall x, fp_file s ++ x ++ [NL] = fp_file s ++ l ++ [NL] -> x = l).
  { intros x Hx. apply app_inv_head in Hx. now apply app_inj_tail in Hx. }
  assert (Hnil : fp_file s <> fp_file s ++ l ++ [NL]).
  { intros Hx. rewrite <- (app_nil_r (fp_file s)) in Hx at 1. apply app_inv_head in Hx.
    destruct l; discriminate. }
  destruct o as [e t|line|t]; cbn [fp_step fst snd] in Hf'.
  - unfold fp_publish in Hf'. destruct (Z.ltb_spec (fp_head s) t); cbn [negb fst] in Hf'; [|contradiction].
    right. exists (fp_next s, t), e. split; [symmetry; apply Happ, Hf'|].
    pose proof (finv_head_ge _ _ _ _ _ H). cbn. lia.
  - unfold fp_publish_unsafe in Hf'.
    destruct (cut_at TAB line) as [[pre post]|]; [|contradiction].
    destruct (par_idx C pre) as [[i t]|]; [|contradiction].
    destruct (negb (N.eqb i (fp_next s))); [contradiction|].
    destruct (negb (Z.ltb (fp_head s) t)); [contradiction|].
    cbn [fst append_entry fp_file] in Hf'. apply Happ in Hf'. subst l.
    right. destruct Hcan as (it & e & -> & Ht). eauto.
  - unfold fp_update_head in Hf'. destruct (negb (Z.ltb (fp_head s) t)) eqn:Hlt; [contradiction|].
    cbn in Hok. pose proof (finv_head_ge _ _ _ _ _ H) as Hge.
    destruct (negb (N.eqb (fp_headoff s) 0)) eqn:Ho; cbn [fst fp_file] in Hf'.
    + exfalso. apply (f_equal (@length N)) in Hf'. rewrite app_length in Hf'.
      unfold overwrite in Hf'. rewrite !app_length, firstn_length, skipn_length in Hf'. cbn in Hf'.
      rewrite ?app_length in Hf'. cbn in Hf'.
      destruct (f_ho _ _ _ _ _ H) as [Hz|(ls0 & t0 & r0 & Hls & Hho & Ht0 & _)]; [rewrite Hz in Ho; discriminate|].
      rewrite Hho, Hf, Hls, unlines_app, unlines_one, app_length in Hf'.
      rewrite app_length, head_line_length, head_str_length in Hf' by lia. cbn in Hf'. lia.
    + left. change (kHead ++ [SP] ++ head_str t ++ [NL]) with ((kHead ++ [SP] ++ head_str t) ++ [NL]) in Hf'.
      apply Happ in Hf'.
      subst l. reflexivity.
Qed.

Lemma canon_run ops : forall s m ls,
  finv s m ls -> Forall canon_line ls -> Forall (op_ok C) ops -> Forall (op_canonical C) ops ->
  exists ls', finv (fst (fp_run C s ops)) (fst (mp_run C m ops)) ls' /\ Forall canon_line ls'.
Proof.
  induction ops as [|o ops IH]; intros s m ls H Hc Hok Hcan; cbn; [eauto|].
  inversion Hok as [|? ? Ho Hos]; inversion Hcan as [|? ? Hq Hqs]; subst.
  destruct (canon_step s m ls o H Hc Ho Hq) as (ls1 & Hf1 & Hf2 & _).
  eapply IH; eauto.
Qed.

Lemma fp_raw_ok s m ls b t e :
  finv s m ls -> Forall canon_line ls -> nth_error (mp_entries m) b = Some (t, e) ->
  fp_raw s (N.of_nat b) = Ok (canon (N.of_nat b, t) e).
Proof.
  intros H Hc Hb. unfold fp_raw. rewrite Nat2N.id.
  assert (Hlt : b < length (parsed ls)).
  { rewrite (f_ents _ _ _ _ _ H), map_length. unfold numbered. rewrite numbered_from_length.
    apply nth_error_Some. congruence. }
  destruct (replay_locate C sig _ _ _ (f_replay _ _ _ _ _ H) b Hlt) as (p & q & rp & Hls & H1 & H2 & H3 & H4 & l & q' & -> & Hd).
  cbn in H3. rewrite H3.
  pose proof (replay_facts C sig _ _ _ H1) as (Ho & _). cbn in Ho. rewrite Ho, N.add_0_l, Nat2N.id.
  rewrite (f_file _ _ _ _ _ H), Hls, unlines_app, skipn_app, skipn_all, Nat.sub_diag. cbn [skipn app].
  pose proof (f_nl _ _ _ _ _ H) as Hnl. rewrite Hls in Hnl. apply Forall_app in Hnl as [_ Hnl].
  rewrite lines_of_unlines by exact Hnl. f_equal.
  rewrite Hls in Hc. apply Forall_app in Hc as [_ Hc]. inversion Hc as [|? ? Hl _]; subst.
  destruct Hl as [Hl|(it & x & -> & Ht)]; [congruence|].
  pose proof (f_ents _ _ _ _ _ H) as He. unfold numbered in He. apply parsed_prefix in He.
  cbn [FilePersister_Proofs.parsed flat_map] in He. rewrite canon_parsed in He by exact Ht. cbn [app] in He.
  assert (Hs : skipn (length (parsed p)) (mp_entries m) = (t, e) :: skipn (S (length (parsed p))) (mp_entries m)).
  { clear -Hb. revert Hb. generalize (length (parsed p)) as b, (mp_entries m) as l.
    intros b l. revert b. induction l as [|y l IH]; intros [|b] Hb; cbn in *; try discriminate; [congruence|auto]. }
  fold (parsed p) in He. rewrite Hs in He. cbn [numbered_from map fst snd] in He.
  injection He as -> -> _. reflexivity.
Qed.

Lemma omap_seq_raw s m ls : finv s m ls -> Forall canon_line ls -> forall n b,
  b + n <= length (mp_entries m) ->
  exists l, omap_list (mp_deref_unsafe C m) (map (fun k => (N.of_nat b + N.of_nat k)%N) (seq 0 n)) = Some l /\
            raw_run n s (N.of_nat b) = Ok l.
Proof.
  intros H Hc. induction n as [|n IH]; intros b Hb; [exists []; split; reflexivity|].
  cbn [seq map]. rewrite <- seq_shift, map_map. rewrite omap_list_cons.
  rewrite (map_ext _ (fun k => (N.of_nat (S b) + N.of_nat k)%N)) by (intros; lia).
  destruct (IH (S b) ltac:(lia)) as (l & H1 & H2). rewrite H1.
  destruct (nth_error (mp_entries m) b) as [[t e]|] eqn:Hn.
  2:{ apply nth_error_None in Hn. lia. }
  unfold mp_deref_unsafe. replace (N.to_nat (N.of_nat b + N.of_nat 0)) with b by lia. rewrite Hn.
  cbn [raw_run]. rewrite (fp_raw_ok s m ls b t e H Hc Hn). cbn [obind].
  replace (N.of_nat b + 1)%N with (N.of_nat (S b)) by lia. rewrite H2. cbn [obind].
  replace (N.of_nat b + N.of_nat 0)%N with (N.of_nat b) by lia.
  eexists. split; [reflexivity|]. reflexivity.
Qed.

Lemma fp_iterate_unsafe_sim s m ls b e :
  finv s m ls -> Forall canon_line ls ->
  obind (fp_iterate s b e) (fp_read_unsafe s) =
  obind (mp_iterate m b e) (fun r => match mp_read_unsafe C m r with Some a => Ok a | None => UB end).
Proof.
  intros H Hc. pose proof (finv_next _ _ _ _ _ H) as Hn.
  unfold fp_iterate, mp_iterate. rewrite <- Hn.
  set (e' := if N.eqb e npos then fp_next s else e).
  destruct (N.ltb_spec (fp_next s) e') as [Hz1|Hz1]; [reflexivity|].
  destruct (N.eqb_spec b e') as [Hz2|Hz2]; [reflexivity|].
  destruct (N.ltb_spec e' b) as [Hlt|Hle].
  { destruct (N.leb (fp_next s) b); reflexivity. }
  destruct (N.leb_spec (fp_next s) b) as [Hz3|Hz3]; [lia|].
  unfold mp_size in Hn.
  destruct (nth_error (fp_offs s) (N.to_nat b)) as [o|] eqn:Ho.
  2:{ apply nth_error_None in Ho. pose proof (replay_facts C sig _ _ _ (f_replay _ _ _ _ _ H)) as (_ & _ & Hx & _ & Hl).
      cbn in Hx, Hl. lia. }
  cbn [obind fp_read_unsafe]. unfold mp_read_unsafe, idx_seq. cbn [fst snd].
  rewrite idx_run_ok by lia.
  destruct (omap_seq_raw s m ls H Hc (N.to_nat (e' - b)) (N.to_nat b) ltac:(lia)) as (l & H1 & H2).
  rewrite N2Nat.id in H1, H2. rewrite H1. exact H2.
Qed.

(** ** Iterators while the file changes. *)
(** An iterator opened on some state keeps delivering the right entries whatever calls are made between
    its dereferences: [sched] lists the calls made before each dereference. *)
Notation it_inter := (iterate_interleaved C).

Definition it_inv (ls : list bytes) (i pos : N) (nxt : idxts) : Prop :=
  exists p q rp, ls = p ++ q /\ replay_lines rs_init p = Ok rp /\ pos = N.of_nat (length (unlines p)) /\
    fst (r_next rp) = i /\ fst nxt = i /\ (snd nxt <= snd (r_next rp))%Z /\
    (q = [] -> exists p' l, p = p' ++ [l] /\ is_directive l = false).

Lemma it_inv_ext ls ls' i pos nxt : it_inv ls i pos nxt -> ext ls ls' -> it_inv ls' i pos nxt.
Proof.
  intros (p & q & rp & -> & H1 & H2 & H3 & H4 & H5 & H6) [->|[[l ->]|(ls0 & t0 & t & Hl & ->)]].
  - exists p, q, rp. auto 10.
  - exists p, (q ++ [l]), rp. rewrite app_assoc. repeat split; auto.
    intros Hq. apply app_eq_nil in Hq. destruct Hq; discriminate.
  - destruct (list_snoc_cases q) as [->|(q' & x & ->)].
    + destruct (H6 eq_refl) as (p' & l & -> & Hd). rewrite app_nil_r in Hl. apply app_inj_tail in Hl as [_ ->].
      discriminate.
    + rewrite app_assoc in Hl. apply app_inj_tail in Hl as [<- _].
      exists p, (q' ++ [head_line t]), rp. rewrite app_assoc. repeat split; auto.
      intros Hq. apply app_eq_nil in Hq. destruct Hq; discriminate.
Qed.

Lemma run_ext ops : forall s m ls i pos nxt,
  finv s m ls -> Forall (op_ok C) ops -> it_inv ls i pos nxt ->
  exists ls', finv (fst (fp_run C s ops)) (fst (mp_run C m ops)) ls' /\ it_inv ls' i pos nxt.
Proof.
  induction ops as [|o ops IH]; intros s m ls i pos nxt H Hok Hi; cbn; [eauto|].
  inversion Hok as [|? ? Ho Hos]; subst. destruct (finv_step C sig HC s m ls o H Ho) as (_ & ls1 & H1 & H2).
  eapply IH; eauto. eapply it_inv_ext; eauto.
Qed.

Lemma parsed_ends_entry p r1 r2 : replay_lines r1 p = Ok r2 -> parsed p <> [] ->
  exists p' l p'', p = p' ++ l :: p'' /\ is_directive l = false.
Proof.
  intros Hr Hp. destruct (replay_locate C sig _ _ _ Hr 0) as (p' & q & _ & -> & _ & _ & _ & _ & l & q' & -> & Hd).
  - destruct (parsed p); [congruence|cbn; lia].
  - eauto.
Qed.

(** Scanning ends right after an entry line. *)
Lemma scan_ok2 : forall q r r' it e rest nxt pos,
  replay_lines r q = Ok r' -> parsed q = (it, Some e) :: rest ->
  fst nxt = fst (r_next r) -> (snd nxt <= snd (r_next r))%Z ->
  exists q1 l q2 r2, q = q1 ++ l :: q2 /\ is_directive l = false /\ replay_lines r (q1 ++ [l]) = Ok r2 /\
    r_next r2 = ((fst it + 1)%N, (snd it + 1)%Z) /\
    it_scan C (fst (r_next r)) nxt pos q = Ok ((it, e), ((pos + N.of_nat (length (unlines (q1 ++ [l]))))%N, r_next r2)).
Proof.
  induction q as [|l q IH]; intros r r' it e rest nxt pos H Hp Hn1 Hn2; [discriminate|].
  cbn in H. destruct (replay_line r l) as [m| |] eqn:Hl; cbn in H; try discriminate.
  pose proof (replay_line_cases C sig _ _ _ Hl) as [Ho Hc].
  cbn [FilePersister_Proofs.parsed flat_map] in Hp. fold (parsed q) in Hp.
  destruct Hc as [(Hd & Hp1 & Hn & Hof & Ht & _)|(Hd & t & oe & Hp1 & Ht1 & Ht2 & _ & _ & Hn & Hof & Ht)].
  - rewrite Hp1 in Hp. cbn in Hp.
    destruct (IH m r' it e rest nxt (pos + N.of_nat (length l) + 1)%N H Hp) as (q1 & l1 & q2 & r2 & -> & H1 & H2 & H3 & H6);
      rewrite Hn in *; auto.
    exists (l :: q1), l1, q2, r2. cbn [app FilePersister_Model.replay_lines]. rewrite Hl. cbn [obind].
    repeat split; auto. cbn [it_scan]. unfold process_line. rewrite Hd. rewrite H6.
    do 3 f_equal. rewrite unlines_length_cons. lia.
  - rewrite Hp1 in Hp. cbn in Hp. injection Hp as <- -> <-.
    exists [], l, q, m. cbn [app FilePersister_Model.replay_lines]. rewrite Hl. cbn [obind].
    repeat split; auto. cbn [it_scan].
    unfold process_line. rewrite Hd. unfold FilePersister_Proofs.parsed1 in Hp1. rewrite Hd in Hp1.
    destruct (cut_at TAB l) as [[pre post]|]; [|discriminate].
    destruct (par_idx C pre) as [[i' t']|]; [|discriminate].
    injection Hp1 as -> -> Hde. rewrite Hn1, N.eqb_refl. cbn [negb].
    destruct (Z.ltb_spec t (snd nxt)); [lia|]. rewrite N.eqb_refl, Hde, Hn. cbn [fst snd].
    rewrite unlines_length_cons. cbn [length unlines flat_map]. do 3 f_equal. lia.
Qed.

Lemma it_deref_step s m ls i pos nxt t e :
  finv s m ls -> it_inv ls i pos nxt -> nth_error (mp_entries m) (N.to_nat i) = Some (t, e) ->
  exists pos' nxt', it_scan C i nxt pos (lines_of (skipn (N.to_nat pos) (fp_file s))) = Ok (((i, t), e), (pos', nxt')) /\
    it_inv ls (i + 1) pos' nxt'.
Proof.
  intros H (p & q & rp & -> & H1 & -> & H3 & H4 & H5 & H6) Hn.
  rewrite Nat2N.id, (f_file _ _ _ _ _ H), unlines_app, skipn_app, skipn_all, Nat.sub_diag. cbn [skipn app].
  pose proof (f_nl _ _ _ _ _ H) as Hnl. apply Forall_app in Hnl as [_ Hnl]. rewrite lines_of_unlines by exact Hnl.
  pose proof (f_replay _ _ _ _ _ H) as Hr. apply replay_lines_app_ok in Hr as (rp' & Hrp & Hr).
  rewrite H1 in Hrp. injection Hrp as <-.
  pose proof (f_ents _ _ _ _ _ H) as He. unfold numbered in He. apply parsed_prefix in He.
  pose proof (replay_facts C sig _ _ _ H1) as (_ & _ & Hx & _). cbn in Hx. rewrite N.add_0_l, H3 in Hx.
  fold (parsed p) in He, Hx.
  rewrite <- Hx in He. replace (length (parsed p)) with (N.to_nat i) in He by lia.
  assert (Hs : skipn (N.to_nat i) (mp_entries m) = (t, e) :: skipn (S (N.to_nat i)) (mp_entries m)).
  { clear -Hn. revert Hn. generalize (N.to_nat i) as b, (mp_entries m) as l.
    intros b l. revert b. induction l as [|y l IH]; intros [|b] Hb; cbn in *; try discriminate; [congruence|auto]. }
  rewrite Hs in He. cbn [numbered_from map fst snd] in He.
  destruct (scan_ok2 q rp _ _ _ _ nxt (N.of_nat (length (unlines p))) Hr He) as (q1 & l & q2 & r2 & -> & Hd & Hr2 & Hn2 & Hsc).
  { congruence. } { exact H5. }
  rewrite H3 in Hsc. cbn [fst snd] in Hn2. do 2 eexists. split; [exact Hsc|].
  exists (p ++ q1 ++ [l]), q2, r2. rewrite <- !app_assoc. cbn [app]. split; [reflexivity|]. split.
  { apply replay_lines_app_ok. exists rp. auto. }
  rewrite Hn2. cbn [fst snd]. rewrite (unlines_app p), app_length. repeat split; try lia.
  intros _. exists (p ++ q1), l. split; [now rewrite <- app_assoc|exact Hd].
Qed.

Lemma it_inter_ok : forall sched s m ls i pos nxt,
  finv s m ls -> Forall (Forall (op_ok C)) sched -> it_inv ls i pos nxt ->
  N.to_nat i + length sched <= length (mp_entries m) ->
  it_inter s i pos nxt sched = Ok (numbered_from i (firstn (length sched) (skipn (N.to_nat i) (mp_entries m)))).
Proof.
  induction sched as [|ops sched IH]; intros s m ls i pos nxt H Hok Hi Hlen; [reflexivity|].
  inversion Hok as [|? ? Ho Hos]; subst. cbn [length] in Hlen.
  destruct (run_ext ops s m ls i pos nxt H Ho Hi) as (ls1 & H1 & Hi1).
  destruct (nth_error (mp_entries m) (N.to_nat i)) as [[t e]|] eqn:Hn.
  2:{ apply nth_error_None in Hn. lia. }
  assert (Hpre : mp_entries (fst (mp_run C m ops)) = mp_entries m ++ accepted C ops (snd (mp_run C m ops)))
    by apply mp_run_entries.
  assert (Hn1 : nth_error (mp_entries (fst (mp_run C m ops))) (N.to_nat i) = Some (t, e)).
  { rewrite Hpre, nth_error_app1; [exact Hn|]. apply nth_error_Some. congruence. }
  destruct (it_deref_step _ _ _ _ _ _ _ _ H1 Hi1 Hn1) as (pos' & nxt' & Hsc & Hi2).
  cbn [iterate_interleaved]. rewrite Hsc. cbn [obind fst snd].
  rewrite (IH _ _ ls1 (i + 1)%N pos' nxt' H1 Hos Hi2).
  2:{ rewrite Hpre, app_length. lia. }
  cbn [obind].
  assert (Hs : skipn (N.to_nat i) (mp_entries m) = (t, e) :: skipn (S (N.to_nat i)) (mp_entries m)).
  { clear -Hn. revert Hn. generalize (N.to_nat i) as b, (mp_entries m) as l.
    intros b l. revert b. induction l as [|y l IH]; intros [|b] Hb; cbn in *; try discriminate; [congruence|auto]. }
  rewrite Hs. cbn [length firstn numbered_from]. do 3 f_equal.
  rewrite Hpre. replace (N.to_nat (i + 1)) with (S (N.to_nat i)) by lia.
  rewrite skipn_app, firstn_app. rewrite skipn_length.
  replace (length sched - (length (mp_entries m) - S (N.to_nat i))) with 0 by lia. cbn. now rewrite app_nil_r.
Qed.

Lemma it_inv_start s m ls b e o :
  finv s m ls -> fp_iterate s b e = Ok (b, e, o) -> (b < e)%N -> (e <= fp_next s)%N -> it_inv ls b o (b, 0%Z).
Proof.
  intros H Hit Hbe He. pose proof (finv_next _ _ _ _ _ H) as Hn. unfold mp_size in Hn.
  assert (Hlen : length (parsed ls) = length (mp_entries m)).
  { rewrite (f_ents _ _ _ _ _ H), map_length. apply numbered_from_length. }
  destruct (replay_locate C sig _ _ _ (f_replay _ _ _ _ _ H) (N.to_nat b)) as (p & q & rp & Hls & H1 & H2 & H3 & H4 & l & q' & -> & Hd); [fold (parsed ls); lia|].
  pose proof (replay_facts C sig _ _ _ H1) as (Ho & _ & Hx & Hs & _). cbn in Ho, Hx, Hs.
  cbn in H3.
  assert (Hoo : o = r_off rp).
  { unfold fp_iterate in Hit. destruct (N.ltb (fp_next s) _); [discriminate|].
    destruct (N.eqb b _); [exfalso; injection Hit; intros; lia|]. destruct (N.ltb _ b); [discriminate|].
    rewrite H3 in Hit. congruence. }
  exists p, (l :: q'), rp. repeat split; auto; cbn [fst snd]; try lia; try discriminate.
  rewrite Hs. apply fold_nonneg; [|lia].
  assert (Hall : Forall (fun x => (0 <= snd (fst x))%Z) (parsed ls)).
  { rewrite (f_ents _ _ _ _ _ H). apply Forall_map. cbn. apply Forall_forall. intros [[i t] x] Hi.
    cbn. pose proof (inv_nonneg _ (f_minv _ _ _ _ _ H)) as Hm. rewrite Forall_forall in Hm.
    apply numbered_in in Hi. apply (Hm _ Hi). }
  rewrite Hls in Hall. unfold FilePersister_Proofs.parsed in Hall. rewrite flat_map_app in Hall. now apply Forall_app in Hall.
Qed.

(** ** What opening accepts (C07). *)
Definition pline_time (l : bytes) : list Z :=
  if is_directive l
  then if starts_with kHead l then [from_string_i64 (skip_space (skipn 5 l))] else []
  else map (fun x => snd (fst x)) (parsed1 l).
Definition pline_index (l : bytes) : list N := map (fun x => fst (fst x)) (parsed1 l).

Lemma line_time_eq l : FilePersister_Spec.line_time C l = pline_time l.
Proof.
  unfold FilePersister_Spec.line_time, pline_time, line_header, FilePersister_Proofs.parsed1.
  destruct (is_directive l); [reflexivity|]. destruct (cut_at TAB l) as [[pre post]|]; [|reflexivity].
  destruct (par_idx C pre) as [[i t]|]; reflexivity.
Qed.
Lemma line_index_eq l : FilePersister_Spec.line_index C l = pline_index l.
Proof.
  unfold FilePersister_Spec.line_index, pline_index, line_header, FilePersister_Proofs.parsed1.
  destruct (is_directive l); [reflexivity|]. destruct (cut_at TAB l) as [[pre post]|]; [|reflexivity].
  destruct (par_idx C pre) as [[i t]|]; reflexivity.
Qed.

Definition wf_from (n : N) (h : Z) (z : bool) (ls : list bytes) : Prop :=
  Forall (fun l => is_directive l = false ->
            exists pre post it, cut_at TAB l = Some (pre, post) /\ par_idx C pre = Some it) ls /\
  flat_map pline_index ls = map (fun k => (n + N.of_nat k)%N) (seq 0 (length (flat_map pline_index ls))) /\
  StronglySorted Z.lt (h :: flat_map pline_time ls) /\
  (forall k l, nth_error ls k = Some l -> starts_with kSignature l = true ->
     k = 0 /\ z = true /\ firstn (length sig) (skip_space (skipn 10 l)) = sig).

Lemma SS_cons_cons a b l : StronglySorted Z.lt (a :: b :: l) <-> (a < b)%Z /\ StronglySorted Z.lt (b :: l).
Proof.
  split.
  - inversion 1 as [|? ? H1 H2]; subst. inversion H2; subst. auto.
  - intros [H1 H2]. constructor; [exact H2|]. inversion H2 as [|? ? H3 H4]; subst. constructor; [exact H1|].
    eapply Forall_impl; [|exact H4]. cbn; intros; lia.
Qed.

Lemma starts_sig_directive l : starts_with kSignature l = true -> is_directive l = true /\ starts_with kHead l = false.
Proof.
  unfold starts_with. destruct (list_eq_dec N.eq_dec (firstn (length kSignature) l) kSignature) as [H|]; [|discriminate].
  intros _. change (length kSignature) with 10 in H.
  destruct l as [|a [|b l]]; try discriminate; cbn in H; injection H as -> -> H.
  split; [reflexivity|]. destruct (list_eq_dec _ _ _) as [Hk|]; [|reflexivity]. discriminate.
Qed.

Lemma open_iff_from : forall ls r,
  (snd (r_next r) <= r_head r + 1)%Z ->
  (exists r', replay_lines r ls = Ok r') <-> wf_from (fst (r_next r)) (r_head r) (N.eqb (r_off r) 0) ls.
Proof.
  induction ls as [|l ls IH]; intros r Hinv.
  - split; [intros _|cbn; eauto]. repeat split; try constructor; try constructor;
      intros; destruct k; discriminate.
  - cbn [FilePersister_Model.replay_lines].
    (* the tail is never at offset zero *)
    assert (Hoff : forall r', replay_line r l = Ok r' -> N.eqb (r_off r') 0 = false).
    { intros r' Hr. apply replay_line_cases in Hr as [-> _]. lia. }
    unfold FilePersister_Model.replay_line, process_line in *.
    destruct (is_directive l) eqn:Hd.
    + assert (Hli : pline_index l = []) by (unfold pline_index, FilePersister_Proofs.parsed1; now rewrite Hd).
      destruct (starts_with kHead l) eqn:Hk.
      * assert (Hlt : pline_time l = [from_string_i64 (skip_space (skipn 5 l))]) by (unfold pline_time; now rewrite Hd, Hk).
        cbn zeta in Hoff |- *. revert Hoff Hlt. generalize (from_string_i64 (skip_space (skipn 5 l))) as us.
        generalize (5 + count_space (skipn 5 l)) as off. intros off us Hoff Hlt.
        destruct (Z.ltb_spec (r_head r) us) as [Hus|Hus]; cbn [negb] in Hoff |- *.
        -- cbn [obind]. specialize (Hoff _ eq_refl). rewrite IH by (cbn; lia).
           cbn [r_next r_head r_off fst] in Hoff |- *. rewrite Hoff. unfold wf_from.
           cbn [flat_map]. rewrite Hli, Hlt. cbn [app].
           rewrite SS_cons_cons. rewrite Forall_cons_iff. split.
           ++ intros (A & B & D & F). split; [split; [intros; congruence|exact A]|]. split; [exact B|]. split; [auto|].
              intros [|k] l0 Hn Hst; cbn in Hn.
              ** injection Hn as <-. apply starts_sig_directive in Hst. destruct Hst; congruence.
              ** destruct (F _ _ Hn Hst) as (_ & Hx & _). discriminate.
           ++ intros ((_ & A) & B & (_ & D) & F). split; [exact A|]. split; [exact B|]. split; [exact D|].
              intros k l0 Hn Hst. destruct (F (S k) l0 Hn Hst) as (Hx & _). discriminate.
        -- split; [intros [r' [=]]|]. intros (_ & _ & D & _). cbn [flat_map] in D. rewrite Hlt in D.
           cbn [app] in D. apply SS_cons_cons in D. lia.
      * assert (Hlt : pline_time l = []) by (unfold pline_time; now rewrite Hd, Hk).
        destruct (starts_with kSignature l) eqn:Hs.
        -- destruct (N.eqb (r_off r) 0) eqn:Hz; cbn [negb] in Hoff |- *.
           ++ destruct (list_eq_dec N.eq_dec (firstn (length sig) (skip_space (skipn 10 l))) sig) as [Hsg|Hsg].
              ** cbn [obind]. specialize (Hoff _ eq_refl). rewrite IH by (cbn; lia).
                 cbn [r_next r_head r_off fst] in Hoff |- *. rewrite Hoff. unfold wf_from.
                 cbn [flat_map]. rewrite Hli, Hlt. cbn [app]. rewrite Forall_cons_iff. split.
                 --- intros (A & B & D & F). split; [split; [intros; congruence|exact A]|]. split; [exact B|]. split; [exact D|].
                     intros [|k] l0 Hn Hst; cbn in Hn; [injection Hn as <-; auto|].
                     destruct (F _ _ Hn Hst) as (_ & Hx & _). discriminate.
                 --- intros ((_ & A) & B & D & F). split; [exact A|]. split; [exact B|]. split; [exact D|].
                     intros k l0 Hn Hst. destruct (F (S k) l0 Hn Hst) as (Hx & _). discriminate.
              ** split; [intros [r' [=]]|]. intros (_ & _ & _ & F). destruct (F 0 l eq_refl Hs) as (_ & _ & Hx). contradiction.
           ++ split; [intros [r' [=]]|]. intros (_ & _ & _ & F). destruct (F 0 l eq_refl Hs) as (_ & Hx & _). discriminate.
        -- cbn [obind]. specialize (Hoff _ eq_refl). rewrite IH by (cbn; lia).
           cbn [r_next r_head r_off fst] in Hoff |- *. rewrite Hoff. unfold wf_from.
           cbn [flat_map]. rewrite Hli, Hlt. cbn [app]. rewrite Forall_cons_iff. split.
           ++ intros (A & B & D & F). split; [split; [intros; congruence|exact A]|]. split; [exact B|]. split; [exact D|].
              intros [|k] l0 Hn Hst; cbn in Hn; [congruence|].
              destruct (F _ _ Hn Hst) as (_ & Hx & _). discriminate.
           ++ intros ((_ & A) & B & D & F). split; [exact A|]. split; [exact B|]. split; [exact D|].
              intros k l0 Hn Hst. destruct (F (S k) l0 Hn Hst) as (Hx & _). discriminate.
    + assert (Hns : starts_with kSignature l = false).
      { destruct (starts_with kSignature l) eqn:Hs; [|reflexivity]. apply starts_sig_directive in Hs. destruct Hs; congruence. }
      destruct (cut_at TAB l) as [[pre post]|] eqn:Hc.
      2:{ split; [intros [r' [=]]|]. intros (A & _). inversion A as [|? ? A1 _]; subst.
          destruct (A1 Hd) as (pre & post & it & Hx & _). congruence. }
      destruct (par_idx C pre) as [[i t]|] eqn:Hp.
      2:{ split; [intros [r' [=]]|]. intros (A & _). inversion A as [|? ? A1 _]; subst.
          destruct (A1 Hd) as (pre' & post' & it & Hx & Hy). congruence. }
      assert (Hli : pline_index l = [i]) by (unfold pline_index, FilePersister_Proofs.parsed1; now rewrite Hd, Hc, Hp).
      assert (Hlt : pline_time l = [t]) by (unfold pline_time, FilePersister_Proofs.parsed1; now rewrite Hd, Hc, Hp).
      destruct (N.eqb_spec i (fst (r_next r))) as [->|Hi]; cbn [negb] in Hoff |- *.
      2:{ split; [intros [r' [=]]|]. intros (_ & B & _). cbn [flat_map] in B. rewrite Hli in B. cbn in B.
          injection B as B _. lia. }
      destruct (Z.ltb_spec t (snd (r_next r))) as [Ht|Ht].
      { split; [intros [r' [=]]|]. intros (_ & _ & D & _). cbn [flat_map] in D. rewrite Hlt in D. cbn in D.
        apply SS_cons_cons in D. lia. }
      destruct (Z.ltb_spec (r_head r) t) as [Hh|Hh]; cbn [negb] in Hoff |- *.
      2:{ split; [intros [r' [=]]|]. intros (_ & _ & D & _). cbn [flat_map] in D. rewrite Hlt in D. cbn in D.
          apply SS_cons_cons in D. lia. }
      cbn [obind]. specialize (Hoff _ eq_refl). rewrite IH by (cbn; lia).
      cbn [r_next r_head r_off fst] in Hoff |- *. rewrite Hoff. unfold wf_from.
      cbn [flat_map]. rewrite Hli, Hlt. cbn [app]. rewrite Forall_cons_iff, SS_cons_cons. cbn [length seq map].
      rewrite <- seq_shift, map_map.
      rewrite (map_ext (fun k => (fst (r_next r) + N.of_nat (S k))%N) (fun k => (fst (r_next r) + 1 + N.of_nat k)%N)) by (intros; lia).
      split.
      * intros (A & B & D & F). split; [split; [eauto 10|exact A]|]. split; [f_equal; [lia|exact B]|].
        split; [auto|]. intros [|k] l0 Hn Hst; cbn in Hn; [congruence|].
        destruct (F _ _ Hn Hst) as (_ & Hx & _). discriminate.
      * intros ((_ & A) & B & (_ & D) & F). split; [exact A|]. split; [now injection B|]. split; [exact D|].
        intros k l0 Hn Hst. destruct (F (S k) l0 Hn Hst) as (Hx & _). discriminate.
Qed.

Lemma fp_open_iff file : (exists s, fp_open C sig file = Ok s) <-> log_wf C sig (lines_of file).
Proof.
  assert (H : (exists s, fp_open C sig file = Ok s) <-> exists r, replay_lines rs_init (lines_of file) = Ok r).
  { unfold fp_open. destruct (replay_lines rs_init (lines_of file)) as [r| |]; cbn;
      (split; intros [z Hz]; first [discriminate|eauto]). }
  rewrite H. rewrite (open_iff_from (lines_of file) rs_init) by (cbn; lia).
  unfold wf_from. cbn [rs_init r_next r_head r_off fst]. change (N.eqb 0 0) with true.
  rewrite (map_ext (fun k => (0 + N.of_nat k)%N) N.of_nat) by (intros; lia).
  assert (Hf : forall l : bytes, (exists pre post it, cut_at TAB l = Some (pre, post) /\ par_idx C pre = Some it)
               <-> line_header C l <> None).
  { intros l. unfold line_header. destruct (cut_at TAB l) as [[pre post]|].
    - destruct (par_idx C pre) as [it|] eqn:Hp; split; [discriminate|eauto 6| |congruence].
      intros (? & ? & ? & [= <- <-] & ?). congruence.
    - split; [|congruence]. intros (? & ? & ? & [=] & _). }
  assert (Hi : forall ls, flat_map (FilePersister_Spec.line_index C) ls = flat_map pline_index ls)
    by (intros; apply flat_map_ext, line_index_eq).
  assert (Ht : forall ls, flat_map (FilePersister_Spec.line_time C) ls = flat_map pline_time ls)
    by (intros; apply flat_map_ext, line_time_eq).
  split.
  - intros (A & B & D & F). split.
    + eapply Forall_impl; [|exact A]. intros l Hl Hd. apply Hf, Hl, Hd.
    + now rewrite Hi.
    + now rewrite Ht.
    + intros k l Hk Hs. destruct (F _ _ Hk Hs) as (? & _ & ?). auto.
  - intros [A B D F]. rewrite Hi in B. rewrite Ht in D. repeat split; auto.
    + eapply Forall_impl; [|exact A]. intros l Hl Hd. apply Hf, Hl, Hd.
    + now destruct (F _ _ H0 H1).
    + now destruct (F _ _ H0 H1).
Qed.

Lemma replay_no_ub : forall ls r, replay_lines r ls <> UB.
Proof.
  induction ls as [|l ls IH]; intros r; cbn; [discriminate|].
  destruct (replay_line r l) as [r'| |] eqn:Hl; cbn; [apply IH|discriminate|].
  exfalso. unfold FilePersister_Model.replay_line in Hl. cbn zeta in Hl.
  repeat match type of Hl with
         | context [match ?x with _ => _ end] => destruct x; try discriminate
         end.
Qed.

(** ** Cut files (C08). *)
Lemma lines_of_no_nl tail : no_nl tail -> lines_of tail = match tail with [] => [] | _ => [tail] end.
Proof.
  unfold no_nl. induction tail as [|b tail IH]; intros H; [reflexivity|]. cbn [lines_of].
  destruct (N.eqb_spec b NL) as [->|Hb]; [exfalso; apply H; now left|].
  rewrite IH by (intros Hi; apply H; now right). now destruct tail.
Qed.

Lemma replay_prefix_data : forall ls r r', replay_lines r ls = Ok r' ->
  exists x y, r_offs r' = r_offs r ++ x /\ r_ts r' = r_ts r ++ y.
Proof.
  induction ls as [|l ls IH]; intros r r' H; cbn in H.
  - injection H as <-. exists [], []. now rewrite !app_nil_r.
  - destruct (replay_line r l) as [m| |] eqn:Hl; cbn in H; try discriminate.
    apply replay_line_cases in Hl as [_ Hl]. destruct (IH _ _ H) as (x & y & Hx & Hy).
    destruct Hl as [(_ & _ & _ & Hof & Ht & _)|(_ & t & oe & _ & _ & _ & _ & _ & _ & Hof & Ht)];
      rewrite Hof in Hx; rewrite Ht in Hy; [eauto|].
    rewrite <- app_assoc in Hx, Hy. eauto.
Qed.

(** After a crash that leaves an arbitrary unterminated tail, if the file opens at all then everything
    acknowledged before can be read back. *)
Lemma crash_entries_survive s m ls tail s' :
  finv s m ls -> no_nl tail -> fp_open C sig (fp_file s ++ tail) = Ok s' ->
  (fp_next s <= fp_next s')%N /\
  forall b e, (b <= e)%N -> (e <= fp_next s)%N -> (e < npos)%N ->
    obind (fp_iterate s' b e) (fp_read C s') = Ok (filter (in_idx_range b e) (numbered (mp_entries m))).
Proof.
  intros H Htail Hop. unfold fp_open in Hop. rewrite (f_file _ _ _ _ _ H) in Hop.
  rewrite lines_of_unlines_app in Hop by apply H.
  set (tl := lines_of tail) in *.
  destruct (replay_lines rs_init (ls ++ tl)) as [r| |] eqn:Hr; cbn [obind] in Hop; try discriminate.
  apply replay_lines_app_ok in Hr as Hr2. destruct Hr2 as (r1 & Hr1 & Hr2).
  rewrite (f_replay _ _ _ _ _ H) in Hr1. injection Hr1 as <-.
  pose proof (replay_facts C sig _ _ _ Hr2) as (_ & _ & Hx & _). cbn [rs_of r_next fst] in Hx.
  assert (Hoff : N.eqb (r_off r) 0 = false).
  { pose proof (replay_facts C sig _ _ _ Hr2) as (Ho & _). rewrite Ho. cbn.
    pose proof (f_ne _ _ _ _ _ H) as Hne. destruct ls as [|l0 ls0]; [congruence|].
    rewrite (f_file _ _ _ _ _ H), unlines_length_cons. lia. }
  rewrite Hoff in Hop.
  injection Hop as <-. cbn [fp_next]. split; [lia|].
  intros b e Hbe He Hnp.
  pose proof (finv_next _ _ _ _ _ H) as Hn.
  destruct (N.eqb_spec b e) as [->|Hne].
  { unfold fp_iterate. cbn [fp_next]. destruct (N.eqb_spec e npos); [lia|].
    destruct (N.ltb_spec (fst (r_next r)) e); [lia|]. rewrite N.eqb_refl. cbn.
    unfold numbered. rewrite filter_idx_slice. replace (N.to_nat (e - N.max 0 e)) with 0 by lia. reflexivity. }
  unfold fp_iterate. cbn [fp_next fp_offs]. destruct (N.eqb_spec e npos) as [Hz1|Hz1]; [lia|].
  destruct (N.ltb_spec (fst (r_next r)) e) as [Hz2|Hz2]; [lia|]. destruct (N.eqb_spec b e) as [Hz3|Hz3]; [contradiction|].
  destruct (N.ltb_spec e b) as [Hz4|Hz4]; [lia|].
  assert (Hlen : length (parsed ls) = length (mp_entries m)).
  { rewrite (f_ents _ _ _ _ _ H), map_length. apply numbered_from_length. }
  unfold mp_size in Hn.
  destruct (replay_locate C sig _ _ _ (f_replay _ _ _ _ _ H) (N.to_nat b)) as (p & q & rp & Hls & H1 & H2' & H3 & H4 & _); [fold (parsed ls); lia|].
  cbn [rs_of r_offs rs_init length Nat.add] in H3.
  destruct (replay_prefix_data _ _ _ Hr2) as (xo & _ & Hxo & _). cbn [rs_of r_offs] in Hxo.
  assert (Ho3 : nth_error (r_offs r) (N.to_nat b) = Some (r_off rp)).
  { rewrite Hxo, nth_error_app1; [exact H3|]. apply nth_error_Some. congruence. }
  rewrite Ho3. cbn [obind fp_read].
  pose proof (replay_facts C sig _ _ _ H1) as (Ho & _ & Hxx & Hs & _). cbn in Ho, Hxx, Hs.
  fold (parsed p) in Hxx, H4. rewrite H4, N.add_0_l, N2Nat.id in Hxx. rewrite Ho, N.add_0_l.
  unfold numbered. rewrite (filter_idx_slice b e (mp_entries m) 0). rewrite N.max_r, N.sub_0_r by lia.
  pose proof (f_ents _ _ _ _ _ H) as Hents. unfold numbered in Hents. rewrite Hls in Hents.
  apply parsed_prefix in Hents. fold (parsed p) in Hents. rewrite H4, N2Nat.id in Hents.
  (* reading proceeds over q ++ tail, as over q *)
  assert (Hscan : forall n p q rp ents nxt,
    ls = p ++ q -> replay_lines rs_init p = Ok rp -> replay_lines rp q = Ok (rs_of s) -> n <= length ents ->
    parsed q = map (fun x => (fst x, Some (snd x))) (numbered_from (E:=E) (fst (r_next rp)) ents) ->
    fst nxt = fst (r_next rp) -> (snd nxt <= snd (r_next rp))%Z ->
    it_run C n {| fp_file := unlines ls ++ tail; fp_pos := N.of_nat (length (unlines ls ++ tail));
                  fp_offs := r_offs r; fp_ts := r_ts r; fp_headoff := r_headoff r;
                  fp_next := fst (r_next r); fp_last := (snd (r_next r) - 1)%Z; fp_head := r_head r |}
       (fst (r_next rp)) (N.of_nat (length (unlines p))) nxt = Ok (numbered_from (fst (r_next rp)) (firstn n ents))).
  { clear -H Htail. induction n as [|n IH]; intros p q rp ents nxt Hls Hp Hq Hn He Hx1 Hx2; [reflexivity|].
    destruct ents as [|[t e] ents]; [cbn in Hn; lia|]. cbn [numbered_from map fst snd] in He.
    destruct (scan_ok2 q rp _ _ _ _ nxt (N.of_nat (length (unlines p))) Hq He Hx1 Hx2)
      as (q1 & l & q2 & r2 & Hqq & Hd & H1 & H4 & H6).
    cbn [it_run fp_file]. rewrite Nat2N.id.
    assert (Hl : lines_of (skipn (length (unlines p)) (unlines ls ++ tail)) = q ++ lines_of tail).
    { rewrite Hls, unlines_app, <- app_assoc, skipn_app, skipn_all, Nat.sub_diag. cbn.
      apply lines_of_unlines_app. pose proof (f_nl _ _ _ _ _ H) as Hnl. rewrite Hls in Hnl. now apply Forall_app in Hnl. }
    rewrite Hl.
    assert (Hsc : forall q t2 i nx ps z, it_scan C i nx ps q = Ok z -> it_scan C i nx ps (q ++ t2) = Ok z).
    { clear. induction q as [|l q IH]; intros t2 i nx ps z; [discriminate|]. cbn [app it_scan].
      destruct (process_line C nx l) as [v|[j t] pl|x]; auto.
      destruct (N.eqb j i); [auto|]. destruct (N.ltb i j); [auto|]. apply IH. }
    rewrite (Hsc _ (lines_of tail) _ _ _ _ H6). cbn [obind fst snd].
    cbn [fst snd] in H4.
    assert (Hls2 : ls = (p ++ q1 ++ [l]) ++ q2) by (rewrite Hls, Hqq, <- !app_assoc; reflexivity).
    rewrite Hqq in Hq. change (q1 ++ l :: q2) with (q1 ++ [l] ++ q2) in Hq. rewrite app_assoc in Hq.
    apply replay_lines_app_ok in Hq as (r2' & Hr2' & Hq2). rewrite H1 in Hr2'. injection Hr2' as <-.
    assert (Hpp : replay_lines rs_init (p ++ q1 ++ [l]) = Ok r2) by (apply replay_lines_app_ok; eauto).
    assert (Hpq2 : parsed q2 = map (fun x => (fst x, Some (snd x))) (numbered_from (E:=E) (fst (r_next r2)) ents)).
    { rewrite H4. cbn [fst]. pose proof (f_replay _ _ _ _ _ H) as Hfr.
      assert (Hone : length (parsed (q1 ++ [l])) = 1).
      { pose proof (replay_facts C sig _ _ _ H1) as (_ & _ & Hy & _). rewrite H4 in Hy. cbn [fst] in Hy.
        fold (parsed (q1 ++ [l])) in Hy. lia. }
      rewrite Hqq in He. change (q1 ++ l :: q2) with (q1 ++ [l] ++ q2) in He. rewrite app_assoc in He.
      unfold FilePersister_Proofs.parsed in He, Hone |- *. rewrite flat_map_app in He.
      destruct (flat_map parsed1 (q1 ++ [l])) as [|x [|y z]]; cbn in Hone; try lia.
      cbn in He. injection He as _ He. exact He. }
    specialize (IH (p ++ q1 ++ [l]) q2 r2 ents (r_next r2) Hls2 Hpp Hq2 ltac:(cbn in Hn; lia) Hpq2 eq_refl ltac:(lia)).
    rewrite H4 in IH |- *. cbn [fst snd] in *.
    rewrite (unlines_app p), (app_length (unlines p) (unlines (q1 ++ [l]))) in IH.
    replace (N.of_nat (length (unlines p)) + N.of_nat (length (unlines (q1 ++ [l]))))%N
      with (N.of_nat (length (unlines p) + length (unlines (q1 ++ [l])))) by lia.
    rewrite IH. cbn [obind firstn numbered_from]. reflexivity. }
  subst b.
  rewrite (Hscan _ p q rp (skipn (N.to_nat (fst (r_next rp))) (mp_entries m)) (fst (r_next rp), 0%Z)); auto.
  - rewrite skipn_length. lia.
  - cbn [snd]. rewrite Hs. apply fold_nonneg; [|lia].
    assert (Hall : Forall (fun x => (0 <= snd (fst x))%Z) (parsed ls)).
    { rewrite (f_ents _ _ _ _ _ H). apply Forall_map. cbn. apply Forall_forall. intros [[i t] x] Hi.
      cbn. pose proof (inv_nonneg _ (f_minv _ _ _ _ _ H)) as Hm. rewrite Forall_forall in Hm.
      apply numbered_in in Hi. apply (Hm _ Hi). }
    rewrite Hls in Hall. unfold FilePersister_Proofs.parsed in Hall. rewrite flat_map_app in Hall. now apply Forall_app in Hall.
Qed.

(** The cut falls inside the index/timestamp part of an entry record: the file cannot be opened. *)
Lemma crash_before_tab s m ls t k :
  finv s m ls -> (-1 <= t)%Z -> 0 < k <= length (ser_idx C (fp_next s, t)) ->
  fp_open C sig (fp_file s ++ firstn k (ser_idx C (fp_next s, t))) = Throw MalformedEntry.
Proof.
  intros H Ht Hk. set (x := ser_idx C (fp_next s, t)).
  assert (Hnotab : ~ In TAB (firstn k x)).
  { intros Hi. apply (ok_idx_tab C HC (fp_next s, t)). rewrite <- (firstn_skipn k (ser_idx C (fp_next s, t))).
    apply in_app_iff. now left. }
  assert (Hnonl : no_nl (firstn k x)).
  { intros Hi. apply (ok_idx_nl C HC (fp_next s, t)). rewrite <- (firstn_skipn k (ser_idx C (fp_next s, t))).
    apply in_app_iff. now left. }
  pose proof (ok_idx C HC (fp_next s, t) Ht) as Hpi. fold x in Hpi.
  assert (Hd : exists b r, firstn k x = b :: r /\ b <> HASH).
  { destruct x as [|b r]; [rewrite (ok_par_nil C HC) in Hpi; discriminate|].
    destruct k as [|k]; [lia|]. exists b, (firstn k r). split; [reflexivity|].
    intros ->. rewrite (ok_par_hash C HC) in Hpi. discriminate. }
  unfold fp_open. rewrite (f_file _ _ _ _ _ H), lines_of_unlines_app by apply H.
  rewrite lines_of_no_nl by exact Hnonl.
  destruct Hd as (b & r & Hb & Hbh). rewrite Hb. rewrite replay_lines_app, (f_replay _ _ _ _ _ H).
  cbn [obind FilePersister_Model.replay_lines].
  unfold FilePersister_Model.replay_line, process_line. cbn [is_directive].
  destruct (N.eqb_spec b HASH); [contradiction|]. rewrite <- Hb.
  assert (Hcut : cut_at TAB (firstn k x) = None).
  { revert Hnotab. generalize (firstn k x). clear. intros l. induction l as [|c l IH]; intros Hn; [reflexivity|].
    cbn. destruct (N.eqb_spec c TAB) as [->|]; [exfalso; apply Hn; now left|].
    rewrite IH; [reflexivity|]. intros Hi; apply Hn; now right. }
  rewrite Hcut. reflexivity.
Qed.

(** The cut falls at or after the tab: the file opens and the unacknowledged record counts as entry. *)
Lemma crash_after_tab s m ls t e k :
  finv s m ls -> (fp_head s < t)%Z -> k <= length (ser C e) ->
  exists s', fp_open C sig (fp_file s ++ ser_idx C (fp_next s, t) ++ [TAB] ++ firstn k (ser C e)) = Ok s' /\
    fp_next s' = (fp_next s + 1)%N /\ fp_head s' = t /\ fp_last s' = t /\ fp_headoff s' = 0%N /\
    fp_file s' = fp_file s ++ ser_idx C (fp_next s, t) ++ [TAB] ++ firstn k (ser C e) /\
    fp_pos s' = N.of_nat (length (fp_file s')).
Proof.
  intros H Ht Hk. pose proof (finv_head_ge _ _ _ _ _ H) as Hge.
  set (line := ser_idx C (fp_next s, t) ++ [TAB] ++ firstn k (ser C e)).
  assert (Hnl : no_nl line).
  { unfold no_nl, line. rewrite !in_app_iff. intros [Hi|[Hi|Hi]].
    - now apply (ok_idx_nl C HC) in Hi.
    - cbn in Hi. destruct Hi as [Hi|[]]. discriminate.
    - apply (ok_ser_nl C HC e). rewrite <- (firstn_skipn k (ser C e)). apply in_app_iff. now left. }
  assert (Hc : cut_at TAB line = Some (ser_idx C (fp_next s, t), firstn k (ser C e))).
  { apply cut_at_app. apply (ok_idx_tab C HC). }
  assert (Hp : par_idx C (ser_idx C (fp_next s, t)) = Some (fp_next s, t)) by (apply (ok_idx C HC); cbn; lia).
  destruct (replay_entry_line C sig HC s m ls line _ _ t H Hc Hp Ht) as [Hd Hr].
  assert (Hlo : lines_of (fp_file s ++ line) = ls ++ lines_of line).
  { rewrite (f_file _ _ _ _ _ H). apply lines_of_unlines_app. apply H. }
  fold line. unfold fp_open. rewrite Hlo.
  rewrite lines_of_no_nl by exact Hnl. clearbody line.
  assert (Hne : line <> []) by (intros ->; discriminate).
  destruct line as [|b l] eqn:Hl; [congruence|]. rewrite replay_lines_app, (f_replay _ _ _ _ _ H).
  cbn [obind FilePersister_Model.replay_lines]. rewrite Hr. cbn [obind].
  cbn [rs_of append_entry r_off r_next r_head r_headoff r_offs r_ts fp_next fp_last fp_head fp_headoff fp_file fst snd].
  assert (Hz : N.eqb (N.of_nat (length (fp_file s ++ (b :: l) ++ [NL]))) 0 = false).
  { rewrite !app_length. cbn. lia. }
  rewrite Hz. eexists. split; [reflexivity|]. cbn [fp_next fp_head fp_last fp_headoff fp_file fp_pos]. repeat split; lia.
Qed.

(** After a successful open. *)
Lemma fp_open_facts file s : fp_open C sig file = Ok s ->
  fp_next s = N.of_nat (length (flat_map (FilePersister_Spec.line_index C) (lines_of file))) /\
  fp_head s = List.last (flat_map (FilePersister_Spec.line_time C) (lines_of file)) (-1)%Z.
Proof.
  unfold fp_open. destruct (replay_lines rs_init (lines_of file)) as [r| |] eqn:Hr; cbn [obind]; try discriminate.
  intros [= <-]. cbn [fp_next fp_head]. split.
  - pose proof (replay_facts C sig _ _ _ Hr) as (_ & _ & Hx & _). rewrite Hx. cbn [rs_init r_next fst].
    rewrite (flat_map_ext _ _ line_index_eq). unfold pline_index, FilePersister_Proofs.parsed.
    f_equal. rewrite N.add_0_l. f_equal. generalize (lines_of file). clear.
    induction l as [|x l IH]; [reflexivity|]. cbn [flat_map]. rewrite !app_length, map_length. lia.
  - rewrite (flat_map_ext _ _ line_time_eq).
    assert (H : forall ls r r', replay_lines r ls = Ok r' -> r_head r' = List.last (flat_map pline_time ls) (r_head r)).
    2:{ apply (H _ _ _ Hr). }
    clear. induction ls as [|l ls IH]; intros r r' H; cbn in H; [now injection H as <-|].
    destruct (replay_line r l) as [m| |] eqn:Hl; cbn in H; try discriminate.
    rewrite (IH _ _ H). cbn [flat_map].
    assert (Hm : r_head m = List.last (pline_time l) (r_head r)).
    { unfold FilePersister_Model.replay_line, process_line, pline_time, FilePersister_Proofs.parsed1 in *.
      destruct (is_directive l).
      - destruct (starts_with kHead l).
        + cbn zeta in Hl. destruct (negb _); [discriminate|]. injection Hl as <-. reflexivity.
        + destruct (starts_with kSignature l).
          * destruct (negb _); [discriminate|]. destruct (list_eq_dec _ _ _); [|discriminate]. now injection Hl as <-.
          * now injection Hl as <-.
      - destruct (cut_at TAB l) as [[pre post]|]; [|discriminate].
        destruct (par_idx C pre) as [[i t]|]; [|discriminate].
        destruct (negb _); [discriminate|]. destruct (Z.ltb t _); [discriminate|].
        destruct (negb _); [discriminate|]. injection Hl as <-. reflexivity. }
    rewrite Hm. clear. generalize (flat_map pline_time ls) as b, (pline_time l) as a, (r_head r) as d.
    intros b a d. revert d. induction a as [|x a IH]; intros d; [reflexivity|].
    cbn [app]. destruct a as [|y a]; [|exact (IH d)].
    destruct b as [|z b]; [reflexivity|]. cbn [app]. change (List.last (x :: z :: b) d) with (List.last (z :: b) d).
    clear. revert z. induction b as [|w b IH]; intros z; [reflexivity|]. exact (IH w).
Qed.

Lemma replay_last_head x l r r' : replay_lines r (x ++ [l]) = Ok r' -> is_head_line l = true -> r_headoff r' <> 0%N.
Proof.
  intros H Hh. apply replay_lines_app_ok in H as (m & _ & H). cbn in H.
  destruct (replay_line m l) as [z| |] eqn:Hl; cbn in H; try discriminate. injection H as <-.
  unfold is_head_line in Hh. apply andb_true_iff in Hh as [Hd Hk].
  unfold FilePersister_Model.replay_line, process_line in Hl. rewrite Hd, Hk in Hl. cbn zeta in Hl.
  destruct (negb _); [discriminate|]. injection Hl as <-. cbn [r_headoff]. lia.
Qed.

(** Repeated head updates. *)
Lemma update_heads ts : forall s m ls,
  finv s m ls -> Forall (fun t => (t < 2 ^ 63)%Z) ts ->
  (fst (fp_run C s (map (@UpdateHead E) ts)) = s \/
   exists ls' t, (-1 < t < 2 ^ 63)%Z /\ Forall no_nl ls' /\ finv (fst (fp_run C s (map (@UpdateHead E) ts))) {| mp_entries := mp_entries m; mp_head := t |} (ls' ++ [head_line t]) /\ (exists r, replay_lines rs_init ls' = Ok r /\ r_headoff r = 0%N) /\ (ls = ls' \/ exists t0, (0 <= t0 < 2 ^ 63)%Z /\ ls = ls' ++ [head_line t0])).
Proof.
  induction ts as [|t ts IH]; intros s m ls H Hts; [now left|].
  inversion Hts as [|? ? Ht Hts']; subst. cbn [map fp_run fp_step fst].
  destruct (Z.ltb_spec (fp_head s) t) as [Hlt|Hge].
  2:{ unfold fp_update_head. destruct (Z.ltb_spec (fp_head s) t); [lia|]. cbn [negb fst]. apply (IH s m ls H Hts'). }
  right. pose proof (finv_head_ge _ _ _ _ _ H) as Hg.
  destruct (finv_update_head C sig s m ls t H Ht Hlt) as (ls1 & Hf & Hr1 & Hls1).
  destruct (IH _ _ _ Hf Hts') as [Heq|(ls2 & t2 & Ht2 & Hn2 & Hf2 & (r2 & Hr2 & Hz2) & Hls2)].
  - exists ls1, t. rewrite Heq. split; [lia|]. split; [|split; [exact Hf|split; [exact Hr1|exact Hls1]]].
    pose proof (f_nl _ _ _ _ _ Hf) as Hn. now apply Forall_app in Hn.
  - exists ls2, t2. cbn [mp_entries] in Hf2. split; [exact Ht2|]. split; [exact Hn2|]. split; [exact Hf2|].
    split; [eauto|]. destruct Hls2 as [Hls2|(t0 & Ht0 & Hls2)].
    + exfalso. subst ls2. revert Hz2. eapply replay_last_head; [exact Hr2|]. reflexivity.
    + apply app_inj_tail in Hls2 as [-> _]. exact Hls1.
Qed.
End P.
