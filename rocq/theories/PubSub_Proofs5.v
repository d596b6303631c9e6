(** What a session has sent. *)
From Coq Require Import String Sorted.
From Verif Require Import Base Persister_Model Persister_Spec Persister_Proofs Stream_Model Stream_Spec Stream_Proofs Stream_Proofs2 Stream_Props Replicator_Model Replicator_Spec PubSub_Model PubSub_Spec PubSub_Proofs PubSub_Proofs2 PubSub_Proofs3 PubSub_Proofs4.
Local Open Scope list_scope.

Section Ranges.
Context {E : Type}.
Lemma filter_range_length (L : list (Z * E)) b n : filter (in_idx_range b n) (numbered L) = numbered_from b (firstn (N.to_nat (n - b)) (skipn (N.to_nat b) L)).
Proof. unfold numbered. rewrite filter_idx_slice. rewrite N.max_r by lia. now rewrite N.sub_0_r. Qed.
Lemma numbered_from_split (b : N) (l : list (Z * E)) x y : numbered_from b l = x ++ y ->
  x = numbered_from b (firstn (List.length x) l) /\ y = numbered_from (b + N.of_nat (List.length x)) (skipn (List.length x) l).
Proof.
  revert b l. induction x as [|z x IH]; intros b l H; cbn [app List.length firstn skipn] in *; [split; [reflexivity|]; rewrite N.add_0_r; now symmetry|].
  destruct l as [|[t e] l]; [discriminate|]. cbn [numbered_from] in H. injection H as <- H. destruct (IH _ _ H) as [A B]. cbn [firstn skipn numbered_from]. split; [now rewrite <- A|].
  rewrite B at 1. f_equal. lia.
Qed.
(** A prefix of a range of entries is a range of entries. *)
Lemma range_prefix (L : list (Z * E)) b n x y : filter (in_idx_range b n) (numbered L) = x ++ y -> x = filter (in_idx_range b (b + N.of_nat (List.length x))) (numbered L).
Proof.
  rewrite !filter_range_length. intros H. pose proof (f_equal (@List.length _) H) as Hl. rewrite numbered_from_length, firstn_length, app_length in Hl.
  apply numbered_from_split in H as [H _]. rewrite H at 1. rewrite firstn_firstn. f_equal. f_equal. lia.
Qed.
Lemma skipn_skipn' {A} x y (l : list A) : skipn x (skipn y l) = skipn (y + x) l.
Proof. revert l. induction y as [|y IH]; intros l; cbn; [reflexivity|]. destruct l; [now rewrite skipn_nil|]. apply IH. Qed.
Lemma range_suffix (L : list (Z * E)) b n x y : filter (in_idx_range b n) (numbered L) = x ++ y -> y = filter (in_idx_range (b + N.of_nat (List.length x)) n) (numbered L).
Proof.
  rewrite !filter_range_length. intros H. pose proof (f_equal (@List.length _) H) as Hl. rewrite numbered_from_length, firstn_length, app_length in Hl.
  apply numbered_from_split in H as [_ H]. rewrite H at 1. f_equal. rewrite skipn_firstn_comm, skipn_skipn'. f_equal; [lia|]. f_equal. lia.
Qed.
Lemma range_cat (L : list (Z * E)) b c n : (b <= c <= n)%N -> filter (in_idx_range b n) (numbered L) = filter (in_idx_range b c) (numbered L) ++ filter (in_idx_range c n) (numbered L).
Proof.
  intros H. unfold numbered. generalize 0%N at 1 2 3. induction L as [|[t e] l IH]; intros k; cbn [numbered_from filter]; [reflexivity|].
  specialize (IH (k + 1)%N). unfold in_idx_range at 1 4 7. cbn [fst].
  destruct (N.leb_spec b k), (N.ltb_spec k n), (N.ltb_spec k c), (N.leb_spec c k); cbn [andb]; try lia; rewrite IH; try reflexivity.
  rewrite (filter_idx_none b c) by lia. reflexivity.
Qed.
End Ranges.

Section S.
Context {E : Type}.
Variable W : wire E.
Hypothesis HW : wire_ok W.
Variable M : mode E.
Variable tJ : Z -> bytes.
Variable q : query.
Variable now : Z.
Notation C := (w_codec W).
Notation aJ := (M_idx W M).
Notation bJ := (M_ser W M).

Lemma contents_length (a : list (pop E)) : mp_size (fst (mp_run C mp_init a)) = N.of_nat (List.length (contents C a)).
Proof. unfold mp_size, contents. now rewrite (mp_run_entries C a mp_init). Qed.
Lemma contents_more (a d : list (pop E)) : exists more, contents C (a ++ d) = mp_entries (fst (mp_run C mp_init a)) ++ more.
Proof.
  assert (mp_entries (fst (mp_run C mp_init (a ++ d))) = contents C (a ++ d)) as <- by apply (mp_run_entries C (a ++ d) mp_init). rewrite mp_run_app.
  set (m := fst (mp_run C mp_init a)). clearbody m. clear. revert m. induction d as [|o d IH]; intros m; cbn [mp_run fst]; [exists []; now rewrite app_nil_r|].
  destruct (mp_step_grow C m o) as (x & Hx & _). destruct (IH (fst (mp_step C m o))) as (y & Hy). exists (x ++ y). rewrite Hy, Hx. now rewrite app_assoc.
Qed.

Lemma session_sound a b c during s e body :
  sane q now -> ~ In LSignal during -> session W M tJ q now true a b c during s e body ->
  let L := contents C (a ++ b ++ c ++ calls during) in
  let size := N.of_nat (List.length (contents C a)) in
  (N.of_nat (List.length L) < npos)%N ->
  exists begin from p sk se extra told cl,
    serve size (fst (mp_run C mp_init (a ++ b))) now (parse_params q) = Subscribed begin from p /\
    (p = with_tail (parse_params q) (p_tail p) /\
     (forall x, In x (numbered L) -> (fst (fst x) < begin)%N -> selected q now size x = false) /\
     (q_tail q <> None \/ q_i q = None \/ time_bound q = false -> forall i, (begin <= i)%N -> sel_idx q size i = true) /\
     (0 <= from)%Z /\ (q_nowait q = true -> begin < size)%N /\
     (q_tail q = None -> p_tail p = 0%N) /\ (forall t, q_tail q = Some t -> t <> 0%N -> p_tail p = t)) /\
    subscription C everything begin from (a ++ b ++ c) during s /\
    (exists n, delivered (ss_trace s) = filter (in_idx_range begin n) (numbered L)) /\
    sound p now aJ bJ (ss_trace s) sk se extra told /\ body = body_of p aJ bJ tJ told ++ cl /\ Forall (fun t => 0 <= t)%Z (times (ss_trace s)) /\
    ((cl = [] /\ extra = [] /\ (ss_pc s <> PStop \/ (heads (ss_trace s) <> [] /\ p_period p <> 0%Z))) \/
     (ss_pc s = PStop /\ cl = closing p se /\ why p aJ bJ (ss_trace s) se extra)).
Proof.
  intros Hsane Hsig (begin & from & p & Hserve & Hsub & Hans) L size Hnpos.
  pose proof (sub_inv _ _ _ _ _ _ _ Hsub) as Hi. destruct (sub_contents _ _ _ _ _ _ _ Hsub) as [HL _]. rewrite <- !app_assoc in HL. fold L in HL.
  rewrite contents_length in Hserve. fold size in Hserve.
  assert (Hm : mp_inv (fst (mp_run C mp_init (a ++ b)))) by (apply mp_run_inv, mp_inv_init).
  assert (Hmore : exists more, L = mp_entries (fst (mp_run C mp_init (a ++ b))) ++ more).
  { unfold L. rewrite app_assoc. apply contents_more. }
  assert (Hsz : (size <= mp_size (fst (mp_run C mp_init (a ++ b))) < npos)%N).
  { split.
    - unfold size. rewrite <- contents_length. assert (mp_entries (fst (mp_run C mp_init (a ++ b))) = contents C (a ++ b)) as Hab by apply (mp_run_entries C (a ++ b) mp_init).
      destruct (contents_more a b) as (mo & Hmo). unfold mp_size. rewrite Hab, Hmo, app_length. lia.
    - destruct Hmore as (mo & Hmo). unfold mp_size. rewrite Hmo, app_length in Hnpos. lia. }
  assert (Hpos : Forall (fun x => 0 <= fst x)%Z L). { rewrite <- HL. apply (inv_nonneg _ (v_mp _ _ _ Hi)). }
  destruct (serve_facts q now Hsane size _ Hm Hsz L Hmore Hpos begin from p Hserve) as (F1 & F2 & F3 & F4 & F5 & F6 & F7 & _).
  assert (Hper : (0 <= p_period p)%Z) by (rewrite F1; cbn; lia).
  assert (Hk : kinv s).
  { apply (kinv_run C begin during (s_init begin from (fst (mp_run C mp_init (a ++ b ++ c))))); auto.
    - apply sinv_init. apply mp_run_inv, mp_inv_init.
    - repeat split; cbn; try constructor; lia. }
  destruct Hk as (K1 & K2 & K3 & K4).
  assert (Htp : Forall (fun t => 0 <= t)%Z (times (ss_trace s))).
  { apply Forall_forall. intros t Ht. unfold times in Ht. apply in_flat_map in Ht as ([x r] & Hx & Ht). cbn in Ht. rewrite Forall_forall in K4. pose proof (K4 _ Hx) as K. cbn in K. destruct x as [it f la|it|h|]; cbn in Ht; try contradiction; destruct Ht as [<-|[]]; [|exact K].
    destruct (v_del _ _ _ Hi) as (n & Hd & _). assert (In (it, f) (delivered (ss_trace s))) as Hin. { unfold delivered. apply in_flat_map. exists (EvEntry it f la, r). split; [exact Hx|now left]. }
    rewrite Hd in Hin. unfold due in Hin. apply in_flat_map in Hin as ([[i t] e'] & Hy & Hin). cbn in Hin. destruct (N.leb begin i && N.ltb i n); [|contradiction]. destruct Hin as [[= <- <-]|[]]. rewrite HL in Hy. apply numbered_in in Hy. apply nth_error_In in Hy. rewrite Forall_forall in Hpos. exact (Hpos _ Hy). }
  pose proof (v_sorted _ _ _ Hi) as Hsort. pose proof (v_resp _ _ _ Hi) as Hresp.
  destruct (C10_delivered_in_order_exactly_once E C _ _ _ _ _ Hsub) as (n & _ & Hdel). rewrite <- !app_assoc in Hdel. fold L in Hdel.
  destruct (match ss_pc s with PStop => true | _ => false end) eqn:Epc.
  - destruct Hresp as (tr & x & Htr & HF). assert (ss_pc s = PStop) as Hstop by (destruct (ss_pc s); congruence). rewrite Htr in *.
    assert (x <> EvTerminate) as Hx. { intros ->. apply Forall_app in K4 as [_ K4]. inversion K4 as [|? ? K _]; subst. exact K. }
    destruct (ans_end W HW M tJ p now Hper tr x e body Hans Hx HF Hsort Htp) as (sk & se & extra & told & cl & S1 & S2 & S3).
    exists begin, from, p, sk, se, extra, told, cl. split; [exact Hserve|]. split; [auto 10|]. split; [exact Hsub|]. split; [eauto|]. split; [exact S1|]. split; [exact S2|]. split; [exact Htp|].
    destruct S3 as [[-> S3]|(-> & -> & t & -> & S3)]; [right; auto|]. left. split; [reflexivity|]. split; [reflexivity|]. right. split; [|exact S3]. rewrite heads_app. cbn. now destruct (heads tr).
  - assert (ss_pc s <> PStop) as Hstop by (intros Hs; now rewrite Hs in Epc).
    destruct (ans_inv W HW M tJ p now Hper _ e body Hans Hresp Hsort Htp) as (sk & se & told & S1 & S2).
    exists begin, from, p, sk, se, [], told, []. split; [exact Hserve|]. split; [auto 10|]. split; [exact Hsub|]. split; [eauto|]. split; [now apply inv_sound with (e := e)|]. split; [now rewrite app_nil_r|]. split; [exact Htp|].
    left. auto.
Qed.

End S.
