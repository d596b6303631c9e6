From Verif Require Import Base Dec Codec Persister_Model Persister_Spec Persister_Proofs
  FilePersister_Model FilePersister_Spec.
From Coq Require Import Sorted.

(** ** Lines *)
Lemma lines_of_line l s : no_nl l -> lines_of (l ++ NL :: s) = l :: lines_of s.
Proof.
  unfold no_nl. induction l as [|b l IH]; intros H; cbn [app lines_of].
  - now rewrite N.eqb_refl.
  - destruct (N.eqb_spec b NL) as [->|Hb]; [exfalso; apply H; now left|].
    rewrite IH; [reflexivity|]. intros Hi; apply H; now right.
Qed.

Lemma unlines_cons l ls : unlines (l :: ls) = l ++ NL :: unlines ls.
Proof. unfold unlines. cbn. now rewrite <- app_assoc. Qed.

Lemma unlines_app a b : unlines (a ++ b) = unlines a ++ unlines b.
Proof. unfold unlines. apply flat_map_app. Qed.

Lemma unlines_one l : unlines [l] = l ++ [NL].
Proof. unfold unlines. cbn. apply app_nil_r. Qed.

Lemma lines_of_unlines_app ls s : Forall no_nl ls -> lines_of (unlines ls ++ s) = ls ++ lines_of s.
Proof.
  induction 1 as [|l ls Hl _ IH]; [reflexivity|].
  rewrite unlines_cons, <- app_assoc. cbn [app]. rewrite lines_of_line by exact Hl. now rewrite IH.
Qed.

Lemma lines_of_unlines ls : Forall no_nl ls -> lines_of (unlines ls) = ls.
Proof. intros H. rewrite <- (app_nil_r (unlines ls)), lines_of_unlines_app by exact H. apply app_nil_r. Qed.

Lemma unlines_length_cons l ls : length (unlines (l :: ls)) = length l + 1 + length (unlines ls).
Proof. rewrite unlines_cons, app_length. cbn. lia. Qed.

Lemma cut_at_app c p q : ~ In c p -> cut_at c (p ++ c :: q) = Some (p, q).
Proof.
  induction p as [|b p IH]; intros H; cbn [app cut_at].
  - now rewrite N.eqb_refl.
  - destruct (N.eqb_spec b c) as [->|Hb]; [exfalso; apply H; now left|].
    rewrite IH; [reflexivity|]. intros Hi; apply H; now right.
Qed.

Lemma starts_with_app p s : starts_with p (p ++ s) = true.
Proof.
  unfold starts_with. rewrite firstn_app, Nat.sub_diag, firstn_all. cbn. rewrite app_nil_r.
  now destruct (list_eq_dec N.eq_dec p p).
Qed.

Lemma span_digits_all d : Forall (fun b => is_digit b = true) d -> span_digits d = d.
Proof. induction 1 as [|b d Hb _ IH]; cbn; [reflexivity|]. now rewrite Hb, IH. Qed.

Lemma digit_not_space b : is_digit b = true -> isspace b = false.
Proof. unfold is_digit, isspace. lia. Qed.

Lemma from_string_digits d : d <> [] -> Forall (fun b => is_digit b = true) d ->
  (Z.of_N (horner d) < 2 ^ 63)%Z -> from_string_i64 d = Z.of_N (horner d).
Proof.
  intros Hne Hd Hlt. destruct d as [|b d]; [congruence|]. unfold from_string_i64.
  inversion Hd as [|? ? Hb Hd']; subst. cbn [skip_space]. rewrite (digit_not_space b Hb).
  unfold is_digit in Hb.
  destruct (N.eqb_spec b 45); [lia|]. destruct (N.eqb_spec b 43); [lia|].
  rewrite span_digits_all by exact Hd. unfold int64_or_zero.
  assert (Z.leb (- 2 ^ 63) (Z.of_N (horner (b :: d))) = true) as -> by lia.
  destruct (Z.ltb_spec (Z.of_N (horner (b :: d))) (2 ^ 63)); [reflexivity|lia].
Qed.

Lemma from_string_head_str t : (0 <= t < 2 ^ 63)%Z -> from_string_i64 (head_str t) = t.
Proof.
  intros H. unfold head_str. rewrite from_string_digits.
  - rewrite horner_pad. lia.
  - apply pad_nonempty.
  - apply pad_is_digit.
  - rewrite horner_pad. lia.
Qed.

Lemma head_str_length t : (0 <= t < 2 ^ 63)%Z -> length (head_str t) = 20.
Proof.
  intros H. unfold head_str. apply pad_length; [|lia].
  change (10 ^ N.of_nat 20)%N with 100000000000000000000%N.
  change (2 ^ 63)%Z with 9223372036854775808%Z in H. lia.
Qed.

Definition head_line (t : Z) : bytes := kHead ++ [SP] ++ head_str t.

Lemma head_line_length t : (0 <= t < 2 ^ 63)%Z -> length (head_line t) = 26.
Proof. intros H. unfold head_line. rewrite !app_length, head_str_length by exact H. reflexivity. Qed.

Lemma head_line_nl t : no_nl (head_line t).
Proof.
  unfold no_nl, head_line. rewrite !in_app_iff. intros [H|[H|H]].
  - cbn in H. unfold NL in H. intuition discriminate.
  - cbn in H. unfold NL, SP in H. intuition discriminate.
  - revert H. apply (not_in_forall NL is_digit); [apply pad_is_digit|reflexivity].
Qed.

Lemma skip_space_digits d : Forall (fun b => is_digit b = true) d -> skip_space d = d.
Proof. destruct 1 as [|b d Hb _]; cbn; [reflexivity|]. now rewrite (digit_not_space b Hb). Qed.
Lemma count_space_digits d : Forall (fun b => is_digit b = true) d -> count_space d = 0.
Proof. destruct 1 as [|b d Hb _]; cbn; [reflexivity|]. now rewrite (digit_not_space b Hb). Qed.

#[local] Arguments FilePersister_Model.replay_line : simpl never.
#[local] Arguments head_line : simpl never.
#[local] Arguments head_str : simpl never.
#[local] Arguments pad : simpl never.
#[local] Arguments sig_line : simpl never.

Section P.
Context {E : Type}.
Variable C : codec E.
Variable sig : bytes.
Hypothesis HC : codec_ok C.
Hypothesis Hsig : sig_ok sig.

Notation replay_line := (replay_line C sig).
Notation replay_lines := (replay_lines C sig).

Lemma replay_lines_app r a b :
  replay_lines r (a ++ b) = obind (replay_lines r a) (fun r' => replay_lines r' b).
Proof.
  revert r; induction a as [|l a IH]; intros r; cbn; [reflexivity|].
  destruct (replay_line r l); cbn; auto.
Qed.

Lemma replay_lines_app_ok r a b r' :
  replay_lines r (a ++ b) = Ok r' <-> exists m, replay_lines r a = Ok m /\ replay_lines m b = Ok r'.
Proof.
  rewrite replay_lines_app. destruct (replay_lines r a) as [m|x|]; cbn.
  - split; [eauto|]. intros (m' & [= <-] & H). exact H.
  - split; [discriminate|]. intros (m' & [=] & _).
  - split; [discriminate|]. intros (m' & [=] & _).
Qed.

(** What a line contributes: nothing if it is a directive, else the parsed record. *)
Definition parsed1 (l : bytes) : list (idxts * option E) :=
  if is_directive l then []
  else match cut_at TAB l with
       | Some (pre, post) => match par_idx C pre with Some it => [(it, de C post)] | None => [] end
       | None => []
       end.
Definition parsed (ls : list bytes) := flat_map parsed1 ls.

Lemma parsed_app a b : parsed (a ++ b) = parsed a ++ parsed b.
Proof. apply flat_map_app. Qed.

(** One successful replay step. *)
Lemma replay_line_cases r l r' :
  replay_line r l = Ok r' ->
  r_off r' = (r_off r + N.of_nat (length l) + 1)%N /\
  ((is_directive l = true /\ parsed1 l = [] /\ r_next r' = r_next r /\ r_offs r' = r_offs r /\ r_ts r' = r_ts r /\
    (r_head r <= r_head r')%Z)
   \/
   (is_directive l = false /\ exists t oe, parsed1 l = [((fst (r_next r), t), oe)] /\
      (snd (r_next r) <= t)%Z /\ (r_head r < t)%Z /\ r_head r' = t /\ r_headoff r' = 0%N /\
      r_next r' = ((fst (r_next r) + 1)%N, (t + 1)%Z) /\
      r_offs r' = r_offs r ++ [r_off r] /\ r_ts r' = r_ts r ++ [t])).
Proof.
  unfold FilePersister_Model.replay_line, process_line, parsed1.
  destruct (is_directive l) eqn:Hd.
  - destruct (starts_with kHead l).
    + cbn zeta. generalize (from_string_i64 (skip_space (skipn 5 l))) as us. intros us.
      destruct (Z.ltb_spec (r_head r) us); cbn [negb]; [|discriminate].
      intros [= <-]. cbn [r_off r_head r_headoff r_next r_offs r_ts]. split; [reflexivity|]. left. repeat split; auto; lia.
    + destruct (starts_with kSignature l).
      * destruct (N.eqb (r_off r) 0); cbn [negb]; [|discriminate].
        destruct (list_eq_dec _ _ _); [|discriminate].
        intros [= <-]. cbn [r_off r_head r_headoff r_next r_offs r_ts]. split; [reflexivity|]. left. repeat split; auto; lia.
      * intros [= <-]. cbn [r_off r_head r_headoff r_next r_offs r_ts]. split; [reflexivity|]. left. repeat split; auto; lia.
  - destruct (cut_at TAB l) as [[pre post]|]; [|discriminate].
    destruct (par_idx C pre) as [[i t]|]; [|discriminate].
    destruct (N.eqb_spec i (fst (r_next r))) as [->|]; cbn [negb]; [|discriminate].
    destruct (Z.ltb_spec t (snd (r_next r))); [discriminate|].
    destruct (Z.ltb_spec (r_head r) t); cbn [negb]; [|discriminate].
    intros [= <-]. cbn [r_off r_head r_headoff r_next r_offs r_ts]. split; [reflexivity|]. right. split; [reflexivity|].
    exists t, (de C post). repeat split; auto.
Qed.

Lemma replay_facts : forall ls r r', replay_lines r ls = Ok r' ->
  r_off r' = (r_off r + N.of_nat (length (unlines ls)))%N /\
  r_ts r' = r_ts r ++ map (fun x => snd (fst x)) (parsed ls) /\
  fst (r_next r') = (fst (r_next r) + N.of_nat (length (parsed ls)))%N /\
  snd (r_next r') = fold_left (fun _ x => (snd (fst x) + 1)%Z) (parsed ls) (snd (r_next r)) /\
  length (r_offs r') = length (r_offs r) + length (parsed ls).
Proof.
  induction ls as [|l ls IH]; intros r r' H; cbn in H.
  - injection H as <-. cbn. rewrite app_nil_r. repeat split; lia.
  - destruct (replay_line r l) as [m| |] eqn:Hl; cbn in H; try discriminate.
    apply IH in H as (H1 & H2 & H3 & H4 & H5).
    apply replay_line_cases in Hl as [Ho Hl].
    rewrite unlines_length_cons. cbn [parsed flat_map]. fold (parsed ls).
    destruct Hl as [(Hd & Hp & Hn & Hof & Ht & _)|(Hd & t & oe & Hp & _ & _ & _ & _ & Hn & Hof & Ht)].
    + rewrite Hp. cbn [app length]. rewrite Hn in H3, H4. rewrite Ht in H2. rewrite Hof in H5.
      split; [lia|]. auto.
    + rewrite Hp. cbn [app length map fold_left fst snd]. rewrite Hn in H3, H4. rewrite Ht in H2. rewrite Hof in H5.
      cbn [fst snd] in *. rewrite <- app_assoc in H2. rewrite app_length in H5. cbn in H5.
      split; [lia|]. split; [exact H2|]. split; [lia|]. split; [exact H4|lia].
Qed.

(** The line before entry number [b]. *)
Lemma replay_locate : forall ls r r', replay_lines r ls = Ok r' ->
  forall b, b < length (parsed ls) ->
  exists p q rp, ls = p ++ q /\ replay_lines r p = Ok rp /\ replay_lines rp q = Ok r' /\
    nth_error (r_offs r') (length (r_offs r) + b) = Some (r_off rp) /\ length (parsed p) = b /\
    exists l q', q = l :: q' /\ is_directive l = false.
Proof.
  induction ls as [|l ls IH]; intros r r' H b Hb; cbn in H; [cbn in Hb; lia|].
  destruct (replay_line r l) as [m| |] eqn:Hl; cbn in H; try discriminate.
  pose proof (replay_line_cases _ _ _ Hl) as [Ho Hc].
  cbn [parsed flat_map] in Hb. fold (parsed ls) in Hb.
  destruct Hc as [(Hd & Hp & Hn & Hof & Ht & _)|(Hd & t & oe & Hp & _ & _ & _ & _ & Hn & Hof & Ht)].
  - rewrite Hp in Hb. cbn in Hb.
    destruct (IH m r' H b Hb) as (p & q & rp & -> & H1 & H2 & H3 & H4 & H5).
    exists (l :: p), q, rp. cbn. rewrite Hl. cbn. rewrite Hof in H3.
    repeat split; auto. cbn [parsed flat_map]. now rewrite Hp.
  - rewrite Hp in Hb. cbn in Hb. destruct b as [|b].
    + exists [], (l :: ls), r. cbn. rewrite Hl. cbn. rewrite Nat.add_0_r. repeat split; auto; [|eauto].
      (* the offsets recorded later are appended *)
      assert (Hpre : forall ls r r', replay_lines r ls = Ok r' -> exists x, r_offs r' = r_offs r ++ x).
      { clear. induction ls as [|l ls IH]; intros r r' H; cbn in H.
        - injection H as <-. exists []. now rewrite app_nil_r.
        - destruct (replay_line r l) as [m| |] eqn:Hl; cbn in H; try discriminate.
          apply replay_line_cases in Hl as [_ [(_ & _ & _ & Hof & _)|(_ & t & oe & _ & _ & _ & _ & _ & _ & Hof & _)]];
            destruct (IH _ _ H) as [x Hx]; rewrite Hof in Hx; [eauto|].
          rewrite <- app_assoc in Hx. eauto. }
      destruct (Hpre _ _ _ H) as [x Hx]. rewrite Hx, Hof, <- app_assoc. cbn.
      rewrite nth_error_app2 by lia. now rewrite Nat.sub_diag.
    + destruct (IH m r' H b ltac:(lia)) as (p & q & rp & -> & H1 & H2 & H3 & H4 & H5).
      exists (l :: p), q, rp. cbn. rewrite Hl. cbn. rewrite Hof, app_length in H3. cbn in H3.
      rewrite <- H3. repeat split; auto; [f_equal; lia|].
      cbn [parsed flat_map]. rewrite Hp. cbn. now rewrite <- H4.
Qed.

(** Scanning for the next entry. *)
Lemma scan_ok : forall q r r' it e rest nxt pos,
  replay_lines r q = Ok r' -> parsed q = (it, Some e) :: rest ->
  fst nxt = fst (r_next r) -> (snd nxt <= snd (r_next r))%Z ->
  exists q1 q2 r2, q = q1 ++ q2 /\ replay_lines r q1 = Ok r2 /\ replay_lines r2 q2 = Ok r' /\
    parsed q2 = rest /\ r_next r2 = ((fst it + 1)%N, (snd it + 1)%Z) /\ fst it = fst (r_next r) /\
    it_scan C (fst (r_next r)) nxt pos q = Ok ((it, e), ((pos + N.of_nat (length (unlines q1)))%N, r_next r2)).
Proof.
  induction q as [|l q IH]; intros r r' it e rest nxt pos H Hp Hn1 Hn2; [discriminate|].
  cbn in H. destruct (replay_line r l) as [m| |] eqn:Hl; cbn in H; try discriminate.
  pose proof (replay_line_cases _ _ _ Hl) as [Ho Hc].
  cbn [parsed flat_map] in Hp. fold (parsed q) in Hp.
  destruct Hc as [(Hd & Hp1 & Hn & Hof & Ht & _)|(Hd & t & oe & Hp1 & Ht1 & Ht2 & _ & _ & Hn & Hof & Ht)].
  - rewrite Hp1 in Hp. cbn in Hp.
    destruct (IH m r' it e rest nxt (pos + N.of_nat (length l) + 1)%N H Hp) as (q1 & q2 & r2 & -> & H1 & H2 & H3 & H4 & H5 & H6);
      rewrite Hn in *; auto.
    exists (l :: q1), q2, r2. cbn [app FilePersister_Model.replay_lines]. rewrite Hl. cbn [obind].
    repeat split; auto. cbn [it_scan]. unfold process_line. rewrite Hd. rewrite H6.
    do 3 f_equal. rewrite unlines_length_cons. lia.
  - rewrite Hp1 in Hp. cbn in Hp. injection Hp as <- -> <-.
    exists [l], q, m. cbn [app FilePersister_Model.replay_lines]. rewrite Hl. cbn [obind].
    repeat split; auto. cbn [it_scan].
    unfold process_line. rewrite Hd. unfold parsed1 in Hp1. rewrite Hd in Hp1.
    destruct (cut_at TAB l) as [[pre post]|]; [|discriminate].
    destruct (par_idx C pre) as [[i' t']|]; [|discriminate].
    injection Hp1 as -> -> Hde. rewrite Hn1, N.eqb_refl. cbn [negb].
    destruct (Z.ltb_spec t (snd nxt)); [lia|]. rewrite N.eqb_refl, Hde, Hn. cbn [fst snd].
    rewrite unlines_length_cons. cbn [length unlines flat_map]. do 3 f_equal. lia.
Qed.

Lemma run_ok s : forall n p q r r' ents nxt,
  fp_file s = unlines (p ++ q) -> Forall no_nl (p ++ q) ->
  replay_lines r q = Ok r' -> n <= length ents ->
  parsed q = map (fun x => (fst x, Some (snd x))) (numbered_from (E:=E) (fst (r_next r)) ents) ->
  fst nxt = fst (r_next r) -> (snd nxt <= snd (r_next r))%Z ->
  it_run C n s (fst (r_next r)) (N.of_nat (length (unlines p))) nxt =
  Ok (numbered_from (fst (r_next r)) (firstn n ents)).
Proof.
  induction n as [|n IH]; intros p q r r' ents nxt Hf Hnl Hr Hn Hp Hx1 Hx2; [reflexivity|].
  destruct ents as [|[t e] ents]; [cbn in Hn; lia|].
  cbn [numbered_from map fst snd] in Hp.
  destruct (scan_ok q r r' _ _ _ nxt (N.of_nat (length (unlines p))) Hr Hp Hx1 Hx2)
    as (q1 & q2 & r2 & -> & H1 & H2 & H3 & H4 & _ & H6).
  cbn [it_run].
  assert (Hl : lines_of (skipn (N.to_nat (N.of_nat (length (unlines p)))) (fp_file s)) = q1 ++ q2).
  { rewrite Nat2N.id, Hf, unlines_app, skipn_app, skipn_all, Nat.sub_diag. cbn.
    apply lines_of_unlines. now apply Forall_app in Hnl. }
  rewrite Hl, H6. cbn [obind fst snd].
  cbn [fst snd] in H4. rewrite app_assoc in Hf, Hnl.
  specialize (IH (p ++ q1) q2 r2 r' ents (r_next r2) Hf Hnl H2 ltac:(cbn in Hn; lia)).
  rewrite H4 in IH |- *. cbn [fst snd] in *.
  rewrite unlines_app, app_length in IH.
  replace (N.of_nat (length (unlines p)) + N.of_nat (length (unlines q1)))%N
    with (N.of_nat (length (unlines p) + length (unlines q1))) by lia.
  rewrite IH by (auto; lia). cbn [obind firstn numbered_from]. reflexivity.
Qed.

(** ** The invariant relating the file persister to the in-memory one. *)
Definition rs_of (s : fp) : rs :=
  {| r_next := (fp_next s, (fp_last s + 1)%Z); r_off := N.of_nat (length (fp_file s)); r_head := fp_head s;
     r_headoff := fp_headoff s; r_offs := fp_offs s; r_ts := fp_ts s |}.

Record finv (s : fp) (m : mp E) (ls : list bytes) : Prop := {
  f_file : fp_file s = unlines ls;
  f_nl : Forall no_nl ls;
  f_pos : fp_pos s = N.of_nat (length (fp_file s));
  f_ne : ls <> [];
  f_replay : replay_lines rs_init ls = Ok (rs_of s);
  f_ho : fp_headoff s = 0%N \/
         exists ls' t0 r0, ls = ls' ++ [head_line t0] /\ fp_headoff s = N.of_nat (length (unlines ls') + 6) /\
           (0 <= t0 < 2 ^ 63)%Z /\ replay_lines rs_init ls' = Ok r0 /\ (r_head r0 < t0)%Z /\ r_headoff r0 = 0%N;
  f_ents : parsed ls = map (fun x => (fst x, Some (snd x))) (numbered (mp_entries m));
  f_head : mp_head m = fp_head s;
  f_minv : mp_inv m
}.

Lemma finv_next s m ls : finv s m ls -> fp_next s = mp_size m.
Proof.
  intros H. pose proof (f_replay _ _ _ H) as Hr. apply replay_facts in Hr as (_ & _ & Hn & _).
  cbn in Hn. rewrite (f_ents _ _ _ H), map_length in Hn. unfold numbered in Hn. rewrite numbered_from_length in Hn.
  unfold mp_size. lia.
Qed.

Lemma ts_of_numbered i (l : list (Z * E)) :
  map (fun x : idxts * option E => snd (fst x)) (map (fun x => (fst x, Some (snd x))) (numbered_from i l)) = map fst l.
Proof. revert i; induction l as [|[t e] l IH]; intros i; cbn; [reflexivity|]. now rewrite IH. Qed.

Lemma numbered_in i (l : list (Z * E)) j t x : In ((j, t), x) (numbered_from i l) -> In (t, x) l.
Proof.
  revert i; induction l as [|[t' x'] l IH]; intros i; cbn; [auto|].
  intros [H|H]; [left; congruence|right; eauto].
Qed.

Lemma fold_nonneg (l : list (idxts * option E)) : Forall (fun x => (0 <= snd (fst x))%Z) l ->
  forall z, (0 <= z)%Z -> (0 <= fold_left (fun _ x => (snd (fst x) + 1)%Z) l z)%Z.
Proof. induction 1 as [|x l Hx _ IH]; intros z Hz; cbn; [exact Hz|]. apply IH. lia. Qed.

Lemma finv_ts s m ls : finv s m ls -> fp_ts s = map fst (mp_entries m).
Proof.
  intros H. pose proof (f_replay _ _ _ H) as Hr. apply replay_facts in Hr as (_ & Ht & _).
  cbn in Ht. rewrite Ht, (f_ents _ _ _ H). apply ts_of_numbered.
Qed.

Lemma finv_last s m ls : finv s m ls ->
  fp_last s = match nth_error (mp_entries m) (pred (length (mp_entries m))) with Some (t, _) => t | None => (-1)%Z end.
Proof.
  intros H. pose proof (f_replay _ _ _ H) as Hr. apply replay_facts in Hr as (_ & _ & _ & Hl & _).
  cbn in Hl. rewrite (f_ents _ _ _ H) in Hl. unfold numbered in Hl. revert Hl.
  destruct (list_snoc_cases (mp_entries m)) as [->|(l & [t e] & ->)].
  - cbn. lia.
  - rewrite numbered_from_app, map_app, fold_left_app, app_length. cbn.
    rewrite Nat.add_1_r. cbn [pred]. rewrite nth_error_snoc_last. lia.
Qed.

Lemma finv_head_ge s m ls : finv s m ls -> (-1 <= fp_head s)%Z.
Proof. intros H. rewrite <- (f_head _ _ _ H). apply (f_minv _ _ _ H). Qed.

(** Replaying one more entry line. *)
Lemma replay_entry_line s m ls line pre post t :
  finv s m ls -> cut_at TAB line = Some (pre, post) -> par_idx C pre = Some (fp_next s, t) ->
  (fp_head s < t)%Z ->
  is_directive line = false /\
  replay_line (rs_of s) line = Ok (rs_of (append_entry s line t)).
Proof.
  intros H Hc Hp Ht.
  assert (Hd : is_directive line = false).
  { destruct line as [|b line]; [discriminate|]. cbn. destruct (N.eqb_spec b HASH) as [->|]; [|reflexivity].
    cbn in Hc. change (N.eqb HASH TAB) with false in Hc. cbn in Hc.
    destruct (cut_at TAB line) as [[p q]|]; [|discriminate]. injection Hc as <- <-.
    rewrite (ok_par_hash C HC) in Hp. discriminate. }
  split; [exact Hd|].
  unfold FilePersister_Model.replay_line, process_line. rewrite Hd, Hc, Hp. cbn [rs_of r_next fst snd r_head].
  rewrite N.eqb_refl. cbn [negb].
  pose proof (finv_last _ _ _ H) as Hl.
  assert (Hlast : (fp_last s <= fp_head s)%Z).
  { rewrite Hl, <- (f_head _ _ _ H). destruct (nth_error _ _) as [[u e]|] eqn:Hn.
    - apply nth_error_In in Hn. pose proof (inv_head _ (f_minv _ _ _ H)) as Hh.
      rewrite Forall_forall in Hh. apply (Hh _ Hn).
    - apply (inv_headm1 _ (f_minv _ _ _ H)). }
  destruct (Z.ltb_spec t (fp_last s + 1)); [lia|].
  destruct (Z.ltb_spec (fp_head s) t); [|lia]. cbn [negb]. unfold append_entry, rs_of. cbn.
  f_equal. f_equal.
  - rewrite !app_length. cbn. lia.
  - now rewrite (f_pos _ _ _ H).
Qed.

Lemma finv_append s m ls line pre post t e :
  finv s m ls -> no_nl line ->
  cut_at TAB line = Some (pre, post) -> par_idx C pre = Some (fp_next s, t) -> de C post = Some e ->
  (fp_head s < t)%Z ->
  finv (append_entry s line t) {| mp_entries := mp_entries m ++ [(t, e)]; mp_head := t |} (ls ++ [line]).
Proof.
  intros H Hnl Hc Hp Hde Ht.
  destruct (replay_entry_line s m ls line pre post t H Hc Hp Ht) as [Hd Hr].
  split; cbn [append_entry fp_file fp_pos fp_headoff fp_head mp_head mp_entries].
  - rewrite unlines_app, unlines_one, (f_file _ _ _ H). reflexivity.
  - apply Forall_snoc. split; [apply H|exact Hnl].
  - reflexivity.
  - intros Hn. apply app_eq_nil in Hn. destruct Hn; discriminate.
  - apply replay_lines_app_ok. exists (rs_of s). split; [apply H|]. cbn. now rewrite Hr.
  - now left.
  - rewrite parsed_app, (f_ents _ _ _ H). unfold numbered. rewrite numbered_from_app, map_app. f_equal.
    cbn. unfold parsed1. rewrite Hd, Hc, Hp, Hde. cbn. do 4 f_equal.
    rewrite (finv_next _ _ _ H). unfold mp_size. lia.
  - reflexivity.
  - apply mp_inv_append; [apply H|]. rewrite (f_head _ _ _ H). exact Ht.
Qed.

Lemma replay_head_line r t : (r_head r < t)%Z -> (0 <= t < 2 ^ 63)%Z ->
  replay_line r (head_line t) =
  Ok {| r_next := r_next r; r_off := (r_off r + 27)%N; r_head := t; r_headoff := (r_off r + 6)%N;
        r_offs := r_offs r; r_ts := r_ts r |}.
Proof.
  intros H1 H2. unfold FilePersister_Model.replay_line, process_line.
  change (is_directive (head_line t)) with true. cbn iota.
  unfold head_line at 1. rewrite starts_with_app.
  change (skipn 5 (head_line t)) with (SP :: head_str t).
  cbn [skip_space count_space]. change (isspace SP) with true. cbn iota.
  rewrite skip_space_digits, count_space_digits by apply pad_is_digit.
  rewrite from_string_head_str by exact H2.
  destruct (Z.ltb_spec (r_head r) t); [|lia]. cbn [negb].
  rewrite head_line_length by exact H2. f_equal. f_equal; lia.
Qed.

Lemma parsed_head_line t : parsed [head_line t] = [].
Proof. reflexivity. Qed.

Lemma finv_update_head s m ls t :
  finv s m ls -> (t < 2 ^ 63)%Z -> (fp_head s < t)%Z ->
  exists ls', finv (fst (fp_update_head s t)) {| mp_entries := mp_entries m; mp_head := t |} (ls' ++ [head_line t]) /\
    (exists r, replay_lines rs_init ls' = Ok r /\ r_headoff r = 0%N) /\
    (ls = ls' \/ exists t0, (0 <= t0 < 2 ^ 63)%Z /\ ls = ls' ++ [head_line t0]).
Proof.
  intros H Ht Hlt. pose proof (finv_head_ge _ _ _ H) as Hge.
  assert (Hminv : mp_inv {| mp_entries := mp_entries m; mp_head := t |}).
  { destruct (f_minv _ _ _ H) as [M1 M2 M3 M4]. split; cbn; auto; [|lia].
    eapply Forall_impl; [|exact M3]. cbn; intros; rewrite (f_head _ _ _ H) in *; lia. }
  unfold fp_update_head. destruct (Z.ltb_spec (fp_head s) t); [|lia]. cbn [negb].
  destruct (N.eqb_spec (fp_headoff s) 0) as [Hz|Hz]; cbn [negb fst].
  - exists ls. split; [|split; [exists (rs_of s); split; [apply H|exact Hz]|now left]].
    split; cbn [fp_file fp_pos fp_headoff fp_head mp_head mp_entries]; auto.
    + rewrite unlines_app, unlines_one, (f_file _ _ _ H). unfold head_line. now rewrite <- !app_assoc.
    + apply Forall_snoc. split; [apply H|apply head_line_nl].
    + intros Hn. apply app_eq_nil in Hn. destruct Hn; discriminate.
    + apply replay_lines_app_ok. exists (rs_of s). split; [apply H|]. cbn.
      rewrite replay_head_line by (cbn; lia). cbn. unfold rs_of; cbn. f_equal. f_equal.
      * rewrite app_length. cbn. rewrite app_length, head_str_length by lia. cbn. lia.
      * rewrite (f_pos _ _ _ H). lia.
    + right. exists ls, t, (rs_of s). repeat split; auto; try lia; [|apply H].
      rewrite (f_pos _ _ _ H), <- (f_file _ _ _ H). lia.
    + rewrite parsed_app, parsed_head_line, app_nil_r. apply H.
  - destruct (f_ho _ _ _ H) as [|(ls' & t0 & r0 & Hls & Hho & Ht0 & Hr0 & Hh0 & Hho0)]; [congruence|].
    exists ls'. split; [|split; [eauto|right; eauto]].
    pose proof (f_replay _ _ _ H) as Hr. rewrite Hls in Hr. apply replay_lines_app_ok in Hr as (r1 & Hr1 & Hr).
    rewrite Hr0 in Hr1. injection Hr1 as <-. cbn [FilePersister_Model.replay_lines] in Hr.
    rewrite replay_head_line in Hr by assumption. cbn [obind] in Hr.
    match type of Hr with Ok ?a = Ok ?b => assert (Hrr : a = b) by congruence end. clear Hr.
    pose proof (f_equal r_next Hrr) as E1. pose proof (f_equal r_off Hrr) as E2. pose proof (f_equal r_head Hrr) as E3.
    pose proof (f_equal r_headoff Hrr) as E4. pose proof (f_equal r_offs Hrr) as E5. pose proof (f_equal r_ts Hrr) as E6.
    cbn in E1, E2, E3, E4, E5, E6. clear Hrr.
    assert (Hfile : overwrite (N.to_nat (fp_headoff s)) (head_str t ++ [NL]) (fp_file s) = unlines (ls' ++ [head_line t])).
    { unfold overwrite. rewrite Hho, Nat2N.id, (f_file _ _ _ H), Hls.
      rewrite !unlines_app, !unlines_one.
      rewrite firstn_app. rewrite firstn_all2 by lia.
      replace (length (unlines ls') + 6 - length (unlines ls')) with 6 by lia.
      unfold head_line. change (kHead ++ [SP] ++ head_str t0) with ((kHead ++ [SP]) ++ head_str t0).
      rewrite <- app_assoc. change (firstn 6 ((kHead ++ [SP]) ++ head_str t0 ++ [NL])) with (kHead ++ [SP]).
      rewrite skipn_all2.
      - rewrite app_nil_r, <- !app_assoc. reflexivity.
      - rewrite !app_length. rewrite !head_str_length by lia. cbn. lia. }
    assert (Hlen : length (unlines (ls' ++ [head_line t])) = length (fp_file s)).
    { rewrite (f_file _ _ _ H), Hls, !unlines_app, !unlines_one, !app_length.
      rewrite !head_line_length by lia. reflexivity. }
    split; cbn [fp_file fp_pos fp_headoff fp_head mp_head mp_entries]; auto.
    + apply Forall_snoc. pose proof (f_nl _ _ _ H) as Hnl. rewrite Hls in Hnl. apply Forall_snoc in Hnl.
      split; [apply Hnl|apply head_line_nl].
    + rewrite Hfile, Hlen. apply H.
    + intros Hn. apply app_eq_nil in Hn. destruct Hn; discriminate.
    + apply replay_lines_app_ok. exists r0. split; [exact Hr0|]. cbn.
      rewrite replay_head_line by lia.
      cbn. unfold rs_of; cbn. rewrite Hfile, Hlen. f_equal. f_equal; auto.
    + right. exists ls', t, r0. repeat split; auto; lia.
    + rewrite parsed_app, parsed_head_line, app_nil_r. pose proof (f_ents _ _ _ H) as He.
      rewrite Hls, parsed_app, parsed_head_line, app_nil_r in He. exact He.
Qed.

(** How the lines of the file may change in one step. *)
Definition ext (ls ls' : list bytes) : Prop :=
  ls' = ls \/ (exists l, ls' = ls ++ [l]) \/
  (exists ls0 t0 t, ls = ls0 ++ [head_line t0] /\ ls' = ls0 ++ [head_line t]).

Lemma finv_step s m ls o :
  finv s m ls -> op_ok C o ->
  snd (fp_step C s o) = snd (mp_step C m o) /\
  exists ls', finv (fst (fp_step C s o)) (fst (mp_step C m o)) ls' /\ ext ls ls'.
Proof.
  assert (Hrefl : ext ls ls) by now left.
  assert (Hsn : forall l, ext ls (ls ++ [l])) by (intros l; right; left; eauto).
  intros H Hok. pose proof (finv_next _ _ _ H) as Hn. pose proof (f_head _ _ _ H) as Hh.
  destruct o as [e t|line|t]; cbn [fp_step mp_step fst snd].
  - unfold fp_publish, mp_publish. rewrite Hh, <- Hn.
    destruct (Z.ltb_spec (fp_head s) t) as [Hlt|Hge]; cbn [negb fst snd]; [|split; [reflexivity|eauto]].
    split; [reflexivity|]. pose proof (finv_head_ge _ _ _ H) as Hg. eexists. split; [|apply Hsn].
    eapply finv_append; eauto.
    + unfold no_nl. rewrite in_app_iff. cbn. intros [Hi|[Hi|Hi]].
      * now apply (ok_idx_nl C HC) in Hi.
      * discriminate.
      * now apply (ok_ser_nl C HC) in Hi.
    + cbn. apply cut_at_app. apply (ok_idx_tab C HC).
    + apply (ok_idx C HC). cbn. lia.
    + apply (ok_de C HC).
  - unfold fp_publish_unsafe, mp_publish_unsafe. cbn in Hok. destruct Hok as [Hnl Hde].
    destruct (cut_at TAB line) as [[pre post]|] eqn:Hc; cbn; [|split; [reflexivity|eauto]].
    destruct (par_idx C pre) as [[i t]|] eqn:Hp; cbn; [|split; [reflexivity|eauto]].
    rewrite <- Hn. destruct (N.eqb_spec i (fp_next s)) as [->|]; cbn; [|split; [reflexivity|eauto]].
    rewrite Hh. destruct (Z.ltb_spec (fp_head s) t); cbn; [|split; [reflexivity|eauto]].
    specialize (Hde pre post eq_refl). destruct (de C post) as [e|] eqn:Hd; [|congruence]. cbn.
    split; [reflexivity|]. eexists. split; [|apply Hsn]. eapply finv_append; eauto.
  - cbn in Hok. unfold mp_update_head. rewrite Hh.
    destruct (Z.ltb_spec (fp_head s) t) as [Hlt|Hge]; cbn [fst snd].
    + split; [|destruct (finv_update_head s m ls t H Hok Hlt) as (ls' & Hf & _ & [->|(t0 & _ & ->)]);
               eexists; split; [exact Hf|apply Hsn|exact Hf|right; right; eauto]].
      unfold fp_update_head. destruct (Z.ltb_spec (fp_head s) t); [|lia]. cbn [negb].
      now destruct (negb (N.eqb (fp_headoff s) 0)).
    + unfold fp_update_head. destruct (Z.ltb_spec (fp_head s) t); [lia|]. cbn. split; [reflexivity|eauto].
Qed.

Lemma finv_run ops : forall s m ls,
  finv s m ls -> Forall (op_ok C) ops ->
  snd (fp_run C s ops) = snd (mp_run C m ops) /\
  exists ls', finv (fst (fp_run C s ops)) (fst (mp_run C m ops)) ls'.
Proof.
  induction ops as [|o ops IH]; intros s m ls H Hok; cbn; [eauto|].
  inversion Hok as [|? ? Ho Hos]; subst.
  destruct (finv_step s m ls o H Ho) as [H1 (ls1 & H2 & _)].
  destruct (IH _ _ _ H2 Hos) as [H3 H4]. split; [now rewrite H1, H3|exact H4].
Qed.

(** ** Opening. *)
Lemma sig_line_nl : no_nl (sig_line sig).
Proof.
  unfold no_nl, sig_line. rewrite !in_app_iff. intros [H|[H|H]].
  - cbn in H. unfold NL in H. intuition discriminate.
  - cbn in H. unfold NL, SP in H. intuition discriminate.
  - now apply (proj1 Hsig) in H.
Qed.

Lemma replay_sig_line :
  replay_line rs_init (sig_line sig) =
  Ok {| r_next := (0%N, 0%Z); r_off := N.of_nat (length (sig_line sig) + 1); r_head := (-1)%Z;
        r_headoff := 0; r_offs := []; r_ts := [] |}.
Proof.
  unfold FilePersister_Model.replay_line, process_line.
  change (is_directive (sig_line sig)) with true. cbn iota.
  change (starts_with kHead (sig_line sig)) with false. cbn iota.
  unfold sig_line at 1. rewrite starts_with_app. cbn [rs_init r_off N.eqb negb].
  change (N.eqb 0 0) with true. cbn [negb].
  change (skipn 10 (sig_line sig)) with (SP :: sig).
  cbn [skip_space]. change (isspace SP) with true. cbn iota.
  assert (Hs : skip_space sig = sig).
  { destruct Hsig as [_ Hs]. destruct sig as [|b s]; [contradiction|]. cbn. now rewrite Hs. }
  rewrite Hs, firstn_all. destruct (list_eq_dec N.eq_dec sig sig); [|congruence].
  cbn [rs_init r_next r_head r_offs r_ts]. f_equal. f_equal. lia.
Qed.

Lemma fp_open_empty : exists s, fp_open C sig [] = Ok s /\ finv s mp_init [sig_line sig].
Proof.
  unfold fp_open. cbn [lines_of FilePersister_Model.replay_lines obind rs_init r_off r_next r_head r_headoff r_offs r_ts fst snd].
  change (N.eqb 0 0) with true. cbn iota. eexists. split; [reflexivity|].
  split; cbn [fp_file fp_pos fp_headoff fp_head mp_head mp_entries mp_init app]; auto.
  - now rewrite unlines_one.
  - constructor; [apply sig_line_nl|constructor].
  - discriminate.
  - cbn [FilePersister_Model.replay_lines]. rewrite replay_sig_line. cbn [obind]. unfold rs_of; cbn [fp_next fp_last fp_file fp_head fp_headoff fp_offs fp_ts].
    f_equal. f_equal. rewrite app_length. cbn [length]. lia.
  - apply mp_inv_init.
Qed.

(** Reopening gives the identical state. *)
Lemma fp_open_reopen s m ls : finv s m ls -> fp_open C sig (fp_file s) = Ok s.
Proof.
  intros H. unfold fp_open. rewrite (f_file _ _ _ H) at 1.
  rewrite lines_of_unlines by apply H. rewrite (f_replay _ _ _ H). cbn [obind].
  cbn [rs_of r_off r_next r_head r_headoff r_offs r_ts fst snd].
  assert (Hnz : N.eqb (N.of_nat (length (fp_file s))) 0 = false).
  { apply N.eqb_neq. rewrite (f_file _ _ _ H). pose proof (f_ne _ _ _ H). destruct ls as [|l ls]; [congruence|].
    rewrite unlines_length_cons. lia. }
  rewrite Hnz. replace (fp_last s + 1 - 1)%Z with (fp_last s) by lia.
  rewrite <- (f_pos _ _ _ H). now destruct s.
Qed.

(** ** Queries. *)
Lemma fts_before_eq (l : list (Z * E)) p i : fts_before (map fst l) p i = ts_before l p i.
Proof. unfold fts_before, ts_before. rewrite nth_error_map. now destruct (nth_error l i) as [[t e]|]. Qed.

Lemma bsearch_ext fuel : forall f g a n, (forall i, f i = g i) -> bsearch fuel f a n = bsearch fuel g a n.
Proof.
  induction fuel as [|k IH]; intros f g a n H; cbn; [reflexivity|]. destruct n; [reflexivity|].
  rewrite H. destruct (g _); now apply IH.
Qed.

Lemma fp_index_range_eq s m ls from till : finv s m ls -> fp_index_range s from till = mp_index_range m from till.
Proof.
  intros H. unfold fp_index_range, mp_index_range. rewrite (finv_ts _ _ _ H), map_length.
  cbn zeta. rewrite !(bsearch_ext _ (fts_before _ _) (ts_before (mp_entries m) _)) by (intros; apply fts_before_eq).
  reflexivity.
Qed.

Lemma parsed_prefix (p q : list bytes) (ents : list (Z * E)) :
  parsed (p ++ q) = map (fun x => (fst x, Some (snd x))) (numbered_from 0 ents) ->
  parsed q = map (fun x => (fst x, Some (snd x))) (numbered_from (N.of_nat (length (parsed p))) (skipn (length (parsed p)) ents)).
Proof.
  rewrite parsed_app. generalize (parsed q). generalize (parsed p). clear.
  intros a b H. change 0%N with (N.of_nat 0) in H.
  rewrite <- (Nat.add_0_r (length a)) at 1. revert H. generalize 0. revert ents.
  induction a as [|x a IH]; intros ents k H; [exact H|].
  destruct ents as [|[t e] ents]; [discriminate|]. cbn [numbered_from map app] in H. injection H as Hx H.
  replace (N.of_nat k + 1)%N with (N.of_nat (S k)) in H by lia.
  apply IH in H. cbn [length skipn]. replace (S (length a) + k) with (length a + S k) by lia. exact H.
Qed.

Lemma fp_iterate_sim s m ls b e :
  finv s m ls ->
  obind (fp_iterate s b e) (fp_read C s) =
  obind (mp_iterate m b e) (fun r => match mp_read m r with Some a => Ok a | None => UB end).
Proof.
  intros H. pose proof (finv_next _ _ _ H) as Hn.
  unfold fp_iterate, mp_iterate. rewrite <- Hn.
  set (e' := if N.eqb e npos then fp_next s else e).
  destruct (N.ltb_spec (fp_next s) e') as [Hz1|Hz1]; [reflexivity|].
  destruct (N.eqb_spec b e') as [Hz2|Hz2]; [reflexivity|].
  destruct (N.ltb_spec e' b) as [Hlt|Hle].
  { destruct (N.leb (fp_next s) b); reflexivity. }
  destruct (N.leb_spec (fp_next s) b) as [Hz3|Hz3]; [lia|].
  pose proof (f_replay _ _ _ H) as Hr.
  assert (Hlen : length (parsed ls) = length (mp_entries m)).
  { rewrite (f_ents _ _ _ H), map_length. apply numbered_from_length. }
  unfold mp_size in Hn.
  destruct (replay_locate _ _ _ Hr (N.to_nat b)) as (p & q & rp & Hls & H1 & H2 & H3 & H4 & _); [lia|].
  cbn [rs_of r_offs rs_init length Nat.add] in H3. rewrite H3. cbn [obind fp_read].
  pose proof (replay_facts _ _ _ H1) as (Ho & _ & Hx & _). cbn in Ho, Hx.
  rewrite Ho, N.add_0_l. rewrite H4, N.add_0_l, N2Nat.id in Hx.
  subst b.
  rewrite mp_read_range; [|lia|unfold mp_size; lia].
  pose proof (f_ents _ _ _ H) as He. rewrite Hls in He. apply parsed_prefix in He. rewrite H4, N2Nat.id in He.
  rewrite (run_ok s _ p q rp (rs_of s) (skipn (N.to_nat (fst (r_next rp))) (mp_entries m))).
  - reflexivity.
  - rewrite <- Hls. apply H.
  - rewrite <- Hls. apply H.
  - exact H2.
  - rewrite skipn_length. lia.
  - exact He.
  - reflexivity.
  - cbn. pose proof (replay_facts _ _ _ H1) as (_ & _ & _ & Hs & _). cbn in Hs. rewrite Hs.
    assert (Hnn : Forall (fun x => (0 <= snd (fst x))%Z) (parsed p)).
    { assert (Hall : Forall (fun x => (0 <= snd (fst x))%Z) (parsed ls)).
      { rewrite (f_ents _ _ _ H). apply Forall_map. cbn. apply Forall_forall. intros [[i t] x] Hi.
        cbn. pose proof (inv_nonneg _ (f_minv _ _ _ H)) as Hm. rewrite Forall_forall in Hm.
        apply numbered_in in Hi. apply (Hm _ Hi). }
      rewrite Hls, parsed_app in Hall. now apply Forall_app in Hall. }
    now apply fold_nonneg.
Qed.

Lemma fp_iterate_ts_sim s m ls from till :
  finv s m ls ->
  obind (fp_iterate_ts s from till) (fp_read C s) =
  obind (mp_iterate_ts m from till) (fun r => match mp_read m r with Some a => Ok a | None => UB end).
Proof.
  intros H. unfold fp_iterate_ts, mp_iterate_ts, mp_iterate_ts2.
  rewrite (fp_index_range_eq _ _ _ _ _ H).
  destruct (Z.ltb 0 till && Z.ltb till from)%bool; [reflexivity|].
  destruct (negb (N.eqb _ npos)); [apply (fp_iterate_sim _ _ _ _ _ H)|reflexivity].
Qed.

Lemma fp_query_sim s m ls q :
  finv s m ls -> is_unsafe_read q = false -> fp_query C s q = mp_query C m q.
Proof.
  intros H Hq. pose proof (finv_next _ _ _ H) as Hn. pose proof (finv_last _ _ _ H) as Hl.
  assert (Hz : N.eqb (mp_size m) 0 = match mp_entries m with [] => true | _ => false end).
  { unfold mp_size. destruct (mp_entries m); reflexivity. }
  destruct q; cbn [fp_query mp_query]; try discriminate.
  - unfold fp_size. now rewrite Hn.
  - unfold fp_empty, mp_empty. now rewrite Hn, Hz.
  - now rewrite (f_head _ _ _ H).
  - unfold fp_lastidx, mp_last. rewrite Hn, Hz, Hl. unfold mp_size.
    destruct (list_snoc_cases (mp_entries m)) as [->|(l & [t e] & ->)]; [reflexivity|].
    rewrite app_length. cbn. rewrite Nat.add_1_r. cbn [pred]. rewrite nth_error_snoc_last.
    destruct (l ++ [(t, e)]) eqn:Hx; [apply app_eq_nil in Hx; destruct Hx; discriminate|]. reflexivity.
  - unfold fp_head_and_last, mp_head_and_last. rewrite Hn, Hz, Hl, (f_head _ _ _ H). unfold mp_size.
    destruct (list_snoc_cases (mp_entries m)) as [->|(l & [t e] & ->)]; [reflexivity|].
    rewrite app_length. cbn. rewrite Nat.add_1_r. cbn [pred]. rewrite nth_error_snoc_last.
    destruct (l ++ [(t, e)]) eqn:Hx; [apply app_eq_nil in Hx; destruct Hx; discriminate|]. reflexivity.
  - now rewrite (fp_index_range_eq _ _ _ _ _ H).
  - now rewrite (fp_iterate_sim _ _ _ _ _ H).
  - now rewrite (fp_iterate_ts_sim _ _ _ _ _ H).
Qed.
End P.
