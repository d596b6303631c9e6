From Verif Require Import Base Persister_Model Persister_Spec.
From Coq Require Import Sorted.

Section P.
Context {E : Type}.
Variable C : codec E.
Implicit Types (s : mp E) (l : list (Z * E)).

(** The representation invariant. *)
Record mp_inv s : Prop := {
  inv_sorted : StronglySorted Z.lt (map fst (mp_entries s));
  inv_nonneg : Forall (fun x => (0 <= fst x)%Z) (mp_entries s);
  inv_head : Forall (fun x => (fst x <= mp_head s)%Z) (mp_entries s);
  inv_headm1 : (-1 <= mp_head s)%Z
}.

Lemma mp_inv_init : mp_inv (@mp_init E).
Proof. split; cbn; try constructor; try lia. Qed.

Lemma StronglySorted_snoc (l : list Z) x :
  StronglySorted Z.lt l -> Forall (fun y => (y < x)%Z) l -> StronglySorted Z.lt (l ++ [x]).
Proof.
  induction 1 as [|a l Hs IH Ha]; intros Hx; cbn.
  - repeat constructor.
  - inversion Hx; subst. constructor; [now apply IH|].
    apply Forall_snoc; now split.
Qed.

Lemma mp_inv_append s t e :
  mp_inv s -> (mp_head s < t)%Z ->
  mp_inv {| mp_entries := mp_entries s ++ [(t, e)]; mp_head := t |}.
Proof.
  intros [H1 H2 H3 H4] Ht. split; cbn.
  - rewrite map_app; cbn. apply StronglySorted_snoc; [exact H1|].
    apply Forall_map. eapply Forall_impl; [|exact H3]. cbn; intros; lia.
  - apply Forall_snoc; split; [exact H2|cbn; lia].
  - apply Forall_snoc; split; [|cbn; lia].
    eapply Forall_impl; [|exact H3]. cbn; intros; lia.
  - lia.
Qed.

Lemma mp_step_inv s o : mp_inv s -> mp_inv (fst (mp_step C s o)).
Proof.
  intros H. destruct o as [e t|line|t]; cbn.
  - unfold mp_publish. destruct (Z.ltb_spec (mp_head s) t); cbn; [|exact H].
    now apply mp_inv_append.
  - unfold mp_publish_unsafe.
    destruct (cut_at TAB line) as [[pre post]|]; cbn; [|exact H].
    destruct (par_idx C pre) as [[i t]|]; cbn; [|exact H].
    destruct (N.eqb i (mp_size s)); cbn; [|exact H].
    destruct (Z.ltb_spec (mp_head s) t); cbn; [|exact H].
    destruct (de C post) as [e|]; cbn; [|exact H].
    now apply mp_inv_append.
  - unfold mp_update_head. destruct (Z.ltb_spec (mp_head s) t); cbn; [|exact H].
    destruct H as [H1 H2 H3 H4]. split; cbn; auto; [|lia].
    eapply Forall_impl; [|exact H3]. cbn; intros; lia.
Qed.

Lemma mp_run_inv ops : forall s, mp_inv s -> mp_inv (fst (mp_run C s ops)).
Proof.
  induction ops as [|o ops IH]; intros s H; cbn; [exact H|].
  apply IH, mp_step_inv, H.
Qed.

Lemma mp_step_throw s o : threw (snd (mp_step C s o)) = true -> fst (mp_step C s o) = s.
Proof.
  destruct o as [e t|line|t]; cbn.
  - unfold mp_publish. destruct (Z.ltb _ _); cbn; congruence.
  - unfold mp_publish_unsafe.
    destruct (cut_at TAB line) as [[pre post]|]; cbn; [|congruence].
    destruct (par_idx C pre) as [[i t]|]; cbn; [|congruence].
    destruct (N.eqb i (mp_size s)); cbn; [|congruence].
    destruct (Z.ltb_spec (mp_head s) t); cbn; [|congruence].
    destruct (de C post) as [e|]; cbn; congruence.
  - unfold mp_update_head. destruct (Z.ltb _ _); cbn; congruence.
Qed.

Lemma mp_step_entries s o :
  mp_entries (fst (mp_step C s o)) = mp_entries s ++ accepted1 C o (snd (mp_step C s o)).
Proof.
  destruct o as [e t|line|t]; cbn.
  - unfold mp_publish. destruct (Z.ltb _ _); cbn; auto using app_nil_r.
  - unfold mp_publish_unsafe.
    destruct (cut_at TAB line) as [[pre post]|]; cbn; auto using app_nil_r.
    destruct (par_idx C pre) as [[i t]|]; cbn; auto using app_nil_r.
    destruct (N.eqb i (mp_size s)); cbn; auto using app_nil_r.
    destruct (Z.ltb_spec (mp_head s) t); cbn; auto using app_nil_r.
    destruct (de C post) as [e|]; cbn; auto using app_nil_r.
  - unfold mp_update_head. destruct (Z.ltb _ _); cbn; auto using app_nil_r.
Qed.

Lemma mp_step_head s o :
  mp_head (fst (mp_step C s o)) = fold_left Z.max (moved1 o (snd (mp_step C s o))) (mp_head s).
Proof.
  destruct o as [e t|line|t]; cbn.
  - unfold mp_publish. destruct (Z.ltb_spec (mp_head s) t); cbn; lia.
  - unfold mp_publish_unsafe.
    destruct (cut_at TAB line) as [[pre post]|]; cbn; [|lia].
    destruct (par_idx C pre) as [[i t]|]; cbn; [|lia].
    destruct (N.eqb i (mp_size s)); cbn; [|lia].
    destruct (Z.ltb_spec (mp_head s) t); cbn; [|lia].
    destruct (de C post) as [e|]; cbn; lia.
  - unfold mp_update_head. destruct (Z.ltb_spec (mp_head s) t); cbn; lia.
Qed.

Lemma mp_run_entries ops : forall s,
  mp_entries (fst (mp_run C s ops)) = mp_entries s ++ accepted C ops (snd (mp_run C s ops)).
Proof.
  induction ops as [|o ops IH]; intros s; cbn; [now rewrite app_nil_r|].
  rewrite IH, mp_step_entries. now rewrite app_assoc.
Qed.

Lemma mp_run_head ops : forall s,
  mp_head (fst (mp_run C s ops)) = fold_left Z.max (moved ops (snd (mp_run C s ops))) (mp_head s).
Proof.
  induction ops as [|o ops IH]; intros s; cbn; [reflexivity|].
  rewrite IH, mp_step_head. now rewrite fold_left_app.
Qed.

(** ** Reading ranges. *)
Lemma omap_list_nil {A B} (f : A -> option B) : omap_list f [] = Some [].
Proof. reflexivity. Qed.
Lemma omap_list_cons {A B} (f : A -> option B) a (l : list A) :
  omap_list f (a :: l) = match f a, omap_list f l with Some b, Some r => Some (b :: r) | _, _ => None end.
Proof. reflexivity. Qed.

Lemma numbered_from_app i l1 l2 :
  numbered_from i (l1 ++ l2) = numbered_from i l1 ++ numbered_from (i + N.of_nat (length l1)) l2.
Proof.
  revert i; induction l1 as [|[t e] l1 IH]; intros i; cbn [app numbered_from length].
  - now rewrite N.add_0_r.
  - rewrite IH. cbn [app]. do 3 f_equal. lia.
Qed.

Lemma numbered_from_length i l : length (numbered_from i l) = length l.
Proof. revert i; induction l as [|[t e] l IH]; intros i; cbn; auto. Qed.

Lemma idx_run_ok fuel : forall b e, (e - b <= N.of_nat fuel)%N -> (b <= e)%N ->
  idx_run fuel b e = map (fun k => (b + N.of_nat k)%N) (seq 0 (N.to_nat (e - b))).
Proof.
  induction fuel as [|f IH]; intros b e Hf Hb; cbn [idx_run].
  - replace (e - b)%N with 0%N by lia. reflexivity.
  - destruct (N.eqb_spec b e) as [->|Hne].
    + rewrite N.sub_diag. reflexivity.
    + rewrite IH by lia.
      replace (N.to_nat (e - b)) with (S (N.to_nat (e - (b + 1)))) by lia.
      cbn [seq map]. f_equal; [lia|].
      rewrite <- seq_shift, map_map. apply map_ext. intros k. lia.
Qed.

Lemma mp_read_slice s : forall n b,
  b + n <= length (mp_entries s) ->
  omap_list (mp_deref s) (map (fun k => (N.of_nat b + N.of_nat k)%N) (seq 0 n)) =
  Some (numbered_from (N.of_nat b) (firstn n (skipn b (mp_entries s)))).
Proof.
  induction n as [|n IH]; intros b Hb; [reflexivity|].
  cbn [seq map]. rewrite omap_list_cons.
  rewrite <- seq_shift, map_map.
  rewrite (map_ext _ (fun k => (N.of_nat (S b) + N.of_nat k)%N)) by (intros; lia).
  rewrite IH by lia.
  unfold mp_deref. replace (N.to_nat (N.of_nat b + N.of_nat 0)) with b by lia.
  destruct (nth_error (mp_entries s) b) as [[t e]|] eqn:Hn.
  2:{ apply nth_error_None in Hn. lia. }
  assert (Hs : skipn b (mp_entries s) = (t, e) :: skipn (S b) (mp_entries s)).
  { clear -Hn. revert b Hn. induction (mp_entries s) as [|x l IHl]; intros [|b] Hn; cbn in *; try discriminate.
    - now inversion Hn.
    - now apply IHl. }
  rewrite Hs. cbn [firstn numbered_from]. f_equal. f_equal.
  - f_equal. f_equal. lia.
  - replace (N.of_nat (S b)) with (N.of_nat b + 1)%N by lia. reflexivity.
Qed.

Lemma mp_read_range s b e :
  (b <= e)%N -> (e <= mp_size s)%N ->
  mp_read s (b, e) = Some (numbered_from b (firstn (N.to_nat (e - b)) (skipn (N.to_nat b) (mp_entries s)))).
Proof.
  unfold mp_size. intros Hbe He. unfold mp_read, idx_seq; cbn [fst snd].
  rewrite idx_run_ok by lia.
  replace (map (fun k => (b + N.of_nat k)%N) (seq 0 (N.to_nat (e - b))))
    with (map (fun k => (N.of_nat (N.to_nat b) + N.of_nat k)%N) (seq 0 (N.to_nat (e - b)))).
  2:{ apply map_ext; intros; lia. }
  rewrite mp_read_slice by lia.
  now rewrite N2Nat.id.
Qed.

(** filter by index of a numbered list is the slice *)
Lemma filter_idx_none b e i l : (e <= i)%N -> filter (in_idx_range b e) (numbered_from (E:=E) i l) = [].
Proof.
  revert i; induction l as [|[t x] l IH]; intros i H; cbn; [reflexivity|].
  unfold in_idx_range at 1; cbn.
  destruct (N.leb_spec b i), (N.ltb_spec i e); cbn; try lia; apply IH; lia.
Qed.

Lemma filter_idx_slice b e : forall l i,
  filter (in_idx_range b e) (numbered_from (E:=E) i l) =
  numbered_from (N.max i b) (firstn (N.to_nat (e - N.max i b)) (skipn (N.to_nat (b - i)) l)).
Proof.
  induction l as [|[t x] l IH]; intros i.
  - cbn. rewrite skipn_nil, firstn_nil. reflexivity.
  - cbn [numbered_from filter]. unfold in_idx_range at 1; cbn [fst snd].
    destruct (N.leb_spec b i) as [Hb|Hb]; cbn [andb].
    + replace (N.to_nat (b - i)) with 0 by lia. rewrite skipn_O.
      replace (N.max i b) with i by lia.
      destruct (N.ltb_spec i e) as [He|He].
      * rewrite IH.
        replace (N.to_nat (b - (i + 1))) with 0 by lia. rewrite skipn_O.
        replace (N.max (i + 1) b) with (i + 1)%N by lia.
        replace (N.to_nat (e - i)) with (S (N.to_nat (e - (i + 1)))) by lia.
        reflexivity.
      * rewrite filter_idx_none by lia.
        replace (N.to_nat (e - i)) with 0 by lia. reflexivity.
    + rewrite IH.
      replace (N.max (i + 1) b) with b by lia. replace (N.max i b) with b by lia.
      replace (N.to_nat (b - i)) with (S (N.to_nat (b - (i + 1)))) by lia.
      reflexivity.
Qed.

Lemma mp_read_filter s b e :
  (b <= e)%N -> (e <= mp_size s)%N ->
  mp_read s (b, e) = Some (filter (in_idx_range b e) (numbered (mp_entries s))).
Proof.
  intros H1 H2. rewrite mp_read_range by assumption.
  unfold numbered. rewrite filter_idx_slice. do 2 f_equal; try lia.
  rewrite !N.max_r by lia. rewrite N.sub_0_r. reflexivity.
Qed.

Lemma filter_all {A} (f : A -> bool) (l : list A) : Forall (fun x => f x = true) l -> filter f l = l.
Proof. induction 1 as [|x l H _ IH]; cbn; [reflexivity|]. now rewrite H, IH. Qed.

Lemma numbered_bounds i l :
  Forall (fun x => (i <= fst (fst x))%N /\ (fst (fst x) < i + N.of_nat (length l))%N) (numbered_from (E:=E) i l).
Proof.
  revert i; induction l as [|[t e] l IH]; intros i; cbn [numbered_from length]; constructor; cbn [fst].
  - lia.
  - eapply Forall_impl; [|apply (IH (i + 1)%N)]. cbn; intros; lia.
Qed.

Lemma mp_read_all s : mp_read s (0, mp_size s)%N = Some (numbered (mp_entries s)).
Proof.
  rewrite mp_read_filter by lia. f_equal. apply filter_all.
  eapply Forall_impl; [|apply numbered_bounds]. unfold in_idx_range, mp_size. cbn; intros [[i t] e] Hx; cbn in *; lia.
Qed.

Lemma mp_iterate_ok s b e r :
  mp_iterate s b e = Ok r ->
  let e' := if N.eqb e npos then mp_size s else e in
  (b <= e')%N /\ (e' <= mp_size s)%N /\ (r = (b, e') \/ b = e' /\ r = (0, 0)%N).
Proof.
  unfold mp_iterate. set (e' := if N.eqb e npos then mp_size s else e).
  destruct (N.ltb_spec (mp_size s) e'); [discriminate|].
  destruct (N.eqb_spec b e').
  - intros [= <-]. split; [lia|split; [lia|auto]].
  - destruct (N.leb_spec (mp_size s) b); [discriminate|].
    destruct (N.ltb_spec e' b); [discriminate|].
    intros [= <-]. split; [lia|split; [lia|auto]].
Qed.

Lemma mp_iterate_read s b e r :
  mp_iterate s b e = Ok r ->
  mp_read s r = Some (filter (in_idx_range b (if N.eqb e npos then mp_size s else e)) (numbered (mp_entries s))).
Proof.
  intros H. apply mp_iterate_ok in H. cbn zeta in H.
  set (e' := if N.eqb e npos then mp_size s else e) in *.
  destruct H as (H1 & H2 & [->|[Hb ->]]).
  - now apply mp_read_filter.
  - unfold numbered. rewrite filter_idx_slice.
    replace (N.to_nat (e' - N.max 0 b)) with 0 by lia. reflexivity.
Qed.

Lemma mp_iterate_iff s b e :
  (exists r, mp_iterate s b e = Ok r) <->
  let e' := if N.eqb e npos then mp_size s else e in (b <= e' <= mp_size s)%N.
Proof.
  cbn zeta. unfold mp_iterate. set (e' := if N.eqb e npos then mp_size s else e).
  destruct (N.ltb_spec (mp_size s) e'); [split; [intros [? [=]]|lia]|].
  destruct (N.eqb_spec b e'); [split; [lia|eauto]|].
  destruct (N.leb_spec (mp_size s) b); [split; [intros [? [=]]|lia]|].
  destruct (N.ltb_spec e' b); [split; [intros [? [=]]|lia]|].
  split; [lia|eauto].
Qed.

Lemma mp_iterate_throw s b e :
  ~ (exists r, mp_iterate s b e = Ok r) -> mp_iterate s b e = Throw InvalidIterableRange.
Proof.
  intros H. unfold mp_iterate in *. set (e' := if N.eqb e npos then mp_size s else e) in *.
  repeat match goal with |- context [if ?c then _ else _] => destruct c; [try reflexivity; exfalso; eauto|] end.
  exfalso; eauto.
Qed.

(** ** Timestamp search. *)
(** In a sorted list the elements satisfying a downward-closed predicate form a prefix. *)
Definition count (p : Z -> bool) l : nat := length (filter (fun x => p (fst x)) l).

Lemma sorted_prefix (p : Z -> bool) l :
  (forall a b, (a <= b)%Z -> p b = true -> p a = true) ->
  StronglySorted Z.lt (map fst l) ->
  forall i, ts_before l p i = true <-> i < count p l.
Proof.
  intros Hp. unfold count. induction l as [|[t e] l IH]; cbn [map filter fst]; intros Hs i.
  - unfold ts_before. destruct i; cbn; split; (congruence || lia).
  - inversion Hs as [|? ? Hs' Ha]; subst.
    destruct (p t) eqn:Ht.
    + destruct i as [|i]; cbn [length].
      * unfold ts_before; cbn. split; [lia|auto].
      * unfold ts_before; cbn [nth_error]. specialize (IH Hs' i). unfold ts_before in IH. rewrite IH. lia.
    + assert (Hf : filter (fun x => p (fst x)) l = []).
      { clear -Hp Ht Ha. induction l as [|[t' e'] l IHl]; cbn; [reflexivity|].
        inversion Ha; subst. destruct (p t') eqn:Ht'.
        - rewrite (Hp t t') in Ht; [discriminate|cbn in *; lia|assumption].
        - now apply IHl. }
      rewrite Hf. cbn. split; [|lia]. intros H. exfalso.
      destruct i as [|i]; unfold ts_before in H; cbn in H; [congruence|].
      destruct (nth_error l i) as [[t' e']|] eqn:Hn; [|discriminate].
      apply nth_error_In in Hn. rewrite Forall_forall in Ha.
      assert (In t' (map fst l)) by (change t' with (fst (t', e')); now apply in_map).
      specialize (Ha _ H0). rewrite (Hp t t') in Ht; [discriminate|lia|assumption].
Qed.

Lemma count_le p l : count p l <= length l.
Proof. unfold count. induction l as [|x l IH]; cbn; [lia|]. destruct (p (fst x)); cbn; lia. Qed.

Lemma bsearch_count (p : Z -> bool) l :
  (forall a b, (a <= b)%Z -> p b = true -> p a = true) ->
  StronglySorted Z.lt (map fst l) ->
  bsearch (S (length l)) (ts_before l p) 0 (length l) = count p l.
Proof.
  intros Hp Hs. apply bsearch_spec; [lia|pose proof (count_le p l); lia|].
  intros i Hi. destruct (Nat.ltb_spec i (count p l)) as [H|H].
  - now apply sorted_prefix.
  - destruct (ts_before l p i) eqn:Hb; [|reflexivity].
    apply sorted_prefix in Hb; auto; lia.
Qed.

Definition p_lt (from : Z) (t : Z) : bool := Z.ltb t from.
Definition p_le (till : Z) (t : Z) : bool := negb (Z.ltb till t).

Lemma mp_index_range_eq s from till :
  mp_inv s ->
  mp_index_range s from till =
  (let n := length (mp_entries s) in
   let b := count (p_lt from) (mp_entries s) in
   let e := count (p_le till) (mp_entries s) in
   (if Nat.eqb b n then npos else N.of_nat b,
    if Z.ltb 0 till then (if Nat.eqb e n then npos else N.of_nat e) else npos)).
Proof.
  intros [Hs _ _ _]. unfold mp_index_range. cbn zeta.
  rewrite (bsearch_count (p_lt from)), (bsearch_count (p_le till)); auto;
    unfold p_lt, p_le; intros a b Hab; lia.
Qed.

Lemma count_mono (p q : Z -> bool) l :
  (forall t, p t = true -> q t = true) -> count p l <= count q l.
Proof.
  intros H. unfold count. induction l as [|[t e] l IH]; cbn; [lia|].
  destruct (p t) eqn:Hp; [rewrite (H _ Hp); cbn; lia|destruct (q t); cbn; lia].
Qed.

Lemma count_all_iff (p : Z -> bool) l : count p l = length l <-> Forall (fun x => p (fst x) = true) l.
Proof.
  unfold count. induction l as [|[t e] l IH]; cbn; [split; auto|].
  pose proof (count_le p l) as Hc. unfold count in Hc.
  destruct (p t) eqn:Hp; cbn.
  - split; [intros [= H]; constructor; [exact Hp|now apply IH]|inversion 1; subst; f_equal; now apply IH].
  - split; [lia|inversion 1; subst; cbn in *; congruence].
Qed.

(** Filtering the numbered list by timestamps is the slice between the two counts. *)
Lemma filter_ts_slice (from till : Z) l : forall i,
  StronglySorted Z.lt (map fst l) ->
  filter (in_ts_range from till) (numbered_from (E:=E) i l) =
  let b := count (p_lt from) l in
  let e := if Z.ltb 0 till then count (p_le till) l else length l in
  numbered_from (i + N.of_nat b) (firstn (e - b) (skipn b l)).
Proof.
  induction l as [|[t x] l IH]; intros i Hs.
  - cbn. destruct (Z.ltb 0 till); reflexivity.
  - inversion Hs as [|? ? Hs' Ha]; subst.
    cbn [numbered_from filter]. unfold in_ts_range at 1; cbn [fst snd].
    rewrite (IH _ Hs'). cbn zeta.
    assert (Hc : forall p, count p ((t, x) :: l) = if p t then S (count p l) else count p l).
    { intros p. unfold count; cbn. now destruct (p t). }
    rewrite !Hc.
    assert (Hz : forall p, (forall a b, (a <= b)%Z -> p b = true -> p a = true) -> p t = false -> count p l = 0).
    { intros p Hp Ht. destruct (count p l) eqn:Hcl; [reflexivity|].
      assert (H0 : ts_before l p 0 = true) by (apply sorted_prefix; auto; lia).
      unfold ts_before in H0. destruct l as [|[t' x'] l']; cbn in H0; [discriminate|].
      inversion Ha; subst. cbn in *. rewrite (Hp t t') in Ht; [discriminate|lia|assumption]. }
    assert (Hd1 : forall a b, (a <= b)%Z -> p_lt from b = true -> p_lt from a = true) by (unfold p_lt; intros; lia).
    assert (Hd2 : forall a b, (a <= b)%Z -> p_le till b = true -> p_le till a = true) by (unfold p_le; intros; lia).
    specialize (Hz _ Hd1) as Hz1. specialize (Hz _ Hd2) as Hz2.
    destruct (p_lt from t) eqn:H1.
    + (* before the range *)
      assert (Hf : Z.leb from t = false) by (unfold p_lt in H1; lia). rewrite Hf. cbn [andb].
      cbn [skipn]. f_equal; [lia|].
      destruct (Z.ltb 0 till) eqn:H0.
      * destruct (p_le till t) eqn:H2; [f_equal; lia|].
        rewrite (Hz2 eq_refl). cbn. reflexivity.
      * cbn [length]. f_equal; lia.
    + assert (Hf : Z.leb from t = true) by (unfold p_lt in H1; lia). rewrite Hf. cbn [andb].
      rewrite (Hz1 eq_refl). cbn [skipn]. rewrite !Nat.sub_0_r.
      destruct (Z.ltb 0 till) eqn:H0.
      * destruct (p_le till t) eqn:H2.
        -- assert (Z.leb till 0 || Z.leb t till = true) as -> by (unfold p_le in H2; lia).
           cbn [firstn numbered_from]. f_equal; [repeat f_equal; lia|f_equal; lia].
        -- assert (Z.leb till 0 || Z.leb t till = false) as -> by (unfold p_le in H2; lia).
           rewrite (Hz2 eq_refl). reflexivity.
      * assert (Z.leb till 0 || Z.leb t till = true) as -> by lia.
        cbn [length firstn numbered_from]. f_equal; [repeat f_equal; lia|].
        rewrite firstn_all. f_equal; lia.
Qed.

Lemma mp_iterate_ts_spec s from till :
  mp_inv s -> (mp_size s < npos)%N ->
  ((0 < till)%Z /\ (till < from)%Z -> mp_iterate_ts s from till = Throw InvalidIterableRange) /\
  (~ ((0 < till)%Z /\ (till < from)%Z) ->
   exists r, mp_iterate_ts s from till = Ok r /\
     mp_read s r = Some (filter (in_ts_range from till) (numbered (mp_entries s)))).
Proof.
  intros Hinv Hsz. unfold mp_iterate_ts, mp_iterate_ts2. split; intros H.
  - destruct (Z.ltb_spec 0 till), (Z.ltb_spec till from); cbn; try lia; reflexivity.
  - destruct (Z.ltb 0 till && Z.ltb till from) eqn:Hc; [lia|].
    rewrite (mp_index_range_eq s from till Hinv). cbn zeta. cbn [fst snd].
    unfold numbered. rewrite filter_ts_slice by apply Hinv. cbn zeta.
    set (b := count (p_lt from) (mp_entries s)). set (e := count (p_le till) (mp_entries s)).
    set (n := length (mp_entries s)) in *.
    assert (Hb : b <= n) by apply count_le. assert (He : e <= n) by apply count_le.
    unfold mp_size in Hsz. fold n in Hsz.
    destruct (Nat.eqb_spec b n) as [Hbn|Hbn].
    + rewrite N.eqb_refl. cbn [negb]. exists (0, 0)%N. split; [reflexivity|].
      rewrite Hbn. unfold n. rewrite skipn_all, firstn_nil. reflexivity.
    + assert (Hneq : N.eqb (N.of_nat b) npos = false) by (apply N.eqb_neq; lia).
      rewrite Hneq. cbn [negb].
      assert (Hbe : (0 < till)%Z -> b <= e).
      { intros Ht. apply count_mono. unfold p_lt, p_le. intros t Htt. lia. }
      set (E2 := if (0 <? till)%Z then if e =? n then npos else N.of_nat e else npos).
      set (k := if (0 <? till)%Z then e else n).
      assert (Hk : (if N.eqb E2 npos then mp_size s else E2) = N.of_nat k).
      { unfold E2, k, mp_size. fold n. destruct (Z.ltb_spec 0 till); [|rewrite N.eqb_refl; reflexivity].
        destruct (Nat.eqb_spec e n) as [->|Hen]; [rewrite N.eqb_refl; reflexivity|].
        destruct (N.eqb_spec (N.of_nat e) npos); [lia|reflexivity]. }
      assert (Hkb : b <= k <= n) by (unfold k; destruct (Z.ltb_spec 0 till); lia).
      destruct (proj2 (mp_iterate_iff s (N.of_nat b) E2)) as [r Hr].
      { cbn zeta. rewrite Hk. unfold mp_size. fold n. lia. }
      exists r. split; [exact Hr|].
      rewrite (mp_iterate_read _ _ _ _ Hr), Hk. unfold numbered.
      rewrite filter_idx_slice. rewrite N.max_r by lia. rewrite N.add_0_l, N.sub_0_r, Nat2N.id.
      replace (N.to_nat (N.of_nat k - N.of_nat b)) with (k - b) by lia. reflexivity.
Qed.

(** Index-range lookup as such (the pair returned to the caller). *)
Lemma mp_index_range_spec s from till :
  mp_inv s -> (mp_size s < npos)%N ->
  let r := mp_index_range s from till in
  (* first: the least index with timestamp >= from, or npos if there is none *)
  ((fst r = npos /\ forall i t e, mp_deref s i = Some ((i, t), e) -> (t < from)%Z) \/
   (exists t e, mp_deref s (fst r) = Some ((fst r, t), e) /\ (from <= t)%Z /\
      forall j u x, mp_deref s j = Some ((j, u), x) -> (j < fst r)%N -> (u < from)%Z)) /\
  (* second: the least index with timestamp > till, or npos if there is none or till <= 0 *)
  ((snd r = npos /\ ((till <= 0)%Z \/ forall i t e, mp_deref s i = Some ((i, t), e) -> (t <= till)%Z)) \/
   ((0 < till)%Z /\ exists t e, mp_deref s (snd r) = Some ((snd r, t), e) /\ (till < t)%Z /\
      forall j u x, mp_deref s j = Some ((j, u), x) -> (j < snd r)%N -> (u <= till)%Z)).
Proof.
  intros Hinv Hsz. cbn zeta. rewrite mp_index_range_eq by assumption. cbn zeta. cbn [fst snd].
  set (n := length (mp_entries s)) in *.
  assert (Hgen : forall p, (forall a b, (a <= b)%Z -> p b = true -> p a = true) ->
    let c := count p (mp_entries s) in
    (if c =? n then (forall i t e, mp_deref s i = Some ((i, t), e) -> p t = true)
     else exists t e, mp_deref s (N.of_nat c) = Some ((N.of_nat c, t), e) /\ p t = false /\
          forall j u x, mp_deref s j = Some ((j, u), x) -> (j < N.of_nat c)%N -> p u = true)).
  { intros p Hp c.
    pose proof (sorted_prefix p (mp_entries s) Hp (inv_sorted s Hinv)) as Hsp.
    assert (Hd : forall j u x, mp_deref s j = Some ((j, u), x) -> ts_before (mp_entries s) p (N.to_nat j) = p u).
    { intros j u x. unfold mp_deref, ts_before. destruct (nth_error _ _) as [[t e]|]; [|discriminate].
      intros [= -> ->]. reflexivity. }
    destruct (Nat.eqb_spec c n) as [Hc|Hc].
    - intros i t e Hi. rewrite <- (Hd _ _ _ Hi). apply Hsp. fold c. rewrite Hc. unfold n.
      apply nth_error_Some. unfold mp_deref in Hi. now destruct (nth_error _ _).
    - assert (Hlt : c < n) by (pose proof (count_le p (mp_entries s)); fold c n in H; lia).
      destruct (nth_error (mp_entries s) c) as [[t e]|] eqn:Hn.
      2:{ apply nth_error_None in Hn. fold n in Hn. lia. }
      exists t, e. split; [|split].
      + unfold mp_deref. rewrite Nat2N.id, Hn. reflexivity.
      + destruct (p t) eqn:Hpt; [|reflexivity].
        assert (Hb : ts_before (mp_entries s) p c = true) by (unfold ts_before; now rewrite Hn).
        apply Hsp in Hb. fold c in Hb. lia.
      + intros j u x Hj Hjc. rewrite <- (Hd _ _ _ Hj). apply Hsp. fold c. lia. }
  unfold mp_size in Hsz. fold n in Hsz.
  split.
  - specialize (Hgen (p_lt from) ltac:(unfold p_lt; intros; lia)). cbn zeta in Hgen.
    destruct (Nat.eqb_spec (count (p_lt from) (mp_entries s)) n).
    + left. split; [reflexivity|]. intros i t x Hi.
      assert (H : p_lt from t = true) by (eapply Hgen; eauto). unfold p_lt in H; lia.
    + right. destruct Hgen as (t & x & H1 & H2 & H3).
      exists t, x. split; [exact H1|]. unfold p_lt in H2, H3. split; [lia|].
      intros j u y Hj Hjl. specialize (H3 j u y Hj Hjl). lia.
  - specialize (Hgen (p_le till) ltac:(unfold p_le; intros; lia)). cbn zeta in Hgen.
    destruct (Z.ltb_spec 0 till) as [Ht|Ht]; [|left; split; [reflexivity|left; lia]].
    destruct (Nat.eqb_spec (count (p_le till) (mp_entries s)) n).
    + left. split; [reflexivity|right]. intros i t x Hi.
      assert (H : p_le till t = true) by (eapply Hgen; eauto). unfold p_le in H; lia.
    + right. split; [lia|]. destruct Hgen as (t & x & H1 & H2 & H3).
      exists t, x. split; [exact H1|]. unfold p_le in H2, H3. split; [lia|].
      intros j u y Hj Hjl. specialize (H3 j u y Hj Hjl). lia.
Qed.

(** Iterators survive later operations (the deque only grows). *)
Lemma mp_read_stable s ops r x :
  mp_read s r = Some x -> mp_read (fst (mp_run C s ops)) r = Some x.
Proof.
  unfold mp_read. generalize (idx_seq r). intros l. revert x.
  induction l as [|i l IH]; intros x; [auto|]. rewrite !omap_list_cons.
  destruct (mp_deref s i) as [y|] eqn:Hi; [|discriminate].
  destruct (omap_list (mp_deref s) l) as [ys|]; [|discriminate].
  rewrite (IH ys eq_refl).
  assert (Hi' : mp_deref (fst (mp_run C s ops)) i = Some y).
  { unfold mp_deref in *. rewrite mp_run_entries.
    destruct (nth_error (mp_entries s) (N.to_nat i)) eqn:Hn; [|discriminate].
    rewrite nth_error_app1; [now rewrite Hn|]. apply nth_error_Some. congruence. }
  now rewrite Hi'.
Qed.

Lemma mp_last_spec s :
  mp_last s = match rev (numbered (mp_entries s)) with [] => Throw NoEntriesPublishedYet | (it, _) :: _ => Ok it end.
Proof.
  unfold mp_last. destruct (list_snoc_cases (mp_entries s)) as [->|(l & [t e] & ->)]; [reflexivity|].
  rewrite app_length; cbn [length]. rewrite Nat.add_1_r; cbn [pred].
  rewrite nth_error_snoc_last. unfold numbered. rewrite numbered_from_app, rev_app_distr. cbn.
  do 2 f_equal. lia.
Qed.
Lemma mp_head_and_last_spec s :
  mp_head_and_last s = (mp_head s, match rev (numbered (mp_entries s)) with [] => None | (it, _) :: _ => Some it end).
Proof.
  unfold mp_head_and_last. destruct (list_snoc_cases (mp_entries s)) as [->|(l & [t e] & ->)]; [reflexivity|].
  rewrite app_length; cbn [length]. rewrite Nat.add_1_r; cbn [pred].
  rewrite nth_error_snoc_last. unfold numbered. rewrite numbered_from_app, rev_app_distr. cbn.
  do 2 f_equal. f_equal. lia.
Qed.
End P.
