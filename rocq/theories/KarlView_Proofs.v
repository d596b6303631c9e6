(** * Proofs about what Karl shows *)
From stdpp Require Import gmap list sorting.
From Coq Require Import ZArith Lia.
From Verif Require Import Karl_Model KarlView_Model KarlView_Spec.

(** ** Snapshots *)
Lemma scan_snoc x l e : ∀ i idx, scan x i idx (l ++ [e]) = if decide (e_code e = x) then S (i + length l) else scan x i idx l.
Proof.
  induction l as [|e0 l IH]; intros i idx; simpl.
  - by rewrite Nat.add_0_r.
  - rewrite IH. case_decide; [|done]. lia.
Qed.
Lemma of_code_snoc x l e : of_code x (l ++ [e]) = if decide (e_code e = x) then of_code x l ++ [e] else of_code x l.
Proof.
  unfold of_code. rewrite filter_app. case_decide as D.
  - by rewrite filter_cons_True.
  - rewrite filter_cons_False by done. by rewrite filter_nil, app_nil_r.
Qed.
Lemma scan_spec x l : match scan x 0 0 l with 0 => of_code x l = [] | S i => l !! i = last (of_code x l) end.
Proof.
  induction l as [|e l IH] using rev_ind; [done|]. rewrite scan_snoc, of_code_snoc. case_decide as D.
  - rewrite last_snoc. simpl. rewrite lookup_app_r by lia. by rewrite Nat.sub_diag.
  - destruct (scan x 0 0 l) as [|i] eqn:E; [done|]. rewrite <- IH. apply lookup_app_l.
    assert (∀ l j idx, idx ≤ j → scan x j idx l ≤ j + length l) as A.
    { clear. induction l as [|e l IH]; intros j idx H; simpl; [lia|].
      assert (scan x (S j) (if decide (e_code e = x) then S j else idx) l ≤ S j + length l); [apply IH; case_decide; lia|lia]. }
    pose proof (A l 0 0 (le_n _)). lia.
Qed.

Definition cached (x : nat) (s : kstream) : nat := default 0 (latest s !! x).
Definition exact_cache (x : nat) (s : kstream) : Prop := cached x s = 0 ∨ cached x s = scan x 0 0 (log s).
Lemma snapshot_exact x s : exact_cache x s → fst (snapshot x s) = last (of_code x (log s)).
Proof.
  intros H. unfold snapshot. fold (cached x s). cbv zeta. simpl.
  assert ((if decide (cached x s = 0) then scan x 0 0 (log s) else cached x s) = scan x 0 0 (log s)) as E.
  { case_decide; [done|]. by destruct H. }
  rewrite E. pose proof (scan_spec x (log s)) as S. destruct (scan x 0 0 (log s)); [by rewrite S|done].
Qed.
Lemma snapshot_log x s : log (snd (snapshot x s)) = log s.
Proof. unfold snapshot. cbv zeta. simpl. by case_decide. Qed.
Lemma snapshot_cached x y s : cached y (snd (snapshot x s)) =
  if decide (x = y ∧ cached x s = 0) then scan x 0 0 (log s) else cached y s.
Proof.
  unfold snapshot. fold (cached x s). cbv zeta. simpl.
  destruct (decide (cached x s = 0)) as [Z|Z].
  - destruct (decide (scan x 0 0 (log s) = 0)) as [Z2|Z2].
    + rewrite decide_False by tauto. case_decide as D; [|done]. destruct D as [<- _]. congruence.
    + rewrite decide_True by done. unfold cached at 1. simpl. destruct (decide (x = y)) as [<-|N].
      * rewrite lookup_insert, decide_True by done. simpl. rewrite Z. lia.
      * rewrite lookup_insert_ne, decide_False by tauto. done.
  - rewrite !decide_False by tauto. done.
Qed.
Lemma apply_exact x o s : (∀ e, o = Publish e → e_code e ≠ x) → exact_cache x s → exact_cache x (apply o s).
Proof.
  intros Hq H. destruct o as [e|y|]; cbn [apply].
  - specialize (Hq e eq_refl). unfold exact_cache, cached in *. simpl. rewrite lookup_insert_ne by done.
    rewrite scan_snoc, decide_False by done. done.
  - unfold exact_cache. rewrite snapshot_cached, snapshot_log. case_decide as D; [|done]. destruct D as [-> _]. by right.
  - by left.
Qed.
Lemma apply_all_exact x ops s : quiet_on x ops → exact_cache x s → exact_cache x (foldl (λ s o, apply o s) s ops).
Proof.
  revert s. induction ops as [|o ops IH]; intros s Hq H; simpl; [done|]. apply IH.
  - intros e He. apply Hq. by right.
  - apply apply_exact; [|done]. intros e ->. apply Hq. by left.
Qed.
Lemma after_app ops1 ops2 : after (ops1 ++ ops2) = foldl (λ s o, apply o s) (after ops1) ops2.
Proof. unfold after. by rewrite foldl_app. Qed.

(** After a keepalive that is not the first of the stream. *)
Definition shifted (x : nat) (L : list entry) (s : kstream) : Prop :=
  cached x s = length L ∧ L ≠ [] ∧ L `prefix_of` log s.
Lemma apply_shifted x L o s : (∀ e, o = Publish e → e_code e ≠ x) → o ≠ Restart → shifted x L s → shifted x L (apply o s).
Proof.
  intros Hq Hr (H1 & H2 & H3). destruct o as [e|y|]; cbn [apply]; [| |done].
  - specialize (Hq e eq_refl). split; [|split; [done|]]; simpl.
    + unfold cached in *. simpl. by rewrite lookup_insert_ne.
    + by apply prefix_app_r.
  - split; [|split; [done|by rewrite snapshot_log]]. rewrite snapshot_cached, decide_False; [done|]. intros [-> Z].
    rewrite Z in H1. by destruct L.
Qed.
Lemma apply_all_shifted x L ops s : quiet_on x ops → Restart ∉ ops → shifted x L s → shifted x L (foldl (λ s o, apply o s) s ops).
Proof.
  revert s. induction ops as [|o ops IH]; intros s Hq Hr H; simpl; [done|]. apply IH.
  - intros e He. apply Hq. by right.
  - intros X. apply Hr. by right.
  - apply apply_shifted; [| |done].
    + intros e ->. apply Hq. by left.
    + intros ->. apply Hr. by left.
Qed.
Lemma snapshot_shifted x L s : shifted x L s → fst (snapshot x s) = last L.
Proof.
  intros (H1 & H2 & k & H3). unfold snapshot. fold (cached x s). cbv zeta. simpl. rewrite H1.
  destruct L as [|e0 L'] using rev_ind; [done|]. clear IHL'. rewrite app_length, Nat.add_comm. simpl. rewrite H3, last_snoc.
  rewrite <- app_assoc. rewrite lookup_app_r by lia. by rewrite Nat.sub_diag.
Qed.

(** ** The fleet view *)
Definition gathered (T now : Z) (W : list entry) : proto := foldl (absorb T now) (Proto ∅ ∅ ∅ ∅) W.
Lemma gathered_snoc T now W e : gathered T now (W ++ [e]) = absorb T now (gathered T now W) e.
Proof. unfold gathered. by rewrite foldl_app. Qed.
Lemma gathered_reports T now W x :
  reports (gathered T now W) !! x = (λ e, Report (bool_decide (now - e_us e < T)%Z) (e_us e) (e_deps e) (e_data e)) <$> last (of_code x W).
Proof.
  induction W as [|e W IH] using rev_ind; [done|]. rewrite gathered_snoc, of_code_snoc. simpl. case_decide as D.
  - rewrite last_snoc, <- D, lookup_insert. done.
  - by rewrite lookup_insert_ne.
Qed.
Lemma gathered_keys T now W d : keys (gathered T now W) !! d = known_at W d.
Proof.
  induction W as [|e W IH] using rev_ind; [done|]. rewrite gathered_snoc. simpl. unfold known_at in *. rewrite filter_app.
  destruct (decide (e_loc e = d)) as [<-|N].
  - rewrite lookup_insert, filter_cons_True by done. by rewrite filter_nil, last_snoc.
  - rewrite lookup_insert_ne by done. rewrite filter_cons_False by done. by rewrite filter_nil, app_nil_r.
Qed.
Lemma gathered_services T now W s x :
  x ∈ default ∅ (services (gathered T now W) !! s) ↔ ∃ e, e ∈ W ∧ e_service e = s ∧ e_code e = x.
Proof.
  induction W as [|e W IH] using rev_ind.
  - simpl. split; [set_solver|]. intros (e & He & _). by apply elem_of_nil in He.
  - rewrite gathered_snoc. simpl. destruct (decide (e_service e = s)) as [<-|N].
    + rewrite lookup_insert. simpl. rewrite elem_of_union, IH, elem_of_singleton. split.
      * intros [->|(e' & H & ?)]; [exists e|exists e']; rewrite elem_of_app, elem_of_list_singleton; auto.
      * intros (e' & [H|H%elem_of_list_singleton]%elem_of_app & E1 & E2); [right; eauto|left]. by subst.
    + rewrite lookup_insert_ne by done. rewrite IH. split.
      * intros (e' & H & ?). exists e'. rewrite elem_of_app. auto.
      * intros (e' & [H|H%elem_of_list_singleton]%elem_of_app & E1 & E2); [eauto|]. by subst.
Qed.
Lemma by_service_elem T now W s x : (s, x) ∈ by_service (gathered T now W) ↔ ∃ e, e ∈ W ∧ e_service e = s ∧ e_code e = x.
Proof.
  unfold by_service. rewrite elem_of_list_bind. rewrite <- (gathered_services T now). split.
  - intros (s' & H & _). apply elem_of_list_fmap in H as (x' & [= -> ->] & H). by apply elem_of_elements in H.
  - intros H. exists s. split.
    + apply elem_of_list_fmap. exists x. split; [done|]. by apply elem_of_elements.
    + rewrite merge_sort_Permutation. apply elem_of_elements, elem_of_dom.
      destruct (services _ !! s) eqn:E; [eauto|]. simpl in H. set_solver.
Qed.
Lemma by_service_sorted p : StronglySorted (λ a b, a.1 ≤ b.1) (by_service p).
Proof.
  unfold by_service.
  assert (StronglySorted (≤) (merge_sort (≤) (elements (dom (services p))))) as S.
  { by apply (StronglySorted_merge_sort (≤)). }
  generalize dependent (merge_sort (≤) (elements (dom (services p)))). intros l S.
  induction S as [|s l S IH F]; simpl; [constructor|].
  induction (elements (default ∅ (services p !! s))) as [|x xs IHx]; simpl; [done|]. constructor; [done|].
  rewrite Forall_forall. intros [s' x'] [H|H]%elem_of_app; simpl.
  - apply elem_of_list_fmap in H as (? & [= -> _] & _). lia.
  - apply elem_of_list_bind in H as (s2 & H & Hs). apply elem_of_list_fmap in H as (? & [= -> _] & _).
    rewrite Forall_forall in F. by apply F.
Qed.
Lemma sorted_last (P : nat * nat → Prop) `{∀ a, Decision (P a)} (l : list (nat * nat)) a b :
  StronglySorted (λ a b, a.1 ≤ b.1) l → last (filter P l) = Some a → b ∈ l → P b → b.1 ≤ a.1.
Proof.
  induction 1 as [|c l S IH F]; [done|]. intros Hl [->|Hb]%elem_of_cons Pb.
  - rewrite filter_cons_True in Hl by done. destruct (filter P l) as [|d l'] eqn:E.
    + injection Hl as ->. done.
    + rewrite last_cons_cons in Hl. rewrite Forall_forall in F. apply F.
      apply (elem_of_list_filter P l a). rewrite E. by apply last_Some_elem_of.
  - assert (b ∈ filter P l) as Hf by (by apply elem_of_list_filter). apply IH; [|done|done].
    rewrite filter_cons in Hl. case_decide; [|done]. destruct (filter P l); [by apply elem_of_nil in Hf|]. by rewrite last_cons_cons in Hl.
Qed.
Definition put (c : gmap nat (loc * rstate)) (ao : bool) (p : proto) (m : gmap (machine * nat) blob) (sx : nat * nat) :=
  match reports p !! sx.2 with
  | Some r => if skipped c ao sx.2 then m else <[(machine_of (place_of c sx.2), sx.2) := make_blob c p sx.1 sx.2 r]> m
  | None => m
  end.
Lemma put_all c ao p ps mc x :
  foldl (put c ao p) ∅ ps !! (mc, x) =
    match last (filter (λ sx, sx.2 = x) ps), reports p !! x with
    | Some sx, Some r => if skipped c ao x then None else
        if decide (mc = machine_of (place_of c x)) then Some (make_blob c p sx.1 x r) else None
    | _, _ => None
    end.
Proof.
  induction ps as [|[s y] ps IH] using rev_ind; [done|]. rewrite foldl_app, filter_app. simpl.
  destruct (decide (y = x)) as [->|N].
  - rewrite filter_cons_True by done. rewrite filter_nil, last_snoc. unfold put at 1. simpl.
    destruct (reports p !! x) as [r|] eqn:Er.
    + destruct (skipped c ao x) eqn:Es.
      * rewrite IH, ?Er, ?Es; simpl. by destruct (last _).
      * case_decide as D; [by rewrite D, lookup_insert|]. rewrite lookup_insert_ne by congruence.
        rewrite IH, ?Er, ?Es; simpl. by destruct (last _).
    + rewrite IH, ?Er. by destruct (last _).
  - rewrite filter_cons_False by done. rewrite filter_nil, app_nil_r, <- IH. unfold put at 1. simpl.
    destruct (reports p !! y); [|done]. destruct (skipped c ao y); [done|]. rewrite lookup_insert_ne; [done|congruence].
Qed.
Lemma last_filter_some {A} (P : A → Prop) `{∀ a, Decision (P a)} (l : list A) a : a ∈ l → P a → ∃ b, last (filter P l) = Some b.
Proof.
  intros Ha Pa. destruct (last (filter P l)) eqn:E; [eauto|]. apply last_None in E.
  assert (a ∈ filter P l) as X by (by apply elem_of_list_filter). rewrite E in X. by apply elem_of_nil in X.
Qed.
Lemma view_exact T now from to ao c l mc x b :
  let W := filter (in_window from to) l in
  fleet_view T now from to ao c l !! (mc, x) = Some b ↔
  ∃ e e1, last (of_code x W) = Some e ∧ e1 ∈ of_code x W ∧ (∀ e2, e2 ∈ of_code x W → e_service e2 ≤ e_service e1) ∧
    (ao = true → ∀ k, c !! x = Some k → k.2 = Active) ∧
    mc = machine_of (match c !! x with Some k => At k.1 | None => Zombie x end) ∧
    b = shown T now c W x e (e_service e1).
Proof.
  intros W. unfold fleet_view. fold W. cbv zeta. fold (gathered T now W).
  change (foldl _ ∅ (by_service (gathered T now W))) with (foldl (put c ao (gathered T now W)) ∅ (by_service (gathered T now W))).
  rewrite put_all, gathered_reports.
  assert (skipped c ao x = false ↔ (ao = true → ∀ k, c !! x = Some k → k.2 = Active)) as SK.
  { unfold skipped. destruct ao; simpl; [|by split]. destruct (c !! x) as [k|].
    - rewrite bool_decide_eq_false. split.
      + intros N _ k' [= <-]. by apply dec_stable.
      + intros H N. by apply N, H.
    - by split. }
  assert (∀ s e, make_blob c (gathered T now W) s x (Report (bool_decide (now - e_us e < T)%Z) (e_us e) (e_deps e) (e_data e)) =
     shown T now c W x e s) as MB.
  { intros s e. unfold make_blob, shown, place_of. simpl. f_equal.
    - induction (e_deps e) as [|d ds IH]; [done|]. cbn [omap list_omap]. rewrite gathered_keys. destruct (known_at W d); [f_equal|]; exact IH.
    - apply list_filter_iff. intros d. by rewrite gathered_keys. }
  assert (place_of c x = match c !! x with Some k => At k.1 | None => Zombie x end) as PO by done.
  split.
  - destruct (last (filter _ _)) as [[s y]|] eqn:El; [|done]. destruct (last (of_code x W)) as [e|] eqn:Ee; [|done]. simpl.
    destruct (skipped c ao x) eqn:Es; [done|]. case_decide as D; [|done]. intros [= <-].
    assert ((s, y) ∈ filter (λ sx, sx.2 = x) (by_service (gathered T now W))) as Hin by (by apply last_Some_elem_of).
    apply elem_of_list_filter in Hin as [Hy Hin]. simpl in Hy. subst y. apply by_service_elem in Hin as (e1 & H1 & H2 & H3).
    exists e, e1. split; [done|]. split; [by apply elem_of_list_filter|]. split.
    { intros e2 [H4 H5]%elem_of_list_filter. rewrite H2.
      apply (sorted_last (λ sx, sx.2 = x) _ (s, x) (e_service e2, x) (by_service_sorted _) El); [|done].
      apply by_service_elem. eauto. }
    split; [by apply SK|]. split; [by rewrite D, PO|]. rewrite MB. by rewrite H2.
  - intros (e & e1 & He & H1 & H2 & H3 & -> & ->). apply elem_of_list_filter in H1 as [H1 H1'].
    assert ((e_service e1, x) ∈ by_service (gathered T now W)) as Hin by (apply by_service_elem; eauto).
    destruct (last_filter_some (λ sx, sx.2 = x) _ _ Hin eq_refl) as [[s y] El]. rewrite El, He. simpl.
    apply SK in H3. rewrite H3, PO, decide_True by done. f_equal. rewrite MB. f_equal.
    pose proof (sorted_last (λ sx, sx.2 = x) _ (s, y) (e_service e1, x) (by_service_sorted _) El Hin eq_refl) as L. simpl in L.
    assert ((s, y) ∈ filter (λ sx, sx.2 = x) (by_service (gathered T now W))) as Hin2 by (by apply last_Some_elem_of).
    apply elem_of_list_filter in Hin2 as [Hy Hin2]. simpl in Hy. subst y. apply by_service_elem in Hin2 as (e2 & G1 & G2 & G3).
    assert (e_service e2 ≤ e_service e1) by (apply H2; by apply elem_of_list_filter). lia.
Qed.
Lemma window_eq from to l : (0 < to)%Z → filter (in_window from to) l = window from to l.
Proof. intros H. apply list_filter_iff. intros e. unfold in_window. split; [intros [? ?]|intros [? ?]]; split; try done; lia || auto with lia. Qed.
