(** Proofs about the replica: it stays a prefix of its master. *)
From Coq Require Import Sorted.
From Verif Require Import Base Codec Persister_Model Persister_Spec Persister_Proofs Stream_Proofs Replicator_Model Replicator_Spec Replicator_Proofs.
From Verif Require Strings_Model Strings_Props.
Local Open Scope list_scope.

Section Replica.
Context {E : Type}.
Variable W : wire E.
Hypothesis HW : wire_ok W.
Notation C := (w_codec W).

(** ** The fields of a line *)
Lemma tab_split a b : a <> [] -> b <> [] -> ~ In TAB a -> ~ In TAB b -> Strings_Model.split (Strings_Model.sep_char TAB) false (a ++ [TAB] ++ b) = [a; b].
Proof.
  intros Ha Hb Na Nb. rewrite Strings_Props.C42_skip_drops_empty_fields.
  replace (a ++ [TAB] ++ b) with (Strings_Model.join [a; b] [TAB]) by (rewrite Strings_Props.join_cons; cbn; now rewrite app_nil_r).
  rewrite Strings_Props.C42_split_inverts_join; [|discriminate|repeat constructor; auto]. destruct a; [congruence|]. destruct b; [congruence|]. reflexivity.
Qed.
Lemma tab_split1 a : a <> [] -> ~ In TAB a -> Strings_Model.split (Strings_Model.sep_char TAB) false a = [a].
Proof. intros Ha Na. apply Strings_Props.split_skip_one; [exact Ha|]. apply Forall_forall. intros b Hb. unfold Strings_Model.sep_char. apply N.eqb_neq. intros ->. auto. Qed.
Lemma cut_at_tab a b : ~ In TAB a -> cut_at TAB (a ++ [TAB] ++ b) = Some (a, b).
Proof. change ([TAB] ++ b) with (TAB :: b). induction a as [|c a IH]; intros Na; cbn [app cut_at]; [reflexivity|]. destruct (N.eqb_spec c TAB) as [->|Hc]; [exfalso; apply Na; now left|]. rewrite IH; [reflexivity|]. intros H. apply Na. now right. Qed.
Lemma cut_at_none a : ~ In TAB a -> cut_at TAB a = None.
Proof. induction a as [|c a IH]; intros Na; cbn; [reflexivity|]. destruct (N.eqb_spec c TAB) as [->|Hc]; [exfalso; apply Na; now left|]. rewrite IH; [reflexivity|]. intros H. apply Na. now right. Qed.

(** ** One line *)
(** In either mode an entry's line is published if it is the next one and later than the head, and changes nothing otherwise. *)
Lemma pass_entry_line checked (s : rep E) i t e : (0 <= t)%Z -> r_next s = mp_size (r_store s) ->
  (exists x, pass_entry W checked s (entry_line W i t e) = (s, Some x)) \/
  (i = mp_size (r_store s) /\ (mp_head (r_store s) < t)%Z /\
   pass_entry W checked s (entry_line W i t e) = ({| r_store := {| mp_entries := mp_entries (r_store s) ++ [(t, e)]; mp_head := t |}; r_next := r_next s + 1; r_from := 0 |}, None)).
Proof.
  intros Ht Hn. destruct (wk_plain W HW TAB (or_introl eq_refl)) as (P1 & P2 & P3). destruct (wk_nonempty W HW) as (N1 & N2 & N3). unfold entry_line. destruct checked; cbn [pass_entry].
  - unfold pass_checked. rewrite tab_split by auto. rewrite (wk_tsopt W HW) by exact Ht. cbn [fst snd].
    destruct (Z.ltb 0 (r_from s) && Z.ltb t (r_from s))%bool; [eauto|]. destruct (N.eqb_spec i (r_next s)) as [->|]; cbn [negb]; [|eauto]. rewrite (wk_de W HW).
    unfold rep_entry, mp_publish. destruct (Z.ltb_spec (mp_head (r_store s)) t) as [Hh|]; [right|eauto]. auto.
  - unfold pass_unchecked. rewrite cut_at_tab by auto. unfold rep_raw, mp_publish_unsafe. rewrite cut_at_tab by auto. rewrite (wk_idx W HW) by exact Ht.
    destruct (N.eqb_spec i (mp_size (r_store s))) as [->|]; cbn [negb]; [|eauto]. destruct (Z.ltb_spec (mp_head (r_store s)) t) as [Hh|]; cbn [negb]; [right|eauto].
    rewrite (wk_de W HW). auto.
Qed.
Lemma pass_head_line checked (s : rep E) t : (0 <= t)%Z ->
  (exists x, pass_entry W checked s (head_line W t) = (s, Some x)) \/
  ((mp_head (r_store s) < t)%Z /\ pass_entry W checked s (head_line W t) = ({| r_store := {| mp_entries := mp_entries (r_store s); mp_head := t |}; r_next := r_next s; r_from := (t + 1)%Z |}, None)).
Proof.
  intros Ht. destruct (wk_plain W HW TAB (or_introl eq_refl)) as (P1 & P2 & P3). destruct (wk_nonempty W HW) as (N1 & N2 & N3). unfold head_line. destruct checked; cbn [pass_entry].
  - unfold pass_checked. rewrite tab_split1 by auto. rewrite (wk_tsopt_head W HW) by exact Ht.
    destruct (Z.ltb 0 (r_from s) && Z.ltb t (r_from s))%bool; [eauto|]. unfold rep_head, mp_update_head. destruct (Z.ltb_spec (mp_head (r_store s)) t) as [Hh|]; [right|eauto]. auto.
  - unfold pass_unchecked. rewrite cut_at_none by auto. rewrite (wk_ts W HW) by exact Ht. unfold rep_head, mp_update_head. destruct (Z.ltb_spec (mp_head (r_store s)) t) as [Hh|]; [right|eauto]. auto.
Qed.
Lemma pass_garbage checked (s : rep E) l : garbage W l -> exists x, pass_entry W checked s l = (s, Some x).
Proof.
  intros G. destruct checked; cbn [pass_entry].
  - unfold pass_checked. destruct (Strings_Model.split _ _ _) as [|f fs] eqn:Hf; [eauto|]. destruct (G f) as (G1 & _); [left; eauto|]. rewrite G1. eauto.
  - unfold pass_unchecked. destruct (cut_at TAB l) as [[p q]|] eqn:Hc.
    + unfold rep_raw, mp_publish_unsafe. rewrite Hc. destruct (G p) as (_ & _ & G3); [right; left; eauto|]. rewrite G3. eauto.
    + destruct (G l) as (_ & G2 & _); [right; right; auto|]. rewrite G2. eauto.
Qed.

(** ** The invariant of one line *)
Definition prefix_of (f m : mp E) : Prop := (exists rest, mp_entries m = mp_entries f ++ rest) /\ (mp_head f <= mp_head m)%Z.
Record rinv (m : mp E) (s : rep E) : Prop := {
  ri_m : mp_inv m; ri_prefix : prefix_of (r_store s) m; ri_next : r_next s = mp_size (r_store s) }.

Lemma at_nonneg (m : mp E) j t e : mp_inv m -> nth_error (mp_entries m) j = Some (t, e) -> (0 <= t <= mp_head m)%Z.
Proof.
  intros H Hn. apply nth_error_In in Hn. pose proof (inv_nonneg _ H) as H1. pose proof (inv_head _ H) as H2. rewrite Forall_forall in H1, H2. split; [exact (H1 _ Hn)|exact (H2 _ Hn)].
Qed.
Lemma size_snoc (m : mp E) x h : mp_size {| mp_entries := mp_entries m ++ [x]; mp_head := h |} = (mp_size m + 1)%N.
Proof. unfold mp_size. cbn. rewrite app_length. cbn. lia. Qed.
Lemma rinv_line checked m s l : rinv m s -> genuine W m l \/ garbage W l -> rinv m (fst (pass_entry W checked s l)).
Proof.
  intros H [[(i & t & e & Hn & ->)|(t & Ht & H0 & ->)]|G].
  - destruct H as [Hm [[rest Hp] Hh] Hx]. pose proof (at_nonneg _ _ _ _ Hm Hn) as Ht.
    destruct (pass_entry_line checked s i t e) as [[x ->]|(-> & Hlt & ->)]; [lia|exact Hx|split; [exact Hm|split; [now exists rest|exact Hh]|exact Hx]|]. cbn [fst].
    split; cbn [r_store r_next]; [exact Hm| |rewrite size_snoc; lia].
    rewrite Hp in Hn. unfold mp_size in Hn. rewrite Nat2N.id, nth_error_app2, Nat.sub_diag in Hn by lia. destruct rest as [|y rest]; [discriminate|]. injection Hn as ->.
    split; cbn [mp_entries mp_head]; [|lia]. exists rest. rewrite Hp, <- app_assoc. reflexivity.
  - destruct (pass_head_line checked s t H0) as [[x ->]|(Hlt & ->)]; [exact H|]. destruct H as [Hm [[rest Hp] Hh] Hx]. cbn [fst]. split; cbn; auto. split; cbn; [now exists rest|exact Ht].
  - destruct (pass_garbage checked s l G) as [x ->]. exact H.
Qed.
Lemma rinv_hand_over checked m ls : forall s, rinv m s -> Forall (fun l => genuine W m l \/ garbage W l) ls -> rinv m (fst (hand_over (pass_entry W checked) s ls)).
Proof.
  induction ls as [|l ls IH]; intros s H HF; cbn; [exact H|]. inversion HF as [|? ? H1 H2]; subst. pose proof (rinv_line checked m s l H H1) as H3.
  destruct (pass_entry W checked s l) as [s' [x|]]; [exact H3|]. now apply IH.
Qed.
Lemma rinv_grow m s o : rinv m s -> rinv (fst (mp_step C m o)) s.
Proof.
  intros [Hm [[rest Hp] Hh] Hx]. destruct (mp_step_grow C m o) as (x & He & Hh2 & _). split; [now apply mp_step_inv| |exact Hx].
  split; [exists (rest ++ x); rewrite He, Hp; now rewrite app_assoc|lia].
Qed.

(** ** Catching up: lines in order *)
(** The follower has the first entries of the master, and is not ahead of the first entry which it lacks. *)
Record in_step (m : mp E) (s : rep E) : Prop := {
  is_inv : rinv m s;
  is_before : forall j t e, nth_error (mp_entries m) j = Some (t, e) -> length (mp_entries (r_store s)) <= j -> (mp_head (r_store s) < t)%Z;
  is_from : (r_from s <= mp_head (r_store s) + 1)%Z }.

Lemma pass_entry_ok checked m (s : rep E) t e : in_step m s -> nth_error (mp_entries m) (length (mp_entries (r_store s))) = Some (t, e) ->
  pass_entry W checked s (entry_line W (mp_size (r_store s)) t e) = ({| r_store := {| mp_entries := mp_entries (r_store s) ++ [(t, e)]; mp_head := t |}; r_next := r_next s + 1; r_from := 0 |}, None) /\
  in_step m {| r_store := {| mp_entries := mp_entries (r_store s) ++ [(t, e)]; mp_head := t |}; r_next := r_next s + 1; r_from := 0 |}.
Proof.
  intros H Hn. pose proof (is_before _ _ H _ _ _ Hn (le_n _)) as Hlt. pose proof (is_from _ _ H) as Hf. destruct (is_inv _ _ H) as [Hm Hp Hx]. pose proof (at_nonneg _ _ _ _ Hm Hn) as Ht.
  assert (pass_entry W checked s (entry_line W (mp_size (r_store s)) t e) = ({| r_store := {| mp_entries := mp_entries (r_store s) ++ [(t, e)]; mp_head := t |}; r_next := r_next s + 1; r_from := 0 |}, None)) as Heq.
  { destruct (wk_plain W HW TAB (or_introl eq_refl)) as (P1 & P2 & P3). destruct (wk_nonempty W HW) as (N1 & N2 & N3). unfold entry_line. destruct checked; cbn [pass_entry].
    - unfold pass_checked. rewrite tab_split by auto. rewrite (wk_tsopt W HW) by (cbn; lia). cbn [fst snd]. replace (Z.ltb t (r_from s)) with false by lia. rewrite andb_false_r.
      rewrite Hx, N.eqb_refl. cbn [negb]. rewrite (wk_de W HW). unfold rep_entry, mp_publish. destruct (Z.ltb_spec (mp_head (r_store s)) t); [now rewrite Hx|lia].
    - unfold pass_unchecked. rewrite cut_at_tab by auto. unfold rep_raw, mp_publish_unsafe. rewrite cut_at_tab by auto. rewrite (wk_idx W HW) by (cbn; lia).
      rewrite N.eqb_refl. cbn [negb]. destruct (Z.ltb_spec (mp_head (r_store s)) t); [|lia]. cbn [negb]. rewrite (wk_de W HW). reflexivity. }
  split; [exact Heq|]. split.
  - assert (genuine W m (entry_line W (mp_size (r_store s)) t e) \/ garbage W (entry_line W (mp_size (r_store s)) t e)) as G.
    { left. left. exists (mp_size (r_store s)), t, e. split; [|reflexivity]. unfold mp_size. now rewrite Nat2N.id. }
    pose proof (rinv_line checked m s _ (is_inv _ _ H) G) as R. rewrite Heq in R. exact R.
  - cbn. intros j t' e' Hj Hl. rewrite app_length in Hl. cbn in Hl. assert (H1 : nth_error (map fst (mp_entries m)) (length (mp_entries (r_store s))) = Some t) by (now rewrite nth_error_map, Hn).
    assert (H2 : nth_error (map fst (mp_entries m)) j = Some t') by (now rewrite nth_error_map, Hj). apply (SS_nth _ (inv_sorted _ Hm) (length (mp_entries (r_store s))) j); auto; lia.
  - cbn. lia.
Qed.
Lemma pass_head_ok checked m (s : rep E) t : in_step m s -> (mp_head (r_store s) < t <= mp_head m)%Z -> (0 <= t)%Z ->
  (forall j t' e, nth_error (mp_entries m) j = Some (t', e) -> length (mp_entries (r_store s)) <= j -> (t < t')%Z) ->
  pass_entry W checked s (head_line W t) = ({| r_store := {| mp_entries := mp_entries (r_store s); mp_head := t |}; r_next := r_next s; r_from := (t + 1)%Z |}, None) /\
  in_step m {| r_store := {| mp_entries := mp_entries (r_store s); mp_head := t |}; r_next := r_next s; r_from := (t + 1)%Z |}.
Proof.
  intros H Ht H0 Hb. pose proof (is_from _ _ H) as Hf.
  assert (pass_entry W checked s (head_line W t) = ({| r_store := {| mp_entries := mp_entries (r_store s); mp_head := t |}; r_next := r_next s; r_from := (t + 1)%Z |}, None)) as Heq.
  { destruct (wk_plain W HW TAB (or_introl eq_refl)) as (P1 & P2 & P3). destruct (wk_nonempty W HW) as (N1 & N2 & N3). unfold head_line. destruct checked; cbn [pass_entry].
    - unfold pass_checked. rewrite tab_split1 by auto. rewrite (wk_tsopt_head W HW) by exact H0. replace (Z.ltb t (r_from s)) with false by lia. rewrite andb_false_r.
      unfold rep_head, mp_update_head. destruct (Z.ltb_spec (mp_head (r_store s)) t); [reflexivity|lia].
    - unfold pass_unchecked. rewrite cut_at_none by auto. rewrite (wk_ts W HW) by exact H0. unfold rep_head, mp_update_head. destruct (Z.ltb_spec (mp_head (r_store s)) t); [reflexivity|lia]. }
  split; [exact Heq|]. split.
  - assert (genuine W m (head_line W t) \/ garbage W (head_line W t)) as G by (left; right; exists t; repeat split; lia).
    pose proof (rinv_line checked m s _ (is_inv _ _ H) G) as R. rewrite Heq in R. exact R.
  - cbn. exact Hb.
  - cbn. lia.
Qed.

(** All the entries which the follower lacks, in order. *)
Definition missing_lines (m : mp E) (k : nat) : list bytes := map (fun x : idxts * E => entry_line W (fst (fst x)) (snd (fst x)) (snd x)) (numbered_from (N.of_nat k) (skipn k (mp_entries m))).
Lemma catch_up checked m s rest : forall l, mp_entries m = mp_entries (r_store s) ++ l ++ rest -> in_step m s ->
  exists s', hand_over (pass_entry W checked) s (map (fun x : idxts * E => entry_line W (fst (fst x)) (snd (fst x)) (snd x)) (numbered_from (mp_size (r_store s)) l)) = (s', None) /\
    in_step m s' /\ mp_entries (r_store s') = mp_entries (r_store s) ++ l /\ (mp_head (r_store s') = match rev l with [] => mp_head (r_store s) | x :: _ => fst x end) /\ (r_from s' = match l with [] => r_from s | _ => 0 end)%Z.
Proof.
  intros l. revert s rest. induction l as [|[t e] l IH]; intros s rest Hm H.
  - exists s. cbn. rewrite app_nil_r. auto.
  - cbn [numbered_from map hand_over fst snd]. destruct (pass_entry_ok checked m s t e H) as [Heq H']. { rewrite Hm, nth_error_app2, Nat.sub_diag by lia. reflexivity. }
    rewrite Heq. cbn zeta. set (s1 := {| r_store := {| mp_entries := mp_entries (r_store s) ++ [(t, e)]; mp_head := t |}; r_next := r_next s + 1; r_from := 0 |}) in *.
    destruct (IH s1 rest) as (s' & H1 & H2 & H3 & H4 & H5). { unfold s1. cbn. rewrite Hm, <- app_assoc. reflexivity. } { exact H'. }
    exists s'. assert (mp_size (r_store s1) = (mp_size (r_store s) + 1)%N) as Hsz by apply size_snoc. rewrite Hsz in H1. split; [exact H1|]. split; [exact H2|]. split.
    { rewrite H3. unfold s1. cbn. now rewrite <- app_assoc. }
    split; [|rewrite H5; destruct l; reflexivity].
    rewrite H4. cbn [rev]. destruct (rev l) as [|y r]; reflexivity.
Qed.
End Replica.
