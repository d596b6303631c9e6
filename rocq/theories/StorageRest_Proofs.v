(** Proofs about the RESTful access to a storage. *)
From stdpp Require Import gmap strings sorting.
From Coq Require Import ZArith NArith Lia.
From Verif Require Import StorageContainers_Model StorageContainers_Spec StorageContainers_Proofs
  StorageTxn_Model StorageTxn_Spec StorageTxn_Proofs StorageRest_Model StorageRest_Spec.
From Verif Require Dec.

(* ------------------------------------------------------------------ *)
(** * Reading back the text of a time *)
Lemma leading_all l : Forall (λ b, Dec.is_digit b = true) l → leading_digits l = l.
Proof. induction 1 as [|b l E _ IH]; simpl; [done|]. by rewrite E, IH. Qed.

Lemma read_i64_zdec z : (- 2 ^ 63 <= z < 2 ^ 63)%Z → read_i64 (Dec.zdec z) = z.
Proof.
  intros Hz. unfold read_i64, Dec.zdec.
  assert (Hd : ∀ n, ∃ b r, Dec.dec n = b :: r ∧ Dec.is_digit b = true) by apply Dec.dec_head_digit.
  assert (Hds : ∀ n, leading_digits (Dec.dec n) = Dec.dec n).
  { intros n. apply leading_all, Dec.dec_is_digit. }
  assert (Hne : ∀ b, Dec.is_digit b = true → rest_space b = false ∧ b ≠ 45%N ∧ b ≠ 43%N).
  { intros b. unfold Dec.is_digit, rest_space. rewrite andb_true_iff, !N.leb_le. intros [H1 H2].
    split_and!; [|lia|lia]. rewrite orb_false_iff, andb_false_iff, !N.leb_gt, N.eqb_neq. lia. }
  destruct (z <? 0)%Z eqn:E.
  - apply Z.ltb_lt in E. change (skip_spaces (45%N :: Dec.dec (Z.to_N (- z)))) with (45%N :: Dec.dec (Z.to_N (- z))).
    cbn [sign_of]. rewrite Hds. destruct (Hd (Z.to_N (- z))) as (b & r & Eb & _).
    destruct (Dec.dec (Z.to_N (- z))) as [|b0 r0] eqn:Ed; [done|]. rewrite <- Ed, Dec.horner_dec.
    rewrite Z2N.id by lia. rewrite Z.opp_involutive.
    rewrite (proj2 (andb_true_iff _ _)); [done|]. rewrite Z.leb_le, Z.ltb_lt. lia.
  - apply Z.ltb_ge in E. destruct (Hd (Z.to_N z)) as (b & r & Eb & Hb).
    destruct (Hne b Hb) as (H1 & H2 & H3).
    assert (Es : skip_spaces (Dec.dec (Z.to_N z)) = Dec.dec (Z.to_N z)) by (rewrite Eb; simpl; by rewrite H1).
    assert (Eg : sign_of (Dec.dec (Z.to_N z)) = (false, Dec.dec (Z.to_N z))).
    { rewrite Eb. unfold sign_of. destruct b as [|p]; [done|].
      repeat (destruct p; try done). }
    rewrite Es, Eg, Hds. rewrite Eb. rewrite <- Eb, Dec.horner_dec.
    rewrite Z2N.id by lia.
    rewrite (proj2 (andb_true_iff _ _)); [done|]. rewrite Z.leb_le, Z.ltb_lt. lia.
Qed.

(* ------------------------------------------------------------------ *)
(** * One field *)

(** The time a mutation carries. *)
Definition ev_us (f : field_spec) : f_ev (to_field f) → Z :=
  match f with
  | @FDictionary K T P _ _ _ _ => λ e, match e with Updated us _ | Deleted us _ | Patched us _ _ => us end
  | @FOneToOne R C T _ _ _ _ _ _ => λ e, match e with Updated us _ | Deleted us _ | Patched us _ _ => us end
  | @FOneToMany R C T _ _ _ _ _ _ => λ e, match e with Updated us _ | Deleted us _ | Patched us _ _ => us end
  | @FManyToMany R C T _ _ _ _ _ _ => λ e, match e with Updated us _ | Deleted us _ | Patched us _ _ => us end
  end.

Section MatrixRead.
  Context {R C T : Type} `{Countable R} `{Countable C} (gr : T → R) (gc : T → C).
  Lemma elements_abs {FW TR} (s : matrix R C T FW TR) k :
    core gr gc (x_map s) (x_heap s) (x_next s) (x_lm s) →
    mjoin (x_elements s !! k) = (x_abs s).1 !! k.
  Proof.
    intros Hc. rewrite (x_elements_ok gr gc s Hc), lookup_fmap.
    by destruct ((x_abs s).1 !! k).
  Qed.
End MatrixRead.

Lemma rget_init f k : rget f (f_show (to_field f) (f_init (to_field f))) k = None.
Proof. destruct f; simpl; try apply lookup_empty; unfold x_elements; simpl; by rewrite fmap_empty, lookup_empty. Qed.
Lemma rlm_init f k : rlm f (f_show (to_field f) (f_init (to_field f))) k = None.
Proof. destruct f; simpl; apply lookup_empty. Qed.

Lemma rget_rlm f (Hp : patches_keep_keys f) s k o : l_inv _ (spec_laws f Hp) s →
  rget f (f_show (to_field f) s) k = Some o →
  rkey_of f o = k ∧ ∃ t, rlm f (f_show (to_field f) s) k = Some t.
Proof.
  destruct f as [K T P ? ? gk pw|R C T ? ? ? ? gr gc|R C T ? ? ? ? gr gc|R C T ? ? ? ? gr gc]; simpl.
  - intros [H1 H2] E. split; [by eapply H1|]. destruct (H2 _ _ E) as [t Et]. eauto.
  - intros (Hc & _). rewrite (elements_abs gr gc s k Hc). intros E. split; [by eapply contents_key|].
    destruct (proj1 (contents_is_Some gr gc _ _ _ _ k Hc)) as [p Ep]; [by eexists|].
    destruct (core_lm _ _ _ _ _ _ Hc _ _ Ep) as [t Et]. eauto.
  - intros (Hc & _). rewrite (elements_abs gr gc s k Hc). intros E. split; [by eapply contents_key|].
    destruct (proj1 (contents_is_Some gr gc _ _ _ _ k Hc)) as [p Ep]; [by eexists|].
    destruct (core_lm _ _ _ _ _ _ Hc _ _ Ep) as [t Et]. eauto.
  - intros (Hc & _). rewrite (elements_abs gr gc s k Hc). intros E. split; [by eapply contents_key|].
    destruct (proj1 (contents_is_Some gr gc _ _ _ _ k Hc)) as [p Ep]; [by eexists|].
    destruct (core_lm _ _ _ _ _ _ Hc _ _ Ep) as [t Et]. eauto.
Qed.

Section Touch.
  Context {K T P : Type} `{Countable K} (gk : T → K) (pw : P → T → T).
  Lemma aapply_touch e a k :
    ((aapply gk pw e a).1 !! k = a.1 !! k ∧ (aapply gk pw e a).2 !! k = a.2 !! k) ∨
    (aapply gk pw e a).2 !! k = Some (match e with Updated us _ | Deleted us _ | Patched us _ _ => us end).
  Proof.
    destruct e as [us o|us k'|us k' p]; simpl.
    - destruct (decide (gk o = k)) as [<-|Hne]; [right; by rewrite lookup_insert|left; by rewrite !lookup_insert_ne].
    - destruct (decide (k' = k)) as [<-|Hne]; [right; by rewrite lookup_insert|left].
      by rewrite lookup_delete_ne, lookup_insert_ne.
    - destruct (a.1 !! k') as [o|]; [|by left]. simpl.
      destruct (decide (k' = k)) as [<-|Hne]; [right; by rewrite lookup_insert|left; by rewrite !lookup_insert_ne].
  Qed.

  Lemma last_touch_snoc l us o : last_touch gk (gk o) (l ++ [@Updated K T P us o]) = Some us.
  Proof.
    induction l as [|e l IH]; simpl; [by rewrite decide_True|]. by rewrite IH.
  Qed.

  Lemma add_log_lm valid conflicts clk n o log a a' n' :
    chain gk pw valid a log a' → add_log conflicts clk n o log.*1 n' →
    log ≠ [] ∧ n < n' ∧ a'.2 !! gk o = Some (clk (pred n')).
  Proof.
    intros Hc (dels & _ & _ & El & ->). rewrite (chain_last_touch _ _ _ _ _ _ _ Hc), El, last_touch_snoc.
    split_and!; [|lia|done]. intros ->. simpl in El. by destruct (imap _ dels).
  Qed.

  Lemma add_log_times conflicts clk n o (log : logged K T P) n' :
    add_log conflicts clk n o log.*1 n' →
    ∃ m, n + m ≤ n' ∧
      map (λ e : mutation K T P, match e with Updated us _ | Deleted us _ | Patched us _ _ => us end) log.*1 = map clk (seq n m).
  Proof.
    clear gk pw. intros (dels & _ & _ & -> & ->). exists (S (length dels)). split; [lia|].
    rewrite map_app. rewrite seq_S, map_app. simpl. f_equal.
    clear. revert n. induction dels as [|d l IH]; intros n; simpl; [done|].
    rewrite Nat.add_0_r. f_equal. rewrite <- IH. f_equal. apply imap_ext. intros j k _. simpl. do 2 f_equal. lia.
  Qed.

  Lemma erase_log_times which clk n (log : logged K T P) n' :
    erase_log which clk n log.*1 n' →
    ∃ m, n + m ≤ n' ∧
      map (λ e : mutation K T P, match e with Updated us _ | Deleted us _ | Patched us _ _ => us end) log.*1 = map clk (seq n m).
  Proof.
    intros (-> & [(-> & _)|(k & -> & _)]); [exists 0; split; [lia|done]|exists 1; split; [lia|done]].
  Qed.

  Lemma erase_log_lm valid which clk n log a a' n' k :
    (∀ k', which k' ↔ k' = k ∧ is_Some (a.1 !! k')) →
    chain gk pw valid a log a' → erase_log which clk n log.*1 n' →
    n' = S n ∧
    (is_Some (a.1 !! k) → log ≠ [] ∧ a'.2 !! k = Some (clk n)) ∧
    (a.1 !! k = None → log = []).
  Proof.
    intros Hw Hc (-> & [(El & Hno)|(k1 & El & Hk)]).
    - split_and!; [done| |].
      + intros Hs. exfalso. apply (Hno k). by apply Hw.
      + intros _. by apply fmap_nil_inv in El.
    - assert (k1 = k ∧ is_Some (a.1 !! k)) as [-> Hs].
      { assert (H1 : which k1) by (by apply Hk). apply Hw in H1 as [-> ?]. done. }
      split_and!; [done| |].
      + intros _. split; [by intros ->|]. rewrite (chain_last_touch _ _ _ _ _ _ _ Hc), El. simpl.
        by rewrite decide_True.
      + intros E. rewrite E in Hs. by destruct Hs.
  Qed.
End Touch.

(** Replaying one mutation leaves a resource as it is or stamps it. *)
Lemma field_touch f (Hp : patches_keep_keys f) e s k :
  l_inv _ (spec_laws f Hp) s → l_valid _ (spec_laws f Hp) e (l_abs _ (spec_laws f Hp) s) →
  let v := f_show (to_field f) s in
  let v' := f_show (to_field f) (f_apply (to_field f) e s) in
  (rget f v' k = rget f v k ∧ rlm f v' k = rlm f v k) ∨ rlm f v' k = Some (ev_us f e).
Proof.
  intros Is Hv. destruct (l_apply _ (spec_laws f Hp) e s Is Hv) as [Is' E]. revert Is Hv Is' E.
  destruct f as [K T P ? ? gk pw|R C T ? ? ? ? gr gc|R C T ? ? ? ? gr gc|R C T ? ? ? ? gr gc]; simpl; intros Is Hv Is' E.
  - pose proof (aapply_touch gk pw e (dict_abs s) k) as Ht. rewrite <- E in Ht. exact Ht.
  - pose proof (aapply_touch (λ o, (gr o, gc o)) (λ (p : Empty_set) (o : T), o) e (x_abs s) k) as Ht. rewrite <- E in Ht.
    rewrite (elements_abs gr gc s k (proj1 Is)), (elements_abs gr gc _ k (proj1 Is')). exact Ht.
  - pose proof (aapply_touch (λ o, (gr o, gc o)) (λ (p : Empty_set) (o : T), o) e (x_abs s) k) as Ht. rewrite <- E in Ht.
    rewrite (elements_abs gr gc s k (proj1 Is)), (elements_abs gr gc _ k (proj1 Is')). exact Ht.
  - pose proof (aapply_touch (λ o, (gr o, gc o)) (λ (p : Empty_set) (o : T), o) e (x_abs s) k) as Ht. rewrite <- E in Ht.
    rewrite (elements_abs gr gc s k (proj1 Is)), (elements_abs gr gc _ k (proj1 Is')). exact Ht.
Qed.

(** The mutations of an operation carry successive readings of the clock. *)
Lemma field_times f (Hp : patches_keep_keys f) clk n op s log s' n' :
  l_inv _ (spec_laws f Hp) s → f_step (to_field f) clk n op s = Some (log, s', n') →
  ∃ m, n + m ≤ n' ∧ map (ev_us f) log.*1 = map clk (seq n m).
Proof.
  destruct f as [K T P ? ? gk pw|R C T ? ? ? ? gr gc|R C T ? ? ? ? gr gc|R C T ? ? ? ? gr gc]; simpl; intros Is E.
  - destruct op as [o|k|k p]; simpl in E; unfold dict_add, dict_erase, dict_patch in E; repeat case_match; simplify_eq;
      first [exists 1; split; [lia|done] | exists 0; split; [lia|done]].
  - destruct op as [o|k|r|c]; simpl in E.
    + destruct (o2o_add_ok gr gc clk n o s Is) as (?&?&?&E1&_&_&Hl). rewrite E in E1. simplify_eq. exact (add_log_times _ _ _ _ _ _ Hl).
    + destruct (o2o_erase_ok gr gc clk n k s Is) as (?&?&?&E1&_&_&Hl). rewrite E in E1. simplify_eq. exact (erase_log_times _ _ _ _ _ Hl).
    + destruct (o2o_erase_row_ok gr gc clk n r s Is) as (?&?&?&E1&_&_&Hl). rewrite E in E1. simplify_eq. exact (erase_log_times _ _ _ _ _ Hl).
    + destruct (o2o_erase_col_ok gr gc clk n c s Is) as (?&?&?&E1&_&_&Hl). rewrite E in E1. simplify_eq. exact (erase_log_times _ _ _ _ _ Hl).
  - destruct op as [o|k|c]; simpl in E.
    + destruct (o2m_add_ok gr gc clk n o s Is) as (?&?&?&E1&_&_&Hl). rewrite E in E1. simplify_eq. exact (add_log_times _ _ _ _ _ _ Hl).
    + destruct (o2m_erase_ok gr gc clk n k s Is) as (?&?&?&E1&_&_&Hl). rewrite E in E1. simplify_eq. exact (erase_log_times _ _ _ _ _ Hl).
    + destruct (o2m_erase_col_ok gr gc clk n c s Is) as (?&?&?&E1&_&_&Hl). rewrite E in E1. simplify_eq. exact (erase_log_times _ _ _ _ _ Hl).
  - destruct op as [o|k]; simpl in E.
    + destruct (m2m_add_ok gr gc clk n o s Is) as (?&?&?&E1&_&_&Hl). rewrite E in E1. simplify_eq. exact (add_log_times _ _ _ _ _ _ Hl).
    + destruct (m2m_erase_ok gr gc clk n k s Is) as (?&?&?&E1&_&_&Hl). rewrite E in E1. simplify_eq. exact (erase_log_times _ _ _ _ _ Hl).
Qed.

(** Storing an object. *)
Lemma field_add f (Hp : patches_keep_keys f) clk n o s : l_inv _ (spec_laws f Hp) s →
  ∃ log s' n', f_step (to_field f) clk n (radd f o) s = Some (log, s', n') ∧ log ≠ [] ∧ n < n' ∧
    l_inv _ (spec_laws f Hp) s' ∧
    let v := f_show (to_field f) s in let v' := f_show (to_field f) s' in
    stored f o (rget f v) (rget f v') ∧ rlm f v' (rkey_of f o) = Some (clk (pred n')).
Proof.
  destruct f as [K T P ? ? gk pw|R C T ? ? ? ? gr gc|R C T ? ? ? ? gr gc|R C T ? ? ? ? gr gc]; simpl; intros Is.
  - destruct (dict_step_full gk pw clk n (DAdd o) s Hp Is) as (log & s' & n' & E & Is' & Hc & Ht).
    exists log, s', n'. simpl in E. split; [done|].
    unfold dict_add in E. unfold stored. simpl in *.
    split_and!.
    + repeat case_match; by simplify_eq.
    + repeat case_match; simplify_eq; lia.
    + done.
    + rewrite Ht. by rewrite lookup_insert.
    + done.
    + intros k Hne _. rewrite Ht. by rewrite lookup_insert_ne.
    + repeat case_match; simplify_eq; simpl; by rewrite lookup_insert.
  - destruct (o2o_add_ok gr gc clk n o s Is) as (log & s' & n' & E & Is' & Hc & Hl).
    exists log, s', n'. split; [done|]. destruct (add_log_lm _ _ _ _ _ _ _ _ _ _ _ Hc Hl) as (H1 & H2 & H3).
    split_and!; [done|done|done| |done].
    assert (Ht : ∀ k, _) by (intros k; exact (add_log_table _ _ _ _ _ _ _ _ _ _ _ k Hc Hl)).
    split_and!; simpl.
    + rewrite (elements_abs gr gc s' _ (proj1 Is')). by apply Ht.
    + intros k [Hne Hk]. rewrite (elements_abs gr gc s' _ (proj1 Is')).
      destruct ((x_abs s).1 !! k) as [x|] eqn:Ex.
      * apply Ht; [done|]. split_and!; [by eauto|done|done].
      * destruct (Ht k) as (_ & _ & H3'). rewrite H3'; [done|done|]. intros ([? ?] & _). congruence.
    + intros k Hne Hk. rewrite (elements_abs gr gc s' _ (proj1 Is')), (elements_abs gr gc s _ (proj1 Is)).
      apply Ht; [done|]. intros (_ & _ & ?). by apply Hk.
  - destruct (o2m_add_ok gr gc clk n o s Is) as (log & s' & n' & E & Is' & Hc & Hl).
    exists log, s', n'. split; [done|]. destruct (add_log_lm _ _ _ _ _ _ _ _ _ _ _ Hc Hl) as (H1 & H2 & H3).
    split_and!; [done|done|done| |done].
    assert (Ht : ∀ k, _) by (intros k; exact (add_log_table _ _ _ _ _ _ _ _ _ _ _ k Hc Hl)).
    split_and!; simpl.
    + rewrite (elements_abs gr gc s' _ (proj1 Is')). by apply Ht.
    + intros k [Hne Hk]. rewrite (elements_abs gr gc s' _ (proj1 Is')).
      destruct ((x_abs s).1 !! k) as [x|] eqn:Ex.
      * apply Ht; [done|]. split_and!; [by eauto|done|done].
      * destruct (Ht k) as (_ & _ & H3'). rewrite H3'; [done|done|]. intros ([? ?] & _). congruence.
    + intros k Hne Hk. rewrite (elements_abs gr gc s' _ (proj1 Is')), (elements_abs gr gc s _ (proj1 Is)).
      apply Ht; [done|]. intros (_ & _ & ?). by apply Hk.
  - destruct (m2m_add_ok gr gc clk n o s Is) as (log & s' & n' & E & Is' & Hc & Hl).
    exists log, s', n'. split; [done|]. destruct (add_log_lm _ _ _ _ _ _ _ _ _ _ _ Hc Hl) as (H1 & H2 & H3).
    split_and!; [done|done|done| |done].
    assert (Ht : ∀ k, _) by (intros k; exact (add_log_table _ _ _ _ _ _ _ _ _ _ _ k Hc Hl)).
    split_and!; simpl.
    + rewrite (elements_abs gr gc s' _ (proj1 Is')). by apply Ht.
    + done.
    + intros k Hne _. rewrite (elements_abs gr gc s' _ (proj1 Is')), (elements_abs gr gc s _ (proj1 Is)).
      destruct (Ht k) as (_ & _ & H3'). apply H3'; [done|]. by intros [].
Qed.

(** Erasing a key. *)
Lemma field_erase f (Hp : patches_keep_keys f) clk n k s : l_inv _ (spec_laws f Hp) s →
  ∃ log s', f_step (to_field f) clk n (rerase f k) s = Some (log, s', S n) ∧
    l_inv _ (spec_laws f Hp) s' ∧
    let v := f_show (to_field f) s in let v' := f_show (to_field f) s' in
    removed f k (rget f v) (rget f v') ∧
    (is_Some (rget f v k) → log ≠ [] ∧ rlm f v' k = Some (clk n)) ∧
    (rget f v k = None → log = []).
Proof.
  destruct f as [K T P ? ? gk pw|R C T ? ? ? ? gr gc|R C T ? ? ? ? gr gc|R C T ? ? ? ? gr gc]; simpl; intros Is.
  - destruct (dict_step_full gk pw clk n (DErase k) s Hp Is) as (log & s' & n' & E & Is' & Hc & Ht).
    simpl in E. unfold dict_erase in E. simpl in *.
    assert (n' = S n) as -> by (repeat case_match; by simplify_eq).
    exists log, s'. split; [done|]. split; [done|]. unfold removed. rewrite Ht.
    split_and!.
    + by rewrite lookup_delete.
    + intros k' Hne. by rewrite lookup_delete_ne.
    + intros [x Ex]. rewrite Ex in E. destruct Is as [_ I2]. destruct (I2 _ _ Ex) as [t Et]. rewrite Et in E.
      simplify_eq. simpl. by rewrite lookup_insert.
    + intros Ex. rewrite Ex in E. by simplify_eq.
  - destruct (o2o_erase_ok gr gc clk n k s Is) as (log & s' & n' & E & Is' & Hc & Hl).
    pose proof (λ Hw, erase_log_lm _ _ _ _ _ _ _ _ _ _ k Hw Hc Hl) as Hlm.
    destruct (Hlm ltac:(done)) as (-> & H2 & H3).
    assert (Ht : ∀ k', _) by (intros k'; exact (erase_log_table _ _ _ _ _ _ _ _ _ _ k' Hc Hl)).
    exists log, s'. split; [done|]. split; [done|]. unfold removed. simpl.
    rewrite !(elements_abs gr gc s _ (proj1 Is)).
    split_and!; [| |exact H2|exact H3].
    + rewrite (elements_abs gr gc s' _ (proj1 Is')). destruct ((x_abs s).1 !! k) as [x|] eqn:Ex.
      * apply Ht. by eauto.
      * destruct (Ht k) as (_ & H3'). rewrite H3'; [done|]. intros (_ & [y Ey]). pose proof (eq_trans (eq_sym Ex) Ey) as Hxy. discriminate Hxy.
    + intros k' Hne. rewrite (elements_abs gr gc s' _ (proj1 Is')), (elements_abs gr gc s _ (proj1 Is)). apply Ht. naive_solver.
  - destruct (o2m_erase_ok gr gc clk n k s Is) as (log & s' & n' & E & Is' & Hc & Hl).
    pose proof (λ Hw, erase_log_lm _ _ _ _ _ _ _ _ _ _ k Hw Hc Hl) as Hlm.
    destruct (Hlm ltac:(done)) as (-> & H2 & H3).
    assert (Ht : ∀ k', _) by (intros k'; exact (erase_log_table _ _ _ _ _ _ _ _ _ _ k' Hc Hl)).
    exists log, s'. split; [done|]. split; [done|]. unfold removed. simpl.
    rewrite !(elements_abs gr gc s _ (proj1 Is)).
    split_and!; [| |exact H2|exact H3].
    + rewrite (elements_abs gr gc s' _ (proj1 Is')). destruct ((x_abs s).1 !! k) as [x|] eqn:Ex.
      * apply Ht. by eauto.
      * destruct (Ht k) as (_ & H3'). rewrite H3'; [done|]. intros (_ & [y Ey]). pose proof (eq_trans (eq_sym Ex) Ey) as Hxy. discriminate Hxy.
    + intros k' Hne. rewrite (elements_abs gr gc s' _ (proj1 Is')), (elements_abs gr gc s _ (proj1 Is)). apply Ht. naive_solver.
  - destruct (m2m_erase_ok gr gc clk n k s Is) as (log & s' & n' & E & Is' & Hc & Hl).
    pose proof (λ Hw, erase_log_lm _ _ _ _ _ _ _ _ _ _ k Hw Hc Hl) as Hlm.
    destruct (Hlm ltac:(done)) as (-> & H2 & H3).
    assert (Ht : ∀ k', _) by (intros k'; exact (erase_log_table _ _ _ _ _ _ _ _ _ _ k' Hc Hl)).
    exists log, s'. split; [done|]. split; [done|]. unfold removed. simpl.
    rewrite !(elements_abs gr gc s _ (proj1 Is)).
    split_and!; [| |exact H2|exact H3].
    + rewrite (elements_abs gr gc s' _ (proj1 Is')). destruct ((x_abs s).1 !! k) as [x|] eqn:Ex.
      * apply Ht. by eauto.
      * destruct (Ht k) as (_ & H3'). rewrite H3'; [done|]. intros (_ & [y Ey]). pose proof (eq_trans (eq_sym Ex) Ey) as Hxy. discriminate Hxy.
    + intros k' Hne. rewrite (elements_abs gr gc s' _ (proj1 Is')), (elements_abs gr gc s _ (proj1 Is)). apply Ht. naive_solver.
Qed.
