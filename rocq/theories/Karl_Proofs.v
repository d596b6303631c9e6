(** * Proofs about Karl's registry *)
From stdpp Require Import gmap list.
From Coq Require Import ZArith Lia.
From Verif Require Import Karl_Model Karl_Spec.

(** ** The most recent keepalive *)
Lemma most_recent_spec m :
  (∀ x t, m !! x = Some t → (t ≤ most_recent m)%Z) ∧ (0 ≤ most_recent m)%Z ∧
  (∀ b, (0 ≤ b)%Z → (∀ x t, m !! x = Some t → (t ≤ b)%Z) → (most_recent m ≤ b)%Z).
Proof.
  unfold most_recent.
  apply (map_fold_ind (λ r (m : gmap nat Z),
    (∀ x t, m !! x = Some t → (t ≤ r)%Z) ∧ (0 ≤ r)%Z ∧ (∀ b, (0 ≤ b)%Z → (∀ x t, m !! x = Some t → (t ≤ b)%Z) → (r ≤ b)%Z))).
  - repeat split; [|lia|auto]. intros x t H. by rewrite lookup_empty in H.
  - intros i t m' r Hi (H1 & H2 & H3). repeat split; [|lia|].
    + intros x u [[<- <-]|[_ H]]%lookup_insert_Some; [lia|]. apply H1 in H. lia.
    + intros b Hb H. apply Z.max_lub.
      * apply (H i). by rewrite lookup_insert.
      * apply H3; [done|]. intros x u Hx. apply (H x). rewrite lookup_insert_ne; [done|]. congruence.
Qed.

(** ** Times and requests *)
Record basic (s : state) : Prop := {
  b_time : (0 < time s)%Z;
  b_cache : ∀ x t, cache s !! x = Some t → (0 < t ≤ time s)%Z;
  b_k : ∀ h x t, handlers s !! h = Some (K1 x t) ∨ handlers s !! h = Some (K2 x t) → (0 < t ≤ time s)%Z;
  b_scan : ∀ now, upd s = UScan now → (now ≤ time s)%Z;
  b_recent : ∀ r, (∃ now l, upd s = UTxn now l r) ∨ upd s = UCalc r → (0 ≤ r ≤ time s)%Z }.

Lemma update_cases T s ev s' :
  update T s = Some (ev, s') →
  (upd s = UTop ∧ ev = [] ∧ s' = set_upd (if stop s then UExit else UScan (time s)) s) ∨
  (∃ now, upd s = UScan now ∧ ev = [Scan now] ∧
     let l := dom (filter (λ p, expired T now p.2) (cache s)) in
     let rest := filter (λ p, ¬ expired T now p.2) (cache s) in
     s' = set_cache rest (set_upd (if decide (l = ∅) then UCalc (most_recent rest) else UTxn now l (most_recent rest)) s)) ∨
  (∃ now l r, upd s = UTxn now l r ∧ ev = map (λ x, OnTimedOut x now) (elements (filter (λ x, is_Some (claires s !! x)) l)) ∧
     s' = set_claires (gset_to_gmap DisconnectedByTimeout l ∪ claires s) (set_upd (UCalc r) s)) ∨
  (ev = [] ∧ s' = set_upd UTop (set_flag false s) ∧ ((∃ r, upd s = UCalc r) ∨ ∃ c d, upd s = UWaiting c d)) ∨
  (∃ r, upd s = UCalc r ∧ ev = [] ∧ stop s = false ∧ flag s = false ∧
     ((r = 0%Z ∧ s' = set_upd (UWaiting (time s) None) s) ∨
      (r ≠ 0%Z ∧ (T - (time s - r) > 0)%Z ∧ s' = set_upd (UWaiting (time s) (Some (time s + (T - (time s - r)) + 1)%Z)) s))).
Proof.
  unfold update. destruct (upd s) as [|now|now l r|r|c d|] eqn:Eu.
  - intros [= <- <-]. left. done.
  - intros [= <- <-]. right. left. eauto.
  - intros [= <- <-]. right. right. left. eauto 10.
  - destruct (stop s) eqn:Es; destruct (flag s) eqn:Ef; simpl; repeat case_decide; intros [= <- <-];
      right; right; right; (left; by eauto) || (right; exists r; repeat split; auto; lia || auto 10).
  - destruct (_ || _); [|discriminate]. intros [= <- <-]. right. right. right. left. eauto 10.
  - discriminate.
Qed.

Lemma handle_cases h s ev s' :
  handle h s = Some (ev, s') →
  (∃ x t, handlers s !! h = Some (K1 x t) ∧ ev = [OnKeepalive x t] ∧
     s' = set_claires (<[x := Active]> (claires s)) (set_handlers (<[h := K2 x t]> (handlers s)) s)) ∨
  (∃ x t, handlers s !! h = Some (K2 x t) ∧ ev = [Kept x t] ∧
     s' = set_cache (<[x := t]> (cache s)) (set_flag (flag s || bool_decide (default 0%Z (cache s !! x) = 0%Z)) (set_handlers (delete h (handlers s)) s))) ∨
  (∃ x, handlers s !! h = Some (D1 x) ∧ ev = [OnDeregistered x] ∧
     s' = set_claires (<[x := Deregistered]> (claires s)) (set_handlers (<[h := D2 x]> (handlers s)) s)) ∨
  (∃ x, handlers s !! h = Some (D2 x) ∧ ev = [Gone x] ∧
     s' = set_cache (delete x (cache s)) (set_flag true (set_handlers (delete h (handlers s)) s))).
Proof.
  unfold handle. destruct (handlers s !! h) as [[x t|x t|x|x]|] eqn:E; [| | | |discriminate]; intros [= <- <-]; eauto 12.
Qed.

(** What an action leaves alone. *)
Lemma step_basic T a s ev s' : basic s → step T a s = Some (ev, s') → basic s'.
Proof.
  intros [Ht Hc Hk Hs Hr]. destruct a as [d|h x|h x|h| | |]; cbn [step].
  - case_decide; intros [= <- <-]. split; simpl; try lia.
    + intros x t H1%Hc. lia.
    + intros h x t H1%Hk. lia.
    + intros now H1%Hs. lia.
    + intros r H1%Hr. lia.
  - case_decide as C; intros [= <- <-]. split; simpl; auto.
    intros h' x' t [H|H]; apply lookup_insert_Some in H as [[<- [= <- <-]]|[_ H]]; try lia; try done; apply (Hk h' x'); auto.
  - case_decide as C; intros [= <- <-]. split; simpl; auto.
    intros h' x' t [H|H]; apply lookup_insert_Some in H as [[<- ?]|[_ H]]; try done; apply (Hk h' x'); auto.
  - intros [(x & t & Hh & -> & ->)|[(x & t & Hh & -> & ->)|[(x & Hh & -> & ->)|(x & Hh & -> & ->)]]]%handle_cases; split; simpl; auto.
    + intros h' x' t' [H|H]; apply lookup_insert_Some in H as [[<- ?]|[_ H]]; simplify_eq; apply (Hk h' x') || apply (Hk h x'); auto.
    + intros x' t' [[<- <-]|[_ H]]%lookup_insert_Some; [|by apply (Hc x')]. apply (Hk h x). auto.
    + intros h' x' t' [H|H]; apply lookup_delete_Some in H as [_ H]; apply (Hk h' x'); auto.
    + intros h' x' t' [H|H]; apply lookup_insert_Some in H as [[<- ?]|[_ H]]; simplify_eq; apply (Hk h' x'); auto.
    + intros x' t' [_ H]%lookup_delete_Some. by apply (Hc x').
    + intros h' x' t' [H|H]; apply lookup_delete_Some in H as [_ H]; apply (Hk h' x'); auto.
  - intros [(Hu & -> & ->)|[(now & Hu & -> & ->)|[(now & l & r & Hu & -> & ->)|[(-> & -> & Hu)|(r & Hu & -> & Hst & Hf & H)]]]]%update_cases.
    + split; simpl; auto.
      * intros now. destruct (stop s); [discriminate|]. intros [= <-]. lia.
      * intros r. destruct (stop s); intros [(now & l & H)|H]; discriminate.
    + assert (∀ x t, filter (λ p : nat * Z, ¬ expired T now p.2) (cache s) !! x = Some t → (0 < t ≤ time s)%Z) as Hc'.
      { intros x t [H _]%map_filter_lookup_Some. by apply (Hc x). }
      destruct (most_recent_spec (filter (λ p : nat * Z, ¬ expired T now p.2) (cache s))) as (M1 & M2 & M3).
      split; simpl; auto.
      * intros now'. case_decide; discriminate.
      * intros r Hr'. assert (r = most_recent (filter (λ p : nat * Z, ¬ expired T now p.2) (cache s))) as ->.
        { destruct Hr' as [(n & l & H)|H]; case_decide; congruence. }
        split; [done|]. apply M3; [lia|]. intros x t H%Hc'. lia.
    + split; simpl; auto; [discriminate|]. intros r' [(? & ? & ?)|[= <-]]; [discriminate|]. apply Hr. eauto.
    + split; simpl; auto; [discriminate|]. intros r' [(? & ? & ?)|?]; discriminate.
    + destruct H as [(-> & ->)|(H1 & H2 & ->)]; split; simpl; auto; try discriminate; intros r' [(? & ? & ?)|?]; discriminate.
  - destruct (booted s); [discriminate|]. intros [= <- <-]. split; simpl; auto.
    intros x t [H|[_ H]]%lookup_union_Some_raw; [|by apply (Hc x)].
    rewrite lookup_fmap in H. destruct (filter _ _ !! x); [|discriminate]. injection H as <-. lia.
  - intros [= <- <-]. split; simpl; auto.
Qed.

Lemma init_basic c t : (0 < t)%Z → basic (init c t).
Proof.
  intros H. split; simpl; auto.
  - intros x u. by rewrite lookup_empty.
  - intros h x u [E|E]; by rewrite lookup_empty in E.
  - discriminate.
  - intros r [(? & ? & ?)|?]; discriminate.
Qed.

Lemma run_basic T ok c t tr s : (0 < t)%Z → run T ok (init c t) tr s → basic s.
Proof. intros Ht. induction 1; [by apply init_basic|]. by eapply step_basic. Qed.
Lemma run_weaken T (ok ok' : action → state → Prop) s0 tr s : (∀ a s, ok a s → ok' a s) → run T ok s0 tr s → run T ok' s0 tr s.
Proof. intros H. induction 1; [constructor|]. econstructor; eauto. Qed.

(** ** Requests of one service, one after another *)
Definition one_each (s : state) : Prop :=
  ∀ h1 h2 p1 p2, handlers s !! h1 = Some p1 → handlers s !! h2 = Some p2 → name_of p1 = name_of p2 → h1 = h2.
Lemma step_one_each T a s ev s' : one_each s → serial a s → step T a s = Some (ev, s') → one_each s'.
Proof.
  intros I Hs. destruct a as [d|h x|h x|h| | |]; cbn [step].
  - case_decide; intros [= <- <-]. exact I.
  - case_decide as C; intros [= <- <-]. intros h1 h2 p1 p2. simpl.
    intros [[<- <-]|[N1 H1]]%lookup_insert_Some [[<- <-]|[N2 H2]]%lookup_insert_Some E; simpl in *; auto.
    + by apply Hs in H2.
    + by apply Hs in H1.
    + by eapply I.
  - case_decide as C; intros [= <- <-]. intros h1 h2 p1 p2. simpl.
    intros [[<- <-]|[N1 H1]]%lookup_insert_Some [[<- <-]|[N2 H2]]%lookup_insert_Some E; simpl in *; auto.
    + by apply Hs in H2.
    + by apply Hs in H1.
    + by eapply I.
  - assert (∀ p q, handlers s !! h = Some p → name_of q = name_of p → one_each (set_handlers (<[h := q]> (handlers s)) s)) as A.
    { intros p q Hp Hq h1 h2 p1 p2. simpl.
      intros [[<- <-]|[N1 H1]]%lookup_insert_Some [[<- <-]|[N2 H2]]%lookup_insert_Some E; auto.
      - eapply I; eauto. congruence.
      - eapply I; eauto. congruence.
      - by eapply I. }
    assert (one_each (set_handlers (delete h (handlers s)) s)) as B.
    { intros h1 h2 p1 p2. simpl. intros [_ H1]%lookup_delete_Some [_ H2]%lookup_delete_Some. by eapply I. }
    intros [(x & t & Hh & -> & ->)|[(x & t & Hh & -> & ->)|[(x & Hh & -> & ->)|(x & Hh & -> & ->)]]]%handle_cases.
    + exact (A _ (K2 x t) Hh eq_refl).
    + exact B.
    + exact (A _ (D2 x) Hh eq_refl).
    + exact B.
  - intros [(Hu & -> & ->)|[(now & Hu & -> & ->)|[(now & l & r & Hu & -> & ->)|[(-> & -> & Hu)|(r & Hu & -> & Hst & Hf & [(-> & ->)|(H1 & H2 & ->)])]]]]%update_cases;
      exact I.
  - destruct (booted s); [discriminate|]. intros [= <- <-]. exact I.
  - intros [= <- <-]. exact I.
Qed.
Lemma init_one_each c t : one_each (init c t).
Proof. intros h1 h2 p1 p2. simpl. by rewrite lookup_empty. Qed.

(** ** An active service is watched *)
Record inv_w (s : state) : Prop := {
  w_one : one_each s;
  w_d2 : ∀ h x, handlers s !! h = Some (D2 x) → claires s !! x ≠ Some Active;
  w_watched : booted s = true → ∀ x, claires s !! x = Some Active → watched x s }.
Lemma init_w c t : inv_w (init c t).
Proof.
  split; [apply init_one_each| |discriminate]. intros h x. simpl. by rewrite lookup_empty.
Qed.
Lemma step_w T a s ev s' : inv_w s → serial a s → step T a s = Some (ev, s') → inv_w s'.
Proof.
  intros [I J W] Hs E. pose proof (step_one_each _ _ _ _ _ I Hs E) as I'. split; [exact I'| |]; clear I'.
  - revert E. destruct a as [d|h x|h x|h| | |]; cbn [step].
    + case_decide; intros [= <- <-]. exact J.
    + case_decide as C; intros [= <- <-]. simpl. intros h' x' [[_ ?]|[_ H]]%lookup_insert_Some; [done|]. by eapply J.
    + case_decide as C; intros [= <- <-]. simpl. intros h' x' [[_ ?]|[_ H]]%lookup_insert_Some; [done|]. by eapply J.
    + intros [(x & t & Hh & -> & ->)|[(x & t & Hh & -> & ->)|[(x & Hh & -> & ->)|(x & Hh & -> & ->)]]]%handle_cases; simpl; intros h' x'.
      * intros [[_ ?]|[N H]]%lookup_insert_Some; [done|]. rewrite lookup_insert_ne; [by eapply J|].
        intros <-. apply N. by eapply I.
      * intros [_ H]%lookup_delete_Some. by eapply J.
      * intros [[<- [= <-]]|[N H]]%lookup_insert_Some; [by rewrite lookup_insert|]. rewrite lookup_insert_ne; [by eapply J|].
        intros <-. apply N. by eapply I.
      * intros [_ H]%lookup_delete_Some. by eapply J.
    + intros [(Hu & -> & ->)|[(now & Hu & -> & ->)|[(now & l & r & Hu & -> & ->)|[(-> & -> & Hu)|(r & Hu & -> & Hst & Hf & [(-> & ->)|(H1 & H2 & ->)])]]]]%update_cases;
        try exact J.
      simpl. intros h x H E. apply lookup_union_Some_raw in E as [E|[_ E]]; [|by eapply J].
      apply lookup_gset_to_gmap_Some in E as [_ ?]. discriminate.
    + destruct (booted s); [discriminate|]. intros [= <- <-]. exact J.
    + intros [= <- <-]. exact J.
  - revert E. destruct a as [d|h x|h x|h| | |]; cbn [step].
    + case_decide; intros [= <- <-]. exact W.
    + case_decide as C; intros [= <- <-]. simpl. intros B x' H. destruct (W B x' H) as [?|[(h' & t & ?)|?]]; [by left| |by right; right].
      right. left. exists h', t. simpl. rewrite lookup_insert_ne; [done|]. congruence.
    + case_decide as C; intros [= <- <-]. simpl. intros B x' H. destruct (W B x' H) as [?|[(h' & t & ?)|?]]; [by left| |by right; right].
      right. left. exists h', t. simpl. rewrite lookup_insert_ne; [done|]. congruence.
    + intros [(x & t & Hh & -> & ->)|[(x & t & Hh & -> & ->)|[(x & Hh & -> & ->)|(x & Hh & -> & ->)]]]%handle_cases; simpl; intros B x' H.
      * destruct (decide (x' = x)) as [->|N].
        -- right. left. exists h, t. simpl. by rewrite lookup_insert.
        -- rewrite lookup_insert_ne in H by done. destruct (W B x' H) as [?|[(h' & t' & H')|?]]; [by left| |by right; right].
           right. left. exists h', t'. simpl. rewrite lookup_insert_ne; [done|]. congruence.
      * destruct (decide (x' = x)) as [->|N].
        -- left. simpl. rewrite lookup_insert. eauto.
        -- destruct (W B x' H) as [?|[(h' & t' & H')|?]].
           ++ left. simpl. by rewrite lookup_insert_ne.
           ++ right. left. exists h', t'. simpl. rewrite lookup_delete_ne; [done|]. congruence.
           ++ by right; right.
      * apply lookup_insert_Some in H as [[_ ?]|[N H]]; [done|]. destruct (W B x' H) as [?|[(h' & t' & H')|?]]; [by left| |by right; right].
        right. left. exists h', t'. simpl. rewrite lookup_insert_ne; [done|]. congruence.
      * assert (x' ≠ x) as N by (intros ->; by eapply J). destruct (W B x' H) as [?|[(h' & t' & H')|?]].
        -- left. simpl. by rewrite lookup_delete_ne.
        -- right. left. exists h', t'. simpl. rewrite lookup_delete_ne; [done|]. congruence.
        -- by right; right.
    + intros [(Hu & -> & ->)|[(now & Hu & -> & ->)|[(now & l & r & Hu & -> & ->)|[(-> & -> & Hu)|(r & Hu & -> & Hst & Hf & H1)]]]]%update_cases;
        simpl; intros B x H.
      * destruct (W B x H) as [?|[?|(? & ? & ? & ? & _)]]; [by left|by right; left|congruence].
      * destruct (W B x H) as [[t Ht]|[?|(? & ? & ? & ? & _)]]; [|by right; left|congruence].
        destruct (decide (expired T now t)) as [D|D].
        -- right. right. simpl.
           assert (x ∈ dom (filter (λ p : nat * Z, expired T now p.2) (cache s))) as X.
           { apply elem_of_dom. exists t. by apply map_filter_lookup_Some. }
           rewrite decide_False by (intros E; rewrite E in X; set_solver). eauto.
        -- left. simpl. exists t. by apply map_filter_lookup_Some.
      * apply lookup_union_Some_raw in H as [H|[N H]].
        { apply lookup_gset_to_gmap_Some in H as [_ ?]. discriminate. }
        destruct (W B x H) as [?|[?|(n & l' & r' & E & X)]]; [by left|by right; left|].
        rewrite Hu in E. injection E as <- <- <-. apply lookup_gset_to_gmap_None in N. done.
      * destruct (W B x H) as [?|[?|(? & ? & ? & ? & _)]]; [by left|by right; left|].
        destruct Hu as [(? & ?)|(? & ? & ?)]; congruence.
      * destruct H1 as [(-> & ->)|(H1 & H2 & ->)]; simpl in H; (destruct (W B x H) as [?|[?|(? & ? & ? & ? & _)]]; [by left|by right; left|congruence]).
    + destruct (booted s); [discriminate|]. intros [= <- <-]. simpl. intros _ x H. left. simpl.
      destruct (((λ _, time s) <$> filter (λ p, p.2 = Active) (claires s)) !! x) as [t|] eqn:E.
      * exists t. apply lookup_union_Some_raw. by left.
      * exfalso. rewrite lookup_fmap in E. destruct (filter _ (claires s) !! x) eqn:E2; [discriminate|].
        apply map_filter_lookup_None in E2 as [E2|E2]; [congruence|]. by apply (E2 _ H).
    + intros [= <- <-]. exact W.
Qed.
Lemma run_w T c t tr s : run T serial (init c t) tr s → inv_w s.
Proof. induction 1; [apply init_w|]. by eapply step_w. Qed.

(** ** What is in the cache *)
Lemma step_keeps_basic_fresh s x : basic s → bool_decide (default 0%Z (cache s !! x) = 0%Z) = true ↔ cache s !! x = None.
Proof.
  intros B. rewrite bool_decide_eq_true. destruct (cache s !! x) as [t|] eqn:E; simpl; [|done].
  pose proof (b_cache _ B _ _ E). split; [lia|done].
Qed.
Lemma boot_quiet (s : state) :
  (∀ x, claires s !! x ≠ Some Active) → ((λ _, time s) <$> filter (λ p, p.2 = Active) (claires s)) ∪ cache s = cache s.
Proof.
  intros Q. replace (filter (λ p, p.2 = Active) (claires s)) with (∅ : gmap nat rstate).
  { by rewrite fmap_empty, (left_id_L ∅ (∪)). }
  apply map_eq. intros x. rewrite lookup_empty. symmetry. apply map_filter_lookup_None. right. intros r H E. simpl in E. subst r. by apply (Q x).
Qed.

(** The thread does not sleep without a deadline while there is something to watch. *)
Record inv_s (T : Z) (s : state) : Prop := {
  s_basic : basic s;
  s_none : (∃ c, upd s = UWaiting c None) ∨ upd s = UCalc 0%Z ∨ (∃ now l, upd s = UTxn now l 0%Z) → cache s = ∅ ∨ flag s = true;
  s_some : ∀ c d, upd s = UWaiting c (Some d) → (c ≤ time s ∧ c < d ≤ c + T + 1)%Z }.
Lemma init_s T c t : (0 < t)%Z → inv_s T (init c t).
Proof.
  intros H. split; [by apply init_basic| |]; simpl; [|discriminate]. intros [(? & ?)|[?|(? & ? & ?)]]; discriminate.
Qed.
Lemma step_s T a s ev s' : inv_s T s → quiet_boot a s → step T a s = Some (ev, s') → inv_s T s'.
Proof.
  intros [B N S] Hq E. pose proof (step_basic _ _ _ _ _ B E) as B'. split; [exact B'| |]; clear B'; revert E;
    destruct a as [d|h x|h x|h| | |]; cbn [step].
  - case_decide; intros [= <- <-]. exact N.
  - case_decide; intros [= <- <-]. exact N.
  - case_decide; intros [= <- <-]. exact N.
  - intros [(x & t & Hh & -> & ->)|[(x & t & Hh & -> & ->)|[(x & Hh & -> & ->)|(x & Hh & -> & ->)]]]%handle_cases; simpl; try exact N.
    + intros U. right. destruct (N U) as [C| ->]; [|done]. rewrite C, lookup_empty. simpl. by rewrite orb_true_r.
    + by right.
  - intros [(Hu & -> & ->)|[(now & Hu & -> & ->)|[(now & l & r & Hu & -> & ->)|[(-> & -> & Hu)|(r & Hu & -> & Hst & Hf & H1)]]]]%update_cases; simpl.
    + destruct (stop s); intros [(? & ?)|[?|(? & ? & ?)]]; discriminate.
    + intros U. left. set (m := filter (λ p : nat * Z, ¬ expired T now p.2) (cache s)) in *.
      assert (most_recent m = 0%Z) as M by (destruct U as [(? & U)|[U|(? & ? & U)]]; case_decide; congruence).
      apply map_eq. intros x. rewrite lookup_empty. destruct (m !! x) as [t|] eqn:Ex; [|done]. exfalso.
      pose proof (proj1 (most_recent_spec m) _ _ Ex) as L. rewrite M in L.
      apply map_filter_lookup_Some in Ex as [Ex _]. apply (b_cache _ B) in Ex. lia.
    + intros [(? & ?)|[[= ->]|(? & ? & ?)]]; try discriminate. apply N. eauto.
    + intros [(? & ?)|[?|(? & ? & ?)]]; discriminate.
    + destruct H1 as [(-> & ->)|(H1 & H2 & ->)]; simpl.
      * intros _. apply N. auto.
      * intros [(? & ?)|[?|(? & ? & ?)]]; discriminate.
  - destruct (booted s); [discriminate|]. intros [= <- <-]. simpl. rewrite boot_quiet by (by apply Hq). exact N.
  - intros [= <- <-]. exact N.
  - case_decide; intros [= <- <-]. simpl. intros c u Hc%S. lia.
  - case_decide; intros [= <- <-]. exact S.
  - case_decide; intros [= <- <-]. exact S.
  - intros [(x & t & Hh & -> & ->)|[(x & t & Hh & -> & ->)|[(x & Hh & -> & ->)|(x & Hh & -> & ->)]]]%handle_cases; exact S.
  - intros [(Hu & -> & ->)|[(now & Hu & -> & ->)|[(now & l & r & Hu & -> & ->)|[(-> & -> & Hu)|(r & Hu & -> & Hst & Hf & H1)]]]]%update_cases; simpl; try discriminate.
    + by destruct (stop s).
    + by case_decide.
    + destruct H1 as [(-> & ->)|(H1 & H2 & ->)]; simpl; [discriminate|]. intros c d [= <- <-].
      pose proof (b_recent _ B r (or_intror Hu)). lia.
  - destruct (booted s); [discriminate|]. intros [= <- <-]. exact S.
  - intros [= <- <-]. exact S.
Qed.
Lemma run_s T c t tr s : (0 < t)%Z → run T quiet_boot (init c t) tr s → inv_s T s.
Proof. intros Ht. induction 1; [by apply init_s|]. by eapply step_s. Qed.

(** ** What has been heard *)
Record inv_h (T : Z) (tr : list event) (s : state) : Prop := {
  h_basic : basic s;
  h_one : one_each s;
  h_cache : ∀ x t, cache s !! x = Some t → Kept x t ∈ tr ∧ ∀ t', Kept x t' ∈ tr → (t' ≤ t)%Z;
  h_time : ∀ x t, Kept x t ∈ tr → (t ≤ time s)%Z;
  h_handler : ∀ h x t t', handlers s !! h = Some (K1 x t) ∨ handlers s !! h = Some (K2 x t) → Kept x t' ∈ tr → (t' ≤ t)%Z;
  h_txn : ∀ now l r, upd s = UTxn now l r → ∃ pre post, tr = pre ++ Scan now :: post ∧
            ∀ x, x ∈ l → (∃ t, Kept x t ∈ pre) ∧ ∀ t, Kept x t ∈ pre → expired T now t;
  h_out : ∀ pre x now post, tr = pre ++ OnTimedOut x now :: post → ∃ pre1 pre2, pre = pre1 ++ Scan now :: pre2 ∧
            (∃ t, Kept x t ∈ pre1) ∧ ∀ t, Kept x t ∈ pre1 → expired T now t }.
Definition no_news (ev : list event) : Prop := (∀ x t, Kept x t ∉ ev) ∧ ∀ x now, OnTimedOut x now ∉ ev.
Lemma kept_app_no_news tr ev x t : no_news ev → Kept x t ∈ tr ++ ev ↔ Kept x t ∈ tr.
Proof. intros [N _]. rewrite elem_of_app. split; [|by left]. intros [?|H]; [done|]. by apply N in H. Qed.
Lemma split_at_event tr ev pre (e : event) post :
  tr ++ ev = pre ++ e :: post → (∃ p, tr = pre ++ e :: p) ∨ (∃ q, pre = tr ++ q ∧ ev = q ++ e :: post).
Proof.
  revert pre. induction tr as [|y tr IH]; intros pre H; simpl in *.
  - right. exists pre. by rewrite H.
  - destruct pre as [|z pre]; simpl in *.
    + injection H as -> _. left. eauto.
    + injection H as -> H. destruct (IH _ H) as [(p & ->)|(q & -> & ->)]; [left; by exists p|right; by exists q].
Qed.
Lemma out_extend T tr ev (Hout : ∀ pre x now post, tr = pre ++ OnTimedOut x now :: post → ∃ pre1 pre2, pre = pre1 ++ Scan now :: pre2 ∧
            (∃ t, Kept x t ∈ pre1) ∧ ∀ t, Kept x t ∈ pre1 → expired T now t) :
  (∀ x now, OnTimedOut x now ∉ ev) →
  ∀ pre x now post, tr ++ ev = pre ++ OnTimedOut x now :: post → ∃ pre1 pre2, pre = pre1 ++ Scan now :: pre2 ∧
            (∃ t, Kept x t ∈ pre1) ∧ ∀ t, Kept x t ∈ pre1 → expired T now t.
Proof.
  intros N pre x now post [(p & E)|(q & -> & ->)]%split_at_event; [by eapply Hout|].
  exfalso. apply (N x now). apply elem_of_app. right. by left.
Qed.
Lemma txn_extend (T : Z) tr ev (l : gset nat) now :
  (∃ pre post, tr = pre ++ Scan now :: post ∧ ∀ x, x ∈ l → (∃ t, Kept x t ∈ pre) ∧ ∀ t, Kept x t ∈ pre → expired T now t) →
  ∃ pre post, tr ++ ev = pre ++ Scan now :: post ∧ ∀ x, x ∈ l → (∃ t, Kept x t ∈ pre) ∧ ∀ t, Kept x t ∈ pre → expired T now t.
Proof. intros (pre & post & -> & H). exists pre, (post ++ ev). by rewrite <- app_assoc. Qed.
Lemma init_h T c t : (0 < t)%Z → inv_h T [] (init c t).
Proof.
  intros H. split; simpl.
  - by apply init_basic.
  - apply init_one_each.
  - intros x u. by rewrite lookup_empty.
  - intros x u Hu. by apply elem_of_nil in Hu.
  - intros h x u u' _ Hu. by apply elem_of_nil in Hu.
  - discriminate.
  - intros pre x now post E. by destruct pre.
Qed.
(** Steps that change neither the cache nor what has been heard. *)
Lemma inv_h_quiet T tr ev s s' :
  inv_h T tr s → basic s' → one_each s' → no_news ev → cache s' = cache s → (time s ≤ time s')%Z →
  (∀ h x t, handlers s' !! h = Some (K1 x t) ∨ handlers s' !! h = Some (K2 x t) →
     t = time s ∨ handlers s !! h = Some (K1 x t) ∨ handlers s !! h = Some (K2 x t)) →
  (∀ now l r, upd s' = UTxn now l r → upd s = upd s') → inv_h T (tr ++ ev) s'.
Proof.
  intros [B O C Ti H X Ou] B' O' N Ec Et Eh Eu. split; [done|done| | | | |].
  - intros x t. rewrite Ec. intros [H1 H2]%C. split; [apply elem_of_app; by left|]. intros t'. rewrite kept_app_no_news by done. apply H2.
  - intros x t. rewrite kept_app_no_news by done. intros H1%Ti. lia.
  - intros h x t t' Hh. rewrite kept_app_no_news by done. intros Hk. destruct (Eh h x t Hh) as [->|H1]; [by eapply Ti|by eapply H].
  - intros now l r E. apply txn_extend. rewrite <- (Eu _ _ _ E) in E. by eapply X.
  - apply out_extend; [done|apply N].
Qed.
Lemma no_news_nil : no_news [].
Proof. split; intros x t H; by apply elem_of_nil in H. Qed.
Lemma step_h T a s ev s' tr :
  inv_h T tr s → serial a s → quiet_boot a s → step T a s = Some (ev, s') → inv_h T (tr ++ ev) s'.
Proof.
  intros I Hs Hq E. pose proof (step_basic _ _ _ _ _ (h_basic _ _ _ I) E) as B'.
  pose proof (step_one_each _ _ _ _ _ (h_one _ _ _ I) Hs E) as O'.
  revert E. destruct a as [d|h x|h x|h| | |]; cbn [step].
  - case_decide; intros [= <- <-]. apply (inv_h_quiet _ _ _ s); simpl; auto using no_news_nil; lia.
  - case_decide; intros [= <- <-]. apply (inv_h_quiet _ _ _ s); simpl; auto using no_news_nil; try lia.
    intros h' x' t [H1|H1]; apply lookup_insert_Some in H1 as [[<- ?]|[_ ?]]; simplify_eq; auto.
  - case_decide; intros [= <- <-]. apply (inv_h_quiet _ _ _ s); simpl; auto using no_news_nil; try lia.
    intros h' x' t [H1|H1]; apply lookup_insert_Some in H1 as [[<- ?]|[_ ?]]; simplify_eq; auto.
  - intros [(x & t & Hh & -> & ->)|[(x & t & Hh & -> & ->)|[(x & Hh & -> & ->)|(x & Hh & -> & ->)]]]%handle_cases.
    + apply (inv_h_quiet _ _ _ s); simpl; auto; try lia.
      * split; intros y u Hy%elem_of_list_singleton; discriminate.
      * intros h' x' t' [H1|H1]; apply lookup_insert_Some in H1 as [[<- ?]|[_ ?]]; simplify_eq; auto.
    + destruct I as [B O C Ti H X Ou]. split; [done|done| | | | |]; simpl.
      * intros y u [[<- <-]|[Ny Hy]]%lookup_insert_Some.
        -- split; [apply elem_of_app; right; by left|]. intros t' [Hk|[= ->]%elem_of_list_singleton]%elem_of_app; [|lia].
           eapply H; eauto.
        -- destruct (C _ _ Hy) as [C1 C2]. split; [apply elem_of_app; by left|].
           intros t' [Hk|[= -> _]%elem_of_list_singleton]%elem_of_app; [by apply C2|done].
      * intros y u [Hk|[= -> ->]%elem_of_list_singleton]%elem_of_app; [by eapply Ti|]. eapply b_k; eauto.
      * intros h' y u t' Hy [Hk|[= -> ->]%elem_of_list_singleton]%elem_of_app.
        -- eapply (H h'); [|done]. destruct Hy as [Hy|Hy]; apply lookup_delete_Some in Hy as [_ Hy]; auto.
        -- exfalso. destruct Hy as [Hy|Hy]; apply lookup_delete_Some in Hy as [Ny Hy]; apply Ny; eapply O; eauto.
      * intros now l r E. apply txn_extend. by eapply X.
      * apply out_extend; [done|]. intros y now Hy%elem_of_list_singleton. discriminate.
    + apply (inv_h_quiet _ _ _ s); simpl; auto; try lia.
      * split; intros y u Hy%elem_of_list_singleton; discriminate.
      * intros h' x' t' [H1|H1]; apply lookup_insert_Some in H1 as [[<- ?]|[_ ?]]; simplify_eq; auto.
    + assert (no_news [Gone x]) as N by (split; intros y u Hy%elem_of_list_singleton; discriminate).
      destruct I as [B O C Ti H X Ou]. split; [done|done| | | | |]; simpl.
      * intros y u [Ny Hy]%lookup_delete_Some. destruct (C _ _ Hy) as [C1 C2]. split; [apply elem_of_app; by left|].
        intros t'. rewrite kept_app_no_news by done. apply C2.
      * intros y u. rewrite kept_app_no_news by done. apply Ti.
      * intros h' y u t' Hy. rewrite kept_app_no_news by done. eapply (H h').
        destruct Hy as [Hy|Hy]; apply lookup_delete_Some in Hy as [_ Hy]; auto.
      * intros now l r E. apply txn_extend. by eapply X.
      * apply out_extend; [done|apply N].
  - intros [(Hu & -> & ->)|[(now & Hu & -> & ->)|[(now & l & r & Hu & -> & ->)|[(-> & -> & Hu)|(r & Hu & -> & Hst & Hf & H1)]]]]%update_cases.
    + apply (inv_h_quiet _ _ _ s); simpl; auto using no_news_nil; try lia. by destruct (stop s).
    + assert (no_news [Scan now]) as N by (split; intros y u Hy%elem_of_list_singleton; discriminate).
      destruct I as [B O C Ti H X Ou]. split; [done|done| | | | |]; simpl.
      * intros y u [Hy _]%map_filter_lookup_Some. destruct (C _ _ Hy) as [C1 C2]. split; [apply elem_of_app; by left|].
        intros t'. rewrite kept_app_no_news by done. apply C2.
      * intros y u. rewrite kept_app_no_news by done. apply Ti.
      * intros h' y u t' Hy. rewrite kept_app_no_news by done. by eapply (H h').
      * intros now' l r E. case_decide; [discriminate|]. injection E as <- <- _. exists tr, []. split; [done|].
        intros y [u Hy]%elem_of_dom. apply map_filter_lookup_Some in Hy as [Hy D]. destruct (C _ _ Hy) as [C1 C2].
        split; [eauto|]. intros t' Ht%C2. unfold expired in *. simpl in D. lia.
      * apply out_extend; [done|apply N].
    + set (ev := map _ _). assert (∀ y u, Kept y u ∉ ev) as N.
      { intros y u (z & ? & _)%elem_of_list_fmap. discriminate. }
      assert (∀ y u, Kept y u ∈ tr ++ ev ↔ Kept y u ∈ tr) as Nk.
      { intros y u. rewrite elem_of_app. split; [|by left]. intros [?|Hy]; [done|]. by apply N in Hy. }
      destruct I as [B O C Ti H X Ou]. split; [done|done| | | | |]; simpl.
      * intros y u Hy. destruct (C _ _ Hy) as [C1 C2]. split; [apply elem_of_app; by left|].
        intros t'. rewrite Nk. apply C2.
      * intros y u. rewrite Nk. apply Ti.
      * intros h' y u t' Hy. rewrite Nk. by eapply (H h').
      * discriminate.
      * intros pre y now' post [(p & Ep)|(q & -> & Eq)]%split_at_event; [by eapply Ou|].
        assert (OnTimedOut y now' ∈ ev) as Hin by (rewrite Eq; apply elem_of_app; right; by left).
        apply elem_of_list_fmap in Hin as (z & [= -> ->] & Hz). apply elem_of_elements, elem_of_filter in Hz as [_ Hz].
        destruct (X _ _ _ Hu) as (pre & po & -> & Hl). exists pre, (po ++ q). rewrite <- app_assoc. split; [done|]. by apply Hl.
    + apply (inv_h_quiet _ _ _ s); simpl; auto using no_news_nil; try lia. discriminate.
    + destruct H1 as [(-> & ->)|(H1 & H2 & ->)]; apply (inv_h_quiet _ _ _ s); simpl; auto using no_news_nil; try lia; discriminate.
  - destruct (booted s); [discriminate|]. intros [= <- <-]. apply (inv_h_quiet _ _ _ s); simpl; auto using no_news_nil; try lia.
    apply boot_quiet. by apply Hq.
  - intros [= <- <-]. apply (inv_h_quiet _ _ _ s); simpl; auto using no_news_nil; lia.
Qed.
Lemma run_h T c t tr s : (0 < t)%Z → run T (both serial quiet_boot) (init c t) tr s → inv_h T tr s.
Proof. intros Ht. induction 1 as [|tr s a ev s' R IH [H1 H2] E]; [by apply init_h|]. by eapply step_h. Qed.

(** ** A thread that takes no time *)
Record inv_p (T : Z) (s : state) : Prop := {
  p_scan : ∀ now, upd s = UScan now → now = time s;
  p_busy : (∃ now l r, upd s = UTxn now l r) ∨ (∃ r, upd s = UCalc r) → flag s = false → ∀ x t, cache s !! x = Some t → (time s ≤ t + T)%Z;
  p_wait : ∀ c d, upd s = UWaiting c d → flag s = false → (∀ x t, cache s !! x = Some t → (c ≤ t + T)%Z) ;
  p_dead : ∀ c u, upd s = UWaiting c (Some u) → (time s ≤ u)%Z }.
Lemma init_p T c t : inv_p T (init c t).
Proof. split; simpl; try discriminate; intros [(? & ? & ? & ?)|(? & ?)]; discriminate. Qed.
Lemma step_p T a s ev s' tr :
  inv_p T s → inv_h T tr s → prompt a s → quiet_boot a s → step T a s = Some (ev, s') → inv_p T s'.
Proof.
  intros [Sc Bu Wa De] I Hp Hq. destruct a as [d|h x|h x|h| | |]; cbn [step].
  - case_decide; intros [= <- <-]. destruct Hp as (Hf & Hst & Hp). split; simpl.
    + intros now E. by rewrite E in Hp.
    + intros [(? & ? & ? & E)|(? & E)]; by rewrite E in Hp.
    + exact Wa.
    + intros c u E. by rewrite E in Hp.
  - case_decide; intros [= <- <-]. by split.
  - case_decide; intros [= <- <-]. by split.
  - intros [(x & t & Hh & -> & ->)|[(x & t & Hh & -> & ->)|[(x & Hh & -> & ->)|(x & Hh & -> & ->)]]]%handle_cases; try by split.
    assert (∀ b y u, (∀ y u, cache s !! y = Some u → (b ≤ u + T)%Z) →
              bool_decide (default 0%Z (cache s !! x) = 0%Z) = false → <[x := t]> (cache s) !! y = Some u → (b ≤ u + T)%Z) as A.
    { intros b y u G Fr [[<- <-]|[_ Hy]]%lookup_insert_Some; [|by eapply G].
      destruct (cache s !! x) as [u|] eqn:Ex; [|by apply bool_decide_eq_false in Fr].
      pose proof (h_handler _ _ _ I h x t u (or_intror Hh) (proj1 (h_cache _ _ _ I _ _ Ex))). specialize (G _ _ Ex). lia. }
    split; simpl; auto.
    + intros U [Hf Fr]%orb_false_iff y u Hy. by eapply A; [|exact Fr|exact Hy]; apply Bu.
    + intros c d U [Hf Fr]%orb_false_iff y u Hy. by eapply A; [|exact Fr|exact Hy]; eapply Wa.
  - intros [(Hu & -> & ->)|[(now & Hu & -> & ->)|[(now & l & r & Hu & -> & ->)|[(-> & -> & Hu)|(r & Hu & -> & Hst & Hf & H1)]]]]%update_cases.
    + split; simpl; destruct (stop s); try discriminate.
      * by intros now [= <-].
      * intros [(? & ? & ? & ?)|(? & ?)]; discriminate.
      * intros [(? & ? & ? & ?)|(? & ?)]; discriminate.
    + split; simpl.
      * intros n. by case_decide.
      * intros _ _ x t [_ D]%map_filter_lookup_Some. apply Sc in Hu. subst now. unfold expired in D. simpl in D. lia.
      * intros c d. by case_decide.
      * intros c d. by case_decide.
    + split; simpl; try discriminate. intros _. apply Bu. eauto.
    + split; simpl; try discriminate. intros [(? & ? & ? & ?)|(? & ?)]; discriminate.
    + destruct H1 as [(-> & ->)|(H1 & H2 & ->)]; split; simpl; try discriminate.
      * intros [(? & ? & ? & ?)|(? & ?)]; discriminate.
      * intros c d [= <- <-] _. apply Bu; eauto.
      * intros [(? & ? & ? & ?)|(? & ?)]; discriminate.
      * intros c d [= <- <-] _. apply Bu; eauto.
      * intros c u [= <- <-]. lia.
  - destruct (booted s); [discriminate|]. intros [= <- <-]. assert (∀ x, claires s !! x ≠ Some Active) as Q by by apply Hq.
    split; simpl; rewrite ?boot_quiet by done; auto.
  - intros [= <- <-]. by split.
Qed.
Lemma run_p T c t tr s : (0 < t)%Z → run T (both prompt (both serial quiet_boot)) (init c t) tr s → inv_p T s.
Proof.
  intros Ht. induction 1 as [|tr s a ev s' R IH [H1 [H2 H3]] E]; [by apply init_p|].
  eapply step_p; eauto. eapply run_h; [done|]. eapply run_weaken; [|exact R]. by intros b s1 [_ ?].
Qed.

(** In such an execution, when the thread sleeps, everything in the cache is recent. *)
Lemma asleep_recent T c t0 tr s x t :
  (0 < t0)%Z → (0 ≤ T)%Z → run T (both prompt (both serial quiet_boot)) (init c t0) tr s →
  (∃ b d, upd s = UWaiting b d) → flag s = false → cache s !! x = Some t → (time s ≤ t + 2 * T + 1)%Z.
Proof.
  intros Ht HT R (b & d & U) Hf Hx. pose proof (run_p _ _ _ _ _ Ht R) as [_ _ Wa De].
  assert (run T quiet_boot (init c t0) tr s) as R' by (eapply run_weaken; [|exact R]; by intros ? ? (_ & _ & ?)).
  pose proof (run_s _ _ _ _ _ Ht R') as [B N S]. pose proof (Wa _ _ U Hf _ _ Hx) as W. destruct d as [u|].
  - pose proof (De _ _ U). pose proof (S _ _ U). lia.
  - destruct (N (or_introl (ex_intro _ b U))) as [E|E]; [|congruence]. rewrite E, lookup_empty in Hx. discriminate.
Qed.

(** ** Stopping *)
Lemma update_stopping T s : stop s = true → upd s ≠ UExit → ∃ ev s', update T s = Some (ev, s') ∧ stop s' = true ∧
  match upd s with
  | UTop => upd s' = UExit
  | UScan _ => (∃ now l r, upd s' = UTxn now l r) ∨ ∃ r, upd s' = UCalc r
  | UTxn _ _ _ => ∃ r, upd s' = UCalc r
  | _ => upd s' = UTop
  end.
Proof.
  intros Hst Hu. unfold update. rewrite Hst. destruct (upd s) as [|now|now l r|r|c d|] eqn:Eu; simpl.
  - do 2 eexists. by repeat split.
  - do 2 eexists. repeat split; simpl; [done|]. case_decide; [right|left]; eauto.
  - do 2 eexists. repeat split; simpl; [done|]. eauto.
  - repeat case_decide; do 2 eexists; by repeat split.
  - do 2 eexists. by repeat split.
  - done.
Qed.
Lemma updates_stopping T s : stop s = true → ∃ n s', n ≤ 5 ∧ updates T n s s' ∧ upd s' = UExit.
Proof.
  assert (∀ s, stop s = true → upd s = UTop → ∃ s', updates T 1 s s' ∧ upd s' = UExit) as A1.
  { intros s1 H1 U. destruct (update_stopping T s1 H1) as (ev & s2 & E & H2 & M); [congruence|]. rewrite U in M.
    exists s2. split; [|done]. econstructor; [exact E|constructor]. }
  assert (∀ s r, stop s = true → upd s = UCalc r → ∃ s', updates T 2 s s' ∧ upd s' = UExit) as A2.
  { intros s1 r H1 U. destruct (update_stopping T s1 H1) as (ev & s2 & E & H2 & M); [congruence|]. rewrite U in M.
    destruct (A1 _ H2 M) as (s3 & ? & ?). exists s3. split; [|done]. econstructor; eauto. }
  assert (∀ s now l r, stop s = true → upd s = UTxn now l r → ∃ s', updates T 3 s s' ∧ upd s' = UExit) as A3.
  { intros s1 now l r H1 U. destruct (update_stopping T s1 H1) as (ev & s2 & E & H2 & M); [congruence|]. rewrite U in M.
    destruct M as (r' & M). destruct (A2 _ _ H2 M) as (s3 & ? & ?). exists s3. split; [|done]. econstructor; eauto. }
  intros Hst. destruct (upd s) as [|now|now l r|r|c d|] eqn:U.
  - destruct (A1 s Hst U) as (s' & ? & ?). exists 1, s'. split; [lia|done].
  - destruct (update_stopping T s Hst) as (ev & s2 & E & H2 & M); [congruence|]. rewrite U in M.
    destruct M as [(n & l & r & M)|(r & M)].
    + destruct (A3 _ _ _ _ H2 M) as (s3 & ? & ?). exists 4, s3. split; [lia|]. split; [|done]. econstructor; eauto.
    + destruct (A2 _ _ H2 M) as (s3 & ? & ?). exists 3, s3. split; [lia|]. split; [|done]. econstructor; eauto.
  - destruct (A3 s _ _ _ Hst U) as (s' & ? & ?). exists 3, s'. split; [lia|done].
  - destruct (A2 s _ Hst U) as (s' & ? & ?). exists 2, s'. split; [lia|done].
  - destruct (update_stopping T s Hst) as (ev & s2 & E & H2 & M); [congruence|]. rewrite U in M.
    destruct (A1 _ H2 M) as (s3 & ? & ?). exists 2, s3. split; [lia|]. split; [|done]. econstructor; eauto.
  - exists 0, s. split; [lia|]. split; [constructor|done].
Qed.

(** ** Concrete executions *)
Fixpoint exec (T : Z) (acts : list action) (s : state) : option (list event * state) :=
  match acts with
  | [] => Some ([], s)
  | a :: acts =>
      match step T a s with
      | Some (ev, s1) => match exec T acts s1 with Some (ev', s2) => Some (ev ++ ev', s2) | None => None end
      | None => None
      end
  end.
Definition serialb (a : action) (s : state) : bool :=
  match a with Keepalive _ x | Delete _ x => forallb (λ p, negb (Nat.eqb (name_of p.2) x)) (map_to_list (handlers s)) | _ => true end.
Definition promptb (a : action) (s : state) : bool :=
  match a with
  | Tick d => negb (flag s) && negb (stop s) &&
              match upd s with UWaiting _ (Some u) => (time s + d <=? u)%Z | UWaiting _ None => true | _ => false end
  | _ => true
  end.
Definition quietb (a : action) (s : state) : bool :=
  match a with Boot => forallb (λ p, match p.2 with Active => false | _ => true end) (map_to_list (claires s)) | _ => true end.
Lemma serialb_spec a s : serialb a s = true → serial a s.
Proof.
  destruct a as [d|h x|h x|h| | |]; simpl; try done; intros H h' p Hp%elem_of_map_to_list E;
    rewrite forallb_forall in H; apply elem_of_list_In, H in Hp; simpl in Hp; rewrite E, Nat.eqb_refl in Hp; discriminate.
Qed.
Lemma promptb_spec a s : promptb a s = true → prompt a s.
Proof.
  destruct a as [d|h x|h x|h| | |]; simpl; try done.
  rewrite !andb_true_iff, !negb_true_iff. intros [[-> ->] H]. repeat split. destruct (upd s) as [| | | |c [u|]|]; try done. by apply Z.leb_le.
Qed.
Lemma quietb_spec a s : quietb a s = true → quiet_boot a s.
Proof.
  intros H -> x Hx%elem_of_map_to_list. simpl in H. rewrite forallb_forall in H. apply elem_of_list_In, H in Hx. discriminate.
Qed.
Fixpoint guarded (okb : action → state → bool) (T : Z) (acts : list action) (s : state) : bool :=
  match acts with
  | [] => true
  | a :: acts => okb a s && match step T a s with Some (_, s1) => guarded okb T acts s1 | None => true end
  end.
Lemma exec_run T okb (ok : action → state → Prop) acts s0 ev s1 tr1 s2 :
  (∀ a s, okb a s = true → ok a s) → run T ok s0 ev s1 → guarded okb T acts s1 = true → exec T acts s1 = Some (tr1, s2) →
  run T ok s0 (ev ++ tr1) s2.
Proof.
  intros Hok. revert ev s1 tr1. induction acts as [|a acts IH]; intros ev s1 tr1 R; simpl.
  - intros _ [= <- <-]. by rewrite app_nil_r.
  - intros [G1 G2]%andb_true_iff. destruct (step T a s1) as [[ev1 s3]|] eqn:E; [|discriminate].
    destruct (exec T acts s3) as [[ev2 s4]|] eqn:E2; [|discriminate]. intros [= <- <-]. rewrite app_assoc.
    eapply IH; [|done|done]. econstructor; eauto.
Qed.
Definition all3 (a : action) (s : state) : bool := promptb a s && (serialb a s && quietb a s).
Lemma all3_spec a s : all3 a s = true → both prompt (both serial quiet_boot) a s.
Proof. unfold all3. rewrite !andb_true_iff. intros (?%promptb_spec & ?%serialb_spec & ?%quietb_spec). by repeat split. Qed.
Definition all2 (a : action) (s : state) : bool := serialb a s && quietb a s.
Lemma all2_spec a s : all2 a s = true → both serial quiet_boot a s.
Proof. unfold all2. rewrite !andb_true_iff. intros (?%serialb_spec & ?%quietb_spec). by repeat split. Qed.
