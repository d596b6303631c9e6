From stdpp Require Import list gmap strings.
From Coq Require Import Lia.
From Verif Require Import Routing_Model Routing_Spec.
From Verif Require Base Url_Model.

(** * Slashes *)
Lemma slashes_snoc n : slashes (S n) = slashes n ++ [47%N].
Proof. unfold slashes. rewrite replicate_S_end. done. Qed.
Lemma strip_snoc p c : p ≠ [] → c = 47%N → strip (p ++ [c]) = strip p.
Proof.
  intros Hp ->. unfold strip. rewrite reverse_app. simpl.
  destruct (reverse p) as [|d r] eqn:E.
  - apply (f_equal reverse) in E. rewrite reverse_involutive in E. done.
  - simpl. reflexivity.
Qed.
Lemma strip_good b : good_base b → strip b = b.
Proof.
  unfold strip. intros [->|[_ H]]; [reflexivity|].
  rewrite <-(reverse_involutive b) at 2. f_equal.
  destruct (reverse b) as [|c r] eqn:E; [done|].
  assert (b = reverse r ++ [c]) as ->.
  { rewrite <-(reverse_involutive b), E, reverse_cons. done. }
  rewrite last_snoc in H. simpl. destruct r; [done|]. rewrite decide_False; [done|congruence].
Qed.
Lemma good_not_nil b : good_base b → b ≠ [].
Proof. intros [->|[H _]]; [done|]. by destruct b. Qed.
Lemma good_head b : good_base b → head b = Some 47%N.
Proof. by intros [->|[H _]]. Qed.
Lemma strip_app b n : good_base b → strip (b ++ slashes n) = b.
Proof.
  intros Hb. induction n as [|n IH].
  - unfold slashes. simpl. rewrite app_nil_r. by apply strip_good.
  - rewrite slashes_snoc, app_assoc, strip_snoc; [done| |done].
    pose proof (good_not_nil b Hb). destruct b; done.
Qed.
Lemma head_app_l {A} (x y : list A) : x ≠ [] → head (x ++ y) = head x.
Proof. by destruct x. Qed.
Lemma strip_spec p : head p = Some 47%N → good_base (strip p) ∧ ∃ n, p = strip p ++ slashes n.
Proof.
  induction p as [|c p IH] using rev_ind; [done|]. intros Hh.
  destruct (decide (p = [])) as [->|Hp].
  { simpl in Hh. injection Hh as ->. split; [by left|]. exists 0. done. }
  rewrite head_app_l in Hh by done. destruct (decide (c = 47%N)) as [->|Hc].
  - rewrite strip_snoc by done. destruct (IH Hh) as [G [n E]]. split; [done|]. exists (S n).
    rewrite slashes_snoc, app_assoc, <-E. done.
  - assert (good_base (p ++ [c])) as G.
    { right. rewrite last_snoc, head_app_l by done. split; congruence. }
    rewrite strip_good by done. split; [done|]. exists 0. unfold slashes. simpl. by rewrite app_nil_r.
Qed.

Lemma als_no p : 47%N ∉ p → after_last_slash p = 0.
Proof.
  induction p as [|c p IH]; [done|]. intros H. simpl. rewrite IH by set_solver.
  rewrite decide_False; [done|set_solver].
Qed.
Lemma als_app q a : last q = Some 47%N → 47%N ∉ a → after_last_slash (q ++ a) = length q.
Proof.
  intros Hq Ha. induction q as [|c q IH]; [done|].
  destruct q as [|d q]; simpl.
  - simpl in Hq. injection Hq as ->. by rewrite als_no.
  - simpl in IH. rewrite IH by done. done.
Qed.
Lemma split_last p : 47%N ∈ p → ∃ q a, p = q ++ a ∧ last q = Some 47%N ∧ 47%N ∉ a.
Proof.
  induction p as [|c p IH] using rev_ind; [by intros ?%not_elem_of_nil|]. intros H.
  destruct (decide (c = 47%N)) as [->|Hc].
  - exists (p ++ [47%N]), []. rewrite app_nil_r, last_snoc. split_and!; [done|done|set_solver].
  - destruct IH as (q & a & -> & Hq & Ha); [set_solver|]. exists q, (a ++ [c]). rewrite app_assoc. split_and!; [done|done|set_solver].
Qed.

Lemma good_split rem : good_base rem → rem ≠ [47%N] →
  ∃ q a, rem = q ++ a ∧ last q = Some 47%N ∧ 47%N ∉ a ∧ a ≠ [] ∧ head q = Some 47%N ∧
         take (after_last_slash rem) rem = q ∧ drop (after_last_slash rem) rem = a ∧ length q < length rem.
Proof.
  intros G Hne. assert (47%N ∈ rem) as Hin.
  { apply good_head in G. destruct rem as [|c rem]; [done|]. simpl in G. injection G as ->. by left. }
  destruct (split_last rem Hin) as (q & a & -> & Hq & Ha).
  assert (a ≠ []) as Hn. { intros ->. rewrite app_nil_r in *. destruct G as [->|[_ G]]; done. }
  assert (q ≠ []) as Hqn by (by intros ->).
  exists q, a. rewrite als_app by done. split_and!; try done.
  - apply good_head in G. by rewrite head_app_l in G.
  - apply take_app.
  - apply drop_app.
  - rewrite app_length. destruct a; [done|simpl; lia].
Qed.

Lemma dec_head p base comps : decomposition p base comps → head p = Some 47%N.
Proof.
  induction 1 as [base n G|q base comps a n D IH Hq Ha Hs].
  - rewrite head_app_l by (by apply good_not_nil). by apply good_head.
  - rewrite head_app_l; [done|]. by intros ->.
Qed.

Lemma last_app_r {A} (q a : list A) : a ≠ [] → last (q ++ a) = last a.
Proof.
  intros H. destruct a as [|x a _] using rev_ind; [done|]. rewrite app_assoc, !last_snoc. done.
Qed.
Lemma dec_base_inv p base : head p = Some 47%N → decomposition p base [] ↔ base = strip p.
Proof.
  intros Hp. split.
  - intros D. remember [] as comps eqn:E. destruct D as [base n G|q base comps a n D]; [|by destruct comps].
    by rewrite strip_app.
  - intros ->. destruct (strip_spec p Hp) as [G [n E]]. rewrite E at 1. by constructor.
Qed.
Lemma dec_more_inv p base comps a : head p = Some 47%N →
  decomposition p base (comps ++ [a]) ↔
    strip p ≠ [47%N] ∧ a = drop (after_last_slash (strip p)) (strip p) ∧
    decomposition (take (after_last_slash (strip p)) (strip p)) base comps.
Proof.
  intros Hp. split.
  - intros D. remember (comps ++ [a]) as cs eqn:E. destruct D as [base n G|q base cs b n D Hq Hb Hs]; [by destruct comps|].
    apply app_inj_tail in E as [-> ->].
    assert (good_base (q ++ a)) as G.
    { right. assert (q ≠ []) by (by intros ->). rewrite head_app_l by done. split; [by eapply dec_head|].
      rewrite last_app_r by done. intros H1. apply Hs. apply last_Some in H1 as [? ->]. set_solver. }
    rewrite app_assoc, strip_app by done. split.
    { intros H1. destruct q as [|c [|d q]]; simpl in *; [done| |done]. destruct a; done. }
    rewrite als_app, take_app, drop_app by done. done.
  - intros (Hne & -> & D). destruct (strip_spec p Hp) as [G [n E]].
    destruct (good_split _ G Hne) as (q & a & E2 & Hq & Ha & Hn & Hh & T & Dr & _).
    rewrite T in D. rewrite Dr. rewrite E, E2, <-app_assoc at 1. by constructor.
Qed.

(** * The loop *)
Section loop.
Context {H : Type}.
Implicit Types t : gmap (list N) (gmap nat H).

Lemma find_loop_spec t fuel p args : head p = Some 47%N → length p < fuel →
  match find_loop fuel t (PathArgs p args) with
  | Some (h, pa) => ∃ comps, decomposition p (base_path pa) comps ∧
      args_ pa = args ++ reverse (Url_Model.decode_uri <$> comps) ∧
      lookup_handler t (base_path pa) (length args + length comps) = Some h ∧
      ∀ b' c', decomposition p b' c' → length c' < length comps →
               lookup_handler t b' (length args + length c') = None
  | None => ∀ b' c', decomposition p b' c' → lookup_handler t b' (length args + length c') = None
  end.
Proof.
  revert p args. induction fuel as [|fuel IH]; intros p args Hp Hf; [lia|].
  cbn -[strip after_last_slash lookup_handler].
  pose proof (strip_spec p Hp) as [G [n E]].
  destruct (lookup_handler t (strip p) (length args)) as [h|] eqn:L.
  { simpl. exists []. split_and!.
    - by apply dec_base_inv.
    - simpl. by rewrite app_nil_r.
    - simpl. by rewrite Nat.add_0_r.
    - simpl. intros; lia. }
  destruct (decide (strip p = [47%N])) as [E1|E1].
  { intros b' c' D. destruct c' as [|a c' _] using rev_ind.
    - apply dec_base_inv in D as ->; [|done]. simpl. by rewrite Nat.add_0_r.
    - apply dec_more_inv in D as (? & _); done. }
  destruct (good_split _ G E1) as (q & a & E2 & Hq & Ha & Hn & Hh & T & Dr & Hlen).
  assert (length (strip p) ≤ length p) by (rewrite E at 2; rewrite app_length; lia).
  rewrite T, Dr.
  specialize (IH q (args ++ [Url_Model.decode_uri a]) Hh ltac:(lia)).
  destruct (find_loop fuel t _) as [[h pa]|].
  - destruct IH as (comps & D & A & L2 & Min). exists (comps ++ [a]). split_and!.
    + apply dec_more_inv; [done|]. rewrite T, Dr. done.
    + rewrite A, fmap_app, reverse_app, <-app_assoc. done.
    + rewrite <-L2. f_equal. rewrite !app_length. simpl. lia.
    + intros b' c' D' Hl. destruct c' as [|a' c' _] using rev_ind.
      * apply dec_base_inv in D' as ->; [|done]. simpl. by rewrite Nat.add_0_r.
      * apply dec_more_inv in D' as (_ & _ & D'); [|done]. rewrite T in D'.
        rewrite !app_length in Hl. simpl in Hl. rewrite <-(Min b' c' D') by lia. f_equal. rewrite !app_length. simpl. lia.
  - intros b' c' D'. destruct c' as [|a' c' _] using rev_ind.
    + apply dec_base_inv in D' as ->; [|done]. simpl. by rewrite Nat.add_0_r.
    + apply dec_more_inv in D' as (_ & _ & D'); [|done]. rewrite T in D'.
      rewrite <-(IH b' c' D'). f_equal. rewrite !app_length. simpl. lia.
Qed.

Lemma find_handler_spec t p :
  match find_handler t p with
  | Some (h, pa) => ∃ comps, decomposition p (base_path pa) comps ∧
      iterate pa = Url_Model.decode_uri <$> comps ∧
      lookup_handler t (base_path pa) (length comps) = Some h ∧
      ∀ b' c', decomposition p b' c' → length c' < length comps → lookup_handler t b' (length c') = None
  | None => ∀ b' c', decomposition p b' c' → lookup_handler t b' (length c') = None
  end.
Proof.
  unfold find_handler. destruct p as [|c p]; [by intros b' c' D%dec_head|].
  destruct (decide (c = 47%N)) as [->|Hc].
  - pose proof (find_loop_spec t (S (length (47%N :: p))) (47%N :: p) [] eq_refl ltac:(lia)) as F.
    destruct (find_loop _ _ _) as [[h pa]|]; [|done].
    destruct F as (comps & D & A & L & M). exists comps. split_and!; try done.
    unfold iterate. rewrite A. simpl. by rewrite reverse_involutive.
  - intros b' c' D%dec_head. simpl in D. congruence.
Qed.

(** A decomposition is determined by the number of its components; fewer components, longer base. *)
Lemma dec_functional p b1 c1 b2 c2 : decomposition p b1 c1 → decomposition p b2 c2 →
  length c1 = length c2 → b1 = b2 ∧ c1 = c2.
Proof.
  intros D1. revert b2 c2. remember (length c1) as n eqn:E.
  revert p b1 c1 D1 E. induction n as [|n IH]; intros p b1 c1 D1 E b2 c2 D2 E2; pose proof (dec_head _ _ _ D1) as Hp.
  - destruct c1, c2; try done. apply dec_base_inv in D1, D2; try done. by subst.
  - destruct c1 as [|a1 c1 _] using rev_ind; [done|]. destruct c2 as [|a2 c2 _] using rev_ind; [done|].
    rewrite app_length in *. simpl in *.
    apply dec_more_inv in D1 as (_ & -> & D1); [|done]. apply dec_more_inv in D2 as (_ & -> & D2); [|done].
    destruct (IH _ _ _ D1 ltac:(lia) _ _ D2 ltac:(lia)) as [-> ->]. done.
Qed.
Lemma dec_base_length p b c : decomposition p b c → length b ≤ length (strip p).
Proof.
  remember (length c) as n eqn:E. revert p b c E. induction n as [|n IH]; intros p b c E D; pose proof (dec_head _ _ _ D) as Hp.
  - destruct c; [|done]. by apply dec_base_inv in D as ->.
  - destruct c as [|a c _] using rev_ind; [done|]. rewrite app_length in E. simpl in E.
    apply dec_more_inv in D as (H1 & -> & D); [|done].
    pose proof (strip_spec p Hp) as [G _].
    destruct (good_split _ G H1) as (q & a & E2 & Hq & Ha & Hn & Hh & T & Dr & Hlen).
    rewrite T in D. apply IH in D; [|lia].
    destruct (strip_spec q Hh) as [_ [m Em]]. assert (length (strip q) ≤ length q) by (rewrite Em at 2; rewrite app_length; lia). lia.
Qed.
Lemma dec_fewer_longer p b1 c1 b2 c2 : decomposition p b1 c1 → decomposition p b2 c2 →
  length c1 < length c2 → length b2 ≤ length b1.
Proof.
  intros D1 D2. revert p b1 b2 c2 D1 D2. induction c1 as [|a1 c1 IH] using rev_ind; intros p b1 b2 c2 D1 D2 Hl;
    pose proof (dec_head _ _ _ D1) as Hp.
  - apply dec_base_inv in D1 as ->; [|done]. by eapply dec_base_length.
  - rewrite app_length in Hl. simpl in Hl. destruct c2 as [|a2 c2 _] using rev_ind; [simpl in Hl; lia|].
    rewrite app_length in Hl. simpl in Hl.
    apply dec_more_inv in D1 as (_ & -> & D1); [|done]. apply dec_more_inv in D2 as (_ & -> & D2); [|done].
    eapply IH; [done|done|lia].
Qed.

(** * Registration *)
Lemma lookup_insert_table t p m q i : lookup_handler (<[p := m]> t) q i = if decide (q = p) then m !! i else lookup_handler t q i.
Proof.
  unfold lookup_handler. destruct (decide (q = p)) as [->|Hq]; [by rewrite lookup_insert|]. by rewrite lookup_insert_ne.
Qed.
Lemma lookup_handlers_of t p i : handlers_of t p !! i = lookup_handler t p i.
Proof. unfold handlers_of, lookup_handler. destruct (t !! p); simpl; [done|]. by rewrite lookup_empty. Qed.

Lemma fold_update (m : gmap nat H) h mask is i :
  foldl (λ m i, if selected mask i then <[i := h]> m else m) m is !! i =
  if decide (i ∈ is ∧ selected mask i = true) then Some h else m !! i.
Proof.
  revert m. induction is as [|j is IH]; intros m; [|cbn [foldl]].
  - rewrite decide_False; [done|]. intros [?%not_elem_of_nil _]. done.
  - rewrite IH. destruct (decide (i ∈ is ∧ _)) as [[H1 H2]|N1].
    + rewrite decide_True; [done|]. split; [by right|done].
    + destruct (decide (i ∈ j :: is ∧ _)) as [[H1 H2]|N2].
      * apply elem_of_cons in H1 as [->|H1]; [|tauto]. rewrite H2. by rewrite lookup_insert.
      * destruct (selected mask j) eqn:E; [|done]. rewrite lookup_insert_ne; [done|].
        intros ->. apply N2. split; [by left|done].
Qed.
Lemma lookup_update_all t p h mask q i :
  lookup_handler (update_all t p h mask counts) q i =
  if decide (q = p ∧ i < 16 ∧ selected mask i = true) then Some h else lookup_handler t q i.
Proof.
  unfold update_all. rewrite lookup_insert_table. destruct (decide (q = p)) as [->|Hq].
  - rewrite fold_update, lookup_handlers_of. unfold counts.
    destruct (decide (i ∈ seq 0 16 ∧ _)) as [[H1 H2]|N1].
    + rewrite decide_True; [done|]. apply elem_of_seq in H1. split_and!; [done|lia|done].
    + rewrite decide_False; [done|]. intros (_ & H1 & H2). apply N1. split; [|done]. apply elem_of_seq. lia.
  - destruct (decide (q = p ∧ _)) as [[? _]|]; [done|done].
Qed.

Lemma check_all_None t p mask update is :
  check_all t p mask update is = None ↔
  ∀ i, i ∈ is → selected mask i = true → if update then is_Some (lookup_handler t p i) else lookup_handler t p i = None.
Proof.
  induction is as [|j is IH]; simpl.
  - split; [|done]. intros _ i ?%not_elem_of_nil. done.
  - unfold check_step at 1. destruct (selected mask j) eqn:Ej.
    + destruct (lookup_handler t p j) as [x|] eqn:El, update; simpl.
      * rewrite IH. split.
        -- intros A i [->|Hi]%elem_of_cons Hs; [by rewrite El|by apply A].
        -- intros A i Hi Hs. apply A; [by right|done].
      * split; [done|]. intros A. specialize (A j ltac:(by left) Ej). congruence.
      * split; [done|]. intros A. specialize (A j ltac:(by left) Ej). rewrite El in A. by destruct A.
      * rewrite IH. split.
        -- intros A i [->|Hi]%elem_of_cons Hs; [by rewrite El|by apply A].
        -- intros A i Hi Hs. apply A; [by right|done].
    + rewrite IH. split.
      * intros A i [->|Hi]%elem_of_cons Hs; [congruence|by apply A].
      * intros A i Hi Hs. apply A; [by right|done].
Qed.

(** No path is present without a handler: this is what makes PathHandlersCount the number of paths that have some. *)
Definition no_empty (t : gmap (list N) (gmap nat H)) : Prop := ∀ p, t !! p ≠ Some ∅.

Lemma selected_exists mask : mask ≠ 0%N → (mask < 65536)%N → ∃ i, i < 16 ∧ selected mask i = true.
Proof.
  intros H0 Hlt. exists (N.to_nat (N.log2 mask)). unfold selected. rewrite N2Nat.id. split.
  - assert (N.log2 mask < 16)%N; [|lia]. apply N.log2_lt_pow2; [lia|]. exact Hlt.
  - by apply N.bit_log2.
Qed.

Lemma update_no_empty t p h mask : no_empty t → mask ≠ 0%N → (mask < 65536)%N → no_empty (update_all t p h mask counts).
Proof.
  intros Hn H0 Hlt q E. destruct (selected_exists mask H0 Hlt) as (i & Hi & Hs).
  destruct (decide (q = p)) as [->|Hq].
  - pose proof (lookup_update_all t p h mask p i) as L. rewrite decide_True in L by done.
    unfold lookup_handler in L. rewrite E in L. simpl in L. by rewrite lookup_empty in L.
  - unfold update_all in E. rewrite lookup_insert_ne in E by done. by apply (Hn q).
Qed.

Definition del1 (t : gmap (list N) (gmap nat H)) (p : list N) (i : nat) : gmap (list N) (gmap nat H) :=
  match t !! p with
  | None => t
  | Some m => if decide (delete i m = ∅) then delete p t else <[p := delete i m]> t
  end.
Lemma lookup_del1 t p i q j : lookup_handler (del1 t p i) q j = if decide (q = p ∧ j = i) then None else lookup_handler t q j.
Proof.
  unfold del1, lookup_handler. destruct (t !! p) as [m|] eqn:E.
  - destruct (decide (delete i m = ∅)) as [Em|Em].
    + destruct (decide (q = p)) as [->|Hq].
      * rewrite lookup_delete, E. simpl. destruct (decide (p = p ∧ j = i)) as [|N1]; [done|].
        assert (delete i m !! j = None) as D by (by rewrite Em, lookup_empty).
        rewrite lookup_delete_ne in D by naive_solver. done.
      * rewrite lookup_delete_ne by done. rewrite decide_False by tauto. done.
    + destruct (decide (q = p)) as [->|Hq].
      * rewrite lookup_insert, E. simpl. destruct (decide (p = p ∧ j = i)) as [[_ ->]|N1]; [by rewrite lookup_delete|].
        rewrite lookup_delete_ne by naive_solver. done.
      * rewrite lookup_insert_ne by done. rewrite decide_False by tauto. done.
  - destruct (decide (q = p ∧ j = i)) as [[-> ->]|]; [by rewrite E|done].
Qed.
Lemma del1_no_empty t p i : no_empty t → no_empty (del1 t p i).
Proof.
  intros Hn q E. unfold del1 in E. destruct (t !! p) as [m|] eqn:Ep; [|by apply (Hn q)].
  destruct (decide (delete i m = ∅)) as [Em|Em].
  - destruct (decide (q = p)) as [->|]; [by rewrite lookup_delete in E|]. rewrite lookup_delete_ne in E by done. by apply (Hn q).
  - destruct (decide (q = p)) as [->|]; [rewrite lookup_insert in E; congruence|]. rewrite lookup_insert_ne in E by done. by apply (Hn q).
Qed.

Lemma unregister_loop_spec t p mask is : NoDup is →
  match unregister_loop t p mask is with
  | Done t' _ =>
      (∀ i, i ∈ is → selected mask i = true → is_Some (lookup_handler t p i)) ∧
      (∀ q j, lookup_handler t' q j = if decide (q = p ∧ j ∈ is ∧ selected mask j = true) then None else lookup_handler t q j) ∧
      (no_empty t → no_empty t')
  | Throws e t' =>
      e = HandlerDoesNotExist ∧ (∃ i, i ∈ is ∧ selected mask i = true ∧ lookup_handler t p i = None) ∧
      (∀ q j, lookup_handler t' q j = lookup_handler t q j ∨ (q = p ∧ j ∈ is ∧ selected mask j = true ∧ lookup_handler t' q j = None)) ∧
      (no_empty t → no_empty t')
  end.
Proof.
  revert t. induction is as [|i is IH]; intros t Hd; cbn [unregister_loop].
  { split_and!; [by intros i ?%not_elem_of_nil| |done]. intros q j. rewrite decide_False; [done|].
    intros (_ & ?%not_elem_of_nil & _). done. }
  apply NoDup_cons in Hd as [Hi Hd].
  destruct (selected mask i) eqn:Es.
  2:{ specialize (IH t Hd). destruct (unregister_loop t p mask is) as [t' s|e t'].
      - destruct IH as (A & B & C). split_and!; [| |done].
        + intros j [->|Hj]%elem_of_cons Hs; [congruence|by apply A].
        + intros q j. rewrite B. destruct (decide (q = p ∧ j ∈ is ∧ _)) as [(?&?&?)|N1], (decide (q = p ∧ j ∈ i :: is ∧ _)) as [(?&?&?)|N2]; try done.
          * exfalso; apply N2; split_and!; [done|by right|done].
          * exfalso. apply N1; split_and!; [done| |done]. match goal with Hin : j ∈ i :: is |- _ => apply elem_of_cons in Hin as [->|Hin]; [congruence|done] end.
      - destruct IH as (-> & (j & Hj & Hs & L) & B & C). split_and!; [done| | |done].
        + exists j. split_and!; [by right|done|done].
        + intros q k. destruct (B q k) as [?|(?&?&?&?)]; [by left|right]. split_and!; try done. by right. }
  destruct (t !! p) as [m|] eqn:Ep.
  2:{ split_and!; [done| |by left|done]. exists i. split_and!; [by left|done|]. unfold lookup_handler. by rewrite Ep. }
  destruct (m !! i) as [x|] eqn:Em.
  2:{ split_and!; [done| |by left|done]. exists i. split_and!; [by left|done|]. unfold lookup_handler. by rewrite Ep. }
  assert ((if decide (delete i m = ∅) then delete p t else <[p:=delete i m]> t) = del1 t p i) as ->.
  { unfold del1. by rewrite Ep. }
  assert (lookup_handler t p i = Some x) as Lx by (unfold lookup_handler; by rewrite Ep).
  specialize (IH (del1 t p i) Hd). destruct (unregister_loop (del1 t p i) p mask is) as [t' s|e t'].
  - destruct IH as (A & B & C). split_and!.
    + intros j [->|Hj]%elem_of_cons Hs; [by rewrite Lx|]. specialize (A j Hj Hs). rewrite lookup_del1 in A.
      destruct (decide (p = p ∧ j = i)); [by destruct A|done].
    + intros q j. rewrite B, lookup_del1.
      destruct (decide (q = p ∧ j ∈ is ∧ _)) as [(?&?&?)|N1], (decide (q = p ∧ j ∈ i :: is ∧ _)) as [(?&?&?)|N2]; try done.
      * exfalso; apply N2; split_and!; [done|by right|done].
      * destruct (decide (q = p ∧ j = i)) as [|N3]; [done|]. exfalso.
        match goal with Hin : j ∈ i :: is |- _ => apply elem_of_cons in Hin as [->|Hin]; [by apply N3|]; apply N1; by split_and! end.
      * destruct (decide (q = p ∧ j = i)) as [[-> ->]|N3]; [|done]. exfalso. apply N2. split_and!; [done|by left|done].
    + intros Hn. by apply C, del1_no_empty.
  - destruct IH as (-> & (j & Hj & Hs & L) & B & C). split_and!; [done| | |].
    + exists j. split_and!; [by right|done|]. rewrite lookup_del1 in L. destruct (decide (p = p ∧ j = i)) as [[_ ->]|]; done.
    + intros q k. destruct (B q k) as [E0|(?&?&?&?)].
      * rewrite E0, lookup_del1. destruct (decide (q = p ∧ k = i)) as [[-> ->]|N1]; [right|by left].
        split_and!; [done|by left|done|done].
      * right. split_and!; try done. by right.
    + intros Hn. by apply C, del1_no_empty.
Qed.

End loop.
