(** * Proofs about the TCP layer *)
From stdpp Require Import list.
From Coq Require Import ZArith Lia.
From Verif Require Import Tcp_Model Tcp_Spec.

(** ** Reading and writing *)
Section Bytes.
  Context {byte : Type}.
  Implicit Types (s : sock byte) (l : list byte).

  Lemma recv_split n a s got r s' :
    recv n a s = (got, r, s') →
    incoming s = got ++ incoming s' ∧ length got ≤ n ∧ ((0 < r)%Z ↔ got ≠ []) ∧
    errno s' = match a with Error e => e | _ => errno s end.
  Proof.
    destruct a as [k| |e]; simpl; intros [= <- <- <-]; simpl.
    - rewrite take_drop. repeat split; auto.
      + rewrite take_length. lia.
      + intros H E. rewrite E in H. simpl in H. lia.
      + destruct (take _ _); [done|simpl; lia].
    - repeat split; auto; first [lia | done].
    - repeat split; auto; first [lia | done].
  Qed.

  Lemma read_returns n p a s l s' :
    blocking_read n p a s = (Returns l, s') →
    incoming s = l ++ incoming s' ∧ length l ≤ n ∧ (0 < n → l ≠ []) ∧ (p = FillFullBuffer → length l = n).
  Proof.
    unfold blocking_read. destruct (decide (n = 0)) as [->|Hn].
    { intros [= <- <-]. repeat split; simpl; auto; lia. }
    destruct (recv n a s) as [[got r] s1] eqn:E. apply recv_split in E as (H1 & H2 & H3 & H4).
    destruct (decide (0 < r)%Z) as [Hr|Hr].
    - destruct p.
      + intros [= <- <-]. repeat split; auto; try tauto. discriminate.
      + destruct (decide (length got = n)).
        * intros [= <- <-]. repeat split; auto; tauto.
        * repeat case_decide; discriminate.
    - repeat case_decide; discriminate.
  Qed.

  Lemma read_throws n p a s e s' :
    blocking_read n p a s = (Throws e, s') →
    ∃ got, incoming s = got ++ incoming s' ∧ (says_empty e ↔ got = []) ∧
           (says_reset e ↔ errno s' = ECONNRESET) ∧ errno s' = match a with Error e => e | _ => errno s end ∧
           (got ≠ [] → length got < n ∧ p = FillFullBuffer).
  Proof.
    unfold blocking_read. destruct (decide (n = 0)) as [->|Hn]; [discriminate|].
    destruct (recv n a s) as [[got r] s1] eqn:E. apply recv_split in E as (H1 & H2 & H3 & H4).
    intros H. exists got.
    assert (s1 = s' ∧ ((0 < r)%Z → p = FillFullBuffer ∧ length got ≠ n) ∧
            e = if decide (errno s1 = ECONNRESET)
                then if decide (got = []) then EmptyConnectionResetByPeer else ConnectionResetByPeer
                else if decide (length got = 0) then EmptySocketReadException else SocketReadException) as (<- & H5 & ->).
    { revert H. destruct (decide (0 < r)%Z).
      - destruct p; [discriminate|]. destruct (decide (length got = n)); [discriminate|].
        repeat case_decide; intros [= <- <-]; auto.
      - repeat case_decide; intros [= <- <-]; repeat split; auto; lia. }
    assert (length got = 0 ↔ got = []) as Hl by (destruct got; simpl; split; intros; congruence || lia).
    unfold says_empty, says_reset.
    split; [done|]. split; [|split; [|split; [done|]]].
    - repeat case_decide; naive_solver.
    - repeat case_decide; naive_solver.
    - intros Hg. destruct (H5 (proj2 H3 Hg)). split; [lia|done].
  Qed.

  Lemma reads_stream calls s ls e s' :
    reads calls s = (ls, e, s') →
    ∃ lost, incoming s = concat ls ++ lost ++ incoming s' ∧
      match e with None => lost = [] | Some e => says_empty e ↔ lost = [] end.
  Proof.
    revert s ls. induction calls as [|[[n p] a] r IH]; intros s ls; simpl.
    - intros [= <- <- <-]. exists []. auto.
    - destruct (blocking_read n p a s) as [[l|x] s1] eqn:E.
      + destruct (reads r s1) as [[ls1 e1] s2] eqn:E1. intros [= <- <- <-].
        apply IH in E1 as (lost & H1 & H2). apply read_returns in E as (H3 & _).
        exists lost. split; [|done]. simpl. rewrite H3, H1, <- app_assoc. done.
      + intros [= <- <- <-]. apply read_throws in E as (got & H1 & H2 & _). exists got. auto.
  Qed.

  Lemma to_int_le z : (0 ≤ z → to_int z ≤ z)%Z.
  Proof.
    intros H. unfold to_int. assert ((z + 2 ^ 31) mod 2 ^ 32 ≤ z + 2 ^ 31)%Z; [|lia].
    apply Z.mod_le; lia.
  Qed.
  Lemma to_int_id z : (0 ≤ z < 2 ^ 31 → to_int z = z)%Z.
  Proof. intros H. unfold to_int. rewrite Z.mod_small; lia. Qed.
  Lemma to_int_lt z : (to_int z < 2 ^ 31)%Z.
  Proof. unfold to_int. pose proof (Z.mod_pos_bound (z + 2 ^ 31) (2 ^ 32)). lia. Qed.

  Lemma write_prefix l a : (blocking_write l a).2 `prefix_of` l.
  Proof.
    destruct a as [k|]; simpl; [|apply prefix_nil].
    repeat case_decide; simpl; exists (drop k l); by rewrite take_drop.
  Qed.
  Lemma write_written l a : (blocking_write l a).1 = Written → (blocking_write l a).2 = l.
  Proof.
    destruct a as [k|]; simpl; [|discriminate].
    case_decide; [discriminate|]. case_decide as H2; [discriminate|]. intros _. simpl.
    apply take_ge.
    pose proof (to_int_le (Z.of_nat (length (take k l)))). rewrite take_length in *. lia.
  Qed.
  Lemma write_all l k : (Z.of_nat (length l) < 2 ^ 31)%Z → length l ≤ k → (blocking_write l (Took k)).1 = Written.
  Proof.
    intros H1 H2. simpl. rewrite take_ge by done. rewrite to_int_id by lia.
    case_decide; [lia|]. case_decide; [lia|]. done.
  Qed.
  Lemma write_long l a : (2 ^ 31 ≤ Z.of_nat (length l))%Z → (blocking_write l a).1 ≠ Written.
  Proof.
    intros H. destruct a as [k|]; simpl; [|discriminate].
    case_decide; [discriminate|]. case_decide as H2; [discriminate|].
    pose proof (to_int_lt (Z.of_nat (length (take k l)))). lia.
  Qed.
End Bytes.

(** ** Descriptors *)
Lemma live_app fd l e :
  live fd (l ++ [e]) = match e with
                       | Opened x => if decide (x = fd) then true else live fd l
                       | Closed x => if decide (x = fd) then false else live fd l
                       | _ => live fd l
                       end.
Proof. unfold live. rewrite fold_left_app. done. Qed.

Lemma disciplined_nil : disciplined [].
Proof. intros [|] ? ? ?; discriminate. Qed.
Lemma disciplined_snoc l e :
  disciplined l →
  match e with Opened fd => live fd l = false | Used fd | Closed fd => live fd l = true | _ => True end →
  disciplined (l ++ [e]).
Proof.
  intros Hl He pre e' post E.
  destruct post as [|x post _] using rev_ind.
  - apply app_inj_tail in E as [-> ->]. done.
  - change (e' :: post ++ [x]) with ((e' :: post) ++ [x]) in E. rewrite app_assoc in E.
    apply app_inj_tail in E as [-> ->]. by eapply Hl.
Qed.

(** The past events agree with the state, and every handle owns what it names, alone. *)
Record fd_inv (past : list fd_event) (s : fds) : Prop := {
  fi_disc : disciplined past;
  fi_live : ∀ fd, live fd past = true ↔ fd ∈ open s;
  fi_own : ∀ h fd, handles s h = Some (Some fd) → fd ∈ open s;
  fi_one : ∀ h1 h2 fd, handles s h1 = Some (Some fd) → handles s h2 = Some (Some fd) → h1 = h2 }.

Lemma fd_inv_init : fd_inv [] no_handles.
Proof.
  split; simpl; try (intros; discriminate).
  - apply disciplined_nil.
  - intros fd. unfold live. simpl. split; [discriminate|]. intros H. by apply elem_of_nil in H.
Qed.

Lemma live_open past s fd : fd_inv past s → fd ∉ open s → live fd past = false.
Proof. intros I H. destruct (live fd past) eqn:E; [|done]. apply (fi_live _ _ I) in E. done. Qed.

Lemma inv_open past s fd :
  fd_inv past s → fd ∉ open s → fd_inv (past ++ [Opened fd]) (add_open fd s).
Proof.
  intros I Hfd. split; simpl.
  - apply disciplined_snoc; [apply I|]. by apply (live_open _ s).
  - intros x. rewrite live_app, elem_of_cons. destruct (decide (fd = x)) as [->|Hne].
    + tauto.
    + rewrite (fi_live _ _ I). split; [tauto|]. intros [->|]; [done|tauto].
  - intros h x H. rewrite elem_of_cons. right. by eapply (fi_own _ _ I).
  - apply I.
Qed.

Lemma inv_destroy past s h fd ev s' :
  fd_inv past s → handles s h = Some (Some fd) → destroy (Some fd) s = (ev, s') →
  fd_inv (past ++ ev) (set_handle h None s').
Proof.
  intros I Hh. pose proof (fi_own _ _ I _ _ Hh) as Ho. pose proof (proj2 (fi_live _ _ I fd) Ho) as Hl.
  destruct fd as [|fd]; simpl; intros [= <- <-].
  - change [Invalid; Terminate] with ([Invalid] ++ [Terminate]). rewrite app_assoc. split; simpl.
    + apply disciplined_snoc; [|done]. apply disciplined_snoc; [apply I|done].
    + intros x. rewrite !live_app. apply I.
    + intros h' x. case_decide; [discriminate|]. apply I.
    + intros h1 h2 x. case_decide; [discriminate|]. case_decide; [discriminate|]. apply I.
  - change [Used (S fd); Closed (S fd)] with ([Used (S fd)] ++ [Closed (S fd)]). rewrite app_assoc. split; simpl.
    + apply disciplined_snoc; [apply disciplined_snoc; [apply I|done]|]. by rewrite live_app.
    + intros x. rewrite !live_app, elem_of_list_filter. case_decide as E.
      * split; [discriminate|]. intros [? _]. congruence.
      * rewrite (fi_live _ _ I). split; [|tauto]. split; [congruence|done].
    + intros h' x. case_decide; [discriminate|]. intros Hx. apply elem_of_list_filter.
      split; [|by eapply (fi_own _ _ I)]. intros ->. pose proof (fi_one _ _ I _ _ _ Hx Hh). done.
    + intros h1 h2 x. case_decide; [discriminate|]. case_decide; [discriminate|]. apply I.
Qed.

Lemma inv_step past s o ev s' :
  fd_inv past s → fd_step o s = Some (ev, s') → fd_inv (past ++ ev) s'.
Proof.
  intros I. destruct o as [h fd|fd|fd|h fd|h from|h from|h|h]; cbn [fd_step].
  - case_decide as C; [|discriminate]. destruct C as [C1 C2]. intros [= <- <-].
    pose proof (inv_open _ _ _ I C1) as J. split; simpl; try apply J.
    + intros h' x. case_decide; [intros [= <-]; left|]. apply J.
    + intros h1 h2 x. pose proof (fi_own _ _ I) as O.
      repeat case_decide; subst; try congruence.
      * intros [= ->] Hx. apply O in Hx. done.
      * intros Hx [= ->]. apply O in Hx. done.
      * apply I.
  - case_decide as C; [|discriminate]. intros [= <- <-]. by apply inv_open.
  - case_decide as C; [|discriminate]. destruct (destroy _ _) as [e s1] eqn:E. intros [= <- <-].
    (* the handle under construction: a fresh variable *)
    pose proof (inv_open _ _ _ I C) as J.
    assert (live fd (past ++ [Opened fd]) = true) as L.
    { rewrite live_app. by rewrite decide_True. }
    change (Opened fd :: e) with ([Opened fd] ++ e). rewrite app_assoc.
    destruct fd as [|fd]; simpl in E; injection E as <- <-.
    + change [Invalid; Terminate] with ([Invalid] ++ [Terminate]). rewrite app_assoc. split; try apply J.
      * apply disciplined_snoc; [|done]. apply disciplined_snoc; [apply J|done].
      * intros x. rewrite !live_app. rewrite <- (fi_live _ _ J), live_app. done.
    + change [Used (S fd); Closed (S fd)] with ([Used (S fd)] ++ [Closed (S fd)]). rewrite app_assoc. split; try apply J.
      * apply disciplined_snoc; [apply disciplined_snoc; [apply J|done]|]. by rewrite live_app.
      * intros x. rewrite live_app. rewrite live_app. unfold del_open. cbn [open]. rewrite elem_of_list_filter. case_decide as E.
        -- split; [discriminate|]. intros [? _]. congruence.
        -- rewrite (fi_live _ _ J). split; [|tauto]. split; [congruence|done].
      * intros h x H. apply elem_of_list_filter. simpl in *. split; [|by eapply (fi_own _ _ J)].
        intros ->. apply (fi_own _ _ I) in H. done.
  - case_decide as C; [|discriminate]. destruct C as [C1 C2]. intros [= <- <-].
    pose proof (inv_open _ _ _ I C1) as J. split; simpl; try apply J.
    + intros h' x. case_decide; [intros [= <-]; left|]. apply J.
    + intros h1 h2 x. pose proof (fi_own _ _ I) as O.
      repeat case_decide; subst; try congruence.
      * intros [= ->] Hx. apply O in Hx. done.
      * intros Hx [= ->]. apply O in Hx. done.
      * apply I.
  - destruct (handles s from) as [v|] eqn:Ev; [|discriminate].
    case_decide as C; [|discriminate]. intros [= <- <-]. rewrite app_nil_r.
    split; simpl; try apply I.
    + intros h' x. repeat case_decide; subst; try discriminate; [|apply I].
      intros [= ->]. by eapply (fi_own _ _ I).
    + intros h1 h2 x. pose proof (fi_one _ _ I) as O. repeat case_decide; subst; try congruence.
      * intros [= ->] Hx. pose proof (O _ _ _ Ev Hx). congruence.
      * intros Hx [= ->]. pose proof (O _ _ _ Ev Hx). congruence.
      * apply O.
  - destruct (handles s from) as [v|] eqn:Ev; [|discriminate].
    destruct (handles s h) as [w|] eqn:Ew; [|discriminate]. intros [= <- <-]. rewrite app_nil_r.
    split; simpl; try apply I.
    + intros h' x. repeat case_decide; subst; try discriminate; [|apply I].
      intros [= ->]. by eapply (fi_own _ _ I).
    + intros h1 h2 x. pose proof (fi_one _ _ I) as O. repeat case_decide; subst; try congruence.
      * intros [= ->] Hx. pose proof (O _ _ _ Ev Hx). congruence.
      * intros Hx [= ->]. pose proof (O _ _ _ Ev Hx). congruence.
      * apply O.
  - destruct (handles s h) as [v|] eqn:Ev; [|discriminate]. intros [= <- <-].
    assert (∀ e, (∀ x, live x (past ++ [e]) = live x past) →
             match e with Opened fd => live fd past = false | Used fd | Closed fd => live fd past = true | _ => True end →
             fd_inv (past ++ [e]) s) as K.
    { intros e H1 H2. split; try apply I.
      - by apply disciplined_snoc; [apply I|].
      - intros x. rewrite H1. apply I. }
    destruct v as [[|fd]|]; simpl; apply K; try done; intros; try by rewrite live_app.
    apply (fi_live _ _ I). by eapply (fi_own _ _ I).
  - destruct (handles s h) as [v|] eqn:Ev; [|discriminate].
    destruct (destroy v s) as [e s1] eqn:E. intros [= <- <-].
    destruct v as [fd|].
    + by eapply inv_destroy.
    + simpl in E. injection E as <- <-. rewrite app_nil_r. split; simpl; try apply I.
      * intros h' x. case_decide; [discriminate|]. apply I.
      * intros h1 h2 x. repeat case_decide; try discriminate. apply I.
Qed.

Lemma inv_run l past s ev s' : fd_inv past s → fd_run l s = Some (ev, s') → fd_inv (past ++ ev) s'.
Proof.
  revert past s ev. induction l as [|o r IH]; simpl; intros past s ev I.
  - intros [= <- <-]. by rewrite app_nil_r.
  - destruct (fd_step o s) as [[e1 s1]|] eqn:E; simpl; [|discriminate].
    pose proof (inv_step _ _ _ _ _ I E) as J.
    case_decide; [intros [= <- <-]; done|].
    destruct (fd_run r s1) as [[e2 s2]|] eqn:E2; simpl; [|discriminate]. intros [= <- <-].
    rewrite app_assoc. by eapply IH.
Qed.

Lemma fd_run_app l1 l2 s :
  fd_run (l1 ++ l2) s =
    '(e1, s1) ← fd_run l1 s;
    if decide (Terminate ∈ e1) then Some (e1, s1) else '(e2, s2) ← fd_run l2 s1; Some (e1 ++ e2, s2).
Proof.
  revert s. induction l1 as [|o r IH]; intros s; simpl.
  - destruct (decide (Terminate ∈ [])) as [H|H]; [by apply elem_of_nil in H|].
    destruct (fd_run l2 s) as [[e2 s2]|]; done.
  - destruct (fd_step o s) as [[e1 s1]|] eqn:E; simpl; [|done].
    destruct (decide (Terminate ∈ e1)) as [H|H].
    + simpl. rewrite decide_True by done. done.
    + rewrite IH. destruct (fd_run r s1) as [[e2 s2]|]; simpl; [|done].
      destruct (decide (Terminate ∈ e2)) as [H2|H2].
      * simpl. rewrite decide_True; [done|]. apply elem_of_app. auto.
      * simpl. rewrite decide_False by (rewrite elem_of_app; tauto).
        destruct (fd_run l2 s2) as [[e3 s3]|]; simpl; [|done]. by rewrite app_assoc.
Qed.

(** Nothing leaks: what is open has an owner; and there is no descriptor 0. *)
Definition owned (s : fds) : Prop :=
  (∀ fd, fd ∈ open s → ∃ h, handles s h = Some (Some fd)) ∧ (∀ h fd, handles s h = Some (Some fd) → fd ≠ 0).

Lemma owned_step past s o ev s' :
  fd_inv past s → owned s → fd_step o s = Some (ev, s') →
  match o with
  | Create _ fd | Accept _ fd | CreateUnbound fd => fd ≠ 0
  | CreateFails _ => False
  | MoveAssign h _ => handles s h = Some None
  | _ => True
  end → owned s' ∧ Terminate ∉ ev ∧ Invalid ∉ ev.
Proof.
  intros I [O Z]. destruct o as [h fd|fd|fd|h fd|h from|h from|h|h]; simpl.
  - case_decide as C; [|discriminate]. destruct C as [C1 C2]. intros [= <- <-] Hz.
    split; [|split; intros H; apply elem_of_list_singleton in H; discriminate].
    split; simpl.
    + intros x [->|H]%elem_of_cons; [exists h; by rewrite decide_True|].
      destruct (O _ H) as [h' E]. exists h'. rewrite decide_False; [done|]. congruence.
    + intros h' x. case_decide; [congruence|]. apply Z.
  - done.
  - case_decide as C; [|discriminate]. destruct fd as [|fd]; [done|]. simpl. intros [= <- <-] _.
    split; [|split; intros H; repeat (apply elem_of_cons in H as [H|H]; [discriminate|]); by apply elem_of_nil in H].
    split; simpl.
    + intros x H. apply elem_of_list_filter in H as [H1 [H2|H2]%elem_of_cons]; [done|]. by apply O.
    + apply Z.
  - case_decide as C; [|discriminate]. destruct C as [C1 C2]. intros [= <- <-] Hz.
    split; [|split; intros H; apply elem_of_list_singleton in H; discriminate].
    split; simpl.
    + intros x [->|H]%elem_of_cons; [exists h; by rewrite decide_True|].
      destruct (O _ H) as [h' E]. exists h'. rewrite decide_False; [done|]. congruence.
    + intros h' x. case_decide; [congruence|]. apply Z.
  - destruct (handles s from) as [v|] eqn:Ev; [|discriminate].
    case_decide as C; [|discriminate]. intros [= <- <-] _.
    split; [|split; apply not_elem_of_nil]. split; simpl.
    + intros x H. destruct (O _ H) as [h' E]. destruct (decide (h' = from)) as [->|Hn].
      * exists h. rewrite decide_True by done. congruence.
      * exists h'. rewrite decide_False by congruence. by rewrite decide_False.
    + intros h' x. repeat case_decide; [|discriminate|apply Z]. intros [= ->]. by eapply Z.
  - destruct (handles s from) as [v|] eqn:Ev; [|discriminate].
    destruct (handles s h) as [w|] eqn:Ew; [|discriminate]. intros [= <- <-] [= ->].
    split; [|split; apply not_elem_of_nil]. split; simpl.
    + intros x H. destruct (O _ H) as [h' E]. destruct (decide (h' = from)) as [->|Hn].
      * exists h. destruct (decide (h = from)) as [->|]; [congruence|]. rewrite decide_True by done. congruence.
      * exists h'. rewrite decide_False by done. rewrite decide_False by congruence. done.
    + intros h' x. repeat case_decide; [discriminate| |apply Z]. intros [= ->]. by eapply Z.
  - destruct (handles s h) as [v|] eqn:Ev; [|discriminate]. intros [= <- <-] _.
    split; [by split|]. destruct v as [[|fd]|]; simpl.
    + by destruct (Z _ _ Ev).
    + split; intros H; apply elem_of_list_singleton in H; discriminate.
    + split; intros H; apply elem_of_list_singleton in H; discriminate.
  - destruct (handles s h) as [v|] eqn:Ev; [|discriminate].
    destruct (destroy v s) as [e s1] eqn:E. intros [= <- <-] _.
    destruct v as [[|fd]|]; simpl in E.
    + by destruct (Z _ _ Ev).
    + injection E as <- <-.
      split; [|split; intros H; repeat (apply elem_of_cons in H as [H|H]; [discriminate|]); by apply elem_of_nil in H].
      split; simpl.
      * intros x H. apply elem_of_list_filter in H as [H1 H2]. destruct (O _ H2) as [h' E]. exists h'.
        rewrite decide_False; [done|]. congruence.
      * intros h' x. case_decide; [discriminate|]. apply Z.
    + injection E as <- <-. split; [|split; apply not_elem_of_nil]. split; simpl.
      * intros x H2. destruct (O _ H2) as [h' E]. exists h'. rewrite decide_False; [done|]. congruence.
      * intros h' x. case_decide; [discriminate|]. apply Z.
Qed.

Lemma careful_prefix l1 l2 : careful (l1 ++ l2) → careful l1.
Proof. intros H pre o post ev s -> R. eapply (H pre o (post ++ l2)); [|exact R]. by rewrite <- app_assoc. Qed.

Lemma owned_run l ev s :
  careful l → fd_run l no_handles = Some (ev, s) → owned s ∧ Terminate ∉ ev ∧ Invalid ∉ ev.
Proof.
  revert ev s. induction l as [|o r IH] using rev_ind; intros ev s Hc.
  - simpl. intros [= <- <-]. split; [|split; apply not_elem_of_nil]. split; simpl; [|discriminate].
    intros fd H. by apply elem_of_nil in H.
  - rewrite fd_run_app. destruct (fd_run r no_handles) as [[e1 s1]|] eqn:E1; simpl; [|discriminate].
    destruct (IH _ _ (careful_prefix _ _ Hc) eq_refl) as (O & T & V).
    rewrite decide_False by done.
    destruct (fd_step o s1) as [[e2 s2]|] eqn:E2; simpl; [|discriminate].
    pose proof (inv_run _ _ _ _ _ fd_inv_init E1) as I.
    destruct (owned_step _ _ _ _ _ I O E2) as (O2 & T2 & V2).
    { eapply (Hc r o []); [done|exact E1]. }
    rewrite decide_False by done. simpl. intros [= <- <-]. rewrite app_nil_r.
    split; [done|]. rewrite !elem_of_app. tauto.
Qed.
