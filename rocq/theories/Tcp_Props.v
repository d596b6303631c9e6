(** * C83, C84, C85: the TCP layer *)
From stdpp Require Import list.
From Coq Require Import ZArith Lia.
From Verif Require Import Tcp_Model Tcp_Spec Tcp_Proofs Tcp_Proofs2 Tcp_Proofs3.

(** ** C83: the bytes *)

(** A read that returns gives the next bytes of the stream, at least one of them, no more than was asked for, and exactly
    as many with [FillFullBuffer]. *)
Theorem C83_read_returns_the_next_bytes {byte} n p a (s s' : sock byte) l :
  blocking_read n p a s = (Returns l, s') →
  incoming s = l ++ incoming s' ∧ length l ≤ n ∧ (0 < n → l ≠ []) ∧ (p = FillFullBuffer → length l = n).
Proof. apply read_returns. Qed.

(** Whatever calls a client makes, what it has got is what was sent, in order, with nothing missing, added or repeated;
    bytes can be lost only in the call that throws, and then the exception is not one of the "empty" ones. *)
Theorem C83_stream_is_intact {byte} calls (s s' : sock byte) ls e :
  reads calls s = (ls, e, s') →
  ∃ lost, incoming s = concat ls ++ lost ++ incoming s' ∧
    match e with None => lost = [] | Some e => says_empty e ↔ lost = [] end.
Proof. apply reads_stream. Qed.

(** Bytes can be lost only by [FillFullBuffer], and fewer than it was asked for. *)
Theorem C83_return_asap_loses_nothing {byte} n a (s s' : sock byte) e :
  blocking_read n ReturnASAP a s = (Throws e, s') → incoming s' = incoming s ∧ says_empty e.
Proof.
  intros H. apply read_throws in H as (got & H1 & H2 & _ & _ & H3).
  destruct got as [|x r]; [|destruct H3; done]. split; [done|]. by apply H2.
Qed.

(** If the last error of this thread was not a connection reset, only a connection reset is reported as one. *)
Theorem C83_reset_is_a_reset {byte} n p a (s s' : sock byte) e :
  errno s ≠ ECONNRESET → blocking_read n p a s = (Throws e, s') → (says_reset e ↔ a = Error ECONNRESET).
Proof.
  intros Hs H. apply read_throws in H as (got & _ & _ & H2 & H3 & _). rewrite H2, H3.
  destruct a as [k| |x]; split; intros; congruence.
Qed.

(** A write that returns has sent everything; a write that throws has sent a prefix. *)
Theorem C83_write_is_all_or_exception {byte} (buf : list byte) a :
  (blocking_write buf a).2 `prefix_of` buf ∧ ((blocking_write buf a).1 = Written → (blocking_write buf a).2 = buf).
Proof. split; [apply write_prefix|apply write_written]. Qed.

(** It returns when the operating system takes everything. *)
Theorem C83_write_succeeds {byte} (buf : list byte) k :
  (Z.of_nat (length buf) < 2 ^ 31)%Z → length buf ≤ k → blocking_write buf (Took k) = (Written, buf).
Proof.
  intros H1 H2. pose proof (write_all _ _ H1 H2) as W. pose proof (write_written _ _ W) as W2.
  destruct (blocking_write buf (Took k)). simpl in *. congruence.
Qed.

(** End to end: the writes of one side have all returned, and the other side has read without an exception: it has got a
    prefix of what was written, and what it has not got is still to come. *)
Theorem C83_end_to_end {byte} (bufs : list (list byte)) (answers : list sanswer) calls (s s' : sock byte) ls :
  length answers = length bufs →
  (∀ i buf a, bufs !! i = Some buf → answers !! i = Some a → (blocking_write buf a).1 = Written) →
  incoming s = concat (zip_with (λ buf a, (blocking_write buf a).2) bufs answers) →
  reads calls s = (ls, None, s') →
  concat bufs = concat ls ++ incoming s'.
Proof.
  intros HL HW HS HR. apply reads_stream in HR as (lost & H1 & ->). simpl in H1. rewrite <- H1, HS.
  clear -HL HW. revert answers HL HW. induction bufs as [|b r IH]; intros [|a ra] HL HW; try discriminate; [done|].
  simpl. f_equal.
  - symmetry. apply write_written. by apply (HW 0).
  - apply IH; [by injection HL|]. intros i. apply (HW (S i)).
Qed.

(** The comment says that [FillFullBuffer] "will cause BlockingRead() to keep reading more data until all `max_elements`
    are read", and that the loop continues in this case.  It does not: [continue] in [do ... while (false)] ends the loop,
    so one short [recv] (a signal arrived, the peer closed) makes the call throw, and the bytes it has taken are gone. *)
Theorem C83_keeps_reading_refuted :
  ¬ ∀ n k (s : sock nat), 0 < k → n ≤ length (incoming s) →
      ∃ l s', blocking_read n FillFullBuffer (Chunk k) s = (Returns l, s').
Proof.
  intros H. destruct (H 3 2 (Sock [1; 2; 3; 4] 0%Z)) as (l & s' & E); [lia|simpl; lia|]. vm_compute in E. discriminate.
Qed.
(** What is lost then. *)
Example C83_lost_bytes :
  blocking_read 3 FillFullBuffer (Chunk 2) (Sock [1; 2; 3; 4] 0%Z) = (Throws SocketReadException, Sock [3; 4] 0%Z).
Proof. vm_compute. reflexivity. Qed.

(** And it gives up on [EAGAIN] (a receive timeout), which the same comment lists as a reason to keep looping. *)
Theorem C83_eagain_retried_refuted :
  ¬ ∀ n p (s : sock nat), 0 < n → ∀ e s', blocking_read n p (Error EAGAIN) s ≠ (Throws e, s').
Proof. intros H. apply (H 1 ReturnASAP (Sock [1] 0%Z) ltac:(lia) EmptySocketReadException (Sock [1] EAGAIN)). vm_compute. reflexivity. Qed.

(** The end of the stream is reported as a connection reset if the last error of this thread was one: [recv] returns 0
    and leaves errno alone, and the code looks at errno. *)
Theorem C83_close_is_not_a_reset_refuted :
  ¬ ∀ n p (s s' : sock nat) e, blocking_read n p Eof s = (Throws e, s') → ¬ says_reset e.
Proof.
  intros H. apply (H 1 ReturnASAP (Sock [] ECONNRESET) (Sock [] ECONNRESET) EmptyConnectionResetByPeer); [|by left].
  vm_compute. reflexivity.
Qed.

(** A write of 2^31 bytes or more throws, even if the operating system has taken all of it. *)
Theorem C83_long_writes_refuted :
  ¬ ∀ (buf : list nat) k, length buf ≤ k → (blocking_write buf (Took k)).1 = Written.
Proof.
  intros H. set (n := Z.to_nat (2 ^ 31)).
  apply (write_long (replicate n 0) (Took n)).
  - rewrite replicate_length. unfold n. rewrite Z2Nat.id; lia.
  - apply H. rewrite replicate_length. done.
Qed.

Example C83_holds_on :
  reads [(2, ReturnASAP, Chunk 5); (4, ReturnASAP, Chunk 1); (2, FillFullBuffer, Chunk 2); (9, ReturnASAP, Eof)]
    (Sock [10; 11; 12; 13; 14] 0%Z)
  = ([[10; 11]; [12]; [13; 14]], Some EmptySocketReadException, Sock [] 0%Z).
Proof. vm_compute. reflexivity. Qed.
Example C83_holds_on_write : blocking_write [1; 2; 3] (Took 3) = (Written, [1; 2; 3]).
Proof. vm_compute. reflexivity. Qed.
Example C83_holds_on_end_to_end :
  let s := Sock [1; 2; 3; 4] 0%Z in
  (blocking_write [1; 2] (Took 2)).1 = Written ∧ (blocking_write [3; 4] (Took 7)).1 = Written ∧
  reads [(3, ReturnASAP, Chunk 9)] s = ([[1; 2; 3]], None, Sock [4] 0%Z).
Proof. vm_compute. auto. Qed.
Print Assumptions C83_end_to_end.

(** ** C84: descriptors *)

(** Whatever is done with the handles: no descriptor is used or closed unless it is open, so none is closed twice, and none
    is used after it was closed (when it may be somebody else's). *)
Theorem C84_no_use_after_close l ev s : fd_run l no_handles = Some (ev, s) → disciplined ev.
Proof. intros H. apply (fi_disc ev s). exact (inv_run _ _ _ _ _ fd_inv_init H). Qed.

(** A descriptor has at most one owner, and while it has one it is open. *)
Theorem C84_one_owner l ev s h1 h2 fd :
  fd_run l no_handles = Some (ev, s) → handles s h1 = Some (Some fd) →
  live fd ev = true ∧ (handles s h2 = Some (Some fd) → h1 = h2).
Proof.
  intros H H1. pose proof (inv_run _ _ _ _ _ fd_inv_init H) as I. simpl in I. split.
  - apply (fi_live _ _ I). by eapply (fi_own _ _ I).
  - intros H2. by eapply (fi_one _ _ I).
Qed.

(** A move gives the descriptor to the new handle; using the old one throws, and destroying it does nothing. *)
Theorem C84_moved_from h from s ev s' :
  fd_step (MoveConstruct h from) s = Some (ev, s') →
  ev = [] ∧ open s' = open s ∧ handles s' h = handles s from ∧
  fd_step (Use from) s' = Some ([MovedAway], s') ∧
  (∃ s'', fd_step (Destroy from) s' = Some ([], s'') ∧ open s'' = open s').
Proof.
  simpl. destruct (handles s from) as [v|] eqn:Ev; [|discriminate].
  case_decide as C; [|discriminate]. intros [= <- <-]. simpl.
  assert (from ≠ h) as Hn by congruence.
  rewrite (decide_True (P := h = h)) by done. rewrite (decide_False (P := from = h)) by done. rewrite (decide_True (P := from = from)) by done.
  repeat split. eexists. split; done.
Qed.

(** If setsockopt() does not fail, nothing is assigned to a handle that owns a descriptor, and there is no descriptor 0:
    what is open is owned, so when the handles are gone everything has been closed; and nothing terminates the program. *)
Theorem C84_nothing_leaks l ev s :
  careful l → fd_run l no_handles = Some (ev, s) →
  (∀ fd, live fd ev = true → ∃ h, handles s h = Some (Some fd)) ∧
  ((∀ h, handles s h = None) → ∀ fd, live fd ev = false) ∧
  Terminate ∉ ev ∧ Invalid ∉ ev.
Proof.
  intros C H. destruct (owned_run _ _ _ C H) as ((O & Z) & T & V).
  pose proof (inv_run _ _ _ _ _ fd_inv_init H) as I. simpl in I.
  assert (∀ fd, live fd ev = true → ∃ h, handles s h = Some (Some fd)) as L.
  { intros fd Hfd. apply O. by apply (fi_live _ _ I). }
  split; [done|]. split; [|done]. intros Hn fd. destruct (live fd ev) eqn:E; [|done].
  destruct (L _ E) as [h Hh]. by rewrite Hn in Hh.
Qed.

(** Move assignment overwrites the descriptor it had: it stays open for ever, with the port it holds. *)
Theorem C84_move_assignment_leaks_refuted :
  ¬ ∀ l ev s, (∀ fd, CreateFails fd ∉ l) → (∀ h fd, Create h fd ∈ l → fd ≠ 0) →
      fd_run l no_handles = Some (ev, s) → (∀ h, handles s h = None) → ∀ fd, live fd ev = false.
Proof.
  intros H. set (l := [Create 0 5; Create 1 6; MoveAssign 0 1; Destroy 1; Destroy 0]).
  assert (∃ ev s, fd_run l no_handles = Some (ev, s) ∧ live 5 ev = true ∧ ∀ h, handles s h = None) as (ev & s & H1 & H2 & H3).
  { eexists _, _. split; [reflexivity|]. split; [reflexivity|]. intros [|[|h]]; reflexivity. }
  rewrite (H l ev s) in H2; [discriminate| | |exact H1|exact H3].
  - intros fd. unfold l. rewrite !elem_of_cons, elem_of_nil. intuition discriminate.
  - intros h fd. unfold l. rewrite !elem_of_cons, elem_of_nil. intros. intuition congruence.
Qed.

(** And so does a constructor in which setsockopt() fails. *)
Theorem C84_failed_constructor_leaks_refuted :
  ¬ ∀ l ev s, (∀ h h', MoveAssign h h' ∉ l) → fd_run l no_handles = Some (ev, s) → (∀ h, handles s h = None) → ∀ fd, live fd ev = false.
Proof.
  intros H. specialize (H [CreateFails 5] [Opened 5] (add_open 5 no_handles)).
  assert (live 5 [Opened 5] = false) as E; [|discriminate].
  apply H; [|reflexivity|done]. intros h h'. rewrite elem_of_list_singleton. discriminate.
Qed.

(** Descriptor 0 is a valid one (the program closed its standard input): the accessor takes it for an invalid one and
    throws, also in the destructor, which is [std::terminate]. *)
Theorem C84_descriptor_zero_refuted :
  ¬ ∀ l ev s, fd_run l no_handles = Some (ev, s) → Terminate ∉ ev ∧ Invalid ∉ ev.
Proof.
  intros H. destruct (H [Create 0 0; Destroy 0] [Opened 0; Invalid; Terminate] (set_handle 0 None (set_handle 0 (Some (Some 0)) (add_open 0 no_handles)))) as [H1 _].
  - reflexivity.
  - apply H1. rewrite !elem_of_cons. tauto.
Qed.

Definition C84_history : list fd_op :=
  [Create 0 5; Accept 1 6; MoveConstruct 2 1; Use 2; Use 1; Use 0; CreateUnbound 7; Destroy 2; Accept 3 6; MoveAssign 1 3; Use 1; Destroy 0; Destroy 1; Destroy 3].
Example C84_holds_on :
  careful C84_history ∧
  fst <$> fd_run C84_history no_handles =
    Some [Opened 5; Opened 6; Used 6; MovedAway; Used 5; Opened 7; Used 7; Closed 7; Used 6; Closed 6; Opened 6; Used 6; Used 5; Closed 5; Used 6; Closed 6].
Proof.
  split; [|reflexivity]. unfold C84_history. intros pre o post ev s E R.
  do 14 (destruct pre as [|? pre]; [injection E as <- _; simpl in R; injection R as <- <-; simpl; first [done | lia]|];
         injection E as <- E).
  destruct pre; discriminate.
Qed.
Print Assumptions C84_nothing_leaks.

(** ** C85: finding a free port *)
Lemma the_ports_length : length the_ports = Z.to_nat 4001.
Proof. apply seq_length. Qed.
Lemma new_picker_order : order new_picker = the_ports.
Proof.
  unfold new_picker, the_ports, kPickFreePortMin, kPickFreePortMax. cbn [order]. f_equal.
Qed.
Lemma reachable_valid p : reachable p → valid the_ports p.
Proof.
  induction 1 as [|p shuffle try fuel hint l port p' _ IH Hs E].
  - split; [by rewrite new_picker_order|]. rewrite the_ports_length. simpl index. lia.
  - unfold reserve_local_port in E. by apply (search_valid _ _ Hs the_ports) in E as [_ E].
Qed.
Lemma elem_of_the_ports x : x ∈ the_ports ↔ (25000 ≤ Z.of_nat x ≤ 29000)%Z.
Proof. unfold the_ports. rewrite elem_of_list_In, in_seq. lia. Qed.

Lemma upto_all try n l : all_fail try n l → length (upto try n l) = length l.
Proof.
  revert n. induction l as [|x r IH]; intros n HA; [done|]. apply all_fail_cons in HA as [H1 H2].
  simpl. rewrite H1. simpl. f_equal. by apply IH.
Qed.

(** The port a call returns is the one it has bound: the last one it tried, after all the others failed; and it is the
    hint or a port from 25000 to 29000. *)
Theorem C85_the_port_is_bound shuffle try fuel hint p l port p' :
  shuffles shuffle → reachable p →
  reserve_local_port shuffle try fuel hint p = Some (l, Found port p') →
  ∃ pre, l = pre ++ [port] ∧ try (length pre) port = true ∧
    (∀ i x, pre !! i = Some x → try i x = false) ∧
    ((port = hint ∧ hint ≠ 0) ∨ (25000 ≤ Z.of_nat port ≤ 29000)%Z).
Proof.
  intros Hs Hr E. pose proof (reachable_valid _ Hr) as Hv. unfold reserve_local_port in E.
  pose proof (search_valid _ _ Hs _ _ _ _ _ _ _ _ _ Hv E) as [Hm _].
  apply search_tried in E as [H1 (pre & -> & H2)]. exists pre. split; [done|]. split; [done|]. split.
  - intros i x Hx. apply (H1 i x).
    + by apply lookup_app_l_Some.
    + apply lookup_lt_Some in Hx. rewrite app_length. simpl. lia.
  - destruct (Hm port) as [|Hp]; [|auto|right; by apply elem_of_the_ports]. apply elem_of_app. right. by apply elem_of_list_singleton.
Qed.

(** A hint is tried first: if it is free it is what one gets. *)
Theorem C85_hint_first shuffle try fuel hint p l r :
  hint ≠ 0 → reserve_local_port shuffle try fuel hint p = Some (l, r) → head l = Some hint.
Proof. intros H E. by apply search_hint in E. Qed.

(** The search ends: after at most 4001 attempts, and the hint. *)
Theorem C85_terminates shuffle try hint p :
  shuffles shuffle → reachable p →
  ∃ l r, reserve_local_port shuffle try (Z.to_nat 4003) hint p = Some (l, r) ∧ length l ≤ Z.to_nat 4002.
Proof.
  intros Hs Hr. destruct (reachable_valid _ Hr) as [H1 H2].
  pose proof (Permutation_length H1) as HL. rewrite the_ports_length in H2, HL.
  assert (∀ n l, length (upto try n l) ≤ length l) as HU.
  { intros n l. revert n. induction l as [|x l IH]; intros n; simpl; [lia|]. destruct (try n x); simpl; [lia|]. specialize (IH (S n)). lia. }
  unfold reserve_local_port. destruct (decide (hint = 0)) as [->|Hh].
  - destruct (good_search shuffle try Hs (Z.to_nat 4003) 0 p) as (r & E & _); [lia|lia|lia|].
    eexists _, _. split; [exact E|]. etrans; [apply HU|]. rewrite expected_length by (done || lia). lia.
  - destruct (good_search_hint shuffle try Hs (Z.to_nat 4003) 0 hint p) as (r & E & _); [done|lia|lia|lia|].
    eexists _, _. split; [exact E|]. etrans; [apply HU|]. cbn [length].
    rewrite expected_length; [|done|].
    + case_decide; simpl; [rewrite (Permutation_length (Hs _ _))|]; lia.
    + case_decide; simpl; [rewrite (Permutation_length (Hs _ _))|]; lia.
Qed.

(** The first call of a thread, or one after it has been through all the ports: if some port from 25000 to 29000 stays
    free, a port is found. *)
Theorem C85_finds_a_free_port_partial shuffle try hint p port :
  shuffles shuffle → reachable p → index p = 0 →
  (25000 ≤ Z.of_nat port ≤ 29000)%Z → (∀ n, try n port = true) →
  ∃ l q p', reserve_local_port shuffle try (Z.to_nat 4003) hint p = Some (l, Found q p').
Proof.
  intros Hs Hr Hi Hp Hfree. destruct (reachable_valid _ Hr) as [H1 H2].
  pose proof (Permutation_length H1) as HL. rewrite the_ports_length in H2, HL.
  assert (∀ n l, port ∈ l → ¬ all_fail try n l) as HN.
  { intros n l Hin HF. apply elem_of_list_lookup in Hin as [i Hi']. specialize (HF _ _ Hi'). by rewrite Hfree in HF. }
  assert (port ∈ order p) as Hin by (rewrite H1; by apply elem_of_the_ports).
  unfold reserve_local_port. destruct (decide (hint = 0)) as [->|Hh].
  - destruct (good_search shuffle try Hs (Z.to_nat 4003) 0 p) as (r & E & HF); [lia|lia|lia|].
    destruct r as [q p'|]; [by eexists _, _, _|]. exfalso. apply (HN 0 (expected shuffle 0 p)); [|by apply HF].
    unfold expected. rewrite decide_True by done. by rewrite (Hs _ _).
  - destruct (good_search_hint shuffle try Hs (Z.to_nat 4003) 0 hint p) as (r & E & HF); [done|lia|lia|lia|].
    destruct r as [q p'|]; [by eexists _, _, _|]. exfalso. rewrite (decide_True (P := index p = 0)) in HF by done.
    eapply HN; [|by apply HF]. apply elem_of_cons. right.
    unfold expected. cbn [index order]. rewrite decide_True by done. by rewrite (Hs _ _), (Hs _ _).
Qed.

(** And the later calls: if some port that the thread has not tried since it last shuffled stays free, a port is found. *)
Theorem C85_finds_an_untried_port shuffle try p port :
  shuffles shuffle → reachable p →
  port ∈ drop (index p) (order p) → (∀ n, try n port = true) →
  ∃ l q p', reserve_local_port shuffle try (Z.to_nat 4003) 0 p = Some (l, Found q p').
Proof.
  intros Hs Hr Hin Hfree. destruct (reachable_valid _ Hr) as [H1 H2].
  pose proof (Permutation_length H1) as HL. rewrite the_ports_length in H2, HL.
  unfold reserve_local_port.
  destruct (good_search shuffle try Hs (Z.to_nat 4003) 0 p) as (r & E & HF); [lia|lia|lia|].
  destruct r as [q p'|]; [by eexists _, _, _|]. exfalso.
  assert (port ∈ expected shuffle 0 p) as He.
  { unfold expected. case_decide as E0.
    - rewrite (Hs _ _). rewrite E0, drop_0 in Hin. done.
    - apply elem_of_app. by left. }
  apply elem_of_list_lookup in He as [i Hi]. pose proof (proj1 HF eq_refl _ _ Hi) as X. by rewrite Hfree in X.
Qed.

(** The program reports a fatal error only after as many attempts as there are ports, and the hint. *)
Theorem C85_gives_up_late shuffle try p l :
  shuffles shuffle → reachable p →
  reserve_local_port shuffle try (Z.to_nat 4003) 0 p = Some (l, Fatal) →
  length l = Z.to_nat 4001 ∧ ∀ i x, l !! i = Some x → try i x = false.
Proof.
  intros Hs Hr E. destruct (reachable_valid _ Hr) as [H1 H2].
  pose proof (Permutation_length H1) as HL. rewrite the_ports_length in H2, HL.
  split; [|by apply search_tried in E as [_ E]].
  destruct (good_search shuffle try Hs (Z.to_nat 4003) 0 p) as (r & E' & HF); [lia|lia|lia|].
  unfold reserve_local_port in E. rewrite E in E'. injection E' as -> <-.
  rewrite <- HL, <- (expected_length shuffle Hs 0 p) by lia.
  apply upto_all, HF. done.
Qed.

Lemma missed_seq m k x : x ∈ drop 1 (seq m (S (S k))) ++ take 1 (rev (seq m (S (S k)))) → m < x.
Proof.
  rewrite elem_of_app. intros [H|H].
  - cbn [seq drop] in H. apply elem_of_list_In in H. simpl in H. destruct H as [<-|H]; [lia|]. apply in_seq in H. lia.
  - rewrite seq_S, rev_app_distr in H. cbn [rev app take] in H. apply elem_of_list_singleton in H. lia.
Qed.
Lemma missed m n x : 2 ≤ n → x ∈ drop 1 (seq m n) ++ take 1 (rev (seq m n)) → m < x.
Proof. destruct n as [|[|k]]; [lia|lia|]. intros _. apply missed_seq. Qed.

(** The lemmas below are about any first port and any number of ports. *)
Lemma first_reservation m n :
  2 ≤ n → reserve_local_port (λ _ l, l) (λ _ _, true) 1 0 (Picker (seq m n) 0) = Some ([m], Found m (Picker (seq m n) 1)).
Proof.
  intros H. destruct n as [|[|k]]; [lia|lia|]. unfold reserve_local_port. cbn [search]. unfold candidate. cbn [index order].
  rewrite (decide_True (P := 0 = 0)) by done. cbn [index order].
  rewrite (decide_False (P := 0 ≠ 0)) by lia. rewrite decide_False; [done|]. rewrite seq_length. lia.
Qed.
Lemma second_reservation m n fuel :
  2 ≤ n → n < fuel →
  ∃ l, reserve_local_port (λ _ l, rev l) (λ _ x, bool_decide (x = m)) fuel 0 (Picker (seq m n) 1) = Some (l, Fatal).
Proof.
  intros H1 H2. assert (shuffles (λ _ l, rev l)) as Hs by (intros i l; symmetry; apply Permutation_rev).
  destruct (good_search (λ _ l, rev l) (λ _ x, bool_decide (x = m)) Hs fuel 0 (Picker (seq m n) 1)) as (r & E & HF);
    cbn [order index]; rewrite ?seq_length; [lia..|].
  eexists. unfold reserve_local_port. cbn [index]. cbn [index] in E. rewrite E. f_equal. f_equal.
  apply HF. intros i x Hx. apply bool_decide_eq_false. intros ->.
  apply elem_of_list_lookup_2 in Hx. unfold expected in Hx. cbn [index order] in Hx.
  rewrite decide_False in Hx by done. apply missed in Hx; [|done]. lia.
Qed.
(** But a port that stays free can be missed, and the program exits: the search shuffles the ports when it comes to the
    end of them, in the middle of going around.  Here the thread has reserved and given back port 25000, which is now the
    only free one; the search tries the other 4000, shuffles, and tries one port, which is another one. *)
Theorem C85_finds_a_free_port_refuted :
  ¬ ∀ shuffle try p port, shuffles shuffle → reachable p →
      (25000 ≤ Z.of_nat port ≤ 29000)%Z → (∀ n, try n port = true) →
      ∃ l q p', reserve_local_port shuffle try (Z.to_nat 4003) 0 p = Some (l, Found q p').
Proof.
  intros H.
  assert (reachable (Picker the_ports 1)) as Hr.
  { eapply (reachable_next (Picker the_ports 0) (λ _ l, l) (λ _ _, true) 1 0).
    - rewrite <- new_picker_order. exact reachable_new.
    - intros n l. done.
    - apply first_reservation. lia. }
  destruct (second_reservation (Z.to_nat 25000) (Z.to_nat 4001) (Z.to_nat 4003)) as [l E]; [lia|lia|].
  destruct (H (λ _ l, rev l) (λ _ x, bool_decide (x = Z.to_nat 25000)) (Picker the_ports 1) (Z.to_nat 25000)) as (l' & q & p' & E').
  - intros i x. symmetry. apply Permutation_rev.
  - exact Hr.
  - lia.
  - intros n. by apply bool_decide_eq_true.
  - unfold the_ports in E'. revert E E'.
    generalize (reserve_local_port (λ (_ : nat) (l0 : list nat), rev l0) (λ (_ x : nat), bool_decide (x = Z.to_nat 25000)) (Z.to_nat 4003) 0
                  (Picker (seq (Z.to_nat 25000) (Z.to_nat 4001)) 1)).
    intros o -> [=].
Qed.

Example C85_holds_on : reachable new_picker ∧ index new_picker = 0 ∧ shuffles (λ _ l, rev l).
Proof. split; [constructor|]. split; [done|]. intros n l. symmetry. apply Permutation_rev. Qed.
Print Assumptions C85_finds_a_free_port_refuted.
