(** * C81, C82: RipCurrent flows *)
From stdpp Require Import list sets.
From Coq Require Import ZArith Lia.
From Verif Require Import MMQ_Model RipCurrent_Model RipCurrent_Spec RipCurrent_Proofs RipCurrent_Proofs2 RipCurrent_Proofs3
  RipCurrent_Proofs4 RipCurrent_Proofs5 RipCurrent_Proofs6 RipCurrent_Proofs7.

(** ** C81: what goes in comes out *)

(** A message of a declared type has exactly one place to go. *)
Theorem C81_one_receiver {B} (code : nat → block B) f x ty : runnable code f → x ∈ leaves f → ty ∈ b_outs (code x) →
  ∃ y, (wired f x y ∧ ty ∈ b_ins (code y)) ∧ ∀ y', wired f x y' ∧ ty ∈ b_ins (code y') → y' = y.
Proof.
  intros (Wt&In&Out&N1&N2) X Ty. assert (wf f) as Wf by done.
  destruct (leaf_out f x X) as [Ex|[q F]].
  { assert (ty ∈ outputs code f) as Z by (apply outputs_spec; eauto). rewrite Out in Z. by apply elem_of_nil in Z. }
  destruct (feeds_typed code f x q ty Wt F Ty) as (y&Sv&Hy). exists y. split; [split; [by exists q|done]|].
  intros y' [(q'&F'&Sv') Hy']. pose proof (feeds_unique f _ _ _ Wf F F') as <-. pose proof (served_in _ _ _ Sv) as [Hq _].
  assert (consumer_block code f q ty = Some y) as C1 by (by apply consumer_block_spec).
  assert (consumer_block code f q ty = Some y') as C2 by (by apply consumer_block_spec). congruence.
Qed.

(** When [Join] has returned, whatever the schedule: every block has made all the calls its code asks for given what it
    received, every call that carries a message ended in the queue or in the error handler, and everything that went in
    a queue was received exactly once, in order, by the block wired to the sender that takes its type, and by no other. *)
Theorem C81_exactly_once_in_order {B} (code : nat → block B) f ls tr s :
  runnable code f → (∀ x, x ∈ leaves f → declared code x) →
  (∀ x, x ∈ leaves f → all_calls code (λ o, ¬ is_schedule o) x) →
  run code f ls (initial code f) = Some (tr, s) → finished s →
  (∀ x, x ∈ leaves f → issued x tr = program code x (received x tr).*2 ∧
                       (outcomes x tr).*1 = omap message_of (issued x tr)) ∧
  (∀ x y, wired f x y → received_from x y tr = filter (λ m, m_type m ∈ b_ins (code y)) (sent x tr)) ∧
  (∀ x y, ¬ wired f x y → received_from x y tr = []).
Proof.
  intros R D N Ru F. pose proof (good_calls code f D N) as C.
  destruct (inv_reach code f ls tr s R C Ru) as [I T]. destruct R as (Wt&In&Out&N1&N2). assert (wf f) as Wf by done.
  split; [|split].
  - intros x X. by destruct (finished_all code f Wf tr s x I T F X) as (?&?&_).
  - intros x y W. assert (x ∈ leaves f) as X by (destruct W as (q&Fq&_); by apply feeds_in in Fq as [? _]).
    destruct (finished_all code f Wf tr s x I T F X) as (_&_&->). by apply (received_from_delivered code f Wf Wt tr s).
  - intros x y W. by eapply received_from_unwired.
Qed.

(** At any moment a block has received a prefix of what was sent to it. *)
Theorem C81_prefix_at_any_time {B} (code : nat → block B) f ls tr s :
  runnable code f → (∀ x, x ∈ leaves f → declared code x) →
  (∀ x, x ∈ leaves f → all_calls code (λ o, ¬ is_schedule o) x) →
  run code f ls (initial code f) = Some (tr, s) →
  (∀ x y, wired f x y → received_from x y tr `prefix_of` filter (λ m, m_type m ∈ b_ins (code y)) (sent x tr)) ∧
  (∀ x y, ¬ wired f x y → received_from x y tr = []) ∧
  (∀ y x m, Received y x m ∈ tr → m_type m ∈ b_ins (code y)).
Proof.
  intros R D N Ru. pose proof (good_calls code f D N) as C.
  destruct (inv_reach code f ls tr s R C Ru) as [I T]. destruct R as (Wt&In&Out&N1&N2). assert (wf f) as Wf by done.
  split; [|split].
  - intros x y W. by apply (wire_prefix code f Wf Wt tr s).
  - intros x y W. by eapply received_from_unwired.
  - intros y x m Hm. by destruct (T_recv _ _ _ _ T _ _ _ Hm) as (_&_&?).
Qed.

(** A flow whose blocks only [emit], and in which no two blocks that can run at the same time write into one pipe, never
    gets to the error handler. *)
Theorem C81_no_spurious_error {B} (code : nat → block B) f ls tr s :
  runnable code f → (∀ x, x ∈ leaves f → declared code x) → (∀ x, x ∈ leaves f → all_calls code is_emit x) →
  one_at_a_time code f →
  run code f ls (initial code f) = Some (tr, s) → ∀ e, e ∈ tr → ¬ is_error e.
Proof.
  intros R D E S Ru.
  assert (∀ x, x ∈ leaves f → all_calls code (call_ok code x) x) as C.
  { apply good_calls; [done|]. intros z Z. by apply emit_not_schedule, E. }
  destruct R as (Wt&In&Out&N1&N2). assert (wf f) as Wf by done.
  by apply (no_error_run code f Wf Wt C E S ls (initial code f)) with (s' := s); [apply inv_init|apply invE_init|].
Qed.

(** ... and if every block has one block to receive from, what every block receives only depends on the wires: not on the
    schedule, not on how the diagram is parenthesised or in which order the sides of a [+] are given. *)
Theorem C81_outcome_depends_on_the_wires_only {B} (code : nat → block B) f g ls1 ls2 tr1 tr2 s1 s2 :
  runnable code f → runnable code g → (∀ x, x ∈ leaves f ↔ x ∈ leaves g) → (∀ x y, wired f x y ↔ wired g x y) →
  (∀ x, x ∈ leaves f → declared code x) → (∀ x, x ∈ leaves f → all_calls code is_emit x) →
  (∀ x1 x2 y, wired f x1 y → wired f x2 y → x1 = x2) →
  run code f ls1 (initial code f) = Some (tr1, s1) → finished s1 →
  run code g ls2 (initial code g) = Some (tr2, s2) → finished s2 →
  ∀ y, y ∈ leaves f → received y tr1 = received y tr2 ∧ issued y tr1 = issued y tr2.
Proof.
  intros R1 R2 L W D E S Ru1 F1 Ru2 F2 y Y.
  assert (good code f) as G1 by done. assert (good code g) as G2.
  { split; [done|]. split; intros x X; [apply D|apply E]; by apply L. }
  pose proof (outcome_same code f g ls1 ls2 tr1 tr2 s1 s2 G1 G2 S W Ru1 F1 Ru2 F2 y Y) as Q. split; [done|].
  assert (∀ h, good code h → ∀ x, x ∈ leaves h → all_calls code (call_ok code x) x) as C.
  { intros h (_&Dh&Eh). apply good_calls; [done|]. intros z Z. by apply emit_not_schedule, Eh. }
  destruct (inv_reach code f ls1 tr1 s1 R1 (C f G1) Ru1) as [I1 T1].
  destruct (inv_reach code g ls2 tr2 s2 R2 (C g G2) Ru2) as [I2 T2].
  assert (wf f) as Wf by (destruct R1 as (_&_&_&?&?); done). assert (wf g) as Wg by (destruct R2 as (_&_&_&?&?); done).
  destruct (finished_all code f Wf tr1 s1 y I1 T1 F1 Y) as (->&_).
  destruct (finished_all code g Wg tr2 s2 y I2 T2 F2) as (->&_); [by apply L|]. by rewrite Q.
Qed.

(** ** C82: [Join] *)

(** Nothing is used, and nothing is destroyed again, after it has been destroyed, and in the end everything has been. *)
Theorem C82_no_use_after_destruction {B} (code : nat → block B) f ls tr s :
  runnable code f → (∀ x, x ∈ leaves f → declared code x) →
  (∀ x, x ∈ leaves f → all_calls code (λ o, ¬ is_schedule o) x) →
  run code f ls (initial code f) = Some (tr, s) →
  (∀ t1 i t2, tr = t1 ++ Destroyed i :: t2 → ∀ e, e ∈ t2 → ¬ uses f e i) ∧
  (finished s → ∀ x q, (x ∈ leaves f → Destroyed (IBlock x) ∈ tr) ∧ (q ∈ queues f → Destroyed (IQueue q) ∈ tr)).
Proof.
  intros R D N Ru. pose proof (good_calls code f D N) as C.
  destruct (inv_reach code f ls tr s R C Ru) as [I T]. split.
  - intros t1 i t2 E e He. by apply (T_dead _ _ _ _ T t1 t2 i E).
  - intros [_ L] x q. split; intros X; apply (T_gone _ _ _ _ T); rewrite L; (split; [|apply not_elem_of_nil]).
    + by apply teardown_block.
    + by apply teardown_queue.
Qed.

(** [Join] is never stuck: until it has returned, some thread can go on. *)
Theorem C82_join_is_never_stuck {B} (code : nat → block B) f ls tr s :
  runnable code f → (∀ x, x ∈ leaves f → declared code x) →
  (∀ x, x ∈ leaves f → all_calls code (λ o, ¬ is_schedule o) x) →
  run code f ls (initial code f) = Some (tr, s) → ¬ finished s →
  ∃ l tr' s', step code f l s = Some (tr', s').
Proof.
  intros R D N Ru F. pose proof (good_calls code f D N) as C.
  destruct (inv_reach code f ls tr s R C Ru) as [I T]. destruct R as (Wt&In&Out&N1&N2). assert (wf f) as Wf by done.
  by apply (progress code f Wf Wt C Out s).
Qed.

(** ... and no schedule goes on for ever; so, whatever was done so far and whatever is done next, it returns. *)
Theorem C82_join_returns {B} (code : nat → block B) f :
  runnable code f → (∀ x, x ∈ leaves f → declared code x) →
  (∀ x, x ∈ leaves f → all_calls code (λ o, ¬ is_schedule o) x) →
  (¬ ∃ σ : nat → state B, σ 0 = initial code f ∧ ∀ n, ∃ l tr, step code f l (σ n) = Some (tr, σ (S n))) ∧
  (∀ ls tr s, run code f ls (initial code f) = Some (tr, s) →
     ∃ ls' tr' s', run code f ls' s = Some (tr', s') ∧ finished s').
Proof.
  intros R D N. pose proof (good_calls code f D N) as C. pose proof R as (Wt&In&Out&N1&N2). assert (wf f) as Wf by done.
  split.
  - intros (σ&E&K).
    pose proof (terminates code f Wf Wt C _ (inv_init code f C)) as A. rewrite <-E in A.
    remember (σ 0) as s eqn:Es. clear E. assert (∃ n, s = σ n) as [n En] by eauto. clear Es.
    revert n En. induction A as [s _ IH]. intros n ->. destruct (K n) as (l&tr&St). eapply (IH (σ (S n))); eauto.
  - intros ls tr s Ru. destruct (inv_reach code f ls tr s R C Ru) as [I _]. clear ls tr Ru.
    pose proof (terminates code f Wf Wt C s I) as A. revert I. induction A as [s _ IH]. intros I.
    destruct (decide (st_joining s = true ∧ st_left s = [])) as [F|F]; [exists [], [], s; done|].
    destruct (progress code f Wf Wt C Out s I F) as (l&tr&s'&St).
    destruct (IH s') as (ls&tr'&s''&Ru&F'); [by eauto|by eapply inv_step, step_Step|].
    exists (l :: ls), (tr ++ tr'), s''. simpl. rewrite St. simpl. rewrite Ru. done.
Qed.

(** ** What is not true *)

(** Two sources, a receiver, and a pipe: [(A + B) | C]. *)
Definition two_sources (x : nat) : block nat :=
  match x with
  | 0 => Block [] [7] [Emit (Msg 7 10)] (λ _ _, []) (λ _, [])
  | 1 => Block [] [7] [Emit (Msg 7 20)] (λ _ _, []) (λ _, [])
  | _ => Block [7] [] [] (λ _ _, []) (λ _, [])
  end.
Definition merge : flow := Pipe 0 (Plus (Leaf 0) (Leaf 1)) (Leaf 2).
Ltac calls := repeat first [apply Forall_nil_2 | apply Forall_cons_2]; simpl; try done; try (intros ? [= <-]; set_solver).
Lemma merge_leaves x : x ∈ leaves merge → x = 0 ∨ x = 1 ∨ x = 2.
Proof. simpl. set_solver. Qed.
Lemma merge_ok : runnable two_sources merge ∧ (∀ x, x ∈ leaves merge → declared two_sources x) ∧
  (∀ x, x ∈ leaves merge → all_calls two_sources is_emit x).
Proof.
  split; [|split].
  - split; [|split; [done|split; [done|split; [|]]]]; simpl.
    + split; [split; [done|split; [done|set_solver]]|]. split; [done|]. split; [done|]. set_solver.
    + repeat constructor; set_solver.
    + repeat constructor; set_solver.
  - intros x X. apply merge_leaves in X as [-> |[-> | ->]]; (split; [|split]; [|intros ? ?|intros ?]; simpl; calls).
  - intros x X. apply merge_leaves in X as [-> |[-> | ->]]; (split; [|split]; [|intros ? ?|intros ?]; simpl; calls).
Qed.

Lemma run_trace {B} (o : option (list (event B) * state B)) t : fst <$> o = Some t → ∃ s, o = Some (t, s).
Proof. destruct o as [[t' s]|]; [|done]. simpl. intros [= ->]. eauto. Qed.

(** [(A + B) | C] where [A] and [B] emit from threads of their own: [emit] takes the time before it takes the lock of the
    queue, so the later of two times can get there first, and the other, perfectly legal, [emit] is refused: its message
    never arrives, and the default error handler ends the process. *)
Theorem C81_concurrent_emit_refuted : ¬ (∀ (code : nat → block nat) f ls tr s,
  runnable code f → (∀ x, x ∈ leaves f → declared code x) → (∀ x, x ∈ leaves f → all_calls code is_emit x) →
  run code f ls (initial code f) = Some (tr, s) → ∀ e, e ∈ tr → ¬ is_error e).
Proof.
  intros H. destruct merge_ok as (R&D&E).
  pose (ls := [Advance (TSource 0) 1; Advance (TSource 1) 2; Advance (TSource 1) 0; Advance (TSource 0) 0]%Z).
  destruct (run_trace (run two_sources merge ls (initial two_sources merge))
    [Issued 0 (Emit (Msg 7 10)); Issued 1 (Emit (Msg 7 20)); Refused 0 (Msg 7 10)]) as [s Ru]; [vm_compute; reflexivity|].
  apply (H two_sources merge ls _ s R D E Ru (Refused 0 (Msg 7 10))); [clear; set_solver|exact Logic.I].
Qed.

(** A source that calls [schedule] and [head], and a receiver. *)
Definition scheduler (ops : list (op nat)) (x : nat) : block nat :=
  match x with
  | 0 => Block [] [7] ops (λ _ _, []) (λ _, [])
  | _ => Block [7] [] [] (λ _ _, []) (λ _, [])
  end.
Definition one_pipe : flow := Pipe 0 (Leaf 0) (Leaf 1).
Lemma scheduler_ok ops : Forall (λ o, ∀ m, message_of o = Some m → m_type m = 7) ops →
  runnable (scheduler ops) one_pipe ∧ ∀ x, x ∈ leaves one_pipe → declared (scheduler ops) x.
Proof.
  intros O. split.
  - split; [|split; [done|split; [done|split; [|]]]]; simpl.
    + split; [done|]. split; [done|]. split; [done|]. set_solver.
    + repeat constructor; set_solver.
    + repeat constructor; set_solver.
  - intros x X. assert (x = 0 ∨ x = 1) as [-> | ->] by (simpl in X; set_solver);
      (split; [|split]; [|intros ? ?|intros ?]; simpl; try apply Forall_nil_2).
    eapply Forall_impl; [exact O|]. simpl. intros o Ho m Hm. rewrite (Ho m Hm). set_solver.
Qed.

(** The source is done, [Join] was called, and one pipe is left with a call it still waits for. *)
Definition waits_forever {B} (s : state B) : Prop :=
  st_joining s = true ∧ st_left s = [IQueue 0; IBlock 1] ∧ st_task s TJoin = None ∧
  (∀ q, st_task s (TQueue q) = None) ∧ (∀ b t, st_task s (TSource b) = Some t → idle t) ∧
  ¬ processed_everything (st_queue s 0) ∧
  (∀ e l, queue (rq_pq (st_queue s 0)) = e :: l → ¬ (e_us e ≤ (pq_last (rq_pq (st_queue s 0))).2)%Z).
Lemma waits_forever_stuck {B} (code : nat → block B) s : waits_forever s → ¬ finished s ∧ ∀ l, step code one_pipe l s = None.
Proof.
  intros (J&L&E&Q&S0&P&H). split; [intros [_ L']; congruence|].
  intros [τ now|q|q| |]; simpl.
  - destruct τ as [b|q|].
    + destruct (st_task s (TSource b)) as [[x ph ops]|] eqn:T; [|done]. destruct (S0 b _ T) as [P1 P2]. simpl in *. by subst.
    + by rewrite Q.
    + by rewrite E.
  - destruct (decide _) as [[Hq U]|]; [|done]. apply elem_of_list_singleton in Hq as ->.
    destruct (pq_destructing _); [done|]. destruct (queue (rq_pq (st_queue s 0))) as [|e l] eqn:Eq; [done|].
    destruct (decide _) as [D|]; [|done]. destruct (H e l); [done|lia].
  - by rewrite Q.
  - by rewrite J.
  - rewrite J, L, E. destruct (decide _) as [[D _]|]; [|done]. done.
Qed.

(** Two [schedule] calls with one timestamp (which [schedule] allows: only [post] insists on increasing ones): the queue is
    an [std::set] ordered by the timestamp, so the second message is dropped, without an error, after its call was counted:
    the message never arrives and [Join] waits for it for ever. *)
Theorem C82_same_timestamp_refuted : ∃ (code : nat → block nat) f ls tr s,
  runnable code f ∧ (∀ x, x ∈ leaves f → declared code x) ∧
  run code f ls (initial code f) = Some (tr, s) ∧ (∀ e, e ∈ tr → ¬ is_error e) ∧
  st_joining s = true ∧ ¬ finished s ∧ (∀ l, step code f l s = None) ∧
  wired f 0 1 ∧ sent 0 tr = [Msg 7 10; Msg 7 20] ∧ received_from 0 1 tr = [Msg 7 10].
Proof.
  pose (ops := [Schedule 5%Z (Msg 7 10); Schedule 5%Z (Msg 7 20); Head 9%Z] : list (op nat)).
  pose (src := Advance (TSource 0) 0).
  pose (ls := [src; src; src; src; src; src; Consume 0; Return 0; Join; Destroy; Destroy]).
  destruct (scheduler_ok ops) as [R D]; [repeat constructor; simpl; by intros ? [= <-]|].
  pose (tr := [Issued 0 (Schedule 5%Z (Msg 7 10)); Sent 0 (Msg 7 10); Issued 0 (Schedule 5%Z (Msg 7 20)); Sent 0 (Msg 7 20);
     Issued 0 (Head 9%Z); Received 1 0 (Msg 7 10); Destroyed (IBlock 0)] : list (event nat)).
  destruct (run_trace (run (scheduler ops) one_pipe ls (initial (scheduler ops) one_pipe)) tr) as [s Ru]; [vm_compute; reflexivity|].
  assert (waits_forever s) as W.
  { assert (∀ A (g : state nat → A) v, (g ∘ snd <$> run (scheduler ops) one_pipe ls (initial (scheduler ops) one_pipe)) = Some v → g s = v) as View
      by (intros A g v; rewrite Ru; simpl; clear; intros [= ->]; reflexivity).
    clear Ru. unfold waits_forever. split; [|split; [|split; [|split; [|split; [|split]]]]].
    - apply (View _ st_joining); vm_compute; reflexivity.
    - apply (View _ st_left); vm_compute; reflexivity.
    - apply (View _ (λ s, st_task s TJoin)); vm_compute; reflexivity.
    - intros [|q]; [apply (View _ (λ s, st_task s (TQueue 0)))|apply (View _ (λ s, st_task s (TQueue (S q))))]; vm_compute; reflexivity.
    - intros [|[|b]] t.
      + assert (V := View _ (λ s, st_task s (TSource 0)) (Some (Task 0 Ready [])) ltac:(vm_compute; reflexivity)). cbv beta in V. rewrite V. clear. intros [= <-]. split; reflexivity.
      + assert (V := View _ (λ s, st_task s (TSource 1)) None ltac:(vm_compute; reflexivity)). cbv beta in V. rewrite V. clear. done.
      + assert (V := View _ (λ s, st_task s (TSource (S (S b)))) None ltac:(vm_compute; reflexivity)). cbv beta in V. rewrite V. clear. done.
    - unfold processed_everything. assert (V := View _ (λ s, st_queue s 0) (RQ (MMPQ [] (2, 9%Z) false) 2 1 0) ltac:(vm_compute; reflexivity)). cbv beta in V. rewrite V. clear. done.
    - assert (V := View _ (λ s, st_queue s 0) (RQ (MMPQ [] (2, 9%Z) false) 2 1 0) ltac:(vm_compute; reflexivity)). cbv beta in V. rewrite V. clear. done. }
  destruct (waits_forever_stuck (scheduler ops) s W) as [F Stuck].
  exists (scheduler ops), one_pipe, ls, tr, s. split; [exact R|]. split; [exact D|]. split; [exact Ru|]. clear Ru.
  split; [unfold tr; intros e He; rewrite !elem_of_cons in He; clear -He; set_solver|].
  split; [apply W|]. split; [exact F|]. split; [exact Stuck|].
  split; [exists 0; simpl; clear; split; left; set_solver|]. split; vm_compute; reflexivity.
Qed.

(** A [schedule] for a time which nothing moves the head of the queue to: the message stays in the queue, and [Join] waits
    for it for ever. *)
Theorem C82_schedule_ahead_refuted : ∃ (code : nat → block nat) f ls tr s,
  runnable code f ∧ (∀ x, x ∈ leaves f → declared code x) ∧
  run code f ls (initial code f) = Some (tr, s) ∧ (∀ e, e ∈ tr → ¬ is_error e) ∧
  st_joining s = true ∧ ¬ finished s ∧ (∀ l, step code f l s = None) ∧
  wired f 0 1 ∧ sent 0 tr = [Msg 7 10] ∧ received_from 0 1 tr = [].
Proof.
  pose (ops := [Schedule 5%Z (Msg 7 10)] : list (op nat)).
  pose (src := Advance (TSource 0) 0).
  pose (ls := [src; src; Join; Destroy; Destroy]).
  destruct (scheduler_ok ops) as [R D]; [repeat constructor; simpl; by intros ? [= <-]|].
  pose (tr := [Issued 0 (Schedule 5%Z (Msg 7 10)); Sent 0 (Msg 7 10); Destroyed (IBlock 0)] : list (event nat)).
  destruct (run_trace (run (scheduler ops) one_pipe ls (initial (scheduler ops) one_pipe)) tr) as [s Ru]; [vm_compute; reflexivity|].
  assert (waits_forever s) as W.
  { assert (∀ A (g : state nat → A) v, (g ∘ snd <$> run (scheduler ops) one_pipe ls (initial (scheduler ops) one_pipe)) = Some v → g s = v) as View
      by (intros A g v; rewrite Ru; simpl; clear; intros [= ->]; reflexivity).
    clear Ru. unfold waits_forever. split; [|split; [|split; [|split; [|split; [|split]]]]].
    - apply (View _ st_joining); vm_compute; reflexivity.
    - apply (View _ st_left); vm_compute; reflexivity.
    - apply (View _ (λ s, st_task s TJoin)); vm_compute; reflexivity.
    - intros [|q]; [apply (View _ (λ s, st_task s (TQueue 0)))|apply (View _ (λ s, st_task s (TQueue (S q))))]; vm_compute; reflexivity.
    - intros [|[|b]] t.
      + assert (V := View _ (λ s, st_task s (TSource 0)) (Some (Task 0 Ready [])) ltac:(vm_compute; reflexivity)). cbv beta in V. rewrite V. clear. intros [= <-]. split; reflexivity.
      + assert (V := View _ (λ s, st_task s (TSource 1)) None ltac:(vm_compute; reflexivity)). cbv beta in V. rewrite V. clear. done.
      + assert (V := View _ (λ s, st_task s (TSource (S (S b)))) None ltac:(vm_compute; reflexivity)). cbv beta in V. rewrite V. clear. done.
    - unfold processed_everything. assert (V := View _ (λ s, st_queue s 0) (RQ (MMPQ [Entry 1 5%Z (0, Msg 7 10)] (1, (-1)%Z) false) 1 0 0) ltac:(vm_compute; reflexivity)). cbv beta in V. rewrite V. clear. done.
    - assert (V := View _ (λ s, st_queue s 0) (RQ (MMPQ [Entry 1 5%Z (0, Msg 7 10)] (1, (-1)%Z) false) 1 0 0) ltac:(vm_compute; reflexivity)). cbv beta in V. rewrite V. clear. intros e l [= <- <-]; simpl; lia. }
  destruct (waits_forever_stuck (scheduler ops) s W) as [F Stuck].
  exists (scheduler ops), one_pipe, ls, tr, s. split; [exact R|]. split; [exact D|]. split; [exact Ru|]. clear Ru.
  split; [unfold tr; intros e He; rewrite !elem_of_cons in He; clear -He; set_solver|].
  split; [apply W|]. split; [exact F|]. split; [exact Stuck|].
  split; [exists 0; simpl; clear; split; left; set_solver|]. split; vm_compute; reflexivity.
Qed.

(** ** The hypotheses are met *)
(** [S | (A + B) | C]: a source of two types, a doubler for each, a receiver that reports when it is destroyed. *)
Definition diamond (x : nat) : block nat :=
  match x with
  | 0 => Block [] [7; 8] [Emit (Msg 7 1); Emit (Msg 8 2); Emit (Msg 7 3)] (λ _ _, []) (λ _, [Emit (Msg 8 4)])
  | 1 => Block [7] [9] [] (λ _ m, [Emit (Msg 9 (10 * m_body m))]) (λ _, [])
  | 2 => Block [8] [9] [] (λ _ m, [Emit (Msg 9 (100 * m_body m))]) (λ h, [Emit (Msg 9 (length h))])
  | _ => Block [9] [] [] (λ _ _, []) (λ _, [])
  end.
Definition diamond_f : flow := Pipe 0 (Leaf 0) (Pipe 1 (Plus (Leaf 1) (Leaf 2)) (Leaf 3)).
Definition diamond_g : flow := Pipe 1 (Pipe 0 (Leaf 0) (Plus (Leaf 2) (Leaf 1))) (Leaf 3).
Lemma diamond_leaves x : x ∈ leaves diamond_f → x = 0 ∨ x = 1 ∨ x = 2 ∨ x = 3.
Proof. simpl. set_solver. Qed.
Example C81_hypotheses_met :
  runnable diamond diamond_f ∧ runnable diamond diamond_g ∧ (∀ x, x ∈ leaves diamond_f → declared diamond x) ∧
  (∀ x, x ∈ leaves diamond_f → all_calls diamond is_emit x) ∧ one_at_a_time diamond diamond_f ∧
  (∀ x y, wired diamond_f x y ↔ wired diamond_g x y).
Proof.
  split; [|split; [|split; [|split; [|split]]]].
  - split; [|split; [done|split; [done|split; [|]]]]; simpl.
    + split; [done|]. split; [|split; [done|set_solver]]. split; [split; [done|split; [done|set_solver]]|]. split; [done|].
      split; [done|]. set_solver.
    + repeat constructor; set_solver.
    + repeat constructor; set_solver.
  - split; [|split; [done|split; [done|split; [|]]]]; simpl.
    + split; [|split; [done|split; [done|set_solver]]]. split; [done|]. split; [split; [done|split; [done|set_solver]]|].
      split; [done|]. set_solver.
    + repeat constructor; set_solver.
    + repeat constructor; set_solver.
  - intros x X. apply diamond_leaves in X as [-> |[-> |[-> | ->]]]; (split; [|split]; [|intros ? ?|intros ?]; simpl; calls).
  - intros x X. apply diamond_leaves in X as [-> |[-> |[-> | ->]]]; (split; [|split]; [|intros ? ?|intros ?]; simpl; calls).
  - intros x1 x2 q. simpl. intros [[-> X1]|[[]|[[-> X1]|[[[]|[]]|[]]]]] [[Y X2]|[[]|[[Y X2]|[[[]|[]]|[]]]]]; try done.
    + left. set_solver.
    + right. assert (x1 = 1 ∨ x1 = 2) as [-> | ->] by set_solver; assert (x2 = 1 ∨ x2 = 2) as [-> | ->] by set_solver;
        (split; [done|split; [done|]]; exists 0; set_solver).
  - intros x y. split; intros (q&F&G); exists q; simpl in *; set_solver.
Qed.
(** A complete run of it. *)
Definition diamond_run : list label :=
  [Advance (TSource 0) 1; Advance (TSource 0) 0; Advance (TSource 0) 0;
   Advance (TSource 0) 2; Consume 0; Advance (TQueue 0) 3; Advance (TQueue 0) 0; Advance (TQueue 0) 0; Return 0;
   Advance (TSource 0) 0; Advance (TSource 0) 0; Advance (TSource 0) 4; Advance (TSource 0) 0; Advance (TSource 0) 0;
   Join; Destroy; Advance TJoin 5; Advance TJoin 0; Advance TJoin 0; Destroy;
   Consume 0; Advance (TQueue 0) 6; Consume 1; Return 1; Advance (TQueue 0) 0; Advance (TQueue 0) 0; Return 0;
   Consume 0; Advance (TQueue 0) 7; Advance (TQueue 0) 0; Advance (TQueue 0) 0; Return 0;
   Consume 0; Advance (TQueue 0) 8; Advance (TQueue 0) 0; Advance (TQueue 0) 0; Return 0; Destroy;
   Destroy; Advance TJoin 9; Advance TJoin 0; Advance TJoin 0; Destroy; Destroy; Destroy;
   Consume 1; Return 1; Consume 1; Return 1; Consume 1; Return 1; Consume 1; Return 1;
   Destroy; Destroy; Destroy]%Z.
Example C81_run_example : match run diamond diamond_f diamond_run (initial diamond diamond_f) with
  | Some (tr, s) => finished s ∧
      (received 1 tr).*2 = [Msg 7 1; Msg 7 3] ∧ (received 2 tr).*2 = [Msg 8 2; Msg 8 4] ∧
      received 3 tr = [(1, Msg 9 10); (2, Msg 9 200); (1, Msg 9 30); (2, Msg 9 400); (2, Msg 9 2)]
  | None => False
  end.
Proof. vm_compute. repeat split. Qed.

(** [S | A | C], both ways, on different schedules. *)
Definition chain (x : nat) : block nat :=
  match x with
  | 0 => Block [] [7] [Emit (Msg 7 1); Emit (Msg 7 2)] (λ _ _, []) (λ _, [])
  | 1 => Block [7] [9] [] (λ h m, [Emit (Msg 9 (m_body m)); Emit (Msg 9 (length h))]) (λ _, [])
  | _ => Block [9] [] [] (λ _ _, []) (λ _, [])
  end.
Definition chain_f : flow := Pipe 0 (Leaf 0) (Pipe 1 (Leaf 1) (Leaf 2)).
Definition chain_g : flow := Pipe 1 (Pipe 0 (Leaf 0) (Leaf 1)) (Leaf 2).
Definition emits (τ : tid) (n : Z) : list label := [Advance τ n; Advance τ 0%Z; Advance τ 0%Z].
Definition chain_run1 : list label :=
  emits (TSource 0) 1 ++ emits (TSource 0) 2 ++ Consume 0 :: emits (TQueue 0) 3 ++ emits (TQueue 0) 4 ++ Return 0 :: Consume 0 ::
  emits (TQueue 0) 5 ++ emits (TQueue 0) 6 ++ [Return 0; Consume 1; Return 1; Consume 1; Return 1; Consume 1; Return 1; Consume 1; Return 1;
  Join; Destroy; Destroy; Destroy; Destroy; Destroy; Destroy; Destroy; Destroy].
Definition chain_run2 : list label :=
  Join :: emits (TSource 0) 1 ++ Consume 0 :: emits (TQueue 0) 3 ++ Consume 1 :: Advance (TSource 0) 4 :: Return 1 :: emits (TQueue 0) 5 ++
  Return 0 :: Advance (TSource 0) 0 :: Advance (TSource 0) 0 :: Destroy :: Destroy :: Consume 0 :: emits (TQueue 0) 6 ++
  Consume 1 :: Return 1 :: emits (TQueue 0) 7 ++ [Return 0; Destroy; Destroy; Destroy;
  Consume 1; Return 1; Consume 1; Return 1; Destroy; Destroy; Destroy].
Example C81_outcome_hypotheses_met :
  runnable chain chain_f ∧ runnable chain chain_g ∧ (∀ x, x ∈ leaves chain_f ↔ x ∈ leaves chain_g) ∧
  (∀ x y, wired chain_f x y ↔ wired chain_g x y) ∧
  (∀ x, x ∈ leaves chain_f → declared chain x) ∧ (∀ x, x ∈ leaves chain_f → all_calls chain is_emit x) ∧
  (∀ x1 x2 y, wired chain_f x1 y → wired chain_f x2 y → x1 = x2).
Proof.
  assert (∀ x, x ∈ leaves chain_f → x = 0 ∨ x = 1 ∨ x = 2) as L by (simpl; set_solver).
  split; [|split; [|split; [|split; [|split; [|split]]]]].
  - split; [|split; [done|split; [done|split; [|]]]]; simpl; [|repeat constructor; set_solver..].
    split; [done|]. split; [|split; [done|set_solver]]. split; [done|]. split; [done|]. split; [done|]. set_solver.
  - split; [|split; [done|split; [done|split; [|]]]]; simpl; [|repeat constructor; set_solver..].
    split; [|split; [done|split; [done|set_solver]]]. split; [done|]. split; [done|]. split; [done|]. set_solver.
  - simpl. set_solver.
  - intros x y. split; intros (q&F&G); exists q; simpl in *; set_solver.
  - intros x X. apply L in X as [-> |[-> | ->]]; (split; [|split]; [|intros ? ?|intros ?]; simpl; calls).
  - intros x X. apply L in X as [-> |[-> | ->]]; (split; [|split]; [|intros ? ?|intros ?]; simpl; calls).
  - intros x1 x2 y (q1&F1&G1) (q2&F2&G2). simpl in *. set_solver.
Qed.
Example C81_two_runs_example :
  match run chain chain_f chain_run1 (initial chain chain_f), run chain chain_g chain_run2 (initial chain chain_g) with
  | Some (tr1, s1), Some (tr2, s2) => finished s1 ∧ finished s2 ∧ length tr1 = length tr2 ∧ tr1 !! 2 ≠ tr2 !! 2 ∧
      (received 2 tr1).*2 = [Msg 9 1; Msg 9 0; Msg 9 2; Msg 9 1] ∧ received 2 tr2 = received 2 tr1
  | _, _ => False
  end.
Proof. vm_compute. repeat split. intros [=]. Qed.

Print Assumptions C81_one_receiver.
Print Assumptions C81_exactly_once_in_order.
Print Assumptions C81_prefix_at_any_time.
Print Assumptions C81_no_spurious_error.
Print Assumptions C81_outcome_depends_on_the_wires_only.
Print Assumptions C81_concurrent_emit_refuted.
Print Assumptions C82_no_use_after_destruction.
Print Assumptions C82_join_is_never_stuck.
Print Assumptions C82_join_returns.
Print Assumptions C82_same_timestamp_refuted.
Print Assumptions C82_schedule_ahead_refuted.
