(** Property C36: the clock. *)
From stdpp Require Import list sorting.
From Coq Require Import ZArith Lia.
From Verif Require Import Time_Model.

(** The value returned by the call that thread [t] makes last in [h]. *)
Definition returned (h : list event) : list Z :=
  omap (λ e, match e with Return _ us => Some us | Call _ => None end) h.

(** Values returned before the last [Call t] in the history. *)
Fixpoint before_last_call (t : nat) (h : list event) (* reversed *) : list event :=
  match h with
  | [] => []
  | Call t' :: rest => if decide (t' = t) then rest else before_last_call t rest
  | Return _ _ :: rest => before_last_call t rest
  end.

Record inv (s : clock) : Prop := Inv {
  inv_returned : ∀ us, us ∈ returned (history s) → (us <= monotonic_now_us s)%Z;
  inv_nodup : NoDup (returned (history s));
  inv_prev : ∀ t now prev, pcs s t = HasPrevious now prev → (prev < now)%Z;
  inv_done : ∀ t now, pcs s t = Done now →
     (now <= monotonic_now_us s)%Z ∧ now ∉ returned (history s) ∧
     ∀ us, us ∈ returned (before_last_call t (rev (history s))) → (us < now)%Z;
  inv_distinct : ∀ t t' now, pcs s t = Done now → pcs s t' = Done now → t = t'
}.

Lemma returned_app h1 h2 : returned (h1 ++ h2) = returned h1 ++ returned h2.
Proof. unfold returned. induction h1 as [|[]]; simpl; [done|done|by f_equal]. Qed.

Lemma before_sub t h us : us ∈ returned (before_last_call t h) → us ∈ returned h.
Proof.
  induction h as [|[t'|t' us'] h IH]; simpl; [done| |].
  - destruct (decide (t' = t)); auto.
  - intros H. apply elem_of_list_further. auto.
Qed.
Lemma returned_rev h us : us ∈ returned (rev h) ↔ us ∈ returned h.
Proof.
  induction h as [|e h IH]; simpl; [done|]. rewrite returned_app, elem_of_app, IH.
  destruct e as [t|t us']; simpl; rewrite ?elem_of_nil, ?elem_of_cons, ?elem_of_nil; naive_solver.
Qed.

Lemma set_pc_same t p f : set_pc t p f t = p.
Proof. unfold set_pc. by destruct (decide (t = t)). Qed.
Lemma set_pc_other t t' p f : t' ≠ t → set_pc t p f t' = f t'.
Proof. unfold set_pc. by destruct (decide (t' = t)). Qed.

Ltac pc_case t t0 := destruct (decide (t0 = t)) as [->|?]; [rewrite set_pc_same in *|rewrite set_pc_other in * by done].

Lemma inv_init : inv clock_init.
Proof. split; simpl; try done; [by intros us ?%elem_of_nil|constructor]. Qed.

Lemma inv_step s s' : inv s → step s s' → inv s'.
Proof.
  intros [I1 I2 I3 I4 I5] Hs.
  destruct Hs as [t s Ht|t s z Ht|t s z Ht prev adj|t s now prev Ht Em|t s now prev Ht Em|t s now Ht].
  - split; simpl.
    + rewrite returned_app. simpl. rewrite app_nil_r. done.
    + rewrite returned_app. simpl. by rewrite app_nil_r.
    + intros t0 now prev. pc_case t t0; [done|apply I3].
    + intros t0 now. pc_case t t0; [done|]. intros Hd. rewrite returned_app. simpl. rewrite app_nil_r.
      destruct (I4 _ _ Hd) as (?&?&?). split_and!; [done|done|].
      rewrite rev_app_distr. simpl. by destruct (decide (t = t0)).
    + intros t0 t1 now. pc_case t t0; [done|]. pc_case t t1; [done|]. apply I5.
  - split; simpl; try done.
    + intros t0 now prev. pc_case t t0; [done|apply I3].
    + intros t0 now. pc_case t t0; [done|apply I4].
    + intros t0 t1 now. pc_case t t0; [done|]. pc_case t t1; [done|]. apply I5.
  - split; simpl; try done.
    + intros t0 now p. pc_case t t0; [|apply I3]. intros [= <- <-]. unfold adj.
      destruct (decide _); lia.
    + intros t0 now. pc_case t t0; [done|apply I4].
    + intros t0 t1 now. pc_case t t0; [done|]. pc_case t t1; [done|]. apply I5.
  - pose proof (I3 _ _ _ Ht) as Hlt. split; simpl; try done.
    + intros us Hus. specialize (I1 us Hus). lia.
    + intros t0 n p. pc_case t t0; [done|apply I3].
    + intros t0 n. pc_case t t0.
      * intros [= <-]. split_and!; [lia| |].
        -- intros Hin. specialize (I1 _ Hin). lia.
        -- intros us Hus%before_sub. rewrite returned_rev in Hus. specialize (I1 _ Hus). lia.
      * intros Hd. destruct (I4 _ _ Hd) as (?&?&?). split_and!; [lia|done|done].
    + intros t0 t1 n. pc_case t t0; pc_case t t1; [done| | |apply I5].
      * intros [= <-] Hd. destruct (I4 _ _ Hd) as (?&?&?). lia.
      * intros Hd [= <-]. destruct (I4 _ _ Hd) as (?&?&?). lia.
  - split; simpl; try done.
    + intros t0 n p. pc_case t t0; [done|apply I3].
    + intros t0 n. pc_case t t0; [done|apply I4].
    + intros t0 t1 n. pc_case t t0; [done|]. pc_case t t1; [done|]. apply I5.
  - destruct (I4 _ _ Ht) as (H1 & H2 & H3). split; simpl.
    + intros us. rewrite returned_app, elem_of_app. simpl. rewrite elem_of_list_singleton. intros [?| ->]; auto.
    + rewrite returned_app. simpl. apply NoDup_app. split_and!; [done| |by apply NoDup_singleton].
      intros us Hus ->%elem_of_list_singleton. done.
    + intros t0 n p. pc_case t t0; [done|apply I3].
    + intros t0 n. pc_case t t0; [done|]. intros Hd. destruct (I4 _ _ Hd) as (?&?&?).
      split_and!; [done| |].
      * rewrite returned_app, elem_of_app. simpl. rewrite elem_of_list_singleton. intros [?| ->]; [done|].
        by apply (I5 _ _ _ Ht) in Hd.
      * rewrite rev_app_distr. simpl. done.
    + intros t0 t1 n. pc_case t t0; [done|]. pc_case t t1; [done|]. apply I5.
Qed.

Lemma reachable_inv s : reachable s → inv s.
Proof. induction 1; [apply inv_init|by eapply inv_step]. Qed.

(** If a call returned [us] before another call (of any thread) started, the
    later one returns a strictly greater value, whatever the system clock reads
    and however the threads interleave. *)
Definition ordered (h : list event) : Prop :=
  ∀ h1 t us h2 t' h3 us' h4,
    h = h1 ++ Return t us :: h2 ++ Call t' :: h3 ++ Return t' us' :: h4 →
    (∀ us'', Return t' us'' ∉ h3) → Call t' ∉ h3 → (us < us')%Z.

Lemma before_last_call_at t pre mid : (Call t ∉ mid) →
  before_last_call t (rev (pre ++ Call t :: mid)) = rev pre.
Proof.
  intros Hm. rewrite rev_app_distr. simpl. rewrite <- app_assoc. simpl.
  assert (Hm' : Call t ∉ rev mid) by by rewrite elem_of_list_In, <- in_rev, <- elem_of_list_In.
  revert Hm'. generalize (rev mid). clear. induction l as [|[t'|t' us] l IH]; simpl; intros Hm.
  - by destruct (decide (t = t)).
  - destruct (decide (t' = t)) as [->|]; [exfalso; apply Hm; left|]. apply IH. intros ?. apply Hm. by right.
  - apply IH. intros ?. apply Hm. by right.
Qed.

Theorem C36_now_strictly_increasing s : reachable s → ordered (history s).
Proof.
  intros Hr. induction Hr as [|s s' Hr IH Hs].
  - intros h1 t us h2 t' h3 us' h4 E. by destruct h1.
  - destruct (reachable_inv _ Hr) as [I1 I2 I3 I4 I5].
    assert (Hsnoc : ∀ e : event, ordered (history s) →
       (∀ t us, e = Return t us → ∀ u, u ∈ returned (before_last_call t (rev (history s))) → (u < us)%Z) →
       ordered (history s ++ [e])).
    { clear. intros e Ho He h1 t us h2 t' h3 us' h4 E Hr Hc.
      destruct h4 as [|x h4 _] using rev_ind.
      - assert (history s = h1 ++ Return t us :: h2 ++ Call t' :: h3 ∧ e = Return t' us') as Hboth.
        { replace (h1 ++ Return t us :: h2 ++ Call t' :: h3 ++ [Return t' us']) with
            ((h1 ++ Return t us :: h2 ++ Call t' :: h3) ++ [Return t' us']) in E.
          - by apply app_inj_tail in E.
          - rewrite <- app_assoc. simpl. by rewrite <- app_assoc. }
        destruct Hboth as [Eh ->]. apply (He _ _ eq_refl). rewrite Eh.
        replace (h1 ++ Return t us :: h2 ++ Call t' :: h3) with ((h1 ++ Return t us :: h2) ++ Call t' :: h3)
          by (by rewrite <- app_assoc).
        rewrite before_last_call_at by done. rewrite returned_rev, returned_app. simpl.
        apply elem_of_app. right. left.
      - replace (h1 ++ Return t us :: h2 ++ Call t' :: h3 ++ Return t' us' :: h4 ++ [x]) with
            ((h1 ++ Return t us :: h2 ++ Call t' :: h3 ++ Return t' us' :: h4) ++ [x]) in E.
        2:{ rewrite <- app_assoc. simpl. rewrite <- app_assoc. simpl. by rewrite <- app_assoc. }
        apply app_inj_tail in E as [E _]. by eapply Ho. }
    destruct Hs; simpl; try done.
    + by apply Hsnoc.
    + apply Hsnoc; [done|]. intros t0 us [= <- <-]. by apply I4.
Qed.

(** No two calls ever return the same value. *)
Theorem C36_now_never_repeats s : reachable s → NoDup (returned (history s)).
Proof. intros H. by apply reachable_inv. Qed.

(** Non-vacuity: an executable schedule.  [Tick t (Some us)] makes thread [t] take
    its next step, reading [us] if that step reads the system clock. *)
Definition tick (t : nat) (us : Z) (s : clock) : clock :=
  match pcs s t with
  | Idle => Clock (monotonic_now_us s) (set_pc t Entered (pcs s)) (history s ++ [Call t])
  | Entered => Clock (monotonic_now_us s) (set_pc t (HasClock us) (pcs s)) (history s)
  | HasClock now =>
      let prev := monotonic_now_us s in
      Clock prev (set_pc t (HasPrevious (if decide (now > prev)%Z then now else (prev + 1)%Z) prev) (pcs s)) (history s)
  | HasPrevious now prev =>
      if decide (monotonic_now_us s = prev) then Clock now (set_pc t (Done now) (pcs s)) (history s)
      else Clock (monotonic_now_us s) (set_pc t Entered (pcs s)) (history s)
  | Done now => Clock (monotonic_now_us s) (set_pc t Idle (pcs s)) (history s ++ [Return t now])
  end.
Lemma tick_step t us s : step s (tick t us s).
Proof.
  unfold tick. destruct (pcs s t) eqn:E; try (by econstructor).
  destruct (decide _); by econstructor.
Qed.
Lemma ticks_reachable l : reachable (fold_left (λ s p, tick p.1 p.2 s) l clock_init).
Proof.
  induction l as [|x l IH] using rev_ind; [constructor|]. rewrite fold_left_app. simpl.
  eapply r_step; [exact IH|apply tick_step].
Qed.

(** Two threads race, the first loses its compare-exchange, the system clock goes
    back; the values returned are 100, 101, 102. *)
Definition ex_schedule : list (nat * Z) :=
  [(0%nat, 0); (1%nat, 0); (0%nat, 90); (0%nat, 0); (1%nat, 100); (1%nat, 0); (1%nat, 0); (1%nat, 0); (1%nat, 0);
   (0%nat, 0); (0%nat, 50); (0%nat, 0); (0%nat, 0); (1%nat, 7); (1%nat, 0); (1%nat, 0); (0%nat, 0); (1%nat, 0)]%Z.
Example C36_example :
  ∃ s, reachable s ∧ history s = [Call 0; Call 1; Return 1 100; Call 1; Return 0 101; Return 1 102]%Z.
Proof. eexists. split; [apply (ticks_reachable ex_schedule)|]. vm_compute. reflexivity. Qed.

(** The mock clock (test builds) never goes back ... *)
Inductive mock_op := MNow | MSet (us max_us : Z).
Fixpoint mock_run (ops : list mock_op) (m : mock) : list Z :=
  match ops with
  | [] => []
  | MNow :: rest => let (us, m') := mock_now m in us :: mock_run rest m'
  | MSet us max_us :: rest =>
      match mock_set_now us max_us m with Some m' => mock_run rest m' | None => mock_run rest m end
  end.

Theorem C36_mock_never_decreases ops m :
  StronglySorted Z.le (mock_run ops m) ∧ Forall (Z.le (mock_now_value m)) (mock_run ops m).
Proof.
  revert m. induction ops as [|[|us max_us] ops IH]; intros m; simpl.
  - split; constructor.
  - destruct (IH (mock_now m).2) as [H1 H2]. unfold mock_now in *. simpl in *.
    assert (Hge : (mock_now_value m <= mock_now_value
      (if decide (mock_now_value m < max_mock_now_value m)%Z
       then Mock (mock_now_value m + 1) (max_mock_now_value m) else m))%Z) by (destruct (decide _); simpl; lia).
    split.
    + constructor; [done|]. eapply Forall_impl; [exact H2|]. simpl. lia.
    + constructor; [lia|]. eapply Forall_impl; [exact H2|]. simpl. lia.
  - unfold mock_set_now. destruct (decide _) as [Hle|]; [|apply IH].
    destruct (IH (Mock us max_us)) as [H1 H2]. split; [done|]. simpl in H2.
    eapply Forall_impl; [exact H2|]. simpl. lia.
Qed.

(** ... but it does repeat once it reaches its maximum (SetNow's default maximum
    is 0, so it repeats at once). *)
Theorem C36_mock_strictly_increasing_refuted :
  ¬ (∀ ops m, StronglySorted Z.lt (mock_run ops m)).
Proof.
  intros H. specialize (H [MSet 5 0; MNow; MNow] (Mock 0 0)). vm_compute in H.
  inversion H as [|? ? ? Hf]; subst. inversion Hf as [|? ? Hlt]; subst. discriminate.
Qed.

Print Assumptions C36_now_strictly_increasing.
Print Assumptions C36_now_never_repeats.
Print Assumptions C36_mock_never_decreases.
