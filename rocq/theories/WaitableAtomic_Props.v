(** Property C53. *)
From stdpp Require Import list.
From Verif Require Import WaitableAtomic_Model WaitableAtomic_Spec.

Section Props.
  Context {D : Type}.
  Implicit Types s : wa D.

  Definition counted (x : client) : Prop := x = Increased ∨ x = Registered.
  Definition own (d : destructor) : nat := match d with NotStarted | FlagSet => 1 | _ => 0 end.
  Record inv s : Prop := Inv {
    iflag : destructing s = true ↔ dtor s ≠ NotStarted;
    icount : ∃ l, NoDup l ∧ (∀ c, c ∈ l ↔ counted (clients s c)) ∧ ref_count s = own (dtor s) + length l;
    isleep : dtor s = Sleeping → 0 < ref_count s ∨ ∃ c, clients s c = Decreased;
    igone : dtor s = Destroyed → ref_count s = 0 }.

  Lemma upd_eq {A} (f : nat → A) i x : upd f i x i = x.
  Proof. unfold upd. by rewrite decide_True. Qed.
  Lemma upd_ne {A} (f : nat → A) i j x : j ≠ i → upd f i x j = f j.
  Proof. unfold upd. intros. by rewrite decide_False. Qed.

  Lemma count_add s c x (n : list nat) : NoDup n → (∀ c, c ∈ n ↔ counted (clients s c)) → ¬ counted (clients s c) → counted x →
    NoDup (c :: n) ∧ ∀ d, d ∈ c :: n ↔ counted (upd (clients s) c x d).
  Proof.
    intros H1 H2 H3 H4. split. { constructor; [by rewrite H2|done]. }
    intros d. rewrite elem_of_cons, H2. destruct (decide (d = c)) as [->|Hn]; [rewrite upd_eq|rewrite upd_ne by done]; naive_solver.
  Qed.
  Lemma count_same s c x (n : list nat) : (∀ c, c ∈ n ↔ counted (clients s c)) → (counted (clients s c) ↔ counted x) →
    ∀ d, d ∈ n ↔ counted (upd (clients s) c x d).
  Proof. intros H2 H3 d. rewrite H2. destruct (decide (d = c)) as [->|Hn]; [rewrite upd_eq|rewrite upd_ne by done]; naive_solver. Qed.
  Lemma count_del s c x (n : list nat) : NoDup n → (∀ c, c ∈ n ↔ counted (clients s c)) → counted (clients s c) → ¬ counted x →
    ∃ n', NoDup n' ∧ (∀ d, d ∈ n' ↔ counted (upd (clients s) c x d)) ∧ length n = S (length n').
  Proof.
    intros H1 H2 H3 H4. apply H2 in H3. apply elem_of_list_split in H3 as (a & b & ->).
    apply NoDup_app in H1 as (Ha & Hab & Hb). apply NoDup_cons in Hb as [Hc Hb].
    exists (a ++ b). split_and!.
    - apply NoDup_app. split_and!; [done| |done]. intros y Hy Hy'. apply (Hab y Hy). by right.
    - intros d. destruct (decide (d = c)) as [->|Hn]; [rewrite upd_eq|rewrite upd_ne by done].
      + split; [|done]. rewrite elem_of_app. intros [H|H]; [|done]. exfalso. apply (Hab c H). by left.
      + rewrite <- H2. rewrite !elem_of_app, elem_of_cons. naive_solver.
    - rewrite !app_length. simpl. lia.
  Qed.

  Lemma inv_init d : inv (initial d).
  Proof. constructor; simpl; try done. exists []. split; [constructor|]. split; [|done]. intros c. split; [by intros ?%elem_of_nil|by intros [?|?]]. Qed.

  Lemma inv_step s a s' : inv s → exec s a = Some s' → inv s'.
  Proof.
    intros [If Ic Is Ig] H. destruct a as [u un|un|t p un|t|t|c|c|c|c| |]; cbn [exec] in H.
    - destruct (u (data s)) as [d b]. injection H as <-. by constructor.
    - injection H as <-. by constructor.
    - destruct (waits s t); try done; injection H as <-; by constructor.
    - destruct (waits s t); try done; injection H as <-; by constructor.
    - destruct (waits s t); try done; injection H as <-; by constructor.
    - assert (¬ counted (clients s c)) as Hn. { intros [E|E]; rewrite E in H; done. }
      assert (clients s c ≠ Decreased) as Hd. { intros E; rewrite E in H; done. }
      assert (Some (if destructing s then with_client s (ref_count s) c Refused else with_client s (ref_count s + 1) c Increased) = Some s') as H'.
      { destruct (clients s c); try done. }
      clear H. injection H' as <-. destruct Ic as (l & L1 & L2 & L3). destruct (destructing s) eqn:Ed.
      + constructor; cbn; rewrite ?Ed; try done.
        * exists l. split; [done|]. split; [|done]. apply count_same; [done|]. split; [done|]. intros [?|?]; done.
        * intros E. destruct (Is E) as [?|[d Hdd]]; [by left|right]. exists d. rewrite upd_ne; [done|]. by intros ->.
      + constructor; cbn; rewrite ?Ed; try done.
        * exists (c :: l). destruct (count_add s c Increased l) as [? ?]; try done; [by left|]. split_and!; try done. simpl. lia.
        * intros E. left. lia.
        * intros E. destruct If as [_ If]. rewrite E in If. specialize (If ltac:(done)). done.
    - destruct (clients s c) eqn:Ec; try done. injection H as <-. destruct Ic as (l & L1 & L2 & L3). constructor; cbn.
      + rewrite If. destruct (dtor s); cbn; naive_solver.
      + exists l. split; [done|]. split; [apply count_same; [done|]; rewrite Ec; unfold counted; naive_solver|]. rewrite L3. by destruct (dtor s).
      + intros E. destruct (dtor s) eqn:Edt; try done.
      + intros E. apply Ig. by destruct (dtor s).
    - destruct (clients s c) eqn:Ec; try done. injection H as <-. destruct Ic as (l & L1 & L2 & L3).
      destruct (count_del s c Decreased l) as (l' & N1 & N2 & N3); try done. { rewrite Ec. by right. } { by intros [?|?]. }
      constructor; cbn; try done.
      + exists l'. split_and!; try done. lia.
      + intros E. right. exists c. apply upd_eq.
      + intros E. rewrite (Ig E). done.
    - destruct (clients s c) eqn:Ec; try done. injection H as <-. destruct Ic as (l & L1 & L2 & L3). constructor; cbn.
      + rewrite If. destruct (dtor s); cbn; naive_solver.
      + exists l. split; [done|]. split; [apply count_same; [done|]; rewrite Ec; unfold counted; naive_solver|]. rewrite L3. by destruct (dtor s).
      + intros E. destruct (dtor s) eqn:Edt; try done.
      + intros E. apply Ig. by destruct (dtor s).
    - destruct Ic as (l & L1 & L2 & L3). unfold destruct_step in H. destruct (dtor s) eqn:Ed; try done; injection H as <-; constructor; cbn; try done.
      + by exists l.
      + destruct If as [_ If]. by rewrite If.
      + exists l. split_and!; try done. rewrite L3. simpl. lia.
      + destruct If as [_ If]. by rewrite If.
      + by exists l.
      + destruct If as [_ If]. by rewrite If.
      + by exists l.
      + destruct If as [_ If]. rewrite If by done. by destruct (decide _).
      + exists l. destruct (decide _); done.
      + destruct (decide _); [done|]. intros _. left. lia.
      + by destruct (decide _).
      + destruct If as [_ If]. rewrite If by done. by destruct (decide _).
      + exists l. destruct (decide _); done.
      + destruct (decide _); [done|]. intros _. left. lia.
      + by destruct (decide _).
    - destruct (dtor s) eqn:Ed; try done. injection H as <-. constructor; cbn; try done. by destruct If as [_ If]; rewrite If.
  Qed.
  Lemma reachable_inv ok s : reachable ok s → inv s.
  Proof. induction 1; [apply inv_init|]. by eapply inv_step. Qed.

  (** ** No wake-up is lost *)
  Definition sleepers_ok s : Prop := ∀ t p u, waits s t = Asleep p u → destructing s = false ∧ p (data s) = false.
  Lemma wake_all_not_asleep (w : nat → wait_call D) t p u : wake_all w t = Asleep p u → False.
  Proof. unfold wake_all. by destruct (w t). Qed.
  Lemma sleepers_step s a s' : sleepers_ok s → honest_action a → exec s a = Some s' → sleepers_ok s'.
  Proof.
    intros I Hh H t0 p0 u0. destruct a as [u un|un|t p un|t|t|c|c|c|c| |]; cbn [exec] in H.
    - pose proof (Hh (data s)) as Hu. destruct (u (data s)) as [d b] eqn:E. injection H as <-. cbn. destruct b; [by intros ?%wake_all_not_asleep|].
      cbn in Hu. rewrite Hu by done. apply I.
    - injection H as <-. cbn. by intros ?%wake_all_not_asleep.
    - assert (∀ (w : wait_call D), (∀ q v, w = Asleep q v → destructing s = false ∧ q (data s) = false) →
        waits (with_wait s t w) t0 = Asleep p0 u0 → destructing s = false ∧ p0 (data s) = false) as A.
      { intros w Hw. cbn. destruct (decide (t0 = t)) as [->|Hn]; [rewrite upd_eq; apply Hw|rewrite upd_ne by done; apply I]. }
      destruct (waits s t); try done; injection H as <-; apply A; intros q v; destruct (destructing s) eqn:Ed; try done; destruct (p (data s)) eqn:Ep; try done; intros [= <- <-]; done.
    - destruct (waits s t); try done; injection H as <-. cbn. destruct (decide (t0 = t)) as [->|Hn]; [by rewrite upd_eq|rewrite upd_ne by done; apply I].
    - destruct (waits s t) as [|q v|q v|]; try done; injection H as <-. cbn. destruct (decide (t0 = t)) as [->|Hn]; [rewrite upd_eq|rewrite upd_ne by done; apply I].
      destruct (destructing s) eqn:Ed; [done|]. cbn. destruct (q (data s)) eqn:Ep; [done|]. by intros [= <- <-].
    - destruct (clients s c); try done; injection H as <-; destruct (destructing s); cbn; apply I.
    - destruct (clients s c); try done; injection H as <-; apply I.
    - destruct (clients s c); try done; injection H as <-; apply I.
    - destruct (clients s c); try done; injection H as <-; apply I.
    - unfold destruct_step in H. destruct (dtor s) eqn:Ed; try done; injection H as <-; cbn; try apply I. by intros ?%wake_all_not_asleep.
    - destruct (dtor s) eqn:Ed; try done; injection H as <-; cbn; apply I.
  Qed.
  Lemma reachable_sleepers s : reachable (λ _ a, honest_action a) s → sleepers_ok s.
  Proof. induction 1; [by intros t p u|]. by eapply sleepers_step. Qed.

  (** At every moment, a thread inside Wait(p) while [p] holds, or while the object is being destroyed, is runnable, and if it
      runs now it returns: true if the object is not being destroyed. *)
  Theorem C53_no_lost_wakeup : ∀ s t p, reachable (λ _ a, honest_action a) s → in_wait s t p → p (data s) = true ∨ destructing s = true →
    ∃ s', exec s (Resume t) = Some s' ∧ waits s' t = Returned (negb (destructing s)) ∧ data s' = data s.
  Proof.
    intros s t p H%reachable_sleepers [u [Hw|Hw]] Hp. { destruct (H _ _ _ Hw) as [E1 E2]. rewrite E1, E2 in Hp. by destruct Hp. }
    cbn [exec]. rewrite Hw. eexists. split; [done|]. cbn. rewrite upd_eq. split; [|done].
    assert (destructing s || p (data s) = true) as -> by (destruct Hp as [->| ->]; [by rewrite orb_true_r|done]). done.
  Qed.

  (** Wait returns true only at a moment at which the predicate holds and destruction has not begun, and false only after it has. *)
  Theorem C53_result : ∀ s a s' t b, exec s a = Some s' → waits s t ≠ Returned b → waits s' t = Returned b →
    ∃ p, (in_wait s t p ∨ ∃ u, a = Wait t p u) ∧ (b = true → p (data s) = true ∧ destructing s = false) ∧ (b = false → destructing s = true).
  Proof.
    intros s a s' t0 b0 H Hn H'.
    assert (∀ w : nat → wait_call D, wake_all w t0 = Returned b0 → w t0 = Returned b0) as Hwake by (intros w; unfold wake_all; by destruct (w t0)).
    destruct a as [u un|un|t p un|t|t|c|c|c|c| |]; cbn [exec] in H.
    - destruct (u (data s)) as [d b]. injection H as <-. cbn in H'. destruct b; [apply Hwake in H'|]; done.
    - injection H as <-. by apply Hwake in H'.
    - destruct (decide (t0 = t)) as [->|Hne].
      + exists p. split; [by right; exists un|].
        assert (waits s' t = if destructing s then Returned false else if p (data s) then Returned (negb (destructing s)) else Asleep p un) as E.
        { destruct (waits s t); try done; injection H as <-; cbn; by rewrite upd_eq. }
        rewrite E in H'. destruct (destructing s); [injection H' as <-; done|]. destruct (p (data s)); [|done]. injection H' as <-; done.
      + destruct (waits s t); try done; injection H as <-; cbn in H'; by rewrite upd_ne in H'.
    - destruct (waits s t); try done; injection H as <-. cbn in H'. destruct (decide (t0 = t)) as [->|Hne]; [by rewrite upd_eq in H'|by rewrite upd_ne in H'].
    - destruct (waits s t) as [|q v|q v|] eqn:Ew; try done; injection H as <-. cbn in H'. destruct (decide (t0 = t)) as [->|Hne]; [rewrite upd_eq in H'|by rewrite upd_ne in H'].
      exists q. split; [by left; exists v; right|]. destruct (destructing s); cbn in *; [injection H' as <-; done|]. destruct (q (data s)); [injection H' as <-; done|done].
    - destruct (clients s c); try done; injection H as <-; destruct (destructing s); cbn in H'; done.
    - destruct (clients s c); try done; injection H as <-; done.
    - destruct (clients s c); try done; injection H as <-; done.
    - destruct (clients s c); try done; injection H as <-; done.
    - unfold destruct_step in H. destruct (dtor s) eqn:Ed; try done; injection H as <-; try done. cbn in H'. by apply Hwake in H'.
    - destruct (dtor s) eqn:Ed; try done; injection H as <-; done.
  Qed.

  (** Under a fair scheduler a thread inside Wait(p) returns true if [p] holds from some moment on and the object is not destroyed,
      and false if it is. *)
  Lemma awake_stays s a s' t p u : exec s a = Some s' → waits s t = Awake p u → a ≠ Resume t → waits s' t = Awake p u.
  Proof.
    intros H Hw Ha. destruct a as [f un|un|t1 p1 un|t1|t1|c|c|c|c| |]; cbn [exec] in H.
    - destruct (f (data s)) as [d b]. injection H as <-. cbn. unfold wake_all. destruct b; by rewrite Hw.
    - injection H as <-. cbn. unfold wake_all. by rewrite Hw.
    - destruct (decide (t1 = t)) as [->|Hne]; [by rewrite Hw in H|]. destruct (waits s t1); try done; injection H as <-; cbn; by rewrite upd_ne.
    - destruct (decide (t1 = t)) as [->|Hne]; [by rewrite Hw in H|]. destruct (waits s t1); try done; injection H as <-; cbn; by rewrite upd_ne.
    - destruct (decide (t1 = t)) as [->|Hne]; [done|]. destruct (waits s t1); try done; injection H as <-; cbn; by rewrite upd_ne.
    - destruct (clients s c); try done; injection H as <-; destruct (destructing s); done.
    - destruct (clients s c); try done; injection H as <-; done.
    - destruct (clients s c); try done; injection H as <-; done.
    - destruct (clients s c); try done; injection H as <-; done.
    - unfold destruct_step in H. destruct (dtor s) eqn:Ed; try done; injection H as <-; try done. cbn. unfold wake_all. by rewrite Hw.
    - destruct (dtor s) eqn:Ed; try done; injection H as <-; done.
  Qed.
  Lemma run_reachable run acts (ok : wa D → action D → Prop) : execution run acts → (∀ n a, acts n = Some a → ok (run n) a) → ∀ n, reachable ok (run n).
  Proof.
    intros [[d S0] F] Hok n. induction n as [|n IH]; [rewrite S0; constructor|]. specialize (F n). destruct (acts n) as [a|] eqn:E.
    - eapply reach_step; [done| |done]. by apply Hok.
    - by rewrite F.
  Qed.
  Theorem C53_wait_returns : ∀ (run : nat → wa D) (acts : nat → option (action D)) (n t : nat) (p : D → bool),
    execution run acts → (∀ m a, acts m = Some a → honest_action a) → wait_fair run acts →
    in_wait (run n) t p → (∀ m, n ≤ m → p (data (run m)) = true ∨ destructing (run m) = true) →
    ∃ m u, n ≤ m ∧ waits (run m) t = Awake p u ∧
         waits (run (S m)) t = Returned (negb (destructing (run m))).
  Proof.
    intros run acts n t p HE Hh Hf Hw Hp. pose proof (run_reachable run acts (λ _ a, honest_action a) HE (λ m a, Hh m a)) as HR.
    assert (∃ u, waits (run n) t = Awake p u) as [u Ha].
    { destruct Hw as [u [Hw|Hw]]; [|by exists u]. destruct (reachable_sleepers _ (HR n) _ _ _ Hw) as [E1 E2]. destruct (Hp n (Nat.le_refl n)) as [E|E]; congruence. }
    destruct (Hf t n p u Ha) as (m & Hm & Hr).
    remember (m - n) as k eqn:Ek. revert n Hw Hp Ha Hm Ek. induction k as [|k IH]; intros n Hw Hp Ha Hm Ek.
    - assert (m = n) as -> by lia. exists n, u. split_and!; [done|done|]. destruct HE as [_ F]. specialize (F n). rewrite Hr in F. cbn [exec] in F. rewrite Ha in F.
      injection F as <-. cbn. rewrite upd_eq. assert (destructing (run n) || p (data (run n)) = true) as -> by (destruct (Hp n (Nat.le_refl n)) as [->| ->]; [by rewrite orb_true_r|done]). done.
    - assert (∀ w, waits (run (S n)) t = w → (w = Awake p u ∨ w = Returned (negb (destructing (run n)))) →
              ∃ m u, n ≤ m ∧ waits (run m) t = Awake p u ∧ waits (run (S m)) t = Returned (negb (destructing (run m)))) as A.
      { intros w Ew [->| ->].
        - destruct (IH (S n)) as (m' & u' & ? & ?); [by exists u; right|intros; apply Hp; lia|done|lia|lia|]. exists m', u'. split; [lia|done].
        - exists n, u. by split_and!. }
      destruct HE as [_ F]. specialize (F n). destruct (acts n) as [a|] eqn:Ea.
      + assert (a = Resume t ∨ a ≠ Resume t) as [->|Hne]. { destruct a as [| | | |t'| | | | | |]; try (right; done). destruct (decide (t' = t)) as [->|]; [by left|right; congruence]. }
        * eapply A; [done|]. right. cbn [exec] in F. rewrite Ha in F. injection F as <-. cbn. rewrite upd_eq.
          assert (destructing (run n) || p (data (run n)) = true) as -> by (destruct (Hp n (Nat.le_refl n)) as [->| ->]; [by rewrite orb_true_r|done]). done.
        * eapply A; [done|]. left. by eapply awake_stays.
      + eapply A; [done|]. left. by rewrite F.
  Qed.

  (** The four ways of using the data notify whenever they change it; PotentiallyMutableUse, if the function tells the truth. *)
  Theorem C53_honest : ∀ (f : D → D) (v : D) (p : D → bool), honest (D := D) immutable_use ∧ honest (mutable_use f) ∧ honest (set_value v) ∧ honest (set_value_if p v).
  Proof. intros f v p. split_and!; intros d; cbn; try done. unfold set_value_if. by destruct (p d). Qed.

  (** ** Clients and destruction *)
  (** Destruction completes only when there is no client; a client which tries to register after it began is refused. *)
  Theorem C53_destroyed_without_clients : ∀ s ok c, reachable ok s → dtor s = Destroyed → clients s c ≠ Registered ∧ clients s c ≠ Increased.
  Proof.
    intros s ok c H%reachable_inv Hd. destruct (icount s H) as (l & _ & L2 & L3). rewrite (igone s H Hd), Hd in L3. cbn in L3. destruct l; [|done].
    split; intros E; assert (c ∈ @nil nat) as X by (apply L2; rewrite E; unfold counted; auto); by apply elem_of_nil in X.
  Qed.
  Theorem C53_no_registration_after_destruction_began : ∀ s ok c s', reachable ok s → dtor s ≠ NotStarted → exec s (Register c) = Some s' →
    clients s' c = Refused ∧ ref_count s' = ref_count s.
  Proof.
    intros s ok c s' H%reachable_inv Hd E. assert (destructing s = true) as Ed by (by apply (iflag s H)). cbn [exec] in E. rewrite Ed in E.
    destruct (clients s c); try done; injection E as <-; cbn; by rewrite upd_eq.
  Qed.
  (** The count is the number of the clients, plus one for the owner until the destructor gives it up: it never wraps around. *)
  Theorem C53_count : ∀ s ok, reachable ok s →
    ∃ l, NoDup l ∧ (∀ c, c ∈ l ↔ clients s c = Increased ∨ clients s c = Registered) ∧ ref_count s = own (dtor s) + length l.
  Proof. intros s ok H%reachable_inv. exact (icount s H). Qed.

  (** When all the clients are gone the destructor finishes. *)
  Definition next_dtor (d : destructor) : destructor :=
    match d with FlagSet => CountDecreased | CountDecreased => CountNotified | CountNotified => CallbackDone | _ => Destroyed end.
  Definition active (d : destructor) : Prop := d = FlagSet ∨ d = CountDecreased ∨ d = CountNotified ∨ d = CallbackDone ∨ d = Woken.
  Lemma dtor_stays s a s' : exec s a = Some s' → active (dtor s) → a ≠ Destruct → dtor s' = dtor s.
  Proof.
    intros H Ha Hn. destruct a as [f un|un|t1 p1 un|t1|t1|c|c|c|c| |]; cbn [exec] in H.
    - destruct (f (data s)) as [d b]. by injection H as <-.
    - by injection H as <-.
    - destruct (waits s t1); try done; by injection H as <-.
    - destruct (waits s t1); try done; by injection H as <-.
    - destruct (waits s t1); try done; by injection H as <-.
    - destruct (clients s c); try done; injection H as <-; by destruct (destructing s).
    - destruct (clients s c); try done; injection H as <-. cbn. destruct Ha as [->|[->|[->|[->| ->]]]]; done.
    - destruct (clients s c); try done; by injection H as <-.
    - destruct (clients s c); try done; injection H as <-. cbn. destruct Ha as [->|[->|[->|[->| ->]]]]; done.
    - done.
    - destruct (dtor s) eqn:Ed; try done. destruct Ha as [?|[?|[?|[?| ?]]]]; done.
  Qed.
  Definition no_clients s : Prop := ∀ c, clients s c ≠ Registered ∧ clients s c ≠ Increased.
  Lemma no_clients_count s : inv s → no_clients s → ref_count s = own (dtor s).
  Proof.
    intros H Hn. destruct (icount s H) as (l & _ & L2 & ->). destruct l as [|c l]; [simpl; lia|].
    assert (counted (clients s c)) as [E|E] by (apply L2; by left); destruct (Hn c); done.
  Qed.
  Lemma destruct_next s s' : inv s → no_clients s → active (dtor s) → destruct_step s = Some s' → dtor s' = next_dtor (dtor s).
  Proof.
    intros I Hn Ha H. pose proof (no_clients_count s I Hn) as Hc. unfold destruct_step in H.
    unfold active in Ha. destruct (dtor s) eqn:Ed; try naive_solver; injection H as <-; cbn in *; by rewrite Hc.
  Qed.
  Lemma dtor_advances run acts n : execution run acts → destructor_fair run acts → (∀ m, n ≤ m → no_clients (run m)) → active (dtor (run n)) →
    ∃ m, n ≤ m ∧ dtor (run m) = next_dtor (dtor (run n)).
  Proof.
    intros HE (Hf & _) Hn Ha. pose proof (run_reachable run acts (λ _ _, True) HE (λ _ _ _, I)) as HR.
    destruct (Hf n) as (m & Hm & Hd). 1-3: destruct Ha as [->|[->|[->|[->| ->]]]]; done.
    remember (m - n) as k eqn:Ek. revert n Hn Ha Hm Ek. induction k as [|k IH]; intros n Hn Ha Hm Ek.
    - assert (m = n) as -> by lia. exists (S n). split; [lia|]. destruct HE as [_ F]. specialize (F n). rewrite Hd in F.
      eapply destruct_next; [by eapply reachable_inv|by apply Hn|done|done].
    - assert (dtor (run (S n)) = dtor (run n) ∨ dtor (run (S n)) = next_dtor (dtor (run n))) as [E|E].
      { destruct HE as [_ F]. specialize (F n). destruct (acts n) as [a|] eqn:Ea; [|left; by rewrite F].
        assert (a = Destruct ∨ a ≠ Destruct) as [->|Hne] by (destruct a; auto; right; done).
        - right. eapply destruct_next; [by eapply reachable_inv|by apply Hn|done|done].
        - left. by eapply dtor_stays. }
      + destruct (IH (S n)) as (m' & ? & E'); [intros; apply Hn; lia|by rewrite E|lia|lia|]. exists m'. split; [lia|]. by rewrite E', E.
      + exists (S n). split; [lia|done].
  Qed.
  Lemma sleeping_wakes run acts n : execution run acts → destructor_fair run acts → (∀ m, n ≤ m → no_clients (run m)) → dtor (run n) = Sleeping →
    ∃ m, n ≤ m ∧ dtor (run m) = Woken.
  Proof.
    intros HE (_ & _ & Hf) Hn Hs. pose proof (run_reachable run acts (λ _ _, True) HE (λ _ _ _, I)) as HR.
    pose proof (reachable_inv _ _ (HR n)) as Hi. destruct (isleep _ Hi Hs) as [Hc|[c Hc]]. { rewrite (no_clients_count _ Hi (Hn n (Nat.le_refl n))), Hs in Hc. cbn in Hc. lia. }
    destruct (Hf n c Hc) as (m & Hm & Hd).
    remember (m - n) as k eqn:Ek. revert n Hn Hs Hm Ek Hi Hc. induction k as [|k IH]; intros n Hn Hs Hm Ek Hi Hc.
    - assert (m = n) as -> by lia. exists (S n). split; [lia|]. destruct HE as [_ F]. specialize (F n). rewrite Hd in F. cbn [exec] in F. rewrite Hc in F. injection F as <-. cbn. by rewrite Hs.
    - assert (dtor (run (S n)) = Woken ∨ dtor (run (S n)) = Sleeping ∧ clients (run (S n)) c = Decreased) as [E|[E E']].
      { destruct HE as [_ F]. specialize (F n). destruct (acts n) as [a|] eqn:Ea; [|right; by rewrite F]. clear IH Hd Ek. specialize (Hn n (Nat.le_refl n)).
        generalize dependent (run (S n)). intros s' F. destruct a as [f un|un|t1 p1 un|t1|t1|d|d|d|d| |]; cbn [exec] in F.
        - destruct (f (data (run n))) as [x b]. injection F as <-. by right.
        - injection F as <-. by right.
        - destruct (waits (run n) t1); try done; injection F as <-; by right.
        - destruct (waits (run n) t1); try done; injection F as <-; by right.
        - destruct (waits (run n) t1); try done; injection F as <-; by right.
        - destruct (decide (d = c)) as [->|Hne]; [by rewrite Hc in F|]. right. destruct (clients (run n) d); try done; injection F as <-; destruct (destructing (run n)); cbn; by rewrite upd_ne.
        - destruct (clients (run n) d) eqn:Ed; try done. destruct (Hn d); done.
        - destruct (clients (run n) d) eqn:Ed; try done. destruct (Hn d); done.
        - destruct (clients (run n) d) eqn:Ed; try done. injection F as <-. left. cbn. by rewrite Hs.
        - unfold destruct_step in F. by rewrite Hs in F.
        - rewrite Hs in F. injection F as <-. by left. }
      + exists (S n). split; [lia|done].
      + destruct (IH (S n)) as (m' & ? & ?); [intros; apply Hn; lia|done|lia|lia|by eapply reachable_inv|done|]. exists m'. split; [lia|done].
  Qed.
  Theorem C53_destructor_finishes : ∀ (run : nat → wa D) (acts : nat → option (action D)) (n : nat),
    execution run acts → destructor_fair run acts → dtor (run n) ≠ NotStarted →
    (∀ m c, n ≤ m → clients (run m) c ≠ Registered ∧ clients (run m) c ≠ Increased) → ∃ m, n ≤ m ∧ dtor (run m) = Destroyed.
  Proof.
    intros run acts n HE HF Hd Hn.
    assert (∀ n, (∀ m, n ≤ m → no_clients (run m)) → dtor (run n) = Woken → ∃ m, n ≤ m ∧ dtor (run m) = Destroyed) as W.
    { intros k Hk E. destruct (dtor_advances run acts k HE HF Hk) as (m & ? & E'); [rewrite E; unfold active; auto 6|]. exists m. split; [done|]. by rewrite E', E. }
    assert (∀ n, (∀ m, n ≤ m → no_clients (run m)) → dtor (run n) = CallbackDone → ∃ m, n ≤ m ∧ dtor (run m) = Destroyed) as W1.
    { intros k Hk E. destruct (dtor_advances run acts k HE HF Hk) as (m & ? & E'); [rewrite E; unfold active; auto 6|]. exists m. split; [done|]. by rewrite E', E. }
    assert (∀ n, (∀ m, n ≤ m → no_clients (run m)) → dtor (run n) = CountNotified → ∃ m, n ≤ m ∧ dtor (run m) = Destroyed) as W2.
    { intros k Hk E. destruct (dtor_advances run acts k HE HF Hk) as (m & ? & E'); [rewrite E; unfold active; auto 6|]. rewrite E in E'. destruct (W1 m) as (m' & ? & ?); [intros; apply Hk; lia|done|]. exists m'. split; [lia|done]. }
    assert (∀ n, (∀ m, n ≤ m → no_clients (run m)) → dtor (run n) = CountDecreased → ∃ m, n ≤ m ∧ dtor (run m) = Destroyed) as W3.
    { intros k Hk E. destruct (dtor_advances run acts k HE HF Hk) as (m & ? & E'); [rewrite E; unfold active; auto 6|]. rewrite E in E'. destruct (W2 m) as (m' & ? & ?); [intros; apply Hk; lia|done|]. exists m'. split; [lia|done]. }
    assert (∀ m, n ≤ m → no_clients (run m)) as Hn' by (intros m Hm c; by apply Hn).
    destruct (dtor (run n)) eqn:E; try done.
    - destruct (dtor_advances run acts n HE HF Hn') as (m & ? & E'); [rewrite E; unfold active; auto 6|]. rewrite E in E'. destruct (W3 m) as (m' & ? & ?); [intros; apply Hn'; lia|done|]. exists m'. split; [lia|done].
    - by apply W3.
    - by apply W2.
    - by apply W1.
    - destruct (sleeping_wakes run acts n HE HF Hn' E) as (m & ? & E'). destruct (W m) as (m' & ? & ?); [intros; apply Hn'; lia|done|]. exists m'. split; [lia|done].
    - by apply W.
    - by exists n.
  Qed.

  (** ** Use after destruction *)
  Definition covered s : Prop := ∀ t p u, waits s t = Asleep p u ∨ waits s t = Awake p u → ∃ c, u = Some c ∧ clients s c = Registered.
  Lemma covered_step s a s' : covered s → disciplined s a → exec s a = Some s' → covered s'.
  Proof.
    intros C Hd H.
    assert (∀ cl c x, cl = upd (clients s) c x → (clients s c = Registered → x = Registered ∨ ∀ t, ¬ waits_under s t c) →
            ∀ t p u, waits s t = Asleep p u ∨ waits s t = Awake p u → ∃ c, u = Some c ∧ cl c = Registered) as K.
    { intros cl c x -> Hx t p u Hw. destruct (C t p u Hw) as (e & -> & He). exists e. split; [done|]. destruct (decide (e = c)) as [->|Hne]; [rewrite upd_eq|by rewrite upd_ne].
      destruct (Hx He) as [->|Hno]; [done|]. destruct (Hno t). by exists p. }
    assert (∀ w : nat → wait_call D, (∀ t p u, w t = Asleep p u ∨ w t = Awake p u → ∃ q, waits s t = Asleep q u ∨ waits s t = Awake q u) →
            ∀ t p u, w t = Asleep p u ∨ w t = Awake p u → ∃ c, u = Some c ∧ clients s c = Registered) as K2.
    { intros w Hw t p u H2. destruct (Hw t p u H2) as [q Hq]. by eapply C. }
    assert (∀ t p u, wake_all (waits s) t = Asleep p u ∨ wake_all (waits s) t = Awake p u → ∃ q, waits s t = Asleep q u ∨ waits s t = Awake q u) as K3.
    { intros t p u. unfold wake_all. destruct (waits s t); naive_solver. }
    intros t0 p0 u0. destruct a as [f un|un|t p un|t|t|c|c|c|c| |]; cbn [exec] in H.
    - destruct (f (data s)) as [d b]. injection H as <-. cbn. destruct b; [by apply K2|by apply C].
    - injection H as <-. cbn. by apply K2.
    - assert (∀ w : wait_call D, (∀ q v, w = Asleep q v ∨ w = Awake q v → v = un) → waits (with_wait s t w) t0 = Asleep p0 u0 ∨ waits (with_wait s t w) t0 = Awake p0 u0 →
        ∃ c, u0 = Some c ∧ clients s c = Registered) as A.
      { intros w Hw. cbn. destruct (decide (t0 = t)) as [->|Hn]; [rewrite upd_eq|rewrite upd_ne by done; apply C]. intros H1. apply Hw in H1 as ->. exact Hd. }
      destruct (waits s t); try done; injection H as <-; apply A; intros q v; destruct (destructing s), (p (data s)); naive_solver.
    - destruct (waits s t) as [|q v| |] eqn:Ew; try done; injection H as <-. cbn. destruct (decide (t0 = t)) as [->|Hn]; [rewrite upd_eq|rewrite upd_ne by done; apply C].
      intros [?|[= <- <-]]; [done|]. eapply C. by left.
    - destruct (waits s t) as [| |q v|] eqn:Ew; try done; injection H as <-. cbn. destruct (decide (t0 = t)) as [->|Hn]; [rewrite upd_eq|rewrite upd_ne by done; apply C].
      destruct (destructing s || q (data s)); [by intros [?|?]|]. intros [[= <- <-]|?]; [|done]. eapply C. by right.
    - destruct (clients s c) eqn:Ec; try done; injection H as <-; destruct (destructing s); cbn; eapply K; try done; by rewrite Ec.
    - destruct (clients s c) eqn:Ec; try done; injection H as <-; cbn; eapply K; try done; auto.
    - destruct (clients s c) eqn:Ec; try done; injection H as <-; cbn; eapply K; try done; auto.
    - destruct (clients s c) eqn:Ec; try done; injection H as <-; cbn; eapply K; try done; rewrite Ec; done.
    - unfold destruct_step in H. destruct (dtor s) eqn:Ed; try done; injection H as <-; cbn; try apply C. by apply K2.
    - destruct (dtor s) eqn:Ed; try done; injection H as <-; cbn; apply C.
  Qed.
  (** With the discipline of scoped clients, the one thing that can still touch the object after its destruction is the
      cv_.notify_one() of a client being released. *)
  Theorem C53_no_use_after_destruction_partial : ∀ s a s', reachable disciplined s → dtor s = Destroyed → disciplined s a → exec s a = Some s' →
    ∃ c, a = ReleaseNotify c ∧ clients s c = Decreased.
  Proof.
    intros s a s' H Hd Hok Hs.
    pose proof (C53_destroyed_without_clients s disciplined) as N.
    assert (∀ c, clients s c ≠ Registered ∧ clients s c ≠ Increased) as N' by (intros c; by apply N). clear N.
    assert (covered s) as C. { clear -H. induction H; [intros t p u [?|?]; done|]. by eapply covered_step. }
    destruct a as [f un|un|t p un|t|t|c|c|c|c| |]; cbn [exec] in Hs; cbn [disciplined] in Hok.
    - destruct Hok as (c & -> & E). by destruct (N' c).
    - destruct Hok as (c & -> & E). by destruct (N' c).
    - destruct Hok as (c & -> & E). by destruct (N' c).
    - destruct (waits s t) as [|q v| |] eqn:Ew; try done. destruct (C t q v) as (c & -> & E); [by left|]. by destruct (N' c).
    - destruct (waits s t) as [| |q v|] eqn:Ew; try done. destruct (C t q v) as (c & -> & E); [by right|]. by destruct (N' c).
    - done.
    - destruct (clients s c) eqn:Ec; try done. by destruct (N' c).
    - destruct (clients s c) eqn:Ec; try done. by destruct (N' c).
    - destruct (clients s c) eqn:Ec; try done. by exists c.
    - unfold destruct_step in Hs. by rewrite Hd in Hs.
    - by rewrite Hd in Hs.
  Qed.
End Props.

(** ** The two failures, and examples *)
Fixpoint exec_all {D} (s : wa D) (l : list (action D)) : option (wa D) := match l with [] => Some s | a :: l => match exec s a with Some s => exec_all s l | None => None end end.
Inductive disciplined_run {D} : wa D → list (action D) → wa D → Prop :=
| dr_nil s : disciplined_run s [] s
| dr_cons s a s' l s'' : disciplined s a → exec s a = Some s' → disciplined_run s' l s'' → disciplined_run s (a :: l) s''.
Lemma disciplined_run_reachable {D} (s : wa D) l s' : reachable disciplined s → disciplined_run s l s' → reachable disciplined s'.
Proof. intros H R. induction R; [done|]. apply IHR. by eapply reach_step. Qed.

(** The last client decreases the counter; the destructor sees zero and returns; the client then notifies a condition variable which no longer exists
    (waitable_atomic.h 343-349). *)
Theorem C53_use_after_destruction_refuted : ∃ (s : wa unit), reachable disciplined s ∧ dtor s = Destroyed ∧ clients s 0 = Decreased ∧ is_Some (exec s (ReleaseNotify 0)).
Proof.
  set (acts := [Register 0; RegisterNotify 0; Destruct; Destruct; Destruct; Destruct; Release 0; Destruct] : list (action unit)).
  assert (∃ s, disciplined_run (initial ()) acts s ∧ dtor s = Destroyed ∧ clients s 0 = Decreased ∧ is_Some (exec s (ReleaseNotify 0))) as (s & R & H).
  { eexists. split; [|split_and!].
    - unfold acts. repeat (eapply dr_cons; [|cbn; reflexivity|]); try (cbn; done). 2: apply dr_nil.
      intros t (p & [E|E]); cbn in E; done.
    - done.
    - done.
    - cbn. by eexists. }
  exists s. split; [|done]. eapply disciplined_run_reachable; [constructor|done].
Qed.
(** PotentiallyMutableUse with a function which changes the data and returns false: the waiter sleeps on although its predicate holds. *)
Theorem C53_unreported_change_refuted : ∃ (s : wa bool) p u, reachable disciplined s ∧ waits s 0 = Asleep p u ∧ p (data s) = true ∧ exec s (Resume 0) = None.
Proof.
  set (acts := [Register 0; RegisterNotify 0; Wait 0 (λ b, b) (Some 0); Use (potentially_mutable_use (λ _, (true, false))) (Some 0)] : list (action bool)).
  assert (∃ s, disciplined_run (initial false) acts s ∧ waits s 0 = Asleep (λ b, b) (Some 0) ∧ (λ b, b) (data s) = true ∧ exec s (Resume 0) = None) as (s & R & H).
  { eexists. split; [|split_and!].
    - unfold acts. repeat (eapply dr_cons; [|cbn; reflexivity|]); try (cbn; done). 3: apply dr_nil. all: exists 0; done.
    - done.
    - done.
    - done. }
  exists s, (λ b, b), (Some 0). split; [|done]. eapply disciplined_run_reachable; [constructor|done].
Qed.

(** A waiter, woken by the right modification; and one which returns false from the destruction. *)
Example C53_ex : option_map (λ s, (waits s 0, data s, dtor s))
    (exec_all (initial 0) [Register 7; RegisterNotify 7; Wait 0 (λ n, Nat.eqb n 2) (Some 7); Use (set_value 1) None; Resume 0; Use (mutable_use S) None; Resume 0]) = Some (Returned true, 2, NotStarted).
Proof. reflexivity. Qed.
Example C53_ex_destruct : option_map (λ s, (waits s 0, dtor s))
    (exec_all (initial 0) [Register 7; RegisterNotify 7; Wait 0 (λ n, Nat.eqb n 2) (Some 7); Destruct; Destruct; Destruct; Destruct; Destruct; Resume 0; Release 7; ReleaseNotify 7; Destruct]) =
    Some (Returned false, Destroyed).
Proof. reflexivity. Qed.

(** The two runs above, continued by doing nothing, meet the hypotheses of C53_wait_returns and C53_destructor_finishes. *)
Definition run_of (acts : list (action nat)) (n : nat) : wa nat := default (initial 0) (exec_all (initial 0) (take n acts)).
Lemma run_of_execution acts : exec_all (initial 0) acts ≠ None →
  execution (run_of acts) (λ n, acts !! n) ∧ ∀ n, length acts ≤ n → run_of acts n = run_of acts (length acts).
Proof.
  intros Hok.
  assert (∀ n, length acts ≤ n → run_of acts n = run_of acts (length acts)) as Hend. { intros n Hn. unfold run_of. by rewrite !(take_ge acts). }
  assert (∀ (l l' : list (action nat)) s, exec_all s (l ++ l') = match exec_all s l with Some s' => exec_all s' l' | None => None end) as Happ.
  { induction l as [|a l IH]; intros l' s; simpl; [done|]. destruct (exec s a); [apply IH|done]. }
  assert (∀ n, exec_all (initial 0) (take n acts) = Some (run_of acts n)) as Hrun.
  { intros n. unfold run_of. destruct (exec_all (initial 0) (take n acts)) eqn:E; [done|]. exfalso.
    apply Hok. by rewrite <- (take_drop n acts), Happ, E. }
  split; [|done]. split; [by exists 0|]. intros n. destruct (acts !! n) as [a|] eqn:Ea.
  - pose proof (Hrun (S n)) as H. rewrite (take_S_r _ _ _ Ea), Happ, Hrun in H. simpl in H. by destruct (exec (run_of acts n) a).
  - apply lookup_ge_None_1 in Ea. by rewrite (Hend (S n)), (Hend n) by lia.
Qed.
Definition ex_waits : list (action nat) := [Register 7; RegisterNotify 7; Wait 0 (λ n, Nat.eqb n 2) (Some 7); Use (set_value 1) None; Resume 0; Use (mutable_use S) None; Resume 0].
Example C53_wait_returns_ex : execution (run_of ex_waits) (λ n, ex_waits !! n) ∧ (∀ m a, ex_waits !! m = Some a → honest_action a) ∧
  wait_fair (run_of ex_waits) (λ n, ex_waits !! n) ∧ in_wait (run_of ex_waits 6) 0 (λ n, Nat.eqb n 2) ∧
  (∀ m, 6 ≤ m → Nat.eqb (data (run_of ex_waits m)) 2 = true ∨ destructing (run_of ex_waits m) = true) ∧ waits (run_of ex_waits 5) 0 = Asleep (λ n, Nat.eqb n 2) (Some 7).
Proof.
  destruct (run_of_execution ex_waits) as [HE Hend]; [vm_compute; discriminate|]. split_and!.
  - exact HE.
  - intros m a H. assert (m < 7) as Hm by (by apply lookup_lt_Some in H). do 7 (destruct m as [|m]; [injection H as <-; first [exact Logic.I | intros d; vm_compute; discriminate]|]). lia.
  - intros t n p u H. assert (n ≤ 6 ∨ 7 ≤ n) as [Hn|Hn] by lia.
    + destruct t as [|t]; [exists 6; split; [lia|done]|]. exfalso. revert H. do 7 (destruct n as [|n]; [vm_compute; discriminate|]). lia.
    + exfalso. revert H. rewrite Hend by (simpl; lia). destruct t as [|t]; vm_compute; discriminate.
  - eexists. right. vm_compute. reflexivity.
  - intros m Hm. left. destruct (decide (m = 6)) as [-> |]; [reflexivity|]. rewrite Hend by (simpl; lia). reflexivity.
  - reflexivity.
Qed.
Definition ex_destructs : list (action nat) := [Register 7; RegisterNotify 7; Wait 0 (λ n, Nat.eqb n 2) (Some 7); Destruct; Destruct; Destruct; Destruct; Destruct; Resume 0; Release 7; ReleaseNotify 7; Destruct].
Example C53_destructor_finishes_ex : execution (run_of ex_destructs) (λ n, ex_destructs !! n) ∧ destructor_fair (run_of ex_destructs) (λ n, ex_destructs !! n) ∧
  dtor (run_of ex_destructs 10) = Sleeping ∧ (∀ m c, 10 ≤ m → clients (run_of ex_destructs m) c ≠ Registered ∧ clients (run_of ex_destructs m) c ≠ Increased).
Proof.
  destruct (run_of_execution ex_destructs) as [HE Hend]; [vm_compute; discriminate|]. split_and!.
  - exact HE.
  - split_and!.
    + intros n H1 H2 H3. assert (n ≤ 11 ∨ 12 ≤ n) as [Hn|Hn] by lia; [exists 11; split; [lia|done]|]. exfalso. apply H3. rewrite Hend by (simpl; lia). reflexivity.
    + intros n c H. assert (n ≤ 1 ∨ 2 ≤ n < 12 ∨ 12 ≤ n) as [Hn|[Hn|Hn]] by lia.
      * destruct (decide (c = 7)) as [-> |Hc]; [exists 1; split; [lia|done]|]. exfalso. revert H. do 2 (destruct n as [|n]; [do 8 (destruct c as [|c]; [vm_compute; done|]); vm_compute; discriminate|]). lia.
      * exfalso. revert H. do 2 (destruct n as [|n]; [lia|]). do 10 (destruct n as [|n]; [do 8 (destruct c as [|c]; [vm_compute; discriminate|]); vm_compute; discriminate|]). lia.
      * exfalso. revert H. rewrite Hend by (simpl; lia). do 8 (destruct c as [|c]; [vm_compute; discriminate|]). vm_compute. discriminate.
    + intros n c H. assert (n ≤ 10 ∨ 10 < n < 12 ∨ 12 ≤ n) as [Hn|[Hn|Hn]] by lia.
      * destruct (decide (c = 7)) as [-> |Hc]; [exists 10; split; [lia|done]|]. exfalso. revert H. do 11 (destruct n as [|n]; [do 8 (destruct c as [|c]; [vm_compute; done|]); vm_compute; discriminate|]). lia.
      * exfalso. revert H. assert (n = 11) as -> by lia. do 8 (destruct c as [|c]; [vm_compute; discriminate|]). vm_compute. discriminate.
      * exfalso. revert H. rewrite Hend by (simpl; lia). do 8 (destruct c as [|c]; [vm_compute; discriminate|]). vm_compute. discriminate.
  - reflexivity.
  - intros m c Hm. assert (m = 10 ∨ m = 11 ∨ 12 ≤ m) as [-> |[-> |Hn]] by lia.
    3: rewrite Hend by (simpl; lia).
    all: do 8 (destruct c as [|c]; [vm_compute; split; discriminate|]); vm_compute; split; discriminate.
Qed.

Print Assumptions C53_no_lost_wakeup.
Print Assumptions C53_result.
Print Assumptions C53_wait_returns.
Print Assumptions C53_honest.
Print Assumptions C53_destroyed_without_clients.
Print Assumptions C53_no_registration_after_destruction_began.
Print Assumptions C53_count.
Print Assumptions C53_destructor_finishes.
Print Assumptions C53_no_use_after_destruction_partial.
Print Assumptions C53_use_after_destruction_refuted.
Print Assumptions C53_unreported_change_refuted.
