(** The invariant of the MMQ transition system. *)
From stdpp Require Import list sorting.
From Coq Require Import ZArith Lia.
From Verif Require Import MMQ_Model MMQ_Spec.

Lemma mod_inj N d i j : N ≠ 0 → d ≤ i < d + N → d ≤ j < d + N → i mod N = j mod N → i = j.
Proof.
  intros HN Hi Hj E. destruct (decide (i ≤ j)) as [H|H].
  - assert ((j - i) mod N = 0) as Hm.
    { pose proof (Nat.div_mod i N HN) as Hi'. pose proof (Nat.div_mod j N HN) as Hj'. rewrite E in Hi'.
      assert (i / N ≤ j / N) by (apply Nat.div_le_mono; lia).
      replace (j - i) with ((j / N - i / N) * N) by nia. by apply Nat.mod_mul. }
    rewrite Nat.mod_small in Hm; lia.
  - assert ((i - j) mod N = 0) as Hm.
    { pose proof (Nat.div_mod i N HN) as Hi'. pose proof (Nat.div_mod j N HN) as Hj'. rewrite <-E in Hj'.
      assert (j / N ≤ i / N) by (apply Nat.div_le_mono; lia).
      replace (i - j) with ((i / N - j / N) * N) by nia. by apply Nat.mod_mul. }
    rewrite Nat.mod_small in Hm; lia.
Qed.

Section Inv.
  Context {M : Type} (N : nat) (drop : bool).
  Context (HN : N ≠ 0).
  Implicit Types (s : mmq M) (p k i d : nat) (m : M).
  Notation step := (step N drop).
  Notation run := (run N drop).
  Notation reachable := (reachable N drop).

  Definition busy (c : consumer) : bool :=
    match c with CExporting _ | CExported => true | _ => false end.
  Definition exported (c : consumer) : nat := match c with CExported => 1 | _ => 0 end.

  (** The allocation [k] publisher [p] is in, and whether it is not committed. *)
  Definition ticket (x : publisher M) : option (M * nat * nat) :=
    match x with PImporting m k i | PImported m k i | PCommitted m k i => Some (m, k, i) | _ => None end.

  Definition at_ s k : slot M := slots s (k mod N).
  Local Arguments at_ : simpl never.

  Definition shown (x : nat * Z * M) : option M * (nat * Z) := (Some x.2, x.1).

  Record inv (d : nat) (s : mmq M) : Prop := {
    i_le : d ≤ length (allocated s) ≤ d + N;
    i_head : head s = length (allocated s) mod N;
    i_tail : tail s = d mod N;
    i_last : (last_idx_ts s).1 = length (allocated s);
    i_alloc : ∀ k x, allocated s !! k = Some x → x.1.1 = S k;
    i_free : ∀ k, length (allocated s) ≤ k < d + N → status_of (at_ s k) = FREE;
    i_used : ∀ k x, d ≤ k → allocated s !! k = Some x →
      index_ts (at_ s k) = x.1 ∧
      match status_of (at_ s k) with
      | FREE => False
      | BEING_IMPORTED => ∃ p, pubs s p = PImporting x.2 k (k mod N) ∨
                               (pubs s p = PImported x.2 k (k mod N) ∧ body (at_ s k) = Some x.2)
      | READY => body (at_ s k) = Some x.2
      | BEING_EXPORTED => k = d ∧ busy (cons_ s) = true ∧ (exported (cons_ s) = 0 → body (at_ s k) = Some x.2)
      end;
    i_busy : busy (cons_ s) = true → d < length (allocated s) ∧ status_of (at_ s d) = BEING_EXPORTED;
    i_ticket : ∀ p m k i, ticket (pubs s p) = Some (m, k, i) →
      i = k mod N ∧ snd <$> allocated s !! k = Some m;
    i_write : ∀ p m k i, pubs s p = PImporting m k i ∨ pubs s p = PImported m k i →
      d ≤ k ∧ status_of (at_ s k) = BEING_IMPORTED;
    i_uniq : ∀ p q m m' k i i', ticket (pubs s p) = Some (m, k, i) → ticket (pubs s q) = Some (m', k, i') → p = q;
    i_deliv : delivered (trace s) = shown <$> take (d + exported (cons_ s)) (allocated s);
    i_pub : ∀ p m k its, Published p m k its ∈ trace s → snd <$> allocated s !! k = Some m ∧
              ∀ q m' i, ticket (pubs s q) ≠ Some (m', k, i);
    i_all : ∀ k, k < length (allocated s) →
       (∃ p m its, Published p m k its ∈ trace s) ∨ ∃ p m i, ticket (pubs s p) = Some (m, k, i);
    i_fin : cons_ s = CFinished → destructing s = true;
  }.

  Lemma inv_init : inv 0 mmq_init.
  Proof.
    constructor; simpl; try (intros; done).
    - lia.
    - by rewrite Nat.mod_0_l.
    - by rewrite Nat.mod_0_l.
    - intros p m k i [H|H]; done.
    - intros p m k its H. by apply elem_of_nil in H.
    - lia.
  Qed.

  Lemma lookup_lt_some (s : mmq M) k : k < length (allocated s) → ∃ x, allocated s !! k = Some x.
  Proof. intros H. by apply lookup_lt_is_Some_2. Qed.

  Lemma free_room d s : inv d s → status_of (slots s (head s)) = FREE → length (allocated s) < d + N.
  Proof.
    intros I E. destruct (decide (length (allocated s) = d + N)) as [F|F]; [|destruct (i_le _ _ I); lia].
    exfalso. rewrite (i_head _ _ I), F in E.
    destruct (lookup_lt_some s d) as [x Hx]; [lia|].
    destruct (i_used _ _ I d x) as [_ H]; [lia|done|]. unfold at_ in H.
    replace (d mod N) with ((d + N) mod N) in H by (rewrite Nat.add_mod, Nat.mod_same, Nat.add_0_r, Nat.mod_mod by done; done).
    by rewrite E in H.
  Qed.

  Lemma increment_mod k : increment N (k mod N) = S k mod N.
  Proof. unfold increment. rewrite Nat.add_mod_idemp_l by done. f_equal. lia. Qed.

  Lemma upd_eq {A} i (a : A) f : upd i a f i = a.
  Proof. unfold upd. by rewrite decide_True. Qed.
  Lemma upd_ne {A} i j (a : A) f : j ≠ i → upd i a f j = f j.
  Proof. intros. unfold upd. by rewrite decide_False. Qed.

  Lemma delivered_app tr1 tr2 : delivered (M:=M) (tr1 ++ tr2) = delivered tr1 ++ delivered tr2.
  Proof. apply omap_app. Qed.

  Lemma allocate_inv d s p m us : inv d s → ticket (pubs s p) = None →
    status_of (slots s (head s)) = FREE → inv d (allocate N p m us s).
  Proof.
    intros I Hp E. pose proof (free_room _ _ I E) as Hr. pose proof (i_le _ _ I) as Hle.
    set (a := length (allocated s)) in *.
    assert (∀ k, d ≤ k < d + N → k ≠ a → k mod N ≠ head s) as Hne.
    { intros k Hk Hka F. apply Hka. apply (mod_inj N d); [done|lia|lia|]. by rewrite F, (i_head _ _ I). }
    assert (∀ k, d ≤ k < d + N → k ≠ a → at_ (allocate N p m us s) k = at_ s k) as Hat.
    { intros k Hk Hka. unfold at_. simpl. apply upd_ne. by apply Hne. }
    assert (at_ (allocate N p m us s) a = Slot BEING_IMPORTED (body (slots s (head s))) (S (last_idx_ts s).1, us)) as Hata.
    { unfold at_. simpl. unfold a. rewrite <-(i_head _ _ I). by rewrite upd_eq. }
    assert (allocated (allocate N p m us s) = allocated s ++ [((S (last_idx_ts s).1, us), m)]) as EA by done.
    assert (length (allocated (allocate N p m us s)) = S a) as EL by (rewrite EA, app_length; simpl; lia).
    assert (∀ q m' k i, ticket (pubs (allocate N p m us s) q) = Some (m', k, i) →
       (q = p ∧ m' = m ∧ k = a ∧ i = head s) ∨ (q ≠ p ∧ ticket (pubs s q) = Some (m', k, i))) as Ht.
    { intros q m' k i. simpl. unfold upd. destruct (decide (q = p)); simpl; intros Hq; [left; by simplify_eq|by right]. }
    assert (∀ p m k i, ticket (pubs s p) = Some (m, k, i) → k < a) as Hlt.
    { intros ???? H%(i_ticket _ _ I). destruct H as [_ H]. destruct (allocated s !! k) eqn:F; [|done].
      by apply lookup_lt_Some in F. }
    constructor.
    - rewrite EL. lia.
    - rewrite EL. simpl. by rewrite (i_head _ _ I), increment_mod.
    - apply (i_tail _ _ I).
    - rewrite EL. simpl. f_equal. apply (i_last _ _ I).
    - intros k x. rewrite EA, lookup_app. destruct (allocated s !! k) eqn:F.
      + intros [= <-]. by apply (i_alloc _ _ I).
      + apply lookup_ge_None in F. fold a in F |- *. intros H. destruct (decide (k = a)) as [->|?].
        * rewrite Nat.sub_diag in H. injection H as <-. simpl. f_equal. apply (i_last _ _ I).
        * exfalso. apply lookup_lt_Some in H. simpl in H. lia.
    - intros k. rewrite EL. intros Hk. rewrite Hat by lia. apply (i_free _ _ I). lia.
    - intros k x Hk. rewrite EA, lookup_app. destruct (allocated s !! k) eqn:F.
      + intros [= <-]. pose proof (lookup_lt_Some _ _ _ F) as Hka. fold a in Hka.
        rewrite Hat by lia. destruct (i_used _ _ I k _ Hk F) as [H1 H2]. split; [done|].
        destruct (status_of (at_ s k)); try done.
        destruct H2 as [q Hq]. exists q. simpl. rewrite upd_ne; [done|].
        intros ->. destruct Hq as [Hq|[Hq _]]; by rewrite Hq in Hp.
      + apply lookup_ge_None in F. fold a in F |- *. intros H. destruct (decide (k = a)) as [->|?].
        * rewrite Nat.sub_diag in H. injection H as <-. rewrite Hata. simpl. split; [done|].
          exists p. left. by rewrite upd_eq, (i_head _ _ I).
        * exfalso. apply lookup_lt_Some in H. simpl in H. lia.
    - intros H%(i_busy _ _ I). fold a in H. rewrite EL. destruct H as [H1 H2]. split; [lia|].
      rewrite Hat by lia. done.
    - intros q m' k i H%Ht. rewrite EA. destruct H as [(-> & -> & -> & ->)|[_ H]].
      + split; [apply (i_head _ _ I)|]. by rewrite lookup_app_r, Nat.sub_diag.
      + pose proof (Hlt _ _ _ _ H). rewrite lookup_app_l by done. by apply (i_ticket _ _ I) in H.
    - intros q m' k i. change (pubs (allocate N p m us s)) with (upd p (PImporting m a (head s)) (pubs s)).
      unfold upd at 1 2. destruct (decide (q = p)) as [->|Hq].
      + intros [[= <- <- <-]|?]; [|done]. rewrite Hata. split; [lia|done].
      + intros H. pose proof (i_write _ _ I q m' k i H) as [H1 H2].
        assert (ticket (pubs s q) = Some (m', k, i)) as H3%Hlt by (by destruct H as [-> | ->]).
        rewrite Hat by lia. done.
    - intros q1 q2 m1 m2 k i1 i2 H1%Ht H2%Ht.
      destruct H1 as [(-> & _ & -> & _)|[? H1]], H2 as [(-> & _ & E2 & _)|[? H2]]; try done.
      + apply Hlt in H2. lia.
      + apply Hlt in H1. lia.
      + by eapply (i_uniq _ _ I).
    - simpl. rewrite (i_deliv _ _ I). rewrite take_app_le; [done|].
      pose proof (i_busy _ _ I) as Hb. destruct (cons_ s); simpl in *; lia || (destruct Hb; [done|lia]).
    - simpl. intros q m' k its Hin. destruct (i_pub _ _ I _ _ _ _ Hin) as [H1 H2].
      assert (k < a) as Hka by (destruct (allocated s !! k) eqn:F; [by apply lookup_lt_Some in F|done]).
      split; [by rewrite lookup_app_l|]. intros q' m2 i H%Ht. destruct H as [(_ & _ & -> & _)|[_ H]]; [lia|by eapply H2].
    - intros k. rewrite EL. intros Hk. destruct (decide (k = a)) as [->|Hka].
      + right. exists p, m, (head s). simpl. by rewrite upd_eq.
      + destruct (i_all _ _ I k) as [H|(q & m' & i & H)]; [fold a; lia|by left|].
        right. exists q, m', i. simpl. rewrite upd_ne; [done|]. intros ->. by rewrite Hp in H.
    - simpl. apply (i_fin _ _ I).
  Qed.

  (** Events other than deliveries and returns change nothing. *)
  Lemma emit_inv d s e : inv d s →
    match e with Rejected _ _ | Threw _ _ => True | _ => False end → inv d (emit e s).
  Proof.
    intros I He. constructor; simpl; try apply I.
    - rewrite delivered_app. rewrite (i_deliv _ _ I). destruct e; try done; by rewrite app_nil_r.
    - intros p m k its [H|H]%elem_of_app; [by eapply (i_pub _ _ I)|]. apply elem_of_list_singleton in H. by subst.
    - intros k Hk. destruct (i_all _ _ I k Hk) as [(p & m & its & H)|H]; [left|by right].
      exists p, m, its. apply elem_of_app. by left.
  Qed.

  Lemma set_pub_inv d s p x : inv d s → ticket (pubs s p) = None → ticket x = None → inv d (set_pub p x s).
  Proof.
    intros I Hp Hx.
    assert (∀ q, ticket (upd p x (pubs s) q) = ticket (pubs s q)) as Ht.
    { intros q. unfold upd. destruct (decide (q = p)) as [->|]; [congruence|done]. }
    constructor; simpl; try apply I.
    - intros k y Hk Hy. destruct (i_used _ _ I k y Hk Hy) as [H1 H2]. split; [done|].
      change (at_ (set_pub p x s) k) with (at_ s k).
      destruct (status_of (at_ s k)); try done. destruct H2 as [q Hq]. exists q.
      rewrite upd_ne; [done|]. intros ->. destruct Hq as [Hq|[Hq _]]; by rewrite Hq in Hp.
    - intros q m k i. rewrite Ht. apply (i_ticket _ _ I).
    - intros q m k i. unfold upd. destruct (decide (q = p)); [intros [->| ->]; done|]. apply (i_write _ _ I).
    - intros q1 q2 m1 m2 k i1 i2. rewrite !Ht. apply (i_uniq _ _ I).
    - intros q m k its Hin. destruct (i_pub _ _ I _ _ _ _ Hin) as [H1 H2]. split; [done|].
      intros q' m' i. rewrite Ht. apply H2.
    - intros k Hk. destruct (i_all _ _ I k Hk) as [H|(q & m & i & H)]; [by left|right].
      exists q, m, i. by rewrite Ht.
  Qed.

  Lemma write_inv d s p m k i x sl : inv d s → 
    (pubs s p = PImporting m k i ∧ x = PImported m k i ∧ sl = Slot (status_of (slots s i)) (Some m) (index_ts (slots s i)))
    ∨ (pubs s p = PImported m k i ∧ x = PCommitted m k i ∧ sl = Slot READY (body (slots s i)) (index_ts (slots s i))) →
    inv d (set_pub p x (set_slot i sl s)).
  Proof.
    intros I Hc. pose proof (i_le _ _ I) as Hle.
    assert (pubs s p = PImporting m k i ∨ pubs s p = PImported m k i) as Hw by (destruct Hc as [[? _]|[? _]]; auto).
    assert (ticket (pubs s p) = Some (m, k, i)) as Htk by (by destruct Hw as [-> | ->]).
    assert (ticket x = Some (m, k, i)) as Htx by (by destruct Hc as [(_ & -> & _)|(_ & -> & _)]).
    destruct (i_write _ _ I _ _ _ _ Hw) as [Hdk Hst]. destruct (i_ticket _ _ I _ _ _ _ Htk) as [Hi Hm].
    assert (∃ y, allocated s !! k = Some y ∧ y.2 = m) as (y & Hy & Hym).
    { destruct (allocated s !! k) eqn:F; [|done]. simpl in Hm. injection Hm as <-. by eexists. }
    pose proof (lookup_lt_Some _ _ _ Hy) as Hka.
    assert (∀ q, ticket (upd p x (pubs s) q) = ticket (pubs s q)) as Ht.
    { intros q. unfold upd. destruct (decide (q = p)) as [->|]; [congruence|done]. }
    set (s' := set_pub p x (set_slot i sl s)).
    assert (∀ k', d ≤ k' < d + N → k' ≠ k → at_ s' k' = at_ s k') as Hat.
    { intros k' Hk' Hne. unfold at_, s'. simpl. rewrite upd_ne; [done|]. rewrite Hi. intros F. apply Hne. apply (mod_inj N d); [done|lia|lia|done]. }
    assert (at_ s' k = sl) as Hatk by (unfold at_, s'; simpl; by rewrite Hi, upd_eq).
    destruct (i_used _ _ I k y Hdk Hy) as [Hidx Hus]. rewrite Hst in Hus.
    assert (slots s i = at_ s k) as Esl by (by rewrite Hi).
    constructor; simpl; try apply I.
    - intros k' Hk'. rewrite Hat; [by apply (i_free _ _ I)|lia|lia].
    - intros k' y' Hk' Hy'. pose proof (lookup_lt_Some _ _ _ Hy') as Hlt.
      destruct (decide (k' = k)) as [->|Hne].
      + rewrite Hy in Hy'. injection Hy' as <-. rewrite Hatk. destruct Hc as [(Hpp & -> & ->)|(Hpp & -> & ->)]; simpl.
        * rewrite Esl, Hst. split; [done|]. exists p. right. by rewrite upd_eq, Hym, Hi.
        * rewrite Esl. split; [done|]. destruct Hus as [q Hq].
          assert (q = p) as ->.
          { eapply (i_uniq _ _ I); [|exact Htk]. destruct Hq as [-> |[-> _]]; done. }
          destruct Hq as [Hq|[_ Hq]]; [congruence|done].
      + rewrite Hat by lia. destruct (i_used _ _ I k' y' Hk' Hy') as [H1 H2]. split; [done|].
        destruct (status_of (at_ s k')); try done. destruct H2 as [q Hq]. exists q.
        rewrite upd_ne; [done|]. intros ->.
        destruct Hq as [Hq|[Hq _]]; rewrite Hq in Htk; simpl in Htk; congruence.
    - intros Hb. destruct (i_busy _ _ I Hb) as [H1 H2]. split; [done|]. rewrite Hat; [done|lia|].
      intros ->. rewrite Hst in H2. done.
    - intros q m' k' i'. rewrite Ht. apply (i_ticket _ _ I).
    - intros q m' k' i'. unfold upd. destruct (decide (q = p)) as [->|Hq].
      + destruct Hc as [(_ & -> & ->)|(_ & -> & ->)]; intros [?|?]; try done; simplify_eq.
        rewrite Hatk. simpl. by rewrite Esl.
      + intros H. pose proof (i_write _ _ I q m' k' i' H) as [H1 H2].
        assert (ticket (pubs s q) = Some (m', k', i')) as H3 by (by destruct H as [-> | ->]).
        destruct (decide (k' = k)) as [->|Hne].
        { exfalso. apply Hq. by eapply (i_uniq _ _ I). }
        destruct (i_ticket _ _ I _ _ _ _ H3) as [_ H4].
        assert (k' < length (allocated s)) by (apply lookup_lt_is_Some; destruct (allocated s !! k'); [eauto|done]).
        rewrite Hat by lia. done.
    - intros q1 q2 m1 m2 k' i1 i2. rewrite !Ht. apply (i_uniq _ _ I).
    - intros q m' k' its Hin. destruct (i_pub _ _ I _ _ _ _ Hin) as [H1 H2]. split; [done|].
      intros q' m2 i'. rewrite Ht. apply H2.
    - intros k' Hk'. destruct (i_all _ _ I k' Hk') as [H|(q & m' & i' & H)]; [by left|right].
      exists q, m', i'. by rewrite Ht.
  Qed.

  Lemma return_inv d s p m k i its : inv d s → pubs s p = PCommitted m k i →
    inv d (emit (Published p m k its) (set_pub p PIdle s)).
  Proof.
    intros I Hp. assert (ticket (pubs s p) = Some (m, k, i)) as Htk by (by rewrite Hp).
    assert (∀ q y, ticket (upd p PIdle (pubs s) q) = Some y → q ≠ p ∧ ticket (pubs s q) = Some y) as Ht.
    { intros q y. unfold upd. destruct (decide (q = p)); [done|]. done. }
    constructor; simpl; try apply I.
    - intros k' y Hk Hy. destruct (i_used _ _ I k' y Hk Hy) as [H1 H2]. split; [done|].
      change (at_ (emit (Published p m k its) (set_pub p PIdle s)) k') with (at_ s k').
      destruct (status_of (at_ s k')); try done. destruct H2 as [q Hq]. exists q.
      rewrite upd_ne; [done|]. intros ->. destruct Hq as [Hq|[Hq _]]; by rewrite Hq in Hp.
    - intros q m' k' i' [_ H]%Ht. by eapply (i_ticket _ _ I).
    - intros q m' k' i'. unfold upd. destruct (decide (q = p)); [intros [?|?]; done|]. apply (i_write _ _ I).
    - intros q1 q2 m1 m2 k' i1 i2 [_ H1]%Ht [_ H2]%Ht. by eapply (i_uniq _ _ I).
    - rewrite delivered_app, (i_deliv _ _ I). simpl. by rewrite app_nil_r.
    - intros q m' k' its' [H|H]%elem_of_app.
      + destruct (i_pub _ _ I _ _ _ _ H) as [H1 H2]. split; [done|]. intros q' m2 i' [_ H']%Ht. by eapply H2.
      + apply elem_of_list_singleton in H. simplify_eq. split; [by eapply (i_ticket _ _ I)|].
        intros q' m2 i' [Hne H']%Ht. apply Hne. by eapply (i_uniq _ _ I).
    - intros k' Hk'. destruct (i_all _ _ I k' Hk') as [(q & m' & its' & H)|(q & m' & i' & H)].
      + left. exists q, m', its'. apply elem_of_app. by left.
      + destruct (decide (q = p)) as [->|Hne].
        * left. exists p, m, its. apply elem_of_app. right. apply elem_of_list_singleton. congruence.
        * right. exists q, m', i'. by rewrite upd_ne.
  Qed.

  Lemma take_inv d s : inv d s → cons_ s = CWaiting → status_of (slots s (tail s)) = READY →
    inv d (set_cons (CExporting (last_idx_ts s))
       (set_slot (tail s) (Slot BEING_EXPORTED (body (slots s (tail s))) (index_ts (slots s (tail s)))) s)).
  Proof.
    intros I Hc Hst. pose proof (i_le _ _ I) as Hle. rewrite (i_tail _ _ I) in *. fold (at_ s d) in *.
    set (sl := Slot _ _ _). set (s' := set_cons _ _).
    assert (d < length (allocated s)) as Hlt.
    { destruct (decide (d < length (allocated s))); [done|].
      assert (status_of (at_ s d) = FREE) by (apply (i_free _ _ I); lia). congruence. }
    assert (∀ k', d ≤ k' < d + N → k' ≠ d → at_ s' k' = at_ s k') as Hat.
    { intros k' Hk' Hne. unfold at_, s'. simpl. rewrite upd_ne; [done|]. intros F. apply Hne. apply (mod_inj N d); [done|lia|lia|done]. }
    assert (at_ s' d = sl) as Hatd by (unfold at_, s'; simpl; by rewrite upd_eq).
    constructor; simpl; try apply I.
    - intros k Hk. rewrite Hat; [by apply (i_free _ _ I)|lia|lia].
    - intros k x Hk Hx. destruct (i_used _ _ I k x Hk Hx) as [H1 H2]. pose proof (lookup_lt_Some _ _ _ Hx).
      destruct (decide (k = d)) as [->|Hne].
      + rewrite Hatd. simpl. split; [done|]. rewrite Hst in H2. done.
      + rewrite Hat by lia. split; [done|]. destruct (status_of (at_ s k)); try done. by destruct H2.
    - intros _. split; [done|]. by rewrite Hatd.
    - intros q m k i H. pose proof (i_write _ _ I q m k i H) as [H1 H2].
      assert (ticket (pubs s q) = Some (m, k, i)) as H3 by (by destruct H as [-> | ->]).
      destruct (i_ticket _ _ I _ _ _ _ H3) as [_ H4].
      assert (k < length (allocated s)) by (apply lookup_lt_is_Some; destruct (allocated s !! k); [eauto|done]).
      rewrite Hat; [done|lia|]. intros ->. congruence.
    - rewrite (i_deliv _ _ I), Hc. done.
    - done.
  Qed.

  Lemma export_inv d s saved : inv d s → cons_ s = CExporting saved →
    inv d (emit (Delivered (body (slots s (tail s))) (index_ts (slots s (tail s))) saved)
             (set_cons CExported (set_slot (tail s) (Slot (status_of (slots s (tail s))) None (index_ts (slots s (tail s)))) s))).
  Proof.
    intros I Hc. pose proof (i_le _ _ I) as Hle. rewrite (i_tail _ _ I) in *. fold (at_ s d) in *.
    destruct (i_busy _ _ I) as [Hlt Hst]; [by rewrite Hc|].
    destruct (lookup_lt_some s d Hlt) as [x Hx]. destruct (i_used _ _ I d x (le_n _) Hx) as [Hidx Hu].
    rewrite Hst in Hu. destruct Hu as (_ & _ & Hb). rewrite Hc in Hb. specialize (Hb eq_refl).
    set (sl := Slot _ _ _). set (s' := emit _ _).
    assert (∀ k', d ≤ k' < d + N → k' ≠ d → at_ s' k' = at_ s k') as Hat.
    { intros k' Hk' Hne. unfold at_, s'. simpl. rewrite upd_ne; [done|]. intros F. apply Hne. apply (mod_inj N d); [done|lia|lia|done]. }
    assert (at_ s' d = sl) as Hatd by (unfold at_, s'; simpl; by rewrite upd_eq).
    constructor; simpl; try apply I.
    - intros k Hk. rewrite Hat; [by apply (i_free _ _ I)|lia|lia].
    - intros k y Hk Hy. destruct (i_used _ _ I k y Hk Hy) as [H1 H2]. pose proof (lookup_lt_Some _ _ _ Hy).
      destruct (decide (k = d)) as [->|Hne].
      + rewrite Hatd. simpl. rewrite Hst. done.
      + rewrite Hat by lia. split; [done|]. destruct (status_of (at_ s k)); try done. by destruct H2.
    - intros _. split; [done|]. by rewrite Hatd.
    - intros q m k i H. pose proof (i_write _ _ I q m k i H) as [H1 H2].
      assert (ticket (pubs s q) = Some (m, k, i)) as H3 by (by destruct H as [-> | ->]).
      destruct (i_ticket _ _ I _ _ _ _ H3) as [_ H4].
      assert (k < length (allocated s)) by (apply lookup_lt_is_Some; destruct (allocated s !! k); [eauto|done]).
      rewrite Hat; [done|lia|]. intros ->. congruence.
    - rewrite delivered_app, (i_deliv _ _ I), Hc. simpl. rewrite Nat.add_0_r, Nat.add_1_r.
      rewrite (take_S_r _ _ _ Hx), fmap_app. simpl. rewrite Hb, Hidx. done.
    - intros q m k its [H|H]%elem_of_app; [by eapply (i_pub _ _ I)|]. by apply elem_of_list_singleton in H.
    - intros k Hk. destruct (i_all _ _ I k Hk) as [(q & m & its & H)|H]; [left|by right].
      exists q, m, its. apply elem_of_app. by left.
    - done.
  Qed.

  Lemma free_inv d s sl : inv d s → cons_ s = CExported → status_of sl = FREE →
    inv (S d) (MMQ (upd (tail s) sl (slots s)) (head s) (increment N (tail s)) (last_idx_ts s) (destructing s)
       (pubs s) CWaiting (trace s) (allocated s)).
  Proof.
    intros I Hc Hsl. pose proof (i_le _ _ I) as Hle. rewrite (i_tail _ _ I) in *.
    destruct (i_busy _ _ I) as [Hlt Hst]; [by rewrite Hc|].
    set (s' := MMQ _ _ _ _ _ _ _ _ _).
    assert (∀ k', d ≤ k' < d + N → k' ≠ d → at_ s' k' = at_ s k') as Hat.
    { intros k' Hk' Hne. unfold at_, s'. simpl. rewrite upd_ne; [done|]. intros F. apply Hne. apply (mod_inj N d); [done|lia|lia|done]. }
    assert (at_ s' d = sl) as Hatd by (unfold at_, s'; simpl; by rewrite upd_eq).
    constructor; simpl; try apply I.
    - lia.
    - apply increment_mod.
    - intros k Hk. destruct (decide (k = d + N)) as [->|Hne].
      + unfold at_, s'. simpl. replace ((d + N) mod N) with (d mod N)
          by (rewrite (Nat.add_mod d N), Nat.mod_same, Nat.add_0_r, Nat.mod_mod by done; done).
        by rewrite upd_eq.
      + rewrite Hat by lia. apply (i_free _ _ I). lia.
    - intros k y Hk Hy. destruct (i_used _ _ I k y) as [H1 H2]; [lia|done|]. pose proof (lookup_lt_Some _ _ _ Hy).
      rewrite Hat by lia. split; [done|]. destruct (status_of (at_ s k)); try done. destruct H2. lia.
    - done.
    - intros q m k i H. pose proof (i_write _ _ I q m k i H) as [H1 H2].
      assert (ticket (pubs s q) = Some (m, k, i)) as H3 by (by destruct H as [-> | ->]).
      destruct (i_ticket _ _ I _ _ _ _ H3) as [_ H4].
      assert (k < length (allocated s)) by (apply lookup_lt_is_Some; destruct (allocated s !! k); [eauto|done]).
      assert (k ≠ d) by (intros ->; congruence).
      rewrite Hat by lia. split; [lia|done].
    - rewrite (i_deliv _ _ I), Hc. simpl. by rewrite Nat.add_0_r, Nat.add_1_r.
    - done.
  Qed.

  Lemma step_inv d s l s' : inv d s → step l s = Some s' → inv (match l with Free => S d | _ => d end) s'.
  Proof.
    intros I. destruct l as [p m ts now|p now|p|p|p| | | | |]; simpl.
    - destruct (pubs s p) eqn:Ep; try done.
      assert (ticket (pubs s p) = None) as Ht by (by rewrite Ep).
      destruct drop.
      + destruct (status_of (slots s (head s))) eqn:Es;
          [destruct (decide _)|..]; intros [= <-]; try (by apply emit_inv). by apply allocate_inv.
      + destruct (destructing s); [intros [= <-]; by apply emit_inv|].
        destruct (decide _); [|intros [= <-]; by apply emit_inv].
        destruct (status_of (slots s (head s))) eqn:Es; intros [= <-]; try (by apply set_pub_inv).
        by apply allocate_inv.
    - destruct (pubs s p) eqn:Ep; try done.
      assert (ticket (pubs s p) = None) as Ht by (by rewrite Ep).
      destruct (destructing s); [intros [= <-]; apply emit_inv; [by apply set_pub_inv|done]|].
      destruct (status_of (slots s (head s))) eqn:Es; intros [= <-]. by apply allocate_inv.
    - destruct (pubs s p) eqn:Ep; try done. intros [= <-]. eapply write_inv; [done|by left].
    - destruct (pubs s p) eqn:Ep; try done. intros [= <-]. eapply write_inv; [done|by right].
    - destruct (pubs s p) eqn:Ep; try done. intros [= <-]. by eapply return_inv.
    - destruct (cons_ s) eqn:Ec; try done. destruct (status_of (slots s (tail s))) eqn:Es; try done.
      destruct (destructing s); [done|]. intros [= <-]. by apply take_inv.
    - destruct (cons_ s) eqn:Ec; try done. intros [= <-]. by apply export_inv.
    - destruct (cons_ s) eqn:Ec; try done. intros [= <-]. by apply free_inv.
    - destruct (cons_ s) eqn:Ec; try done. destruct (destructing s) eqn:Ed; [|done]. intros [= <-].
      pose proof (i_deliv _ _ I) as H. rewrite Ec in H.
      constructor; simpl; try apply I; try done. intros k x Hk Hx.
      destruct (i_used _ _ I k x Hk Hx) as [H1 H2]. split; [done|].
      change (at_ (set_cons CFinished s) k) with (at_ s k). rewrite Ec in H2. done.
    - intros [= <-]. constructor; simpl; try apply I. done.
  Qed.

  Lemma run_app ls1 ls2 s : run (ls1 ++ ls2) s = s' ← run ls1 s; run ls2 s'.
  Proof. revert s. induction ls1 as [|l ls1 IH]; intros s; [done|]. simpl. destruct (step l s); [apply IH|done]. Qed.

  Lemma run_inv ls d s s' : inv d s → run ls s = Some s' → ∃ d', d ≤ d' ∧ inv d' s'.
  Proof.
    revert d s. induction ls as [|l ls IH]; intros d s I; simpl.
    - intros [= <-]. by exists d.
    - destruct (step l s) as [s1|] eqn:E; [|done]. intros Hr.
      destruct (IH _ _ (step_inv _ _ _ _ I E) Hr) as (d' & H1 & H2). exists d'. split; [destruct l; lia|done].
  Qed.

  Lemma reachable_inv s : reachable s → ∃ d, inv d s.
  Proof. intros [ls H]. destruct (run_inv _ _ _ _ inv_init H) as (d & _ & I). by exists d. Qed.

  (** Induction over reachable states. *)
  Lemma reachable_ind (P : mmq M → Prop) : P mmq_init →
    (∀ s l s', reachable s → P s → step l s = Some s' → P s') → ∀ s, reachable s → P s.
  Proof.
    intros H0 HS s [ls Hr]. revert s Hr. induction ls as [|l ls IH] using rev_ind; intros s Hr.
    - by injection Hr as <-.
    - rewrite run_app in Hr. destruct (run ls mmq_init) as [s1|] eqn:E; [|done]. simpl in Hr.
      destruct (step l s1) as [s2|] eqn:E2; [|done]. injection Hr as <-.
      eapply HS; [by exists ls|by apply IH|done].
  Qed.
End Inv.
