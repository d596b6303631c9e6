(** * Proofs about RipCurrent: what the trace says *)
From stdpp Require Import list sets.
From Coq Require Import ZArith Lia Sorting.Sorted.
From Verif Require Import MMQ_Model RipCurrent_Model RipCurrent_Spec RipCurrent_Proofs RipCurrent_Proofs2.

Section Trace.
  Context {B : Type} (code : nat → block B) (f : flow).
  Context (Wf : wf f) (Wt : well_typed code f).
  Context (Calls : ∀ x, x ∈ leaves f → all_calls code (call_ok code x) x) (Out : outputs code f = []).
  Notation state := (state B). Notation task := (task B). Notation event := (event B).
  Notation oq := (out_queue f None).
  Notation Inv := (Inv code f). Notation Step := (Step code f).
  Implicit Types (s : state) (τ : tid) (tr : list event).

  #[global] Instance idle_dec (t : task) : Decision (idle t).
  Proof.
    destruct t as [x [| | | |] [|]]; try (right; intros [? ?]; done). by left.
  Defined.
  Definition at_work (b : nat) s (ph : phase B) (ops : list (op B)) : Prop :=
    (∃ τ, st_task s τ = Some (Task b ph ops) ∧ ¬ idle (Task b ph ops)) ∨
    (ph = Ready ∧ ops = [] ∧ ∀ τ t, st_task s τ = Some t → t_who t = b → idle t).
  Definition in_flight (ph : phase B) : list (msg B) :=
    match ph with Calling _ m | Publishing _ m => [m] | _ => [] end.
  Definition finishing (b : nat) s : bool :=
    bool_decide (IBlock b ∉ st_left s) ||
    match st_task s TJoin with Some t => bool_decide (t_who t = b) | None => false end.
  Definition so_far (b : nat) s : list (op B) :=
    starts code b ++ reactions code b [] (st_hist s b) ++ (if finishing b s then b_finish (code b) (st_hist s b) else []).
  Definition delivered (x : nat) tr : list (msg B) :=
    omap (λ e, match e with Received _ x' m => if decide (x' = x) then Some m else None | _ => None end) tr.
  Definition of (x : nat) (l : list (entry (nat * msg B))) : list (msg B) :=
    omap (λ e, if decide ((e_body e).1 = x) then Some (e_body e).2 else None) l.
  Definition in_queue (x : nat) s : list (msg B) := match oq x with Some q => of x (qlist s q) | None => [] end.

  Record InvT tr s : Prop := {
    T_hist : ∀ y, st_hist s y = (received y tr).*2;
    T_work : ∀ b, b ∈ leaves f → ∃ ph ops, at_work b s ph ops ∧ issued b tr ++ ops = so_far b s ∧
      (outcomes b tr).*1 ++ in_flight ph = omap message_of (issued b tr);
    T_sent : ∀ b, b ∈ leaves f → sent b tr = delivered b tr ++ in_queue b s;
    T_recv : ∀ y x m, Received y x m ∈ tr → x ∈ leaves f ∧ (∃ q, feeds f x q ∧ served f q y) ∧ m_type m ∈ b_ins (code y);
    T_gone : ∀ i, Destroyed i ∈ tr ↔ i ∈ teardown f ∧ i ∉ st_left s;
    T_dead : ∀ t1 t2 i, tr = t1 ++ Destroyed i :: t2 → ∀ e, e ∈ t2 → ¬ uses f e i }.

  Lemma received_app y a b : received y (a ++ b) = received y a ++ received (B:=B) y b.
  Proof. apply omap_app. Qed.
  Lemma issued_app y a b : issued y (a ++ b) = issued y a ++ issued (B:=B) y b.
  Proof. apply omap_app. Qed.
  Lemma outcomes_app y a b : outcomes y (a ++ b) = outcomes y a ++ outcomes (B:=B) y b.
  Proof. apply omap_app. Qed.
  Lemma sent_app y a b : sent y (a ++ b) = sent y a ++ sent (B:=B) y b.
  Proof. unfold sent. by rewrite outcomes_app, omap_app. Qed.
  Lemma delivered_app y a b : delivered y (a ++ b) = delivered y a ++ delivered y b.
  Proof. apply omap_app. Qed.
  Lemma reactions_snoc b p h m : reactions code b p (h ++ [m]) = reactions code b p h ++ b_react (code b) (p ++ h) m.
  Proof.
    revert p. induction h as [|a h IH]; intros p; simpl; [by rewrite !app_nil_r|].
    rewrite IH, <-!app_assoc. done.
  Qed.

  Lemma at_work_det s τ b ph ops ph' ops' : Inv s → st_task s τ = Some (Task b ph ops) → ¬ idle (Task b ph ops) →
    at_work b s ph' ops' → ph' = ph ∧ ops' = ops.
  Proof.
    intros I E N [(τ'&E'&N')|(_&_&Q)]; [|by destruct N; eapply Q].
    pose proof (unique code f Wf s τ τ' _ _ I E E' eq_refl N N') as <-. rewrite E in E'. by injection E' as <- <-.
  Qed.
  Lemma at_work_quiet s b ph ops : at_work b s ph ops → (∀ τ t, st_task s τ = Some t → t_who t = b → idle t) →
    ph = Ready ∧ ops = [].
  Proof. intros [(τ&E&N)|(->&->&_)] Q; [|done]. destruct N. by eapply Q. Qed.

  (** Nothing is at work for the block whose turn it is to be destroyed. *)
  Lemma quiet_head s b r : Inv s → st_left s = IBlock b :: r →
    (∀ t, st_task s (TSource b) = Some t → idle t) → (∀ t, st_task s TJoin = Some t → idle t) →
    ∀ τ t, st_task s τ = Some t → t_who t = b → idle t.
  Proof.
    intros I L S J [b'|q|] t E W; [| |auto].
    - destruct (A_src _ _ s I b' t E) as (X&_). rewrite X in W. subst. auto.
    - exfalso. destruct (A_que _ _ s I q t E) as (Sv&_&Lq). destruct (A_left _ _ s I) as [d D].
      rewrite L in D, Lq. rewrite W in Sv.
      by refine (before_head _ _ _ d r (teardown_NoDup f Wf) (served_before f _ _ Wf Sv) D Lq).
  Qed.
  (** ... nor for a block served by a queue that is not running. *)
  Lemma quiet_served s q y : Inv s → served f q y → b_ins (code y) ≠ [] → IQueue q ∈ st_left s → unlocked q s →
    ∀ τ t, st_task s τ = Some t → t_who t ≠ y.
  Proof.
    intros I Sv N Lq U τ t E W. destruct τ as [b|q'|].
    - destruct (A_src _ _ s I b t E) as (X&_&Z). congruence.
    - destruct (A_que _ _ s I q' t E) as (Sv'&_&_). rewrite W in Sv'.
      pose proof (served_unique f _ _ _ Wf Sv Sv') as <-. unfold unlocked in U. congruence.
    - destruct (A_join _ _ s I t E) as (_&r&R&_). destruct (A_left _ _ s I) as [d D]. rewrite R, W in *.
      by refine (before_head _ _ _ d r (teardown_NoDup f Wf) (served_before f _ _ Wf Sv) D Lq).
  Qed.

  (** ** Advancing a thread *)
  Lemma so_far_same b s s' : st_hist s' b = st_hist s b → finishing b s' = finishing b s → so_far b s' = so_far b s.
  Proof. intros H F. unfold so_far. by rewrite H, F. Qed.

  Lemma of_emplace x e l : (∀ a, a ∈ l → e_us a ≠ e_us e ∧ ((e_body a).1 = (e_body e).1 → e_us a < e_us e)%Z) →
    StronglySorted (λ a b, (e_us a < e_us b)%Z) l →
    of x (emplace e l) = of x l ++ of x [e].
  Proof.
    induction l as [|a l IH]; simpl; intros N S; [done|]. inversion S as [|?? S1 S2]; subst.
    case_decide as D1; [|case_decide as D2].
    - simpl. change (omap _ l) with (of x l). destruct (decide ((e_body e).1 = x)) as [X|X]; [|by rewrite app_nil_r].
      assert (∀ c, c ∈ a :: l → (e_body c).1 ≠ x) as H.
      { intros c C. destruct (N c C) as [_ H]. intros Y. rewrite X in H. specialize (H Y).
        apply elem_of_cons in C as [->|C]; [lia|]. rewrite Forall_forall in S2. specialize (S2 c C). simpl in S2. lia. }
      rewrite decide_False by (apply H; left).
      assert (of x l = []) as ->; [|done]. clear -H. induction l as [|c l IH]; [done|]. simpl.
      rewrite decide_False by (apply H; set_solver). apply IH. set_solver.
    - simpl. change (omap _ (emplace e l)) with (of x (emplace e l)). change (omap _ l) with (of x l).
      rewrite IH; [|set_solver|done]. case_decide; done.
    - exfalso. destruct (N a) as [? _]; [set_solver|]. lia.
  Qed.

  Lemma invT_adv tr ev s s' τ x ph ops ph' ops' : Inv s → InvT tr s →
    st_task s τ = Some (Task x ph ops) → ¬ idle (Task x ph ops) →
    (∀ τ', τ' ≠ τ → st_task s' τ' = st_task s τ') → st_task s' τ = Some (Task x ph' ops') →
    st_left s' = st_left s → st_hist s' = st_hist s →
    (∀ e, e ∈ ev → match e with Issued b _ | Sent b _ | Refused b _ | HeadRefused b => b = x | _ => False end) →
    issued x ev ++ ops' = ops → (outcomes x ev).*1 ++ in_flight ph' = in_flight ph ++ omap message_of (issued x ev) →
    (∀ b, b ∈ leaves f → in_queue b s' = in_queue b s ++ sent b ev) → InvT (tr ++ ev) s'.
  Proof.
    intros I T E N K E' L H Ev Io Oo Q.
    pose proof (who_leaf code f Wf Wt Calls s τ _ I E) as X. simpl in X.
    assert (∀ y, received y ev = []) as Er.
    { intros y. clear -Ev. induction ev as [|e ev IH]; [done|]. simpl.
      pose proof (Ev e (elem_of_list_here _ _)). destruct e; try done; apply IH; set_solver. }
    assert (∀ y, delivered y ev = []) as Ed.
    { intros y. clear -Ev. induction ev as [|e ev IH]; [done|]. simpl.
      pose proof (Ev e (elem_of_list_here _ _)). destruct e; try done; apply IH; set_solver. }
    assert (∀ b, b ≠ x → issued b ev = [] ∧ outcomes b ev = []) as Ei.
    { intros b Hb. clear -Ev Hb. induction ev as [|e ev IH]; [done|]. simpl.
      pose proof (Ev e (elem_of_list_here _ _)) as He.
      assert (issued b ev = [] ∧ outcomes b ev = []) as [I1 I2] by (apply IH; set_solver).
      unfold issued, outcomes in *.
      destruct e; try done; subst; rewrite ?decide_False by done; split; done. }
    constructor.
    - intros y. rewrite H, received_app, Er, app_nil_r. apply T.
    - intros b Hb. destruct (T_work tr s T b Hb) as (ph0&ops0&W&Hi&Ho).
      assert (so_far b s' = so_far b s) as ->.
      { apply so_far_same; [by rewrite H|]. unfold finishing. rewrite L. f_equal.
        destruct (decide (TJoin = τ)) as [<-|D]; [by rewrite E, E'|by rewrite K]. }
      rewrite issued_app, outcomes_app, fmap_app, omap_app.
      destruct (decide (b = x)) as [->|D].
      + destruct (at_work_det s τ x ph ops ph0 ops0 I E N W) as [-> ->].
        exists ph', ops'. split; [|split].
        * destruct (decide (idle (Task x ph' ops'))) as [[P1 P2]|Ni]; [|by left; exists τ].
          simpl in P1, P2. right. split; [done|]. split; [done|]. intros τ' t' T' W'.
          destruct (decide (τ' = τ)) as [->|D']; [rewrite E' in T'; by injection T' as <-|].
          rewrite K in T' by done. destruct (decide (idle t')) as [?|Nt]; [done|].
          destruct D'. by eapply (unique code f Wf s τ' τ).
        * rewrite <-app_assoc, Io. done.
        * rewrite <-app_assoc, Oo, app_assoc, Ho. done.
      + destruct (Ei b D) as [-> ->]. rewrite !app_nil_r. exists ph0, ops0. split; [|done].
        destruct W as [(τ'&T'&N')|(->&->&Qt)].
        * left. exists τ'. split; [|done]. rewrite K; [done|]. intros ->. rewrite E in T'. congruence.
        * right. split; [done|]. split; [done|]. intros τ' t' T' W'. apply (Qt τ'); [|done].
          rewrite <-K; [done|]. intros ->. rewrite E' in T'. injection T' as <-. simpl in W'. congruence.
    - intros b Hb. rewrite sent_app, delivered_app, Ed, app_nil_r, (Q b Hb), app_assoc. f_equal. by apply T.
    - intros y x' m Hm. apply elem_of_app in Hm as [Hm|Hm]; [by apply (T_recv tr s T)|]. by apply Ev in Hm.
    - intros i. rewrite elem_of_app, L. rewrite <-(T_gone tr s T). split; [intros [?|He]; [done|by apply Ev in He]|tauto].
    - intros t1 t2 i Eq e He.
      assert (∃ k, tr = t1 ++ Destroyed i :: k ∧ t2 = k ++ ev) as (k&->&->).
      { apply app_eq_inv in Eq as [(k&->&Ek)|(k&->&Ek)].
        - destruct k as [|c k]; [|by injection Ek as <- ->; exists k].
          assert (Destroyed i ∈ ev) as Hc by (simpl in Ek; rewrite <-Ek; left). by apply Ev in Hc.
        - assert (Destroyed i ∈ ev) as Hc by (rewrite Ek; set_solver). by apply Ev in Hc. }
      apply elem_of_app in He as [He|He]; [by eapply (T_dead _ s T)|].
      assert (Destroyed i ∈ t1 ++ Destroyed i :: k) as Hc by set_solver. apply (T_gone _ s T) in Hc as [_ Hc].
      specialize (Ev e He).
      assert (IBlock x ∈ st_left s) as La by (destruct (A_alive _ _ s I τ _ E); done).
      destruct i as [b|q].
      + simpl. destruct e; simpl; try done; subst; intros <-; done.
      + assert (¬ feeds f x q) as Hf.
        { intros F. apply Hc. destruct (A_left _ _ s I) as [d D].
          eapply before_left; [exact (feeds_before f _ _ Wf F)|exact D|done]. }
        destruct e; simpl; try done; subst; done.
  Qed.

  Lemma in_queue_ext b s s' : (∀ q, qlist s' q = qlist s q) → in_queue b s' = in_queue b s.
  Proof. intros Q. unfold in_queue. destruct (oq b); [by rewrite Q|done]. Qed.
  Lemma qlist_same s q v q' : queue (rq_pq v) = qlist s q → qlist (set_queue q v s) q' = qlist s q'.
  Proof. intros E. unfold qlist. simpl. unfold upd. case_decide as D; [|done]. subst. done. Qed.

  (** Steps that only touch the queues or the joiner. *)
  Lemma invT_frame tr ev s s' : Inv s → InvT tr s →
    (∀ b ph ops, at_work b s ph ops → at_work b s' ph ops) → st_hist s' = st_hist s →
    (∀ b, b ∈ leaves f → finishing b s' = finishing b s) → (∀ q, qlist s' q = qlist s q) →
    (ev = [] ∧ st_left s' = st_left s ∨
     ∃ i r, ev = [Destroyed i] ∧ st_left s = i :: r ∧ st_left s' = r) → InvT (tr ++ ev) s'.
  Proof.
    intros I T W H F Q Ev. destruct (A_left _ _ s I) as [d D].
    assert (∀ e, e ∈ ev → ∃ i, e = Destroyed i ∧ i ∈ st_left s) as Ee.
    { intros e He. destruct Ev as [[-> _]|(i&r&->&L&_)]; [set_solver|].
      apply elem_of_list_singleton in He as ->. exists i. rewrite L. set_solver. }
    assert (∀ y, received y ev = [] ∧ delivered y ev = [] ∧ issued y ev = [] ∧ outcomes y ev = [] ∧ sent y ev = []) as En.
    { intros y. destruct Ev as [[-> _]|(i&r&->&_)]; done. }
    constructor.
    - intros y. rewrite H, received_app. destruct (En y) as (->&_). rewrite app_nil_r. apply T.
    - intros b Hb. destruct (T_work tr s T b Hb) as (ph&ops&W0&Hi&Ho). exists ph, ops.
      rewrite issued_app, outcomes_app. destruct (En b) as (_&_&->&->&_). rewrite !app_nil_r.
      split; [auto|]. split; [|done]. rewrite Hi. symmetry. apply so_far_same; [by rewrite H|auto].
    - intros b Hb. rewrite sent_app, delivered_app. destruct (En b) as (_&->&_&_&->). rewrite !app_nil_r.
      rewrite (in_queue_ext b s s' Q). by apply T.
    - intros y x m Hm. apply elem_of_app in Hm as [Hm|Hm]; [by apply (T_recv tr s T)|].
      apply Ee in Hm as (?&?&_). done.
    - intros i. rewrite elem_of_app, (T_gone tr s T). destruct Ev as [[-> ->]|(j&r&->&L&->)]; [set_solver|].
      assert (j ∉ r) as Nj.
      { pose proof (teardown_NoDup f Wf) as ND. rewrite D, L in ND. apply NoDup_app in ND as (_&_&ND).
        by apply NoDup_cons in ND as [? _]. }
      assert (j ∈ teardown f) as Hj by (rewrite D, L; set_solver).
      rewrite L, elem_of_cons, elem_of_list_singleton. split.
      + intros [[? ?]|[= ->]]; [tauto|done].
      + intros [? ?]. destruct (decide (i = j)) as [->|]; [by right|]. left. tauto.
    - intros t1 t2 i Eq e He.
      apply app_eq_inv in Eq as [(k&->&Ek)|(k&->&Ek)].
      + destruct k as [|c k].
        * simpl in Ek. destruct Ev as [[-> _]|(j&r&->&_)]; [done|]. injection Ek as _ Ek2. subst. by apply elem_of_nil in He.
        * injection Ek as <- ->. apply elem_of_app in He as [He|He]; [by eapply (T_dead _ s T)|].
          apply Ee in He as (j&->&Hj).
          assert (Destroyed i ∈ t1 ++ Destroyed i :: k) as Hc by set_solver. apply (T_gone _ s T) in Hc as [_ Hc].
          destruct i; simpl; intros <-; done.
      + destruct k as [|c k]; [simpl in Ek|].
        * destruct Ev as [[-> _]|(j&r&->&_)]; [done|]. injection Ek as _ Ek2. subst. by apply elem_of_nil in He.
        * destruct Ev as [[-> _]|(j&r&->&_)]; [done|]. injection Ek as _ Ek. destruct k; done.
  Qed.

  Lemma at_work_frame s s' τ : (∀ τ', τ' ≠ τ → st_task s' τ' = st_task s τ') →
    (∀ t, st_task s τ = Some t → idle t) → (∀ t, st_task s' τ = Some t → idle t) →
    ∀ b ph ops, at_work b s ph ops → at_work b s' ph ops.
  Proof.
    intros K E E' b ph ops [(τ'&T&N)|(->&->&Q)].
    - left. exists τ'. split; [|done]. rewrite K; [done|]. intros ->. by apply N, E.
    - right. split; [done|]. split; [done|]. intros τ' t T W. destruct (decide (τ' = τ)) as [->|D]; [auto|].
      rewrite K in T by done. by eapply Q.
  Qed.

  Ltac advT I T E := eapply (invT_adv _ _ _ _ _ _ _ _ _ _ I T E);
    [intros [? ?]; simpl in *; done|intros ? ?; by rewrite set_task_ne by done|apply set_task_eq|done|done| | | | ].

  Lemma invT_step tr ev s s' : Inv s → InvT tr s → Step s ev s' → InvT (tr ++ ev) s'.
  Proof.
    intros I T HS. pose proof (inv_step code f Wf Wt Calls s ev s' I HS) as I'.
    inversion HS as [τ x o ops E Q|τ x o m t c ops q E Q Hm Hc He|τ x t ops q E Q|τ x t m ops q E Q U Hh|τ x t m ops q E Q U Hh
      |τ x t m ops q E Q U|τ x m ops q E Q|τ x t ops q E Q U Hh|τ x t ops q E Q U Hh|q e x m rest y Hq U D L Hh Hb C
      |q x E|J|b rest J L E F|b rest x J L E|q rest J L E P U]; subst ev s'.
    - assert (message_of o = None) as Hm.
      { destruct (message_of o) as [m|] eqn:Hm; [|done]. exfalso.
        pose proof (A_ops _ _ s I _ _ E) as [O _]. simpl in O. apply Forall_cons in O as [[_ O] _].
        specialize (O m Hm).
        pose proof (who_leaf code f Wf Wt Calls s _ _ I E) as X. simpl in X.
        destruct (leaf_out f x X) as [Ex|[q F]]; [|apply (oq_feeds f Wf) in F; congruence].
        assert (m_type m ∈ outputs code f) as Z by (apply outputs_spec; eauto). rewrite Out in Z. by apply elem_of_nil in Z. }
      advT I T E.
      + intros e He. apply elem_of_list_singleton in He as ->. done.
      + simpl. by rewrite decide_True.
      + simpl. rewrite decide_True by done. simpl. by rewrite Hm.
      + intros b Hb. rewrite app_nil_r. by apply in_queue_ext.
    - advT I T E.
      + intros e Hin. apply elem_of_list_singleton in Hin as ->. done.
      + simpl. by rewrite decide_True.
      + simpl. rewrite decide_True by done. simpl. by rewrite Hm.
      + intros b Hb. rewrite app_nil_r. apply in_queue_ext. intros q'. by apply (qlist_same s).
    - advT I T E.
      + intros e Hin. apply elem_of_list_singleton in Hin as ->. done.
      + simpl. by rewrite decide_True.
      + simpl. rewrite decide_True by done. done.
      + intros b Hb. rewrite app_nil_r. by apply in_queue_ext.
    - advT I T E.
      + intros e Hin. by apply elem_of_nil in Hin.
      + done.
      + done.
      + intros b Hb. rewrite app_nil_r. apply in_queue_ext. intros q'. by apply (qlist_same s).
    - advT I T E.
      + intros e Hin. apply elem_of_list_singleton in Hin as ->. done.
      + done.
      + simpl. rewrite decide_True by done. done.
      + intros b Hb. unfold sent. simpl. destruct (decide (x = b)); simpl; rewrite app_nil_r; by apply in_queue_ext.
    - advT I T E.
      + intros e Hin. apply elem_of_list_singleton in Hin as ->. done.
      + done.
      + simpl. rewrite decide_True by done. done.
      + intros b Hb. unfold in_queue. destruct (decide (oq b = Some q)) as [Hq|Hq].
        * rewrite Hq. unfold qlist at 1. simpl. rewrite upd_eq. simpl. rewrite of_emplace.
          -- unfold sent. simpl. by destruct (decide (x = b)).
          -- simpl. apply (B_pub _ _ s I _ _ _ _ _ _ E Q).
          -- apply (B_sorted _ _ s I).
        * assert (x ≠ b) as Hx by (intros ->; done). unfold sent. simpl. rewrite decide_False by done.
          simpl. rewrite app_nil_r. destruct (oq b) as [q'|] eqn:Hq'; [|done]. unfold qlist. simpl.
          rewrite upd_ne; [done|]. congruence.
    - advT I T E.
      + intros e Hin. by apply elem_of_nil in Hin.
      + done.
      + done.
      + intros b Hb. rewrite app_nil_r. apply in_queue_ext. intros q'. by apply (qlist_same s).
    - advT I T E.
      + intros e Hin. by apply elem_of_nil in Hin.
      + done.
      + done.
      + intros b Hb. rewrite app_nil_r. apply in_queue_ext. intros q'. by apply (qlist_same s).
    - advT I T E.
      + intros e Hin. apply elem_of_list_singleton in Hin as ->. done.
      + done.
      + done.
      + intros b Hb. rewrite app_nil_r. by apply in_queue_ext.
    - (* consume *)
      assert (IQueue q ∈ st_left s) as Lq.
      { destruct (decide (IQueue q ∈ st_left s)) as [|N]; [done|]. rewrite (A_dead _ _ s I q Hq N) in L. done. }
      apply (consumer_block_spec code f q _ y Wf Wt Hq) in C as [Cs Ct].
      assert (b_ins (code y) ≠ []) as Ny by (intros Z; rewrite Z in Ct; by apply elem_of_nil in Ct).
      pose proof (quiet_served s q y I Cs Ny Lq U) as Qy.
      destruct (A_left _ _ s I) as [d Dd].
      pose proof (before_left _ _ _ d _ (served_before f q y Wf Cs) Dd Lq) as Ly.
      assert (e ∈ qlist s q) as Ein by (rewrite L; left).
      destruct (A_route _ _ s I q e Ein) as (_&Hx&Hox&Hty). rewrite Hb in Hx, Hox, Hty. simpl in Hx, Hox, Hty.
      set (s' := St _ _ _ _ _ _) in *.
      assert (∀ τ, τ ≠ TQueue q → st_task s' τ = st_task s τ) as K.
      { intros τ Hτ. unfold s'. simpl. by rewrite tid_eqb_spec, bool_decide_eq_false_2. }
      assert (st_task s' (TQueue q) = Some (Task y Ready (b_react (code y) (st_hist s y) m))) as E'.
      { unfold s'. simpl. by rewrite bool_decide_eq_true_2. }
      assert (∀ b, finishing b s' = finishing b s) as Hf by (intros b; unfold finishing; by rewrite K).
      constructor.
      + intros y'. rewrite received_app, fmap_app, <-(T_hist tr s T). unfold s'. simpl. unfold upd.
        destruct (decide (y' = y)) as [->|Dy]; [by rewrite decide_True|].
        rewrite decide_False by done. simpl. by rewrite app_nil_r.
      + intros b Hbl. destruct (T_work tr s T b Hbl) as (ph&ops&W&Hi&Ho).
        rewrite issued_app, outcomes_app. simpl. rewrite !app_nil_r.
        destruct (decide (b = y)) as [->|Dy].
        * destruct (at_work_quiet s y ph ops W) as [-> ->]; [by intros ??? ?; edestruct Qy|].
          rewrite app_nil_r in Hi. exists Ready, (b_react (code y) (st_hist s y) m). split; [|split; [|done]].
          -- destruct (b_react (code y) (st_hist s y) m) as [|o r] eqn:R.
             ++ right. split; [done|]. split; [done|]. intros τ t' T' W'.
                destruct (decide (τ = TQueue q)) as [->|N]; [rewrite E' in T'; by injection T' as <-|].
                rewrite K in T' by done. by edestruct Qy.
             ++ left. exists (TQueue q). split; [done|]. by intros [? ?].
          -- rewrite Hi. unfold so_far. rewrite Hf.
             assert (finishing y s = false) as ->.
             { unfold finishing. rewrite bool_decide_eq_false_2 by (intros N; by apply N). simpl.
               destruct (st_task s TJoin) as [t|] eqn:TJ; [|done]. apply bool_decide_eq_false_2. by eapply Qy. }
             unfold s' at 1. simpl. rewrite upd_eq, reactions_snoc. simpl. by rewrite !app_nil_r, <-app_assoc.
        * exists ph, ops. split; [|split; [|done]].
          -- destruct W as [(τ&T'&N)|(->&->&Qb)].
             ++ left. exists τ. split; [|done]. rewrite K; [done|]. intros ->. unfold unlocked in U. congruence.
             ++ right. split; [done|]. split; [done|]. intros τ t' T' W'. apply (Qb τ); [|done].
                rewrite <-K; [done|]. intros ->. rewrite E' in T'. injection T' as <-. simpl in W'. congruence.
          -- rewrite Hi. symmetry. apply so_far_same; [|done]. unfold s'. simpl. by rewrite upd_ne.
      + intros b Hbl. rewrite sent_app, delivered_app. unfold sent at 2. simpl. rewrite app_nil_r, (T_sent tr s T b Hbl).
        rewrite <-app_assoc. f_equal. unfold in_queue. destruct (oq b) as [q'|] eqn:Hob.
        * destruct (decide (q' = q)) as [->|Dq].
          -- rewrite L. unfold qlist, s'. simpl. rewrite upd_eq. simpl. rewrite Hb. simpl. by destruct (decide (x = b)).
          -- rewrite decide_False by (intros ->; congruence). unfold qlist, s'. simpl. by rewrite upd_ne.
        * rewrite decide_False by (intros ->; congruence). done.
      + intros y' x' m' Hin. apply elem_of_app in Hin as [Hin|Hin]; [by apply (T_recv tr s T)|].
        apply elem_of_list_singleton in Hin. injection Hin as -> -> ->. split; [done|]. split; [|done].
        exists q. split; [|done]. by apply (oq_feeds f Wf).
      + intros i. rewrite elem_of_app, (T_gone tr s T). unfold s'. simpl. set_solver.
      + intros t1 t2 i Eq e' He.
        assert (∃ k, tr = t1 ++ Destroyed i :: k ∧ t2 = k ++ [Received y x m]) as (k&->&->).
        { apply app_eq_inv in Eq as [(k&->&Ek)|(k&->&Ek)].
          - destruct k as [|c k]; [done|]. by injection Ek as <- ->; exists k.
          - destruct k as [|c k]; [done|]. destruct k; done. }
        apply elem_of_app in He as [He|He]; [by eapply (T_dead _ s T)|].
        apply elem_of_list_singleton in He as ->.
        assert (Destroyed i ∈ t1 ++ Destroyed i :: k) as Hc by set_solver. apply (T_gone _ s T) in Hc as [_ Hc].
        destruct i as [b|q']; simpl; [by intros ->|]. intros Sv. apply Hc.
        by rewrite <-(served_unique f _ _ _ Wf Cs Sv).
    - (* return *)
      apply (invT_frame tr [] s); [done|done| |done| | |by left].
      + apply (at_work_frame s _ (TQueue q)); [intros; by rewrite set_task_ne|intros t; rewrite E; by intros [= <-]|].
        intros t. by rewrite set_task_eq.
      + intros b _. unfold finishing. rewrite set_task_ne by done. done.
      + intros q'. by apply (qlist_same s).
    - (* join *)
      apply (invT_frame tr [] s); try done. by left.
    - (* destructor of a block *)
      pose proof (quiet_head s b rest I L F) as Qb. rewrite E in Qb. specialize (Qb ltac:(done)).
      set (s' := set_task _ _ _) in *.
      assert (∀ τ, τ ≠ TJoin → st_task s' τ = st_task s τ) as K by (intros; unfold s'; by rewrite set_task_ne).
      assert (st_task s' TJoin = Some (Task b Ready (b_finish (code b) (st_hist s b)))) as E' by apply set_task_eq.
      assert (IBlock b ∈ st_left s) as Lb by (rewrite L; left).
      destruct T as [T1 T2 T3 T4 T5 T6]. constructor; rewrite ?app_nil_r; try done.
      intros b' Hb'. destruct (T2 b' Hb') as (ph&ops&W&Hi&Ho). destruct (decide (b' = b)) as [->|D].
      + destruct (at_work_quiet s b ph ops W Qb) as [-> ->]. rewrite app_nil_r in Hi.
        exists Ready, (b_finish (code b) (st_hist s b)). split; [|split; [|done]].
        * destruct (b_finish (code b) (st_hist s b)) as [|o r] eqn:R.
          -- right. split; [done|]. split; [done|]. intros τ t' T' W'.
             destruct (decide (τ = TJoin)) as [->|N]; [rewrite E' in T'; by injection T' as <-|].
             rewrite K in T' by done. by eapply Qb.
          -- left. exists TJoin. split; [done|]. by intros [? ?].
        * rewrite Hi. unfold so_far, finishing. rewrite E', E. unfold s'. simpl.
          rewrite (bool_decide_eq_false_2 (IBlock b ∉ st_left s)) by (intros N; by apply N). simpl.
          rewrite bool_decide_eq_true_2 by done. by rewrite !app_nil_r, <-app_assoc.
      + exists ph, ops. split; [|split; [|done]].
        * destruct W as [(τ&T'&N)|(->&->&Qb')].
          -- left. exists τ. split; [|done]. rewrite K; [done|]. intros ->. congruence.
          -- right. split; [done|]. split; [done|]. intros τ t' T' W'. apply (Qb' τ); [|done].
             rewrite <-K; [done|]. intros ->. rewrite E' in T'. injection T' as <-. simpl in W'. congruence.
        * rewrite Hi. symmetry. apply so_far_same; [done|]. unfold finishing. rewrite E', E. simpl.
          rewrite (bool_decide_eq_false_2 (b = b')) by congruence. done.
    - (* a block is gone *)
      destruct (A_join _ _ s I _ E) as (_&r&R&Hsrc). simpl in R, Hsrc. rewrite L in R. injection R as <- <-.
      apply (invT_frame tr _ s); [done|done| |done| |done|right; by exists (IBlock b), rest].
      + apply (at_work_frame s _ TJoin); [intros; change (st_task (set_task TJoin None s) τ' = st_task s τ'); by rewrite set_task_ne
          |intros t; rewrite E; by intros [= <-]|done].
      + intros b' _. unfold finishing. rewrite E. simpl. rewrite L.
        destruct (decide (b = b')) as [->|D].
        * rewrite (bool_decide_eq_true_2 (b' = b')) by done. rewrite orb_true_r, orb_false_r. apply bool_decide_eq_true_2.
          pose proof (teardown_NoDup f Wf) as ND. destruct (A_left _ _ s I) as [d Dd]. rewrite Dd, L in ND.
          apply NoDup_app in ND as (_&_&ND). by apply NoDup_cons in ND as [? _].
        * rewrite (bool_decide_eq_false_2 (b = b')) by done. f_equal. apply bool_decide_ext. rewrite elem_of_cons.
          split; [intros N [[= ?]|?]; congruence|tauto].
    - (* a queue is gone *)
      apply (invT_frame tr _ s); [done|done|done|done| | |right; by exists (IQueue q), rest].
      + intros b' _. unfold finishing. simpl. rewrite L. f_equal. apply bool_decide_ext. rewrite elem_of_cons.
        split; [intros N [?|?]; congruence|tauto].
      + intros q'. change (qlist (set_queue q (with_pq (st_queue s q) (MMPQ (qlist s q) (pq_last (rq_pq (st_queue s q))) true)) s) q' = qlist s q').
        by apply (qlist_same s).
  Qed.

  Lemma invT_init : InvT [] (initial code f).
  Proof.
    constructor; try done.
    - intros b Hb. unfold so_far. assert (finishing b (initial code f) = false) as ->.
      { unfold finishing. simpl. rewrite orb_false_r. apply bool_decide_eq_false_2. intros N. apply N. by apply teardown_block. }
      simpl. rewrite !app_nil_r. unfold starts.
      destruct (decide (b_ins (code b) = [])) as [E|E].
      + exists Ready, (b_start (code b)). split; [|done].
        destruct (b_start (code b)) as [|o r] eqn:R.
        * right. split; [done|]. split; [done|]. intros [b'|q|] t; simpl; [|done|done].
          case_decide as D; [|done]. intros [= <-] W. simpl in W. subst b'. by rewrite R.
        * left. exists (TSource b). simpl. rewrite decide_True by done. rewrite R. split; [done|]. by intros [? ?].
      + exists Ready, []. split; [|done]. right. split; [done|]. split; [done|].
        intros [b'|q|] t; simpl; [|done|done]. case_decide as D; [|done]. intros [= <-] W. simpl in W. subst. tauto.
    - intros b Hb. unfold in_queue. simpl. by destruct (oq b).
    - intros y x m Hm. by apply elem_of_nil in Hm.
    - intros i. split; [intros Hm; by apply elem_of_nil in Hm|]. simpl. intros [? ?]. done.
    - intros t1 t2 i E. by destruct t1.
  Qed.

  Lemma inv_run ls tr0 s : Inv s → InvT tr0 s → ∀ tr s', run code f ls s = Some (tr, s') → Inv s' ∧ InvT (tr0 ++ tr) s'.
  Proof.
    revert tr0 s. induction ls as [|l ls IH]; intros tr0 s I T tr s'; simpl.
    - intros [= <- <-]. by rewrite app_nil_r.
    - destruct (step code f l s) as [[t1 s1]|] eqn:E; [|done]. simpl.
      destruct (run code f ls s1) as [[t2 s2]|] eqn:R; [|done]. simpl. intros [= <- <-].
      apply (step_Step code f l s) in E; [|done]. rewrite app_assoc. eapply IH; [| |done].
      + by eapply inv_step.
      + by eapply invT_step.
  Qed.
End Trace.
