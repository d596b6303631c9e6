(** * Properties of the profiler *)
From stdpp Require Import gmap list.
From Verif Require Import Profiler_Model Profiler_Spec.
Open Scope Z_scope.

Definition active (p : list nat) (pt : per_thread) : Prop := within p (stack pt).
Record thread_inv (pt : per_thread) (h : history) (t : Z) : Prop := TInv {
  i_stack : stack pt = inside h;
  i_since : 0 < since h <= t;
  i_late : 0 <= late h;
  i_past q d : (q, d) ∈ past h → 0 <= d;
  i_active p : active p pt → is_Some (nodes pt !! p);
  i_on p n : nodes pt !! p = Some n → active p pt → 0 < us_entered n <= t ∧ us_total n - us_entered n = time_in p (past h) - since h - (if decide (p = []) then late h else 0);
  i_off p n : nodes pt !! p = Some n → ¬ active p pt → us_entered n = 0 ∧ us_total n = time_in p (past h);
  i_new p : nodes pt !! p = None → time_in p (past h) = 0 ∧ times p (entered h) = 0%nat ∧ p ∉ known h;
  i_entries p n : nodes pt !! p = Some n → entries n = (times p (entered h) + (if decide (p ∈ known h) then 1 else 0))%nat;
  i_known p : is_Some (nodes pt !! p) ↔ p ∈ known h ∨ p ∈ entered h;
  i_root : [] ∈ known h }.

Lemma within_refl p : within p p. Proof. by exists []. Qed.
Lemma within_nil p : within [] p. Proof. exists p. by rewrite app_nil_r. Qed.
Lemma within_cons p k q : within p (k :: q) ↔ p = k :: q ∨ within p q.
Proof.
  split.
  - intros ([|x l] & E); simpl in E; [by left|]. right. injection E as -> ->. by exists l.
  - intros [->|(l & ->)]; [apply within_refl|]. by exists (k :: l).
Qed.
Lemma within_length p q : within p q → (length p <= length q)%nat. Proof. intros (l & ->). rewrite app_length. lia. Qed.
Lemma not_within_cons k q : ¬ within (k :: q) q. Proof. intros H%within_length. simpl in H. lia. Qed.
Lemma time_in_app p l l' : time_in p (l ++ l') = time_in p l + time_in p l'.
Proof. induction l as [|[q d] l IH]; simpl; [done|]. lia. Qed.
Lemma time_in_one p q d : time_in p [(q, d)] = if decide (within p q) then d else 0.
Proof. simpl. case_decide; lia. Qed.
Lemma times_app p l l' : (times p (l ++ l') = times p l + times p l')%nat.
Proof. induction l as [|q l IH]; simpl; [done|]. lia. Qed.
Lemma times_none p l : times p l = 0%nat ↔ p ∉ l.
Proof. induction l as [|q l IH]; simpl; [split; [intros _; apply not_elem_of_nil|done]|]. rewrite not_elem_of_cons. case_decide; naive_solver lia. Qed.

(** The thread's entry in [guarded] and [seen] *)
Lemma thread_inv_later pt h t t' : t <= t' → thread_inv pt h t → thread_inv pt h t'.
Proof. intros L []. split; auto; [lia|]. intros p n N A. destruct (i_on0 p n N A). split; [lia|done]. Qed.
Lemma thread_inv_first now t : 0 < now <= t → thread_inv (PerThread {[ [] := Node t 0 1 ]} []) (first_seen now t) t.
Proof.
  intros L. split; simpl; try lia; try done.
  - intros q d H. by apply elem_of_nil in H.
  - intros p A. destruct p as [|k p]; [rewrite lookup_singleton; eauto|]. apply within_length in A. simpl in A. lia.
  - intros p n N A. apply lookup_singleton_Some in N as (<- & <-). simpl. split; [lia|]. lia.
  - intros p n N A. apply lookup_singleton_Some in N as (<- & <-). destruct A. apply within_nil.
  - intros p N. apply lookup_singleton_None in N. split_and!; [done..|]. rewrite elem_of_list_singleton. congruence.
  - intros p n N. apply lookup_singleton_Some in N as (<- & <-). reflexivity.
  - intros p. rewrite elem_of_list_singleton. split.
    + intros (n & N). apply lookup_singleton_Some in N as (<- & _). auto.
    + intros [->|H]; [rewrite lookup_singleton; eauto|by apply elem_of_nil in H].
  - by apply elem_of_list_singleton.
Qed.
Lemma thread_inv_enter pt h k now t : since h <= now <= t → thread_inv pt h now →
  thread_inv (enter k now pt) (let h' := move now (k :: inside h) h in History (past h') (inside h') (since h') (entered h' ++ [inside h']) (known h') (late h')) t.
Proof.
  intros L I. pose proof I as []. set (p := k :: stack pt). unfold enter. fold p. assert (Ep : k :: inside h = p) by (unfold p; by rewrite i_stack0).
  assert (NA : ¬ active p pt) by apply not_within_cons. assert (AC : ∀ q, within q p ↔ q = p ∨ active q pt) by (intros q; apply within_cons).
  assert (PL : ∀ q, time_in q (past h ++ [(inside h, now - since h)]) = time_in q (past h) + (if decide (active q pt) then now - since h else 0)).
  { intros q. rewrite time_in_app, time_in_one. f_equal. unfold active. by rewrite i_stack0. }
  assert (PN : p ≠ []) by done. clearbody p.
  split; simpl; rewrite ?Ep; try done; try lia.
  - intros q d [H|H%elem_of_list_singleton]%elem_of_app; [by eapply i_past0|]. simplify_eq. lia.
  - intros q A. destruct (decide (p = q)) as [<-|N]; [rewrite lookup_insert; eauto|]. rewrite lookup_insert_ne by done. apply i_active0. apply AC in A as [->|A]; done.
  - intros q n Q A. destruct (decide (p = q)) as [<-|N].
    + rewrite lookup_insert in Q. injection Q as <-. simpl. split; [lia|]. rewrite PL, (decide_False _ _ NA).
      rewrite (decide_False (P := p = [])) by done. destruct (nodes pt !! p) as [m|] eqn:M; simpl; [destruct (i_off0 _ _ M NA); lia|destruct (i_new0 _ M); lia].
    + rewrite lookup_insert_ne in Q by done. apply AC in A as [->|A]; [done|]. destruct (i_on0 q n Q A) as (X & Y). split; [lia|]. rewrite PL, decide_True by done. lia.
  - intros q n Q A. destruct (decide (p = q)) as [<-|N]; [destruct A; apply within_refl|].
    rewrite lookup_insert_ne in Q by done. assert (A' : ¬ active q pt) by (intros B; apply A; apply AC; auto). destruct (i_off0 q n Q A'). rewrite PL, decide_False by done. split; [done|lia].
  - intros q Q. destruct (decide (p = q)) as [<-|N]; [by rewrite lookup_insert in Q|]. rewrite lookup_insert_ne in Q by done. destruct (i_new0 q Q) as (X & Y & Z).
    rewrite PL, decide_False. 2: { intros A%i_active0. rewrite Q in A. by destruct A. } split_and!; [lia| |done]. rewrite times_app. simpl. rewrite decide_False by done. lia.
  - intros q n Q. rewrite times_app. simpl. destruct (decide (p = q)) as [<-|N].
    + rewrite lookup_insert in Q. injection Q as <-. simpl. rewrite (decide_True (P := p = p)) by done. destruct (nodes pt !! p) as [m|] eqn:M; simpl.
      * rewrite (i_entries0 _ _ M). lia.
      * destruct (i_new0 _ M) as (_ & -> & K). rewrite decide_False by done. lia.
    + rewrite lookup_insert_ne in Q by done. rewrite (i_entries0 _ _ Q). rewrite (decide_False (P := q = p)) by done. lia.
  - intros q. rewrite elem_of_app, elem_of_list_singleton. destruct (decide (p = q)) as [<-|N]; [rewrite lookup_insert; naive_solver|]. rewrite lookup_insert_ne by done. rewrite i_known0. naive_solver.
Qed.
Lemma thread_inv_leave pt h k now pt' : since h <= now → thread_inv pt h now → leave k now pt = Some pt' → thread_inv pt' (move now (tail (inside h)) h) now.
Proof.
  intros L I E. pose proof I as []. unfold leave in E. destruct (stack pt) as [|k' p] eqn:S; [done|]. case_decide as K; [|done]. subst k'.
  destruct (nodes pt !! (k :: p)) as [m|] eqn:M; [|done]. simpl in E. injection E as <-. set (r := k :: p) in *.
  assert (AR : active r pt) by (unfold active; rewrite S; apply within_refl). destruct (i_on0 _ _ M AR) as (ME & MT). rewrite decide_False in MT by (by unfold r).
  assert (AC : ∀ q, active q pt ↔ q = r ∨ within q p) by (intros q; unfold active; rewrite S; apply within_cons).
  assert (NP : ¬ within r p) by apply not_within_cons.
  assert (PL : ∀ q, time_in q (past h ++ [(inside h, now - since h)]) = time_in q (past h) + (if decide (active q pt) then now - since h else 0)).
  { intros q. rewrite time_in_app, time_in_one. f_equal. unfold active. by rewrite S, i_stack0. }
  split; simpl; try done; try lia.
  - by rewrite <- i_stack0.
  - intros q d [H|H%elem_of_list_singleton]%elem_of_app; [by eapply i_past0|]. simplify_eq. lia.
  - intros q A. destruct (decide (r = q)) as [<-|N]; [rewrite lookup_insert; eauto|]. rewrite lookup_insert_ne by done. apply i_active0. apply AC. by right.
  - intros q n Q A. unfold active in A. simpl in A. assert (N : r ≠ q) by (by intros <-). rewrite lookup_insert_ne in Q by done.
    assert (A' : active q pt) by (apply AC; by right). destruct (i_on0 q n Q A') as (X & Y). split; [lia|]. rewrite PL, (decide_True (P := active q pt)) by done. lia.
  - intros q n Q A. unfold active in A. simpl in A. destruct (decide (r = q)) as [<-|N].
    + rewrite lookup_insert in Q. injection Q as <-. simpl. rewrite PL, decide_True by done. split; [done|lia].
    + rewrite lookup_insert_ne in Q by done. assert (A' : ¬ active q pt) by (rewrite AC; intros [->|B]; done). destruct (i_off0 q n Q A'). rewrite PL, decide_False by done. split; [done|lia].
  - intros q Q. destruct (decide (r = q)) as [<-|N]; [by rewrite lookup_insert in Q|]. rewrite lookup_insert_ne in Q by done. destruct (i_new0 q Q) as (X & Y & Z).
    rewrite PL, decide_False. 2: { intros A%i_active0. rewrite Q in A. by destruct A. } split_and!; [lia|done|done].
  - intros q n Q. destruct (decide (r = q)) as [<-|N].
    + rewrite lookup_insert in Q. injection Q as <-. simpl. by apply i_entries0.
    + rewrite lookup_insert_ne in Q by done. by apply i_entries0.
  - intros q. rewrite <- i_known0. destruct (decide (r = q)) as [<-|N]; [rewrite lookup_insert, M; split; eauto|]. by rewrite lookup_insert_ne.
Qed.
Lemma thread_inv_reset pt h t a e : t < a <= e → thread_inv pt h t →
  thread_inv (PerThread (reset_node a <$> nodes pt) (stack pt)) (History [] (inside h) a [] (known h ++ entered h) 0) e.
Proof.
  intros L []. assert (0 < a) by lia. split; simpl; try done; try lia.
  - intros q d H'. by apply elem_of_nil in H'.
  - intros p A. rewrite lookup_fmap, fmap_is_Some. by apply i_active0.
  - intros p n N A. apply lookup_fmap_Some in N as (m & <- & M). destruct (i_on0 p m M A) as (X & _). simpl. rewrite decide_True by lia. split; [lia|]. case_decide; lia.
  - intros p n N A. apply lookup_fmap_Some in N as (m & <- & M). destruct (i_off0 p m M A) as (X & _). simpl. by rewrite X.
  - intros p N. rewrite lookup_fmap, fmap_None in N. split_and!; [done..|]. intros K. apply elem_of_app in K. apply i_known0 in K. rewrite N in K. by destruct K.
  - intros p n N. apply lookup_fmap_Some in N as (m & <- & M). simpl. rewrite decide_True; [done|]. apply elem_of_app, i_known0. eauto.
  - intros p. rewrite lookup_fmap, fmap_is_Some, i_known0, elem_of_app. split; [auto|]. intros [?|K]; [done|by apply elem_of_nil in K].
  - apply elem_of_app. auto.
Qed.

Definition inv (s : state) (hs : gmap nat history) : Prop :=
  0 <= time s ∧ ∀ th, match threads s !! th, hs !! th with Some pt, Some h => thread_inv pt h (time s) | None, None => True | _, _ => False end.
Lemma inv_later th pt h s hs t' : inv s hs → time s <= t' → thread_inv pt h t' → inv (State (<[th := pt]> (threads s)) t') (<[th := h]> hs).
Proof.
  intros (T & I) L J. split; simpl; [lia|]. intros th'. destruct (decide (th = th')) as [<-|N]; [by rewrite !lookup_insert|]. rewrite !lookup_insert_ne by done.
  specialize (I th'). destruct (threads s !! th'), (hs !! th'); try done. by eapply thread_inv_later.
Qed.
Lemma guarded_seen th w c s hs : inv s hs → ∃ pt h now t, guarded th w c s = (pt, now, t) ∧ seen th w c hs (time s) = (h, now, t) ∧
  time s < now <= t ∧ thread_inv pt h t ∧ (thread_inv pt h now ∧ now = t ∨ h = first_seen now t ∧ pt = PerThread {[ [] := Node t 0 1 ]} []).
Proof.
  intros (T & I). unfold guarded, seen. specialize (I th). destruct (threads s !! th) as [pt|], (hs !! th) as [h|]; try done.
  - do 4 eexists. split_and!; [done..|lia|lia| |left; split; [|done]]; (eapply thread_inv_later; [|exact I]; lia).
  - do 4 eexists. split_and!; [done..|lia|lia| |by right]. apply thread_inv_first. lia.
Qed.
(** A thread that has just been seen: the root counts from [t], but the scope from [now]. *)
Lemma thread_inv_first_enter k now t : 0 < now <= t →
  let pt := PerThread {[ [] := Node t 0 1 ]} [] in let h := first_seen now t in
  thread_inv (enter k now pt) (let h' := move now (k :: inside h) h in History (past h') (inside h') (since h') (entered h' ++ [inside h']) (known h') (late h')) t.
Proof.
  intros L. simpl. unfold enter. simpl. rewrite lookup_singleton_ne by done. simpl.
  assert (W : ∀ q, within q [k] ↔ q = [k] ∨ q = []).
  { intros q. rewrite within_cons. split; [intros [?|(l & E)]; [auto|right]|intros [?| ->]; [auto|right; apply within_nil]]. symmetry in E. by apply app_eq_nil in E as [_ ->]. }
  assert (TI : ∀ q, time_in q [([], now - now)] = 0) by (intros q; simpl; case_decide; lia).
  assert (LK : ∀ q n, <[[k]:=Node now 0 1]> ({[ [] := Node t 0 1 ]} : gmap (list nat) node) !! q = Some n ↔ q = [k] ∧ n = Node now 0 1 ∨ q = [] ∧ n = Node t 0 1).
  { intros q n. destruct (decide ([k] = q)) as [<-|N]; [rewrite lookup_insert; naive_solver|]. rewrite lookup_insert_ne by done. rewrite lookup_singleton_Some. naive_solver. }
  split; cbn [stack inside since late past nodes entered known]; try done; try lia.
  - intros q d [= -> ->]%elem_of_list_singleton. lia.
  - intros p A. unfold active in A. cbn in A. apply W in A as [->| ->]; [eexists; apply LK; auto|eexists; apply LK; auto].
  - intros p n N _. rewrite TI. apply LK in N as [[-> ->]|[-> ->]]; simpl; lia.
  - intros p n N A. destruct A. apply W. apply LK in N. naive_solver.
  - intros p N. rewrite TI. assert (p ≠ [k]) by (intros ->; by rewrite lookup_insert in N). assert (p ≠ []) by (intros ->; by rewrite lookup_insert_ne, lookup_singleton in N).
    split_and!; [done| |by rewrite elem_of_list_singleton]. simpl. by rewrite decide_False.
  - intros p n N. apply LK in N as [[-> ->]|[-> ->]]; simpl.
    + by rewrite decide_True by done.
    + done.
  - intros p. rewrite !elem_of_list_singleton. split; [intros (n & N); apply LK in N; naive_solver|intros [->| ->]; eexists; apply LK; auto].
  - by apply elem_of_list_singleton.
Qed.
Lemma step_inv a s s' hs : inv s hs → step a s = Some s' → let '(hs', t') := happens a (hs, time s) in time s' = t' ∧ inv s' hs'.
Proof.
  intros I E. destruct a as [th k w c|th k w c|th w c r|th w c at_ e]; simpl in E; destruct (guarded_seen th w c s hs I) as (pt & h & now & t & G & H & L & J & D); simpl; rewrite G in E; rewrite H.
  - injection E as <-. split; [done|]. apply inv_later; [done|lia|]. destruct D as [(J' & <-)|(-> & ->)].
    + apply thread_inv_enter; [|done]. destruct J'. lia.
    + apply thread_inv_first_enter. destruct I. lia.
  - destruct (leave k now pt) as [pt'|] eqn:V; [|done]. injection E as <-. split; [done|]. apply inv_later; [done|lia|]. destruct D as [(J' & <-)|(-> & ->)].
    + eapply thread_inv_leave; [|done|done]. destruct J'. lia.
    + done.
  - injection E as <-. split; [done|]. apply inv_later; [done|lia|]. eapply thread_inv_later; [|done]. lia.
  - case_decide as AT; [|done]. injection E as <-. split; [done|]. destruct (inv_later th pt h s hs t I ltac:(lia) J) as (_ & I').
    split; simpl; [destruct I; lia|]. intros th'. unfold reset. rewrite !map_lookup_imap. specialize (I' th'). simpl in I'.
    destruct (<[th := pt]> (threads s) !! th') as [pt'|] eqn:P, (<[th := h]> hs !! th') as [h'|]; try done. simpl. eapply thread_inv_reset; [|done]. exact (AT _ _ P).
Qed.
Lemma run_inv tr : ∀ s hs s', inv s hs → run tr s = Some s' → let '(hs', t') := foldl (λ x a, happens a x) (hs, time s) tr in time s' = t' ∧ inv s' hs'.
Proof.
  induction tr as [|a tr IH]; intros s hs s' I E; cbn [foldl run] in *; [by injection E as <-|].
  destruct (step a s) as [s1|] eqn:S; [|done]. cbn in E. pose proof (step_inv a s s1 hs I S) as K. destruct (happens a (hs, time s)) as [hs1 t1]. destruct K as (<- & I1). by apply IH.
Qed.
Lemma reached tr t s : 0 <= t → run tr (init t) = Some s → ∃ hs, happened tr t = (hs, time s) ∧ inv s hs.
Proof.
  intros T E. pose proof (run_inv tr (init t) ∅ s) as K. unfold happened. simpl in K. destruct (foldl _ _ _) as [hs t'].
  destruct K as (<- & I); [split; [done|intros th; by rewrite !lookup_empty]|done|eauto].
Qed.
Lemma report_lookup now s th l p us n : report now s !! th = Some l → l !! p = Some (us, n) → ∃ pt m, threads s !! th = Some pt ∧ nodes pt !! p = Some m ∧ us = total now m ∧ n = entries m.
Proof.
  unfold report. rewrite lookup_fmap. intros (pt & P & ->)%fmap_Some. rewrite lookup_fmap. intros (m & M & E)%fmap_Some. injection E as -> ->. eauto 10.
Qed.

(** The time reported for a scope of a thread is the time that thread has spent in it since it was first seen, or the profiler was reset; what is reported for the
    thread itself is less by as much as the profiler has begun late (never, after a reset). The number of entries is that of the calls of EnterScope since, and
    one more if the scope was known before the reset. *)
Theorem C96_time_is_accounted_for tr t s now th l p us n : 0 <= t → run tr (init t) = Some s → time s <= now →
  report now s !! th = Some l → l !! p = Some (us, n) →
  ∃ h, (happened tr t).1 !! th = Some h ∧ us = spent h p now - (if decide (p = []) then late h else 0) ∧
    n = (times p (entered h) + (if decide (p ∈ known h) then 1 else 0))%nat ∧ (n > 0)%nat.
Proof.
  intros T E L R P. destruct (reached tr t s T E) as (hs & -> & (_ & I)). destruct (report_lookup _ _ _ _ _ _ _ R P) as (pt & m & PT & M & -> & ->).
  specialize (I th). rewrite PT in I. simpl. destruct (hs !! th) as [h|]; [|done]. exists h. split; [done|]. destruct I. split; [|split; [by apply i_entries0|]].
  - unfold total, spent. rewrite time_in_app, time_in_one. unfold active in *. rewrite <- i_stack0. destruct (decide (within p (stack pt))) as [A|A].
    + destruct (i_on0 p m M A) as (X & Y). rewrite decide_True by lia. lia.
    + destruct (i_off0 p m M A) as (X & Y). rewrite X. simpl. rewrite decide_False by (intros ->; apply A, within_nil). lia.
  - rewrite (i_entries0 _ _ M). assert (p ∈ known h ∨ p ∈ entered h) as [K|K] by (apply i_known0; eauto); [rewrite decide_True by done; lia|].
    destruct (times p (entered h)) eqn:Q; [|lia]. by apply times_none in Q.
Qed.
(** Nothing else is reported, and nothing is missing. *)
Theorem C96_what_is_reported tr t s now th : 0 <= t → run tr (init t) = Some s →
  (is_Some (report now s !! th) ↔ is_Some ((happened tr t).1 !! th)) ∧
  ∀ l h, report now s !! th = Some l → (happened tr t).1 !! th = Some h → ∀ p, is_Some (l !! p) ↔ p ∈ known h ∨ p ∈ entered h.
Proof.
  intros T E. destruct (reached tr t s T E) as (hs & -> & (_ & I)). specialize (I th). simpl. unfold report. rewrite lookup_fmap.
  destruct (threads s !! th) as [pt|], (hs !! th) as [h|]; try done; simpl; (split; [split; intros []; eauto; done|]); [|by intros l h].
  intros l h' [= <-] [= <-] p. rewrite lookup_fmap, fmap_is_Some. apply I.
Qed.

Lemma parts p : ∀ l ks, NoDup ks → (∀ q d, (q, d) ∈ l → 0 <= d) → sum (λ k, time_in (k :: p) l) ks <= time_in p l.
Proof.
  assert (one : ∀ q ks, NoDup ks → ∀ d, 0 <= d → sum (λ k, if decide (within (k :: p) q) then d else 0) ks <= if decide (within p q) then d else 0).
  { intros q ks ND d D. induction ND as [|k ks NI ND IH]; simpl; [case_decide; lia|]. destruct (decide (within (k :: p) q)) as [W|W]; [|lia].
    assert (sum (λ k, if decide (within (k :: p) q) then d else 0) ks = 0) as ->.
    { assert (X : ∀ k', k' ∈ ks → ¬ within (k' :: p) q). { intros k' K (l & E). destruct W as (l' & E'). rewrite E' in E. apply app_inj_2 in E as [_ [= <-]]; [done|done]. }
      clear -X. induction ks as [|k' ks IH]; simpl; [done|]. rewrite decide_False by (apply X; by left). rewrite IH; [done|]. intros k'' K. apply X. by right. }
    rewrite decide_True; [lia|]. destruct W as (l & ->). exists (l ++ [k]). by rewrite <- app_assoc. }
  induction l as [|[q d] l IH]; intros ks ND P; simpl.
  - clear ND. induction ks; simpl; lia.
  - assert (D : 0 <= d) by (eapply P; by left). specialize (IH ks ND ltac:(intros q' d' H; eapply P; by right)). specialize (one q ks ND d D).
    assert (sum (λ k, (if decide (within (k :: p) q) then d else 0) + time_in (k :: p) l) ks =
      sum (λ k, if decide (within (k :: p) q) then d else 0) ks + sum (λ k, time_in (k :: p) l) ks) as ->; [|lia].
    clear. induction ks as [|k ks IH]; simpl; [done|]. rewrite IH. lia.
Qed.
Lemma past_now h pt t now : thread_inv pt h t → t <= now → ∀ q d, (q, d) ∈ past h ++ [(inside h, now - since h)] → 0 <= d.
Proof. intros [] L q d [H|H%elem_of_list_singleton]%elem_of_app; [by eapply i_past0|]. simplify_eq. lia. Qed.
(** Scopes inside a scope together do not take longer than the scope. *)
Theorem C96_parts_take_no_longer tr t s now th l p us n ks (parts_us : nat → Z) : 0 <= t → run tr (init t) = Some s → time s <= now →
  report now s !! th = Some l → l !! p = Some (us, n) → NoDup ks → (∀ k, k ∈ ks → ∃ m, l !! (k :: p) = Some (parts_us k, m)) →
  ∃ h, (happened tr t).1 !! th = Some h ∧ sum parts_us ks <= us + (if decide (p = []) then late h else 0).
Proof.
  intros T E L R P ND K. destruct (C96_time_is_accounted_for tr t s now th l p us n T E L R P) as (h & H & -> & _). exists h. split; [done|].
  transitivity (spent h p now); [|lia]. destruct (reached tr t s T E) as (hs & HH & (_ & I)). rewrite HH in H. simpl in H. specialize (I th). rewrite H in I. destruct (threads s !! th) as [pt|]; [|done].
  unfold spent. transitivity (sum (λ k, time_in (k :: p) (past h ++ [(inside h, now - since h)])) ks); [|by eapply parts, past_now].
  clear ND. induction ks as [|k ks IH]; simpl; [lia|]. destruct (K k ltac:(by left)) as (m & Q). destruct (C96_time_is_accounted_for tr t s now th l (k :: p) _ _ T E L R Q) as (h' & H' & -> & _).
  rewrite HH in H'. simpl in H'. rewrite H in H'. injection H' as <-. rewrite decide_False by done. unfold spent. specialize (IH ltac:(intros k' K'; apply K; by right)). lia.
Qed.
(** After a reset, that is so of the thread itself, too. *)
Theorem C96_parts_take_no_longer_after_a_reset tr t s now th l p us n ks (parts_us : nat → Z) who w c at_ e tr' :
  tr = tr' ++ [Reset who w c at_ e] → 0 <= t → run tr (init t) = Some s → time s <= now →
  report now s !! th = Some l → l !! p = Some (us, n) → NoDup ks → (∀ k, k ∈ ks → ∃ m, l !! (k :: p) = Some (parts_us k, m)) → sum parts_us ks <= us.
Proof.
  intros -> T E L R P ND K. destruct (C96_parts_take_no_longer _ t s now th l p us n ks parts_us T E L R P ND K) as (h & H & S).
  assert (late h = 0) as LT; [|rewrite LT in S; by destruct (decide (p = [])); lia].
  unfold happened in H. rewrite foldl_app in H. simpl in H. destruct (foldl _ _ tr') as [hs t']. simpl in H. destruct (seen who w c hs t') as [[h' now'] t'']. simpl in H.
  rewrite map_lookup_imap in H. destruct (<[who := h']> hs !! th); [|done]. injection H as <-. done.
Qed.
