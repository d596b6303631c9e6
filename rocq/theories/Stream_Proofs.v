From Verif Require Import Base Persister_Model Persister_Spec Persister_Proofs Stream_Model Stream_Spec.
From Coq Require Import Sorted.

Section L.
Context {E : Type}.
Variable C : codec E.

(** ** Facts about the log. *)
Lemma mp_step_grow (m : mp E) o : exists x, mp_entries (fst (mp_step C m o)) = mp_entries m ++ x /\
  (mp_head m <= mp_head (fst (mp_step C m o)))%Z /\ Forall (fun y => (mp_head m < fst y)%Z) x.
Proof.
  destruct o as [e t|line|t]; cbn.
  - unfold mp_publish. destruct (Z.ltb_spec (mp_head m) t); cbn.
    + exists [(t, e)]. repeat constructor; cbn; lia.
    + exists []. rewrite app_nil_r. repeat constructor. lia.
  - unfold mp_publish_unsafe.
    assert (Hs : exists x : list (Z * E), mp_entries m = mp_entries m ++ x /\ (mp_head m <= mp_head m)%Z /\ Forall (fun y => (mp_head m < fst y)%Z) x).
    { exists []. rewrite app_nil_r. repeat constructor. lia. }
    destruct (cut_at TAB line) as [[pre post]|]; cbn; [|exact Hs].
    destruct (par_idx C pre) as [[i t]|]; cbn; [|exact Hs].
    destruct (N.eqb i (mp_size m)); cbn; [|exact Hs].
    destruct (Z.ltb_spec (mp_head m) t); cbn; [|exact Hs].
    destruct (de C post) as [e|]; cbn; [|exact Hs].
    exists [(t, e)]. repeat constructor; cbn; lia.
  - unfold mp_update_head. destruct (Z.ltb_spec (mp_head m) t); cbn;
      exists []; rewrite app_nil_r; repeat constructor; lia.
Qed.

Definition at_ (m : mp E) (j : N) (t : Z) (e : E) : Prop := nth_error (mp_entries m) (N.to_nat j) = Some (t, e).

Lemma at_size m j t e : at_ m j t e -> (j < mp_size m)%N.
Proof. intros H. unfold mp_size. assert (N.to_nat j < length (mp_entries m)) by (apply nth_error_Some; unfold at_ in H; congruence). lia. Qed.

Lemma at_ex m j : (j < mp_size m)%N -> exists t e, at_ m j t e.
Proof.
  unfold mp_size, at_. intros H. destruct (nth_error (mp_entries m) (N.to_nat j)) as [[t e]|] eqn:Hn; [eauto|].
  apply nth_error_None in Hn. lia.
Qed.

Lemma SS_nth (l : list Z) : StronglySorted Z.lt l -> forall i j x y, i < j -> nth_error l i = Some x -> nth_error l j = Some y -> (x < y)%Z.
Proof.
  induction 1 as [|a l Hs IH Ha]; intros i j x y Hij Hi Hj; [destruct i; discriminate|].
  destruct j as [|j]; [lia|]. destruct i as [|i]; cbn in *.
  - injection Hi as <-. rewrite Forall_forall in Ha. apply Ha. now apply nth_error_In in Hj.
  - apply (IH i j); auto. lia.
Qed.

Lemma at_lt m j1 j2 t1 t2 e1 e2 : mp_inv m -> at_ m j1 t1 e1 -> at_ m j2 t2 e2 -> (j1 < j2)%N -> (t1 < t2)%Z.
Proof.
  intros H H1 H2 Hlt. apply (SS_nth _ (inv_sorted _ H) (N.to_nat j1) (N.to_nat j2)); [lia| |].
  - unfold at_ in H1. rewrite nth_error_map, H1. reflexivity.
  - unfold at_ in H2. rewrite nth_error_map, H2. reflexivity.
Qed.

Lemma at_head m j t e : mp_inv m -> at_ m j t e -> (t <= mp_head m)%Z.
Proof.
  intros H Hn. pose proof (inv_head _ H) as Hh. rewrite Forall_forall in Hh. unfold at_ in Hn.
  apply nth_error_In in Hn. exact (Hh _ Hn).
Qed.

Lemma at_step m o j t e : at_ (fst (mp_step C m o)) j t e -> at_ m j t e \/ ((mp_size m <= j)%N /\ (mp_head m < t)%Z).
Proof.
  destruct (mp_step_grow m o) as (x & Hx & _ & Hh). unfold at_. rewrite Hx. intros Hn.
  destruct (Nat.lt_ge_cases (N.to_nat j) (length (mp_entries m))) as [Hlt|Hge].
  - left. now rewrite nth_error_app1 in Hn.
  - right. split; [unfold mp_size; lia|]. rewrite nth_error_app2 in Hn by exact Hge.
    apply nth_error_In in Hn. rewrite Forall_forall in Hh. exact (Hh _ Hn).
Qed.

Lemma at_step_keep m o j t e : at_ m j t e -> at_ (fst (mp_step C m o)) j t e.
Proof.
  destruct (mp_step_grow m o) as (x & Hx & _). unfold at_. rewrite Hx. intros Hn.
  rewrite nth_error_app1; [exact Hn|]. apply nth_error_Some. congruence.
Qed.

Lemma size_step m o : (mp_size m <= mp_size (fst (mp_step C m o)))%N.
Proof. destruct (mp_step_grow m o) as (x & Hx & _). unfold mp_size. rewrite Hx, app_length. lia. Qed.

Lemma head_and_last_cases m :
  (mp_head_and_last m = (mp_head m, None) /\ mp_size m = 0%N) \/
  (exists t e, mp_head_and_last m = (mp_head m, Some ((mp_size m - 1)%N, t)) /\ at_ m (mp_size m - 1) t e /\ (0 < mp_size m)%N).
Proof.
  unfold mp_head_and_last, at_, mp_size. destruct (list_snoc_cases (mp_entries m)) as [->|(l & [t e] & ->)]; [left; auto|right].
  rewrite app_length; cbn [length]. replace (pred (length l + 1)) with (length l) by lia.
  rewrite nth_error_snoc_last. exists t, e. split; [reflexivity|].
  replace (N.to_nat (N.of_nat (length l + 1) - 1)) with (length l) by lia.
  rewrite nth_error_snoc_last. split; [reflexivity|lia].
Qed.

Lemma last_ok m j t e : at_ m j t e -> exists t' e', mp_last m = Ok ((mp_size m - 1)%N, t') /\ at_ m (mp_size m - 1) t' e'.
Proof.
  intros H. pose proof (at_size _ _ _ _ H) as Hs.
  destruct (at_ex m (mp_size m - 1)) as (t' & e' & Ht); [lia|]. exists t', e'. split; [|exact Ht].
  unfold mp_last. unfold at_, mp_size in Ht.
  replace (pred (length (mp_entries m))) with (N.to_nat (N.of_nat (length (mp_entries m)) - 1)) by lia.
  rewrite Ht. reflexivity.
Qed.

End L.

Section P.
Context {E F : Type}.
Variable C : codec E.
Variable view : idxts -> E -> option F.
Variable b : N.
Variable from_us : Z.
Notation sst := (sst E F).
Notation thread_step := (thread_step view b).
Notation sstep := (sstep C view b).
Notation srun := (srun C view b).
Notation due := (due view).

(** ** [due]. *)
Definition due_from (i : N) (log : list (Z * E)) (n : N) : list (idxts * F) :=
  flat_map (fun x : idxts * E => if N.leb b (fst (fst x)) && N.ltb (fst (fst x)) n
                     then match view (fst x) (snd x) with Some f => [(fst x, f)] | None => [] end
                     else []) (numbered_from i log).

Lemma due_from_empty i log n : (n <= b \/ n <= i)%N -> due_from i log n = [].
Proof.
  revert i. induction log as [|[t e] log IH]; intros i H; [reflexivity|].
  unfold due_from in *. cbn [numbered_from flat_map fst snd].
  destruct (N.leb_spec b i), (N.ltb_spec i n); cbn [andb app]; try (apply IH; lia). lia.
Qed.

Lemma due_from_app i log x n : due_from i (log ++ x) n = due_from i log n ++ due_from (i + N.of_nat (length log)) x n.
Proof. unfold due_from. now rewrite numbered_from_app, flat_map_app. Qed.

Lemma due_empty log n : (n <= b)%N -> due log b n = [].
Proof. intros. apply due_from_empty. now left. Qed.

Lemma due_app log x n : (n <= b \/ n <= N.of_nat (length log))%N -> due (log ++ x) b n = due log b n.
Proof.
  intros H. unfold Stream_Spec.due, numbered. fold (due_from 0 (log ++ x) n) (due_from 0 log n).
  rewrite due_from_app, (due_from_empty (0 + _) x n) by lia. apply app_nil_r.
Qed.

Lemma due_step m o n : (n <= b \/ n <= mp_size m)%N -> due (mp_entries (fst (mp_step C m o))) b n = due (mp_entries m) b n.
Proof. intros H. destruct (mp_step_grow C m o) as (x & Hx & _). rewrite Hx. now apply due_app. Qed.

Lemma due_snoc m n t e : at_ m n t e -> (b <= n)%N ->
  due (mp_entries m) b (n + 1) = due (mp_entries m) b n ++ match view (n, t) e with Some f => [((n, t), f)] | None => [] end.
Proof.
  intros Hat Hb. unfold at_ in Hat. apply nth_error_split in Hat as (l1 & l2 & Hl & Hlen).
  unfold Stream_Spec.due, numbered. rewrite Hl.
  fold (due_from 0 (l1 ++ (t, e) :: l2) (n + 1)) (due_from 0 (l1 ++ (t, e) :: l2) n).
  rewrite !due_from_app. rewrite Hlen, N2Nat.id, N.add_0_l.
  change ((t, e) :: l2) with ([(t, e)] ++ l2). rewrite !due_from_app. cbn [length].
  rewrite (due_from_empty _ l2 (n + 1)), (due_from_empty _ l2 n), !app_nil_r by lia.
  assert (Hsame : due_from 0 l1 (n + 1) = due_from 0 l1 n).
  { unfold due_from. pose proof (numbered_bounds 0 l1) as Hb2. revert Hb2. rewrite Hlen, N2Nat.id.
    generalize (numbered_from (E:=E) 0 l1). clear. intros l Hl. induction Hl as [|x l Hx _ IH]; [reflexivity|].
    cbn [flat_map]. rewrite IH. f_equal. destruct (N.leb b (fst (fst x))); cbn [andb]; [|reflexivity].
    destruct (N.ltb_spec (fst (fst x)) (n + 1)), (N.ltb_spec (fst (fst x)) n); try reflexivity; lia. }
  rewrite Hsame, (due_from_empty _ [(t, e)] n), app_nil_r by lia. f_equal.
  unfold due_from. cbn [numbered_from flat_map fst snd]. destruct (N.leb_spec b n); [|lia].
  destruct (N.ltb_spec n (n + 1)); [|lia]. cbn [andb]. now rewrite app_nil_r.
Qed.

Lemma due_in m n j t e f : at_ m j t e -> (b <= j < n)%N -> view (j, t) e = Some f -> In ((j, t), f) (due (mp_entries m) b n).
Proof.
  intros Hat Hb Hv. unfold Stream_Spec.due. apply in_flat_map. exists ((j, t), e). split.
  - unfold numbered. unfold at_ in Hat. apply nth_error_split in Hat as (l1 & l2 & Hl & Hlen). rewrite Hl.
    rewrite numbered_from_app, Hlen, N2Nat.id, N.add_0_l. apply in_app_iff. right. now left.
  - cbn [fst snd]. destruct (N.leb_spec b j); [|lia]. destruct (N.ltb_spec j n); [|lia]. cbn [andb]. rewrite Hv. now left.
Qed.

(** ** The invariant. *)
Definition pos (s : sst) : N := match ss_pc s with PPass cur _ _ _ _ => cur | _ => ss_index s end.
Definition running (s : sst) : Prop := match ss_pc s with PStop | PUB => False | _ => True end.

Definition pc_ok (s : sst) : Prop :=
  match ss_pc s with
  | PPass cur size h lu _ =>
      (ss_index s <= cur <= size)%N /\ (size <= mp_size (ss_store s))%N /\ (ss_index s < size)%N /\
      (exists e, at_ (ss_store s) (size - 1) lu e) /\ (lu <= h)%Z /\ (h <= mp_head (ss_store s))%Z /\ (ss_head s < h)%Z /\
      (forall j t e, at_ (ss_store s) j t e -> (size <= j)%N -> (h < t)%Z)
  | PHead size h =>
      (size <= mp_size (ss_store s))%N /\ (h <= mp_head (ss_store s))%Z /\ (ss_head s <= h)%Z /\
      (forall j t e, at_ (ss_store s) j t e -> (ss_index s <= j)%N -> (h < t)%Z)
  | PUB => False
  | _ => True
  end.

(** Every time told so far is old news. *)
Definition old (s : sst) (x : Z) : Prop :=
  (x <= mp_head (ss_store s))%Z /\
  (forall j t e, at_ (ss_store s) j t e -> (pos s <= j)%N -> (x < t)%Z) /\
  match ss_pc s with PPass _ _ _ lu _ => (x <= lu)%Z | _ => (x <= ss_head s)%Z end.

Definition last_valid (m : mp E) (x : ev F * bool) : Prop :=
  match fst x with
  | EvEntry it _ last => (fst it <= fst last)%N /\ exists e, at_ m (fst last) (snd last) e
  | EvFallback it => exists e, at_ m (fst it) (snd it) e /\ view it e = None
  | EvHead h => (h <= mp_head m)%Z
  | EvTerminate => True
  end.

Definition heads_ok (m : mp E) (tr : list (ev F * bool)) : Prop :=
  forall a h r c, tr = a ++ (EvHead h, r) :: c ->
    forall j t e f, at_ m j t e -> (b <= j)%N -> (t <= h)%Z -> view (j, t) e = Some f -> In ((j, t), f) (delivered a).

Record sinv (s : sst) : Prop := {
  v_mp : mp_inv (ss_store s);
  v_idx : (b <= ss_index s <= N.max b (mp_size (ss_store s)))%N;
  v_pc : pc_ok s;
  v_del : exists n, delivered (ss_trace s) = due (mp_entries (ss_store s)) b n /\
            (b <= n <= N.max b (mp_size (ss_store s)))%N /\ (running s -> n = pos s);
  v_last : Forall (last_valid (ss_store s)) (ss_trace s);
  v_sorted : StronglySorted Z.lt (times (ss_trace s));
  v_old : running s -> Forall (old s) (times (ss_trace s));
  v_heads : heads_ok (ss_store s) (ss_trace s);
  v_resp : if match ss_pc s with PStop => true | _ => false end
           then exists a x, ss_trace s = a ++ [(x, false)] /\ Forall (fun y => snd y = true) a
           else Forall (fun y => snd y = true) (ss_trace s);
  v_term : (length (filter is_terminate (ss_trace s)) <= 1) /\
           (ss_sent s = false -> filter is_terminate (ss_trace s) = [])
}.

Lemma sinv_init m : mp_inv m -> sinv (s_init b from_us m).
Proof.
  intros H. split; cbn; auto; try lia.
  - exists b. rewrite due_empty by lia. split; [reflexivity|]. split; [lia|]. reflexivity.
  - constructor.
  - intros a h r c Heq. destruct a; discriminate.
Qed.

(** Events appended to the log. *)
Lemma delivered_app x y : delivered (F:=F) (x ++ y) = delivered x ++ delivered y.
Proof. apply flat_map_app. Qed.
Lemma times_app x y : times (F:=F) (x ++ y) = times x ++ times y.
Proof. apply flat_map_app. Qed.

Lemma heads_snoc m tr x : heads_ok m tr ->
  match fst x with
  | EvHead h => forall j t e f, at_ m j t e -> (b <= j)%N -> (t <= h)%Z -> view (j, t) e = Some f -> In ((j, t), f) (delivered tr)
  | _ => True
  end -> heads_ok m (tr ++ [x]).
Proof.
  intros H Hx a h r c Heq.
  destruct (list_snoc_cases c) as [->|(c' & y & ->)].
  - apply app_inj_tail in Heq as [<- ->]. cbn in Hx. exact Hx.
  - rewrite app_comm_cons, app_assoc in Heq. apply app_inj_tail in Heq as [Heq <-]. exact (H a h r c' Heq).
Qed.

(** Publisher steps. *)
Lemma sinv_publish s o : sinv s -> forall s', sstep s (LPublisher o) = Some s' -> sinv s'.
Proof.
  intros [H1 H2 H3 H4 H5 H6 H7 H8 H9 H10] s' [= <-].
  pose proof (size_step C (ss_store s) o) as Hsz.
  destruct (mp_step_grow C (ss_store s) o) as (x & Hx & Hh & _).
  split; cbn [ss_store ss_index ss_pc ss_trace ss_sent]; auto.
  - now apply mp_step_inv.
  - lia.
  - unfold pc_ok in *. cbn [ss_store ss_index ss_pc ss_trace ss_head]. destruct (ss_pc s); auto.
    + destruct H3 as (A & B & D & (e & He) & G & K & L & M). repeat split; try lia.
      * exists e. now apply at_step_keep.
      * intros j t e' Hj Hge. destruct (at_step C _ _ _ _ _ Hj) as [Hj'|[_ Hj']]; [eauto|lia].
    + destruct H3 as (A & B & D & G). repeat split; try lia.
      intros j t e' Hj Hge. destruct (at_step C _ _ _ _ _ Hj) as [Hj'|[_ Hj']]; [eauto|lia].
  - destruct H4 as (n & Hn & Hr & Hp). exists n. rewrite due_step by lia. split; [exact Hn|]. split; [lia|exact Hp].
  - eapply Forall_impl; [|exact H5]. intros [[it f last|it|h|] r]; unfold last_valid; cbn; auto.
    + intros (A & e & He). split; [exact A|]. exists e. now apply at_step_keep.
    + intros (e & He & Hv). exists e. split; [now apply at_step_keep|exact Hv].
    + lia.
  - intros Hr. eapply Forall_impl; [|exact (H7 Hr)]. intros y (A & B & D). unfold old, pos in *.
    cbn [ss_store ss_index ss_pc ss_trace ss_head]. split; [lia|]. split; [|exact D].
    intros j t e Hj Hge. destruct (at_step C _ _ _ _ _ Hj) as [Hj'|[_ Hj']]; [eauto|lia].
  - intros a h r c Heq j t e f Hj Hb Ht Hv. apply (H8 a h r c Heq j t e f); auto.
    destruct (at_step C _ _ _ _ _ Hj) as [Hj'|[_ Hj']]; [exact Hj'|].
    rewrite Forall_forall in H5. specialize (H5 (EvHead h, r)). rewrite Heq in H5.
    specialize (H5 ltac:(apply in_app_iff; right; now left)). cbn in H5. lia.
Qed.

Lemma sinv_signal s : sinv s -> forall s', sstep s LSignal = Some s' -> sinv s'.
Proof. intros [H1 H2 H3 H4 H5 H6 H7 H8 H9 H10] s' [= <-]. split; auto. Qed.

(** A silent move of the thread. *)
Lemma sinv_silent s s' :
  sinv s -> running s -> running s' ->
  ss_store s' = ss_store s -> ss_trace s' = ss_trace s -> ss_sent s' = ss_sent s ->
  (b <= ss_index s' <= N.max b (mp_size (ss_store s)))%N -> pc_ok s' ->
  due (mp_entries (ss_store s)) b (pos s') = due (mp_entries (ss_store s)) b (pos s) ->
  (b <= pos s' <= N.max b (mp_size (ss_store s)))%N ->
  (Forall (old s) (times (ss_trace s)) -> Forall (old s') (times (ss_trace s))) ->
  sinv s'.
Proof.
  intros [H1 H2 H3 H4 H5 H6 H7 H8 H9 H10] Hr Hr' Es Et Esent Hi Hp Hpos Hpb Hold.
  assert (Hnp : forall A (u v : A), (if match ss_pc s' with PStop => true | _ => false end then u else v) = v).
  { intros. unfold running in Hr'. now destruct (ss_pc s'). }
  assert (Hnp0 : forall A (u v : A), (if match ss_pc s with PStop => true | _ => false end then u else v) = v).
  { intros. unfold running in Hr. now destruct (ss_pc s). }
  split; rewrite ?Es, ?Et, ?Esent; auto.
  - destruct H4 as (n & Hn & Hb & Hx). exists (pos s'). rewrite Hpos, <- (Hx Hr). auto.
  - rewrite Hnp. now rewrite Hnp0 in H9.
Qed.

(** Calling the subscriber. *)
Lemma sinv_call s s' x resp p :
  sinv s -> running s -> 
  ss_store s' = ss_store s -> ss_trace s' = ss_trace s ++ [(x, resp)] ->
  ss_pc s' = (if resp then p else PStop) ->
  (b <= ss_index s' <= N.max b (mp_size (ss_store s)))%N ->
  (resp = true -> running s' /\ pc_ok s') ->
  last_valid (ss_store s) (x, resp) ->
  (exists n, delivered [(x, resp)] ++ [] = delivered [(x, resp)] /\
     due (mp_entries (ss_store s)) b n = due (mp_entries (ss_store s)) b (pos s) ++ delivered [(x, resp)] /\
     (b <= n <= N.max b (mp_size (ss_store s)))%N /\ (resp = true -> n = pos s')) ->
  (Forall (old s) (times (ss_trace s)) ->
     (forall y, In y (times [(x, resp)]) -> Forall (fun z => (z < y)%Z) (times (ss_trace s))) /\
     (resp = true -> Forall (old s') (times (ss_trace s ++ [(x, resp)])))) ->
  match x with
  | EvHead h => forall j t e f, at_ (ss_store s) j t e -> (b <= j)%N -> (t <= h)%Z -> view (j, t) e = Some f ->
                  In ((j, t), f) (delivered (ss_trace s))
  | _ => True end ->
  match x with EvTerminate => ss_sent s = false /\ ss_sent s' = true | _ => ss_sent s' = ss_sent s end ->
  sinv s'.
Proof.
  intros [H1 H2 H3 H4 H5 H6 H7 H8 H9 H10] Hr Es Et Ep Hi Hrun Hlast Hdel Hold Hhd Hsent.
  assert (Hnp0 : forall A (u v : A), (if match ss_pc s with PStop => true | _ => false end then u else v) = v).
  { intros. unfold running in Hr. now destruct (ss_pc s). }
  rewrite Hnp0 in H9.
  destruct H4 as (n0 & Hn0 & Hb0 & Hx0). specialize (Hx0 Hr). subst n0.
  destruct Hdel as (n & _ & Hdn & Hbn & Hpn).
  destruct (Hold (H7 Hr)) as [Hso Hol].
  assert (Hrt : running s' -> resp = true).
  { unfold running. rewrite Ep. destruct resp; [auto|contradiction]. }
  split; rewrite ?Es, ?Et.
  - exact H1.
  - exact Hi.
  - destruct resp; [now apply Hrun|]. unfold pc_ok. rewrite Ep. exact I.
  - exists n. rewrite delivered_app, Hn0, Hdn. split; [reflexivity|]. split; [exact Hbn|auto].
  - apply Forall_snoc. auto.
  - rewrite times_app. destruct (times [(x, resp)]) as [|y [|z l]] eqn:Ht.
    + now rewrite app_nil_r.
    + apply StronglySorted_snoc; [exact H6|]. apply Hso. now left.
    + destruct x; discriminate.
  - auto.
  - apply heads_snoc; [exact H8|]. cbn [fst]. destruct x; auto.
  - rewrite Ep. destruct resp.
    + destruct (Hrun eq_refl) as [Hru _]. unfold running in Hru. rewrite Ep in Hru.
      assert (Forall (fun y : ev F * bool => snd y = true) (ss_trace s ++ [(x, true)])) by (apply Forall_snoc; auto).
      destruct p; auto. contradiction.
    + exists (ss_trace s), x. auto.
  - destruct H10 as [Hc Hf]. rewrite filter_app, app_length. cbn [filter].
    destruct x; cbn [is_terminate fst length].
    1-3: split; [lia|]; intros Hs; rewrite app_nil_r; apply Hf; congruence.
    destruct Hsent as [Hs1 Hs2]. rewrite (Hf Hs1). cbn. split; [lia|congruence].
Qed.

Lemma sinv_check s resp p : sinv s -> running s ->
  running (set_pc s p) -> pc_ok (set_pc s p) -> pos (set_pc s p) = pos s ->
  (Forall (old s) (times (ss_trace s)) -> Forall (old (set_pc s p)) (times (ss_trace s))) ->
  sinv (check_terminate s resp p).
Proof.
  intros H Hr Hr' Hp Hpos Hold. unfold check_terminate.
  destruct (ss_sent s) eqn:Hs, (ss_term s) eqn:Ht; cbn [negb andb];
    try (apply (sinv_silent s); try reflexivity; auto;
         [apply (v_idx s H)|now rewrite Hpos|rewrite Hpos; destruct (v_del s H) as (n & _ & Hb & Hx); rewrite <- (Hx Hr); exact Hb]).
  eapply (sinv_call s _ EvTerminate resp p H Hr); cbn [call ss_store ss_trace ss_pc ss_index ss_sent]; try reflexivity; auto.
  - apply (v_idx s H).
  - intros ->. split; [exact Hr'|]. unfold pc_ok, set_pc in *. cbn [ss_pc ss_index ss_store ss_head call] in *. exact Hp.
  - destruct (v_del s H) as (n & _ & Hb & Hx). specialize (Hx Hr). subst n.
    exists (pos s). split; [reflexivity|]. cbn [delivered flat_map fst]. rewrite app_nil_r.
    split; [reflexivity|]. split; [exact Hb|]. intros ->. unfold pos in *. cbn [call ss_pc ss_index set_pc] in *. congruence.
  - intros Ho. split; [intros y []|]. intros ->. rewrite times_app. cbn [times flat_map fst app]. rewrite app_nil_r.
    eapply Forall_impl; [|exact (Hold Ho)]. intros y. unfold old, pos, set_pc, call. cbn [ss_pc ss_index ss_store ss_head]. auto.
Qed.

Lemma sinv_thread s resp s' : sinv s -> thread_step resp s = Some s' -> sinv s'.
Proof.
  intros H Hst. unfold Stream_Model.thread_step in Hst.
  pose proof (v_pc s H) as Hpc. pose proof (v_mp s H) as Hmp. pose proof (v_idx s H) as Hidx.
  destruct (v_del s H) as (n & Hdel & Hb & Hx).
  assert (Hnew : running s -> (b <= pos s <= N.max b (mp_size (ss_store s)))%N) by (intros Hr; now rewrite <- (Hx Hr)).
  destruct (ss_pc s) as [| |cur size h lu ck|size h| | |] eqn:Hp; try discriminate.
  - (* PTop *)
    injection Hst as <-. apply sinv_check; auto; try (unfold running, pc_ok, pos; rewrite ?Hp; exact I);
      try (unfold pos; rewrite Hp; reflexivity).
    intros Ho. eapply Forall_impl; [|exact Ho]. intros y. unfold old, pos. rewrite Hp. cbn. auto.
  - (* PSnap *)
    assert (Hr : running s) by (unfold running; now rewrite Hp). specialize (Hnew Hr).
    assert (Hps : pos s = ss_index s) by (unfold pos; now rewrite Hp). rewrite Hps in *.
    assert (Hsame : forall q, match q with PPass _ _ _ _ _ => False | _ => True end ->
              Forall (old s) (times (ss_trace s)) -> Forall (old (set_pc s q)) (times (ss_trace s))).
    { intros q Hq Ho. eapply Forall_impl; [|exact Ho]. intros y. unfold old, pos. rewrite Hp. now destruct q. }
    destruct (head_and_last_cases (ss_store s)) as [[Hl Hz]|(t & e & Hl & Hat & Hz)]; rewrite Hl in Hst; cbn [fst snd] in Hst.
    + destruct (Z.ltb_spec (ss_head s) (mp_head (ss_store s))) as [Hlt|Hge].
      * destruct (N.ltb_spec (ss_index s) 0); [lia|]. injection Hst as <-.
        simple refine (sinv_silent s _ H Hr _ _ _ _ _ _ _ _ _); [exact I|reflexivity|reflexivity|reflexivity|exact Hidx| |now rewrite Hps|exact Hnew|now apply Hsame].
        unfold pc_ok, set_pc; cbn [ss_pc ss_index ss_store ss_head]. repeat split; try lia.
        intros j t e Hj _. apply at_size in Hj. lia.
      * injection Hst as <-.
        simple refine (sinv_silent s _ H Hr _ _ _ _ _ _ _ _ _); [exact I|reflexivity|reflexivity|reflexivity|exact Hidx|exact I|now rewrite Hps|exact Hnew|now apply Hsame].
    + replace (mp_size (ss_store s) - 1 + 1)%N with (mp_size (ss_store s)) in Hst by lia.
      destruct (Z.ltb_spec (ss_head s) (mp_head (ss_store s))) as [Hlt|Hge].
      * destruct (N.ltb_spec (ss_index s) (mp_size (ss_store s))) as [Hi|Hi]; injection Hst as <-.
        -- simple refine (sinv_silent s _ H Hr _ _ _ _ _ _ _ _ _); [exact I|reflexivity|reflexivity|reflexivity|exact Hidx| |now rewrite Hps|exact Hnew|].
           ++ unfold pc_ok, set_pc; cbn [ss_pc ss_index ss_store ss_head]. repeat split; try lia.
              ** eauto.
              ** eapply at_head; eauto.
              ** intros j t' e' Hj Hge. apply at_size in Hj. lia.
           ++ intros Ho. eapply Forall_impl; [|exact Ho]. intros y (A & B & D). unfold old, pos in *. rewrite Hp in *. cbn.
              split; [exact A|]. split; [exact B|]. pose proof (B _ _ _ Hat). lia.
        -- simple refine (sinv_silent s _ H Hr _ _ _ _ _ _ _ _ _); [exact I|reflexivity|reflexivity|reflexivity|exact Hidx| |now rewrite Hps|exact Hnew|now apply Hsame].
           unfold pc_ok, set_pc; cbn [ss_pc ss_index ss_store ss_head]. repeat split; try lia.
           intros j t' e' Hj Hge. apply at_size in Hj. lia.
      * injection Hst as <-.
        simple refine (sinv_silent s _ H Hr _ _ _ _ _ _ _ _ _); [exact I|reflexivity|reflexivity|reflexivity|exact Hidx|exact I|now rewrite Hps|exact Hnew|now apply Hsame].
  - (* PPass *)
    assert (Hr : running s) by (unfold running; now rewrite Hp). specialize (Hnew Hr). specialize (Hx Hr). subst n.
    unfold pc_ok in Hpc. rewrite Hp in Hpc.
    destruct Hpc as (P1 & P2 & P3 & (el & P4) & P5 & P6 & P7 & P8).
    destruct (N.eqb_spec cur size) as [->|Hne].
    + assert (Hps : pos s = size) by (unfold pos; now rewrite Hp).
      injection Hst as <-. simple refine (sinv_silent s _ H Hr _ _ _ _ _ _ _ _ _); [exact I|reflexivity|reflexivity|reflexivity| | | | |]; cbn [ss_index ss_store].
      * lia.
      * unfold pc_ok; cbn [ss_pc ss_index ss_store ss_head]. repeat split; try lia. exact P8.
      * now rewrite Hps.
      * unfold pos at 1 2. cbn [ss_pc ss_index]. lia.
      * intros Ho. eapply Forall_impl; [|exact Ho]. intros y. unfold old, pos. rewrite Hp. cbn. auto.
    + destruct ck; cbn [negb] in Hst.
      * destruct (at_ex (ss_store s) cur) as (t & e & Hat); [lia|].
        destruct (last_ok _ _ _ _ Hat) as (t' & e' & Hlast & Hat').
        unfold at_ in Hat. rewrite Hat, Hlast in Hst. fold (at_ (ss_store s) cur t e) in Hat.
        pose proof (due_snoc (ss_store s) cur t e Hat ltac:(lia)) as Hds.
        assert (Hok : forall q, q = PPass (cur + 1) size h lu false ->
                   forall z, ss_pc z = q -> ss_store z = ss_store s -> ss_index z = ss_index s -> ss_head z = ss_head s -> pc_ok z).
        { intros q -> z Hz1 Hz2 Hz3 Hz4. unfold pc_ok. rewrite Hz1, Hz2, Hz3, Hz4. repeat split; try lia; eauto. }
        assert (Hps : pos s = cur) by (unfold pos; now rewrite Hp).
        destruct (view (cur, t) e) as [f|] eqn:Hv.
        -- injection Hst as <-.
           eapply (sinv_call s _ (EvEntry (cur, t) f _) resp _ H Hr); cbn [call ss_store ss_trace ss_pc ss_index ss_sent]; try reflexivity; auto.
           ++ intros ->. split; [exact I|]. eapply Hok; reflexivity.
           ++ unfold last_valid. cbn. split; [lia|eauto].
           ++ exists (cur + 1)%N. cbn [delivered flat_map fst app]. split; [reflexivity|]. rewrite Hps, Hds.
              split; [reflexivity|]. split; [lia|]. intros ->. reflexivity.
           ++ intros Ho. split.
              ** intros y [<-|[]]. cbn [snd]. eapply Forall_impl; [|exact Ho]. intros y (_ & B & _). apply (B _ _ _ Hat). rewrite Hps; lia.
              ** intros ->. rewrite times_app. apply Forall_app. split.
                 --- eapply Forall_impl; [|exact Ho]. intros y (A & B & D). unfold old, pos in *. rewrite Hp in *. cbn [call ss_store ss_pc].
                     split; [exact A|]. split; [|exact D]. intros j t2 e2 Hj Hge. apply (B _ _ _ Hj). lia.
                 --- cbn [times flat_map fst snd app]. constructor; [|constructor].
                     unfold old, pos. cbn [call ss_store ss_pc]. split; [eapply at_head; eauto|]. split.
                     +++ intros j t2 e2 Hj Hge. eapply at_lt; [exact Hmp|exact Hat|exact Hj|lia].
                     +++ destruct (N.eq_dec cur (size - 1)) as [Heq|Hneq].
                         *** rewrite <- Heq in P4. unfold at_ in *. rewrite Hat in P4. injection P4 as <- _. lia.
                         *** assert (t < lu)%Z; [|lia]. eapply at_lt; [exact Hmp|exact Hat|exact P4|lia].
        -- cbn [fst] in Hst. rewrite app_nil_r in Hds.
           assert (Hold2 : forall z, ss_pc z = PPass (cur + 1) size h lu false -> ss_store z = ss_store s ->
                      Forall (old s) (times (ss_trace s)) -> Forall (old z) (times (ss_trace s))).
           { intros z Hz1 Hz2 Ho. eapply Forall_impl; [|exact Ho]. intros y (A & B & D). unfold old, pos in *.
             rewrite Hp in *. rewrite Hz1, Hz2. split; [exact A|]. split; [|exact D].
             intros j t2 e2 Hj Hge. apply (B _ _ _ Hj). lia. }
           destruct (N.ltb cur (mp_size (ss_store s) - 1)); injection Hst as <-.
           ++ simple refine (sinv_silent s _ H Hr _ _ _ _ _ _ _ _ _); [exact I|reflexivity|reflexivity|reflexivity|exact Hidx| | | |].
              ** eapply Hok; reflexivity.
              ** unfold pos at 1. cbn [set_pc ss_pc]. rewrite Hps. exact Hds.
              ** unfold pos. cbn [set_pc ss_pc]. lia.
              ** apply Hold2; reflexivity.
           ++ eapply (sinv_call s _ (EvFallback (cur, t)) resp _ H Hr); cbn [call ss_store ss_trace ss_pc ss_index ss_sent]; try reflexivity; auto.
              ** intros ->. split; [exact I|]. eapply Hok; reflexivity.
              ** unfold last_valid. cbn. eauto.
              ** exists (cur + 1)%N. cbn [delivered flat_map fst app]. split; [reflexivity|]. rewrite Hps, Hds, app_nil_r.
                 split; [reflexivity|]. split; [lia|]. intros ->. reflexivity.
              ** intros Ho. split; [intros y []|]. intros ->. rewrite times_app. cbn [times flat_map fst app]. rewrite app_nil_r.
                 apply Hold2; auto.
      * injection Hst as <-. apply sinv_check; auto; try (unfold running; rewrite ?Hp; exact I).
        -- unfold pc_ok; cbn [set_pc ss_pc ss_index ss_store ss_head]. repeat split; try lia; eauto.
        -- unfold pos. now rewrite Hp.
        -- intros Ho. eapply Forall_impl; [|exact Ho]. intros y. unfold old, pos. rewrite Hp. cbn. auto.
  - (* PHead *)
    assert (Hr : running s) by (unfold running; now rewrite Hp). specialize (Hnew Hr). specialize (Hx Hr). subst n.
    unfold pc_ok in Hpc. rewrite Hp in Hpc. destruct Hpc as (P1 & P2 & P3 & P4).
    assert (Hps : pos s = ss_index s) by (unfold pos; now rewrite Hp). rewrite Hps in *.
    assert (Hold2 : forall z, ss_pc z = PTop -> ss_store z = ss_store s -> ss_index z = ss_index s -> ss_head z = h ->
                      Forall (old s) (times (ss_trace s)) -> Forall (old z) (times (ss_trace s))).
    { intros z Hz1 Hz2 Hz3 Hz4 Ho. eapply Forall_impl; [|exact Ho]. intros y (A & B & D). unfold old, pos in *.
      rewrite Hp in *. rewrite Hz1, Hz2, Hz3, Hz4. split; [exact A|]. split; [exact B|lia]. }
    destruct (N.leb b size && Z.ltb (ss_head s) h) eqn:Hc; injection Hst as <-.
    + apply andb_true_iff in Hc as [Hc1 Hc2].
      eapply (sinv_call s _ (EvHead h) resp PTop H Hr); cbn [call ss_store ss_trace ss_pc ss_index ss_sent]; try reflexivity; auto.
      * intros ->. split; exact I.
      * exists (ss_index s). cbn [delivered flat_map fst app]. split; [reflexivity|]. rewrite Hps, app_nil_r.
        split; [reflexivity|]. split; [lia|]. intros ->. reflexivity.
      * intros Ho. split.
        -- intros y [<-|[]]. eapply Forall_impl; [|exact Ho]. intros y (_ & _ & D). rewrite Hp in D. lia.
        -- intros ->. rewrite times_app. apply Forall_app. split; [apply Hold2; auto|].
           cbn [times flat_map fst app]. constructor; [|constructor]. unfold old, pos. cbn [call ss_store ss_pc ss_head].
           split; [exact P2|]. split; [exact P4|lia].
      * intros j t e f Hj Hbj Ht Hv. rewrite Hdel. eapply due_in; eauto. split; [lia|].
        destruct (N.lt_ge_cases j (ss_index s)) as [|Hge]; [assumption|]. pose proof (P4 _ _ _ Hj Hge). lia.
    + simple refine (sinv_silent s _ H Hr _ _ _ _ _ _ _ _ _); [exact I|reflexivity|reflexivity|reflexivity|exact Hidx|exact I|now rewrite Hps|exact Hnew|now apply Hold2].
  - (* PWaiting *)
    destruct (wait_done b s); [|discriminate]. injection Hst as <-.
    assert (Hr : running s) by (unfold running; now rewrite Hp).
    specialize (Hnew Hr). assert (Hps : pos s = ss_index s) by (unfold pos; now rewrite Hp). rewrite Hps in *.
    simple refine (sinv_silent s _ H Hr _ _ _ _ _ _ _ _ _); [exact I|reflexivity|reflexivity|reflexivity|exact Hidx|exact I|now rewrite Hps|exact Hnew|].
    intros Ho. eapply Forall_impl; [|exact Ho]. intros y. unfold old, pos. rewrite Hp. cbn. auto.
Qed.

Lemma sinv_step s l s' : sinv s -> sstep s l = Some s' -> sinv s'.
Proof.
  intros H. destruct l as [o| |resp].
  - intros Hs. exact (sinv_publish s o H s' Hs).
  - intros Hs. exact (sinv_signal s H s' Hs).
  - exact (sinv_thread s resp s' H).
Qed.

Lemma sinv_run ls : forall s s', sinv s -> srun s ls = Some s' -> sinv s'.
Proof.
  induction ls as [|l ls IH]; intros s s' H Hr; cbn in Hr; [now injection Hr as <-|].
  destruct (sstep s l) as [s1|] eqn:Hs; [|discriminate]. apply (IH s1); [|exact Hr]. eapply sinv_step; eauto.
Qed.

End P.
