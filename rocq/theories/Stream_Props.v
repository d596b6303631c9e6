(** Properties C10-C14 (stream subscriptions, /repo/stream/stream.h). *)
From Coq Require Import Sorted String.
From Verif Require Import Base Dec Codec Persister_Model Persister_Spec Persister_Proofs
                          Stream_Model Stream_Spec Stream_Proofs Stream_Proofs2.
Local Open Scope list_scope.

(** The stream's contents: entries accepted from all publisher calls so far. *)
Definition contents {E} (C : codec E) (ops : list (pop E)) : list (Z * E) :=
  accepted C ops (snd (mp_run C mp_init ops)).
Definition stream_head {E} (C : codec E) (ops : list (pop E)) : Z :=
  latest (moved ops (snd (mp_run C mp_init ops))).

Lemma sub_inv {E F} (C : codec E) (view : idxts -> E -> option F) b from_us before during s :
  subscription C view b from_us before during s -> sinv view b s.
Proof.
  intros H. eapply sinv_run; [|exact H]. apply sinv_init. apply mp_run_inv. exact mp_inv_init.
Qed.

Lemma sub_store {E F} (C : codec E) (view : idxts -> E -> option F) b from_us before during s :
  subscription C view b from_us before during s ->
  ss_store s = fst (mp_run C mp_init (before ++ calls during)).
Proof. intros H. rewrite mp_run_app. exact (srun_store C view b during _ _ H). Qed.

Lemma sub_contents {E F} (C : codec E) (view : idxts -> E -> option F) b from_us before during s :
  subscription C view b from_us before during s ->
  mp_entries (ss_store s) = contents C (before ++ calls during) /\
  mp_head (ss_store s) = stream_head C (before ++ calls during).
Proof.
  intros H. rewrite (sub_store _ _ _ _ _ _ _ H). split.
  - apply (mp_run_entries C _ mp_init).
  - apply (mp_run_head C _ mp_init).
Qed.

Lemma sub_inv2 {E F} (C : codec E) (view : idxts -> E -> option F) b from_us before during s :
  subscription C view b from_us before during s ->
  (from_us - 1 <= stream_head C before)%Z ->
  (forall j t e, nth_error (contents C before) (N.to_nat j) = Some (t, e) -> (b <= j)%N -> (from_us <= t)%Z) ->
  sinv2 view b s.
Proof.
  intros H H1 H2.
  assert (Hm : mp_entries (fst (mp_run C mp_init before)) = contents C before) by apply (mp_run_entries C before mp_init).
  assert (Hh : mp_head (fst (mp_run C mp_init before)) = stream_head C before) by apply (mp_run_head C before mp_init).
  apply (sinv2_run C view b during (s_init b from_us (fst (mp_run C mp_init before))) s); [|exact H]. apply sinv2_init.
  - apply mp_run_inv. exact mp_inv_init.
  - now rewrite Hh.
  - intros j t e Hat Hb. apply (H2 j t e); [|exact Hb]. now rewrite <- Hm.
Qed.

(** C10: at every moment of every execution, what has been delivered is the entries b, b+1, ..., n-1 of the
    stream, each once, in order, with their index and timestamp, for some n. *)
Theorem C10_delivered_in_order_exactly_once :
  forall (E : Type) (C : codec E) b from_us before during s,
    subscription C everything b from_us before during s ->
    exists n, (n <= N.max b (N.of_nat (List.length (contents C (before ++ calls during)))))%N /\
      delivered (ss_trace s) =
      filter (in_idx_range b n) (numbered (contents C (before ++ calls during))).
Proof.
  intros E C b from_us before during s H.
  destruct (v_del _ _ _ (sub_inv _ _ _ _ _ _ _ H)) as (n & Hd & Hn & _).
  destruct (sub_contents _ _ _ _ _ _ _ H) as [He _]. unfold mp_size in Hn. rewrite He in *.
  exists n. split; [lia|]. rewrite Hd. unfold due.
  generalize (numbered (contents C (before ++ calls during))). intros l. induction l as [|x l IH]; [reflexivity|].
  cbn [flat_map filter]. unfold in_idx_range at 1. destruct x as [[i t] e]. cbn [fst snd].
  destruct (N.leb b i && N.ltb i n); cbn [app]; [unfold everything at 1; cbn [app]; f_equal|]; exact IH.
Qed.
Print Assumptions C10_delivered_in_order_exactly_once.

(** C10: the thread never reads an entry that is not there nor dies of an exception, and the "last" passed
    with an entry is the index and timestamp of a published entry at or past it. *)
Theorem C10_no_bad_access_and_last_is_real :
  forall (E F : Type) (C : codec E) (view : idxts -> E -> option F) b from_us before during s,
    subscription C view b from_us before during s ->
    ss_pc s <> PUB /\
    forall it f last r, In (EvEntry it f last, r) (ss_trace s) ->
      (fst it <= fst last)%N /\
      exists e, nth_error (contents C (before ++ calls during)) (N.to_nat (fst last)) = Some (snd last, e).
Proof.
  intros E F C view b from_us before during s H. pose proof (sub_inv _ _ _ _ _ _ _ H) as Hi. split.
  - intros Hp. pose proof (v_pc _ _ _ Hi) as Hpc. unfold pc_ok in Hpc. now rewrite Hp in Hpc.
  - intros it f last r Hin. pose proof (v_last _ _ _ Hi) as Hl. rewrite Forall_forall in Hl.
    specialize (Hl _ Hin). unfold last_valid in Hl. cbn in Hl. destruct Hl as (A & e & B). split; [exact A|].
    exists e. unfold at_ in B. destruct (sub_contents _ _ _ _ _ _ _ H) as [He _]. now rewrite <- He.
Qed.
Print Assumptions C10_no_bad_access_and_last_is_real.

(** C11 *)
Theorem C11_time_strictly_increases :
  forall (E F : Type) (C : codec E) (view : idxts -> E -> option F) b from_us before during s,
    subscription C view b from_us before during s ->
    StronglySorted Z.lt (times (ss_trace s)).
Proof. intros E F C view b from_us before during s H. exact (v_sorted _ _ _ (sub_inv _ _ _ _ _ _ _ H)). Qed.
Print Assumptions C11_time_strictly_increases.

(** C11: before a head update to [h] is delivered, so are all the entries the subscription covers with
    timestamps <= h -- also those that have been published only later (there can be none). *)
Theorem C11_head_only_after_older_entries :
  forall (E F : Type) (C : codec E) (view : idxts -> E -> option F) b from_us before during s,
    subscription C view b from_us before during s ->
    forall told h r rest, ss_trace s = told ++ (EvHead h, r) :: rest ->
    (h <= stream_head C (before ++ calls during))%Z /\
    forall j t e f, nth_error (contents C (before ++ calls during)) (N.to_nat j) = Some (t, e) ->
      (b <= j)%N -> (t <= h)%Z -> view (j, t) e = Some f -> In ((j, t), f) (delivered told).
Proof.
  intros E F C view b from_us before during s H a h r c Ht.
  pose proof (sub_inv _ _ _ _ _ _ _ H) as Hi. destruct (sub_contents _ _ _ _ _ _ _ H) as [He Hh].
  split.
  - pose proof (v_last _ _ _ Hi) as Hl. rewrite Ht, Forall_app in Hl. destruct Hl as [_ Hl].
    inversion Hl as [|? ? Hx _]; subst. cbn in Hx. now rewrite <- Hh.
  - intros j t e f Hn Hb Hle Hv. rewrite <- He in Hn. exact (v_heads _ _ _ Hi a h r c Ht j t e f Hn Hb Hle Hv).
Qed.
Print Assumptions C11_head_only_after_older_entries.

(** C12, the start of the subscription is not in the future: always so for from_us = 0, the default. *)
Definition not_from_the_future {E} (C : codec E) (b : N) (from_us : Z) (before : list (pop E)) : Prop :=
  (from_us - 1 <= stream_head C before)%Z /\
  forall j t e, nth_error (contents C before) (N.to_nat j) = Some (t, e) -> (b <= j)%N -> (from_us <= t)%Z.

Theorem C12_default_start_is_not_from_the_future :
  forall (E : Type) (C : codec E) b before, not_from_the_future C b 0 before.
Proof.
  intros E C b before. pose proof (mp_run_inv C before mp_init mp_inv_init) as Hi.
  pose proof (mp_run_entries C before mp_init) as He. pose proof (mp_run_head C before mp_init) as Hh.
  split.
  - unfold stream_head. unfold latest, mp_init in *. cbn [mp_head] in Hh. rewrite <- Hh.
    pose proof (inv_headm1 _ Hi). lia.
  - intros j t e Hn _. unfold contents in Hn. cbn in He. rewrite <- He in Hn. apply nth_error_In in Hn.
    pose proof (inv_nonneg _ Hi) as Hp. rewrite Forall_forall in Hp. specialize (Hp _ Hn). cbn in Hp. lia.
Qed.
Print Assumptions C12_default_start_is_not_from_the_future.

(** C12: in whatever state the subscription is, if the stream holds an entry past the begin index, then the
    subscriber's thread, left alone with a subscriber that goes on, delivers it after finitely many steps --
    it cannot be stuck waiting. *)
Theorem C12_entries_are_delivered_eventually :
  forall (E F : Type) (C : codec E) (view : idxts -> E -> option F) b from_us before during s,
    subscription C view b from_us before during s -> not_from_the_future C b from_us before ->
    ss_pc s <> PStop ->
    forall j t e f, nth_error (contents C (before ++ calls during)) (N.to_nat j) = Some (t, e) ->
      (b <= j)%N -> view (j, t) e = Some f ->
      exists k s', srun C view b s (repeat (LThread true) k) = Some s' /\ In ((j, t), f) (delivered (ss_trace s')).
Proof.
  intros E F C view b from_us before during s H [H1 H2] Hs j t e f Hn Hb Hv.
  pose proof (sub_inv2 _ _ _ _ _ _ _ H H1 H2) as Hi. destruct (sub_contents _ _ _ _ _ _ _ H) as [He _].
  assert (Hr : running s).
  { pose proof (v_pc _ _ _ (w_inv _ _ _ Hi)) as Hpc. unfold running, pc_ok in *. destruct (ss_pc s); auto. }
  rewrite <- He in Hn. destruct (entry_reaches C view b s j t e Hi Hr Hb Hn) as (k & s' & Hk & _ & _ & Hin).
  exists k, s'. split; [exact Hk|auto].
Qed.
Print Assumptions C12_entries_are_delivered_eventually.

(** C12: so a thread that is blocked has nothing left to deliver. *)
Theorem C12_blocked_only_when_all_delivered :
  forall (E F : Type) (C : codec E) (view : idxts -> E -> option F) b from_us before during s,
    subscription C view b from_us before during s -> not_from_the_future C b from_us before ->
    ss_pc s <> PStop -> sstep C view b s (LThread true) = None ->
    forall j t e f, nth_error (contents C (before ++ calls during)) (N.to_nat j) = Some (t, e) ->
      (b <= j)%N -> view (j, t) e = Some f -> In ((j, t), f) (delivered (ss_trace s)).
Proof.
  intros E F C view b from_us before during s H [H1 H2] Hs Hblk j t e f Hn Hb Hv.
  pose proof (sub_inv2 _ _ _ _ _ _ _ H H1 H2) as Hi. destruct (sub_contents _ _ _ _ _ _ _ H) as [He _].
  assert (Hr : running s).
  { pose proof (v_pc _ _ _ (w_inv _ _ _ Hi)) as Hpc. unfold running, pc_ok in *. destruct (ss_pc s); auto. }
  rewrite <- He in Hn.
  destruct (blocked_reaches C view b s _ Hblk (entry_reaches C view b s j t e Hi Hr Hb Hn)) as (_ & _ & Hin). auto.
Qed.
Print Assumptions C12_blocked_only_when_all_delivered.

(** C12, partial: a head update is told to the subscriber eventually if the stream holds at least one entry
    the subscription covers.  Missing, because false (see [C12_head_update_on_empty_refuted]): without
    such an entry a waiting subscriber is not woken. *)
Theorem C12_head_is_told_eventually_partial :
  forall (E F : Type) (C : codec E) (view : idxts -> E -> option F) b from_us before during s,
    subscription C view b from_us before during s -> not_from_the_future C b from_us before ->
    ss_pc s <> PStop ->
    (b < N.of_nat (List.length (contents C (before ++ calls during))))%N ->
    Forall (fun x => (fst x < stream_head C (before ++ calls during))%Z) (contents C (before ++ calls during)) ->
    exists k s', srun C view b s (repeat (LThread true) k) = Some s' /\
                 In (stream_head C (before ++ calls during)) (times (ss_trace s')).
Proof.
  intros E F C view b from_us before during s H [H1 H2] Hs Hb Hall.
  pose proof (sub_inv2 _ _ _ _ _ _ _ H H1 H2) as Hi. destruct (sub_contents _ _ _ _ _ _ _ H) as [He Hh].
  assert (Hr : running s).
  { pose proof (v_pc _ _ _ (w_inv _ _ _ Hi)) as Hpc. unfold running, pc_ok in *. destruct (ss_pc s); auto. }
  destruct (head_told' C view b s Hi Hr) as (k & s' & Hk & _ & _ & Hin).
  - unfold mp_size. now rewrite He.
  - intros j t e Hat. unfold at_ in Hat. rewrite He in Hat. apply nth_error_In in Hat. rewrite Forall_forall in Hall.
    rewrite Hh. exact (Hall _ Hat).
  - exists k, s'. split; [exact Hk|]. now rewrite <- Hh.
Qed.
Print Assumptions C12_head_is_told_eventually_partial.

(** C12 is false of head updates on a stream without covered entries: a subscriber started on the empty
    stream and waiting is not woken by UpdateHead(5), though one started after UpdateHead(5) is told. *)
Theorem C12_head_update_on_empty_refuted :
  exists s s',
    subscription demo_codec everything 0 0 [] [LThread true; LThread true; LPublisher (UpdateHead 5)] s /\
    ss_pc s <> PStop /\ ss_trace s = [] /\ stream_head demo_codec [UpdateHead 5] = 5%Z /\
    (forall r, sstep demo_codec everything 0 s (LThread r) = None) /\
    subscription demo_codec everything 0 0 [UpdateHead 5] [LThread true; LThread true; LThread true] s' /\
    ss_trace s' = [(EvHead 5%Z, true)].
Proof. do 2 eexists. split; [vm_compute; reflexivity|]. split; [discriminate|]. vm_compute. auto 10. Qed.
Print Assumptions C12_head_update_on_empty_refuted.

(** C12 is false for a start time in the future: the entry published with an earlier timestamp (index 0,
    past the begin index) is never delivered, the thread runs in circles: the state repeats. *)
Theorem C12_start_in_the_future_refuted :
  exists s,
    subscription demo_codec everything 0 100 [] [LPublisher (Publish 7%N 5)] s /\
    ss_pc s <> PStop /\ ss_trace s = [] /\
    srun demo_codec everything 0 s [LThread true; LThread true; LThread true] = Some s /\
    forall k s', srun demo_codec everything 0 s (repeat (LThread true) k) = Some s' -> ss_trace s' = [].
Proof.
  eexists. split; [vm_compute; reflexivity|]. split; [discriminate|]. split; [reflexivity|]. split; [vm_compute; reflexivity|].
  assert (Hind : forall k, (forall s', srun demo_codec (@everything N) 0 
      {| ss_store := {| mp_entries := [(5%Z, 7%N)]; mp_head := 5 |}; ss_term := false; ss_sent := false; ss_head := 99;
         ss_index := 0; ss_pc := PTop; ss_trace := [] |} (repeat (LThread true) k) = Some s' -> ss_trace s' = [])).
  { induction k as [k IH] using lt_wf_ind. intros s' H.
    destruct k as [|[|[|k]]]; [vm_compute in H; now injection H as <-..|].
    apply (IH k); [lia|]. exact H. }
  exact Hind.
Qed.
Print Assumptions C12_start_in_the_future_refuted.

(** C13: the answer "done" is only ever the last event, and what follows it changes nothing. *)
Theorem C13_done_is_final :
  forall (E F : Type) (C : codec E) (view : idxts -> E -> option F) b from_us before during s,
    subscription C view b from_us before during s ->
    (forall told x rest, ss_trace s = told ++ (x, false) :: rest -> rest = [] /\ ss_pc s = PStop) /\
    (forall later s', (exists x told, ss_trace s = told ++ [(x, false)]) ->
       srun C view b s later = Some s' -> ss_trace s' = ss_trace s).
Proof.
  intros E F C view b from_us before during s H. pose proof (sub_inv _ _ _ _ _ _ _ H) as Hi.
  pose proof (v_resp _ _ _ Hi) as Hr.
  assert (H1 : forall told x rest, ss_trace s = told ++ (x, false) :: rest -> rest = [] /\ ss_pc s = PStop).
  { intros a x rest Ht. destruct (match ss_pc s with PStop => true | _ => false end) eqn:Hp.
    - split; [|destruct (ss_pc s); congruence]. destruct Hr as (a' & x' & Ha & Hall).
      destruct rest as [|y rest] using rev_ind; [reflexivity|]. exfalso.
      rewrite Ht in Ha. change (a ++ (x, false) :: rest ++ [y]) with (a ++ ((x, false) :: rest) ++ [y]) in Ha.
      rewrite app_assoc in Ha. apply app_inj_tail in Ha as [<- _]. rewrite Forall_app in Hall. destruct Hall as [_ Hall].
      inversion Hall as [|? ? Hx _]; discriminate.
    - exfalso. rewrite Ht, Forall_app in Hr. destruct Hr as [_ Hr]. inversion Hr; discriminate. }
  split; [exact H1|].
  intros later s' (x & told & Ht) Hrun. destruct (H1 _ _ _ Ht) as [_ Hp].
  exact (proj1 (stopped_run C view b later s s' Hp Hrun)).
Qed.
Print Assumptions C13_done_is_final.

(** C13: termination is announced at most once, *)
Theorem C13_terminate_at_most_once :
  forall (E F : Type) (C : codec E) (view : idxts -> E -> option F) b from_us before during s,
    subscription C view b from_us before during s ->
    (List.length (filter is_terminate (ss_trace s)) <= 1)%nat.
Proof. intros E F C view b from_us before during s H. exact (proj1 (v_term _ _ _ (sub_inv _ _ _ _ _ _ _ H))). Qed.
Print Assumptions C13_terminate_at_most_once.

(** and is announced once requested (also to a subscriber that is blocked waiting), and a subscriber that
    answers Wait to it goes on receiving entries (C12_entries_are_delivered_eventually holds in any state). *)
Theorem C13_terminate_is_announced :
  forall (E F : Type) (C : codec E) (view : idxts -> E -> option F) b from_us before during s,
    subscription C view b from_us before during s -> not_from_the_future C b from_us before ->
    ss_pc s <> PStop -> In LSignal during ->
    exists k s' r, srun C view b s (repeat (LThread true) k) = Some s' /\ In (EvTerminate, r) (ss_trace s').
Proof.
  intros E F C view b from_us before during s H [H1 H2] Hs Hsig.
  pose proof (sub_inv2 _ _ _ _ _ _ _ H H1 H2) as Hi.
  assert (Hr : running s).
  { pose proof (v_pc _ _ _ (w_inv _ _ _ Hi)) as Hpc. unfold running, pc_ok in *. destruct (ss_pc s); auto. }
  assert (Ht : ss_term s = true) by (eapply signal_run; [exact H|right; exact Hsig]).
  destruct (terminate_reaches C view b s Hi Hr Ht) as (k & s' & Hk & _ & _ & r & Hin).
  exists k, s', r. auto.
Qed.
Print Assumptions C13_terminate_is_announced.

(** C14: a filtered subscription delivers what an unfiltered one would, of the chosen case only. *)
Theorem C14_filtered_subscription_is_a_filter :
  forall (E F : Type) (C : codec E) (view : idxts -> E -> option F) b from_us before during s,
    subscription C view b from_us before during s ->
    exists n, (n <= N.max b (N.of_nat (List.length (contents C (before ++ calls during)))))%N /\
      delivered (ss_trace s) =
      flat_map (fun x : idxts * E => match view (fst x) (snd x) with Some f => [(fst x, f)] | None => [] end)
        (filter (in_idx_range b n) (numbered (contents C (before ++ calls during)))).
Proof.
  intros E F C view b from_us before during s H.
  destruct (v_del _ _ _ (sub_inv _ _ _ _ _ _ _ H)) as (n & Hd & Hn & _).
  destruct (sub_contents _ _ _ _ _ _ _ H) as [He _]. unfold mp_size in Hn. rewrite He in *.
  exists n. split; [lia|]. rewrite Hd. unfold due.
  generalize (numbered (contents C (before ++ calls during))). intros l. induction l as [|x l IH]; [reflexivity|].
  cbn [flat_map filter]. unfold in_idx_range at 1.
  destruct (N.leb b (fst (fst x)) && N.ltb (fst (fst x)) n); cbn [app flat_map]; now rewrite IH.
Qed.
Print Assumptions C14_filtered_subscription_is_a_filter.

(** C14: the fallback is only asked about entries of another case, *)
Theorem C14_fallback_only_for_other_cases :
  forall (E F : Type) (C : codec E) (view : idxts -> E -> option F) b from_us before during s,
    subscription C view b from_us before during s ->
    forall it r, In (EvFallback it, r) (ss_trace s) ->
      exists e, nth_error (contents C (before ++ calls during)) (N.to_nat (fst it)) = Some (snd it, e) /\
                view it e = None.
Proof.
  intros E F C view b from_us before during s H it r Hin. pose proof (sub_inv _ _ _ _ _ _ _ H) as Hi.
  pose proof (v_last _ _ _ Hi) as Hl. rewrite Forall_forall in Hl. specialize (Hl _ Hin). cbn in Hl.
  destruct Hl as (e & A & B). exists e. split; [|exact B]. unfold at_ in A.
  destruct (sub_contents _ _ _ _ _ _ _ H) as [He _]. now rewrite <- He.
Qed.
Print Assumptions C14_fallback_only_for_other_cases.

(** and it is asked when an entry of another case is the last of the stream at that moment. *)
Theorem C14_fallback_asked_at_the_end :
  forall (E F : Type) (C : codec E) (view : idxts -> E -> option F) b from_us before during s r,
    subscription C view b from_us before during s ->
    forall n size h lu t e, ss_pc s = PPass n size h lu true -> n <> size ->
      (n + 1 = N.of_nat (List.length (contents C (before ++ calls during))))%N ->
      nth_error (contents C (before ++ calls during)) (N.to_nat n) = Some (t, e) -> view (n, t) e = None ->
      exists s', sstep C view b s (LThread r) = Some s' /\ ss_trace s' = ss_trace s ++ [(EvFallback (n, t), r)] /\
                 (r = false -> ss_pc s' = PStop).
Proof.
  intros E F C view b from_us before during s r H n size h lu t e Hp Hne Hlast Hn Hv.
  destruct (sub_contents _ _ _ _ _ _ _ H) as [He _]. rewrite <- He in *.
  destruct (last_ok (ss_store s) n t e Hn) as (t' & e' & Hl & Hat').
  cbn [sstep]. unfold thread_step. rewrite Hp. destruct (N.eqb_spec n size); [contradiction|]. cbn [negb].
  rewrite Hn, Hl, Hv. cbn [fst].
  destruct (N.ltb_spec n (mp_size (ss_store s) - 1)) as [Hlt|_]; [unfold mp_size in Hlt; lia|].
  eexists. split; [reflexivity|]. split; [reflexivity|]. intros ->. reflexivity.
Qed.
Print Assumptions C14_fallback_asked_at_the_end.

(** A non-trivial execution: a subscriber from index 1, with a publish and a head update in the middle of
    the delivery, a termination request answered with Wait, and Done in the end. *)
Definition demo_before : list (pop N) := [Publish 7%N 10; Publish 8%N 20; Publish 9%N 30]%Z.
Definition demo_during : list (label N) :=
  [LThread true; LThread true; LThread true; LThread true;               (* entry 1 *)
   LPublisher (Publish 5%N 40); LPublisher (Publish 5%N 35); LSignal;
   LThread true; LThread true; LThread true; LThread true;               (* Terminate, entry 2; pass done *)
   LPublisher (UpdateHead 50); LThread true; LThread true; LThread true; LThread true; LThread true;
   LThread false].
Example C10_demo : exists s,
  subscription demo_codec everything 1 0 demo_before demo_during s /\
  ss_trace s = [(EvEntry (1%N, 20%Z) 8%N (2%N, 30%Z), true); (EvTerminate, true);
                (EvEntry (2%N, 30%Z) 9%N (3%N, 40%Z), true); (EvEntry (3%N, 40%Z) 5%N (3%N, 40%Z), true);
                (EvHead 50%Z, false)] /\ ss_pc s = PStop.
Proof. eexists. split; [vm_compute; reflexivity|]. vm_compute. auto. Qed.

(** A subscriber to even payloads; the fallback says stop. *)
Definition evens (_ : idxts) (n : N) : option N := if N.even n then Some n else None.
Example C14_demo : exists s,
  subscription demo_codec evens 0 0 demo_before (repeat (LThread true) 7 ++ [LThread false]) s /\
  ss_trace s = [(EvEntry (1%N, 20%Z) 8%N (2%N, 30%Z), true); (EvFallback (2%N, 30%Z), false)] /\ ss_pc s = PStop.
Proof. eexists. split; [vm_compute; reflexivity|]. vm_compute. auto. Qed.
