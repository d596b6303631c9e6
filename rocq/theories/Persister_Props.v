(** Properties C01-C04 (in-memory persister, blocks/persistence/memory.h). *)
From Coq Require Import Sorted String.
From Verif Require Import Base Dec Codec Persister_Model Persister_Spec Persister_Proofs.
Local Open Scope list_scope.

(** C01: for every sequence of calls, reading everything back gives exactly the accepted entries with
    indexes 0,1,2,...; timestamps strictly increase, are >= 0 and <= head. *)
Theorem C01_log_is_accepted_entries :
  forall (E : Type) (C : codec E) (ops : list (pop E)),
    let s := fst (mp_run C mp_init ops) in
    let acc := accepted C ops (snd (mp_run C mp_init ops)) in
    (N.of_nat (length acc) < npos)%N ->
    mp_size s = N.of_nat (length acc) /\
    (exists r, mp_iterate s 0 npos = Ok r /\ mp_read s r = Some (numbered acc)) /\
    increasing acc /\
    Forall (fun x => (0 <= fst x <= mp_head s)%Z) acc /\
    mp_head s = latest (moved ops (snd (mp_run C mp_init ops))).
Proof.
  intros E C ops s acc Hlen.
  assert (He : mp_entries s = acc) by apply (mp_run_entries C ops mp_init).
  pose proof (mp_run_inv C ops mp_init mp_inv_init) as [H1 H2 H3 _]. fold s in H1, H2, H3.
  rewrite He in *. unfold mp_size at 1. rewrite He.
  split; [reflexivity|]. split; [|split; [exact H1|split]].
  - destruct (proj2 (mp_iterate_iff s 0 npos)) as [r Hr]; [cbn zeta; rewrite N.eqb_refl; lia|].
    exists r. split; [exact Hr|].
    rewrite (mp_iterate_read _ _ _ _ Hr), N.eqb_refl, <- mp_read_filter by lia.
    rewrite mp_read_all. now rewrite He.
  - rewrite Forall_forall in *. intros x Hx. specialize (H2 x Hx). specialize (H3 x Hx). lia.
  - apply (mp_run_head C ops mp_init).
Qed.
Print Assumptions C01_log_is_accepted_entries.

(** C01: a call that throws changes nothing. *)
Theorem C01_throwing_call_changes_nothing :
  forall (E : Type) (C : codec E) (s : mp E) (o : pop E),
    threw (snd (mp_step C s o)) = true -> fst (mp_step C s o) = s.
Proof. intros E C. exact (mp_step_throw C). Qed.
Print Assumptions C01_throwing_call_changes_nothing.

(** C01: what an iterator could read stays readable and unchanged under any later calls. *)
Theorem C01_iterators_stay_valid :
  forall (E : Type) (C : codec E) (s : mp E) (ops : list (pop E)) r x,
    mp_read s r = Some x -> mp_read (fst (mp_run C s ops)) r = Some x.
Proof. intros E C. exact (mp_read_stable C). Qed.
Print Assumptions C01_iterators_stay_valid.

(** A non-trivial history: two publishes, a rejected one, a head update, an unsafe publish. *)
Definition demo_ops : list (pop N) :=
  [ Publish 7%N 100; Publish 8%N 100; UpdateHead 150;
    PublishUnsafe (json_idx (1%N, 200%Z) ++ [TAB] ++ dec 9); Publish 1%N 199 ]%Z.
Example C01_demo :
  let r := mp_run demo_codec mp_init demo_ops in
  accepted demo_codec demo_ops (snd r) = [(100, 7%N); (200, 9%N)]%Z /\
  map threw (snd r) = [false; true; false; false; true] /\ mp_head (fst r) = 200%Z.
Proof. vm_compute. auto. Qed.

(** C02: acceptance rule in any reachable state: the decision depends only on the latest timestamp
    accepted so far (entries and head updates), and the effects are exactly those listed. *)
Theorem C02_publish_accepted_iff :
  forall (E : Type) (C : codec E) (ops : list (pop E)) (e : E) (t : Z),
    let s := fst (mp_run C mp_init ops) in
    let outs := snd (mp_run C mp_init ops) in
    let h := latest (moved ops outs) in
    let n := N.of_nat (length (accepted C ops outs)) in
    ((h < t)%Z ->
       exists s', mp_publish s e t = (s', Ok (n, t)) /\
         mp_head s' = t /\ mp_size s' = (n + 1)%N /\
         mp_read s' (0, mp_size s')%N = Some (numbered (accepted C ops outs) ++ [((n, t), e)])) /\
    ((t <= h)%Z -> mp_publish s e t = (s, Throw (InconsistentTimestamp (h + 1) t))).
Proof.
  intros E C ops e t s outs h n.
  assert (He : mp_entries s = accepted C ops outs) by apply (mp_run_entries C ops mp_init).
  assert (Hh : mp_head s = h) by apply (mp_run_head C ops mp_init).
  assert (Hn : mp_size s = n) by (unfold mp_size, n; now rewrite He).
  unfold mp_publish. rewrite Hh, Hn. split; intros H.
  - destruct (Z.ltb_spec h t); [|lia]. eexists. split; [reflexivity|]. cbn [mp_head].
    split; [reflexivity|]. split.
    + unfold mp_size; cbn [mp_entries]. rewrite He, app_length. cbn. unfold n. lia.
    + rewrite mp_read_all. cbn [mp_entries]. unfold numbered. rewrite numbered_from_app, He. reflexivity.
  - destruct (Z.ltb_spec h t); [lia|]. reflexivity.
Qed.
Print Assumptions C02_publish_accepted_iff.

Theorem C02_update_head_accepted_iff :
  forall (E : Type) (C : codec E) (ops : list (pop E)) (t : Z),
    let s := fst (mp_run C mp_init ops) in
    let h := latest (moved ops (snd (mp_run C mp_init ops))) in
    ((h < t)%Z -> exists s', mp_update_head s t = (s', Ok tt) /\ mp_head s' = t /\
                             (forall r, mp_read s' r = mp_read s r) /\ mp_size s' = mp_size s) /\
    ((t <= h)%Z -> mp_update_head s t = (s, Throw (InconsistentTimestamp (h + 1) t))).
Proof.
  intros E C ops t s h.
  assert (Hh : mp_head s = h) by apply (mp_run_head C ops mp_init).
  unfold mp_update_head. rewrite Hh. split; intros H.
  - destruct (Z.ltb_spec h t); [|lia]. eexists. split; [reflexivity|]. auto.
  - destruct (Z.ltb_spec h t); [lia|]. reflexivity.
Qed.
Print Assumptions C02_update_head_accepted_iff.

(** PublishUnsafe of a well-formed line (index [i], time [t], payload of [e]): accepted iff the index is
    the size and the time exceeds the head; the index mismatch is reported first. *)
Theorem C02_publish_unsafe_accepted_iff :
  forall (E : Type) (C : codec E) (ops : list (pop E)) (i : N) (t : Z) (e : E),
    codec_ok C -> (-1 <= t)%Z ->
    let s := fst (mp_run C mp_init ops) in
    let outs := snd (mp_run C mp_init ops) in
    let h := latest (moved ops outs) in
    let n := N.of_nat (length (accepted C ops outs)) in
    let line := ser_idx C (i, t) ++ [TAB] ++ ser C e in
    (i <> n -> mp_publish_unsafe C s line = (s, Throw (UnsafePublishBadIndexTimestamp n i))) /\
    (i = n -> (t <= h)%Z -> mp_publish_unsafe C s line = (s, Throw (InconsistentTimestamp (h + 1) t))) /\
    (i = n -> (h < t)%Z -> mp_publish_unsafe C s line = (fst (mp_publish s e t), Ok (n, t))).
Proof.
  intros E C ops i t e HC Ht s outs h n line.
  assert (He : mp_entries s = accepted C ops outs) by apply (mp_run_entries C ops mp_init).
  assert (Hh : mp_head s = h) by apply (mp_run_head C ops mp_init).
  assert (Hn : mp_size s = n) by (unfold mp_size, n; now rewrite He).
  assert (Hc : cut_at TAB line = Some (ser_idx C (i, t), ser C e)).
  { unfold line. pose proof (ok_idx_tab C HC (i, t)) as Hnt. revert Hnt.
    generalize (ser_idx C (i, t)). clear. intros p Hp. induction p as [|b p IH]; cbn; [reflexivity|].
    destruct (N.eqb_spec b TAB) as [->|Hb]; [exfalso; apply Hp; now left|].
    cbn in IH. rewrite IH; [reflexivity|]. intros Hi; apply Hp; now right. }
  unfold mp_publish_unsafe. rewrite Hc, (ok_idx C HC) by exact Ht. rewrite Hn, Hh.
  split; [|split].
  - intros Hi. destruct (N.eqb_spec i n); [contradiction|]. reflexivity.
  - intros -> H. rewrite N.eqb_refl. cbn [negb]. destruct (Z.ltb_spec h t); [lia|]. reflexivity.
  - intros -> H. rewrite N.eqb_refl. cbn [negb]. unfold mp_publish. rewrite Hh.
    destruct (Z.ltb_spec h t); [|lia]. cbn [negb]. rewrite (ok_de C HC). reflexivity.
Qed.
Print Assumptions C02_publish_unsafe_accepted_iff.

Example C02_demo_hyps :
  codec_ok demo_codec /\ latest (moved demo_ops (snd (mp_run demo_codec mp_init demo_ops))) = 200%Z.
Proof. split; [exact demo_codec_ok|vm_compute; reflexivity]. Qed.

(** C03: [Iterate(from, till)] in one critical section: throws iff till > 0 and till < from, otherwise
    yields exactly the matching entries, in order. *)
Theorem C03_timestamp_range_exact :
  forall (E : Type) (C : codec E) (ops : list (pop E)) (from till : Z),
    let s := fst (mp_run C mp_init ops) in
    let acc := accepted C ops (snd (mp_run C mp_init ops)) in
    (N.of_nat (length acc) < npos)%N ->
    ((0 < till)%Z /\ (till < from)%Z -> mp_iterate_ts s from till = Throw InvalidIterableRange) /\
    (~ ((0 < till)%Z /\ (till < from)%Z) ->
      exists r, mp_iterate_ts s from till = Ok r /\
                mp_read s r = Some (filter (in_ts_range from till) (numbered acc))).
Proof.
  intros E C ops from till s acc Hlen.
  assert (He : mp_entries s = acc) by apply (mp_run_entries C ops mp_init).
  rewrite <- He. apply mp_iterate_ts_spec; [apply mp_run_inv, mp_inv_init|].
  unfold mp_size. now rewrite He.
Qed.
Print Assumptions C03_timestamp_range_exact.

(** C03: the pair returned by [IndexRangeByTimestampRange]. *)
Theorem C03_index_range_exact :
  forall (E : Type) (C : codec E) (ops : list (pop E)) (from till : Z),
    let s := fst (mp_run C mp_init ops) in
    (mp_size s < npos)%N ->
    let r := mp_index_range s from till in
    ((fst r = npos /\ forall i t e, mp_deref s i = Some ((i, t), e) -> (t < from)%Z) \/
     (exists t e, mp_deref s (fst r) = Some ((fst r, t), e) /\ (from <= t)%Z /\
        forall j u x, mp_deref s j = Some ((j, u), x) -> (j < fst r)%N -> (u < from)%Z)) /\
    ((snd r = npos /\ ((till <= 0)%Z \/ forall i t e, mp_deref s i = Some ((i, t), e) -> (t <= till)%Z)) \/
     ((0 < till)%Z /\ exists t e, mp_deref s (snd r) = Some ((snd r, t), e) /\ (till < t)%Z /\
        forall j u x, mp_deref s j = Some ((j, u), x) -> (j < snd r)%N -> (u <= till)%Z)).
Proof.
  intros E C ops from till s Hsz. apply mp_index_range_spec; [apply mp_run_inv, mp_inv_init|exact Hsz].
Qed.
Print Assumptions C03_index_range_exact.

(** C03, concurrent case: [Iterate(from, till)] takes the mutex twice; a publish between the two critical
    sections can put an entry newer than [till] into the returned range. *)
Theorem C03_concurrent_publish_leaks_past_till_refuted :
  exists (ops mid : list (pop N)) (from till : Z) r x,
    let s1 := fst (mp_run demo_codec mp_init ops) in
    let s2 := fst (mp_run demo_codec s1 mid) in
    mp_iterate_ts2 s1 s2 from till = Ok r /\
    mp_read s2 r = Some x /\
    (0 < till)%Z /\ exists i t e, In ((i, t), e) x /\ (till < t)%Z.
Proof.
  exists [Publish 1%N 10%Z], [Publish 2%N 99%Z], 5%Z, 20%Z, (0, 2)%N, [((0, 10%Z), 1); ((1, 99%Z), 2)]%N.
  cbn zeta. split; [vm_compute; reflexivity|]. split; [vm_compute; reflexivity|]. split; [lia|].
  exists 1%N, 99%Z, 2%N. split; [cbn; auto|lia].
Qed.
Print Assumptions C03_concurrent_publish_leaks_past_till_refuted.

(** C03, concurrent case, what does hold: however many publishes happen between the two critical
    sections, nothing before [from] is returned, nothing matching that was present at the call is
    missed, and the range can be read without going out of bounds. *)
Theorem C03_concurrent_iterate_partial :
  forall (E : Type) (C : codec E) (ops mid : list (pop E)) (from till : Z),
    let s1 := fst (mp_run C mp_init ops) in
    let s2 := fst (mp_run C s1 mid) in
    (mp_size s2 < npos)%N -> ~ ((0 < till)%Z /\ (till < from)%Z) ->
    exists r x, mp_iterate_ts2 s1 s2 from till = Ok r /\ mp_read s2 r = Some x /\
      exists extra, x = filter (in_ts_range from till) (numbered (mp_entries s1)) ++ extra /\
                    (extra = [] \/ exists k, numbered (mp_entries s2) = numbered (mp_entries s1) ++ extra ++ k).
Proof.
  intros E C ops mid from till s1 s2 Hsz Hr.
  pose proof (mp_run_inv C ops mp_init mp_inv_init) as Hinv. fold s1 in Hinv.
  assert (He : exists q, mp_entries s2 = mp_entries s1 ++ q) by (eexists; apply (mp_run_entries C mid s1)).
  destruct He as [q He].
  destruct (mp_iterate_ts_spec s1 from till Hinv) as [_ H].
  { unfold mp_size in *. rewrite He, app_length in Hsz. lia. }
  destruct (H Hr) as (r & H1 & H2). clear H.
  assert (Hst : forall r x, mp_read s1 r = Some x -> mp_read s2 r = Some x) by (intros; now apply mp_read_stable).
  unfold mp_iterate_ts, mp_iterate_ts2 in *.
  destruct (Z.ltb 0 till && Z.ltb till from) eqn:Hc; [lia|].
  set (p := mp_index_range s1 from till) in *.
  destruct (N.eqb (fst p) npos) eqn:Hp; cbn [negb] in *.
  - injection H1 as <-. exists (0, 0)%N. eexists. split; [reflexivity|]. split; [apply Hst, H2|].
    exists []. split; [now rewrite app_nil_r|auto].
  - destruct (N.eqb (snd p) npos) eqn:Hp2.
    + (* open end: the range extends to the new size *)
      apply mp_iterate_ok in H1 as Hk. cbn zeta in Hk. rewrite Hp2 in Hk. destruct Hk as (Hk1 & Hk2 & Hk3).
      assert (Hsz12 : (mp_size s1 <= mp_size s2)%N) by (unfold mp_size; rewrite He, app_length; lia).
      destruct (proj2 (mp_iterate_iff s2 (fst p) (snd p))) as [r2 Hr2].
      { cbn zeta. rewrite Hp2. lia. }
      exists r2. eexists. split; [exact Hr2|]. split; [apply (mp_iterate_read _ _ _ _ Hr2)|].
      rewrite Hp2. rewrite (mp_iterate_read _ _ _ _ H1), Hp2 in H2. injection H2 as H2.
      exists (numbered_from (mp_size s1) q). split.
      * rewrite <- H2. unfold numbered. rewrite He, numbered_from_app, filter_app. cbn [numbered_from].
        assert (Hb : forall k i (l : list (Z * E)), (i <= mp_size s1)%N -> (mp_size s1 <= mp_size s2)%N ->
                  (N.of_nat (length l) + i <= mp_size s1)%N ->
                  filter (in_idx_range k (mp_size s2)) (numbered_from i l) = filter (in_idx_range k (mp_size s1)) (numbered_from i l)).
        { intros k i l Hi Hs Hl. apply filter_ext_in. intros z Hz.
          pose proof (numbered_bounds i l) as Hnb. rewrite Forall_forall in Hnb. specialize (Hnb z Hz).
          destruct z as [[zi zt] ze]. unfold in_idx_range. cbn [fst snd] in *. lia. }
        rewrite Hb; [|lia|lia|unfold mp_size; lia]. f_equal.
        rewrite N.add_0_l. apply filter_all.
        eapply Forall_impl; [|apply numbered_bounds]. intros [[zi zt] ze]. unfold in_idx_range; cbn [fst snd].
        intros Hz. unfold mp_size in *. rewrite He, app_length in *. lia.
      * right. exists []. rewrite app_nil_r. unfold numbered. rewrite He, numbered_from_app. reflexivity.
    + (* closed end: same range in both states *)
      apply mp_iterate_ok in H1 as Hk. cbn zeta in Hk. rewrite Hp2 in Hk. destruct Hk as (Hk1 & Hk2 & Hk3).
      assert (Hsz12 : (mp_size s1 <= mp_size s2)%N) by (unfold mp_size; rewrite He, app_length; lia).
      assert (Hr2 : mp_iterate s2 (fst p) (snd p) = Ok r).
      { destruct (proj2 (mp_iterate_iff s2 (fst p) (snd p))) as [r2 Hr2].
        { cbn zeta. rewrite Hp2. lia. }
        rewrite Hr2. unfold mp_iterate in H1, Hr2. rewrite Hp2 in H1, Hr2.
        destruct (N.ltb (mp_size s1) (snd p)); [discriminate|]. destruct (N.ltb (mp_size s2) (snd p)); [discriminate|].
        destruct (N.eqb (fst p) (snd p)); [congruence|].
        destruct (N.leb (mp_size s1) (fst p)); [discriminate|]. destruct (N.leb (mp_size s2) (fst p)); [discriminate|].
        destruct (N.ltb (snd p) (fst p)); [discriminate|]. congruence. }
      exists r. eexists. split; [exact Hr2|]. split; [apply Hst, H2|].
      exists []. split; [now rewrite app_nil_r|auto].
Qed.
Print Assumptions C03_concurrent_iterate_partial.

Example C03_demo :
  let s := fst (mp_run demo_codec mp_init demo_ops) in
  mp_iterate_ts s 150 1000 = Ok (1, 2)%N /\ mp_read s (1, 2)%N = Some [((1%N, 200%Z), 9%N)].
Proof. vm_compute. auto. Qed.

(** C04: [Iterate(begin, end)] succeeds iff begin <= end' <= size, where end' is the size for the
    sentinel; then it yields exactly the entries with those indexes and never reads out of bounds;
    otherwise it throws InvalidIterableRangeException. *)
Theorem C04_index_range_exact :
  forall (E : Type) (C : codec E) (ops : list (pop E)) (b e : N),
    let s := fst (mp_run C mp_init ops) in
    let acc := accepted C ops (snd (mp_run C mp_init ops)) in
    let e' := if N.eqb e npos then N.of_nat (length acc) else e in
    ((b <= e' /\ e' <= N.of_nat (length acc))%N ->
       exists r, mp_iterate s b e = Ok r /\
                 mp_read s r = Some (filter (in_idx_range b e') (numbered acc))) /\
    (~ (b <= e' /\ e' <= N.of_nat (length acc))%N -> mp_iterate s b e = Throw InvalidIterableRange).
Proof.
  intros E C ops b e s acc e'.
  assert (He : mp_entries s = acc) by apply (mp_run_entries C ops mp_init).
  assert (Hs : mp_size s = N.of_nat (length acc)) by (unfold mp_size; now rewrite He).
  split; intros H.
  - destruct (proj2 (mp_iterate_iff s b e)) as [r Hr]; [cbn zeta; rewrite Hs; exact H|].
    exists r. split; [exact Hr|]. rewrite (mp_iterate_read _ _ _ _ Hr), He, Hs. reflexivity.
  - apply mp_iterate_throw. rewrite mp_iterate_iff. cbn zeta. rewrite Hs. exact H.
Qed.
Print Assumptions C04_index_range_exact.

Example C04_demo :
  let s := fst (mp_run demo_codec mp_init demo_ops) in
  mp_iterate s 1 2 = Ok (1, 2)%N /\ mp_iterate s 2 npos = Ok (0, 0)%N /\
  mp_iterate s 0 3 = Throw InvalidIterableRange /\ mp_iterate s 2 1 = Throw InvalidIterableRange.
Proof. vm_compute. auto. Qed.

(** C01/C02: the last-published record reported is the last accepted entry, and the combined query also
    reports the head. *)
Theorem C02_last_published_reports_last_accepted :
  forall (E : Type) (C : codec E) (ops : list (pop E)),
    let s := fst (mp_run C mp_init ops) in
    let acc := accepted C ops (snd (mp_run C mp_init ops)) in
    mp_last s = match rev (numbered acc) with [] => Throw NoEntriesPublishedYet | (it, _) :: _ => Ok it end /\
    mp_head_and_last s = (latest (moved ops (snd (mp_run C mp_init ops))),
                          match rev (numbered acc) with [] => None | (it, _) :: _ => Some it end) /\
    mp_empty s = match acc with [] => true | _ => false end.
Proof.
  intros E C ops s acc.
  assert (He : mp_entries s = acc) by apply (mp_run_entries C ops mp_init).
  assert (Hh : mp_head s = latest (moved ops (snd (mp_run C mp_init ops)))) by apply (mp_run_head C ops mp_init).
  rewrite mp_last_spec, mp_head_and_last_spec, He, Hh. unfold mp_empty. rewrite He. auto.
Qed.
Print Assumptions C02_last_published_reports_last_accepted.
