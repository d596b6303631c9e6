(** Properties C05-C09 (file-backed persister, blocks/persistence/file.h). *)
From Coq Require Import Sorted String.
From Verif Require Import Base Dec Codec Persister_Model Persister_Spec Persister_Proofs
  FilePersister_Model FilePersister_Spec FilePersister_Proofs FilePersister_Proofs2.
Local Open Scope list_scope.

(** A file persister state reached from a new file by [ops]. *)
Definition reached {E} (C : codec E) (sig : bytes) (ops : list (pop E)) (s : fp) : Prop :=
  exists s0, fp_open C sig [] = Ok s0 /\ s = fst (fp_run C s0 ops).

Lemma reached_inv {E} (C : codec E) sig ops s :
  codec_ok C -> sig_ok sig -> Forall (op_ok C) ops -> reached C sig ops s ->
  exists ls, finv C sig s (fst (mp_run C mp_init ops)) ls.
Proof.
  intros HC Hs Ho (s0 & H0 & ->). destruct (fp_open_empty C sig Hs) as (s1 & H1 & Hf).
  rewrite H1 in H0. injection H0 as <-. destruct (finv_run C sig HC ops s1 mp_init _ Hf Ho) as [_ (ls & Hls)]. eauto.
Qed.

(** A new file can always be opened. *)
Theorem C05_new_file_opens :
  forall (E : Type) (C : codec E) (sig : bytes), sig_ok sig -> exists s, fp_open C sig [] = Ok s.
Proof. intros E C sig H. destruct (fp_open_empty C sig H) as (s & Hs & _). eauto. Qed.
Print Assumptions C05_new_file_opens.

(** C05: every call gives the same result or exception as on the in-memory persister, and afterwards
    every query (except raw-line iteration, see below) gives the same result or exception. *)
Theorem C05_file_equals_memory :
  forall (E : Type) (C : codec E) (sig : bytes) (ops : list (pop E)) (s0 : fp),
    codec_ok C -> sig_ok sig -> Forall (op_ok C) ops -> fp_open C sig [] = Ok s0 ->
    snd (fp_run C s0 ops) = snd (mp_run C mp_init ops) /\
    forall q, is_unsafe_read q = false ->
      fp_query C (fst (fp_run C s0 ops)) q = mp_query C (fst (mp_run C mp_init ops)) q.
Proof.
  intros E C sig ops s0 HC Hs Ho H0. destruct (fp_open_empty C sig Hs) as (s1 & H1 & Hf).
  rewrite H1 in H0. injection H0 as <-.
  destruct (finv_run C sig HC ops s1 mp_init _ Hf Ho) as [Hout (ls & Hls)].
  split; [exact Hout|]. intros q Hq. exact (fp_query_sim C sig _ _ _ q Hls Hq).
Qed.
Print Assumptions C05_file_equals_memory.

(** C05, raw lines: equal too if the lines given to PublishUnsafe are in the form the library itself
    writes (the file keeps the line verbatim, the memory persister re-serializes). *)
Theorem C05_file_equals_memory_raw_lines :
  forall (E : Type) (C : codec E) (sig : bytes) (ops : list (pop E)) (s0 : fp) (q : pquery),
    codec_ok C -> sig_ok sig -> Forall (op_ok C) ops -> Forall (op_canonical C) ops -> fp_open C sig [] = Ok s0 ->
    fp_query C (fst (fp_run C s0 ops)) q = mp_query C (fst (mp_run C mp_init ops)) q.
Proof.
  intros E C sig ops s0 q HC Hs Ho Hc H0. destruct (fp_open_empty C sig Hs) as (s1 & H1 & Hf).
  rewrite H1 in H0. injection H0 as <-.
  destruct (canon_run C sig HC ops s1 mp_init _ Hf) as (ls & Hls & Hcl); auto.
  { constructor; [|constructor]. left. reflexivity. }
  destruct (is_unsafe_read q) eqn:Hq; [|exact (fp_query_sim C sig _ _ _ q Hls Hq)].
  destruct q; try discriminate. cbn [fp_query mp_query]. f_equal.
  exact (fp_iterate_unsafe_sim C sig HC _ _ _ b e Hls Hcl).
Qed.
Print Assumptions C05_file_equals_memory_raw_lines.

(** C05: an iterator keeps delivering exactly the entries it was opened for, whatever calls (including
    in-place head rewrites) are made between its dereferences. *)
Theorem C05_iterators_survive_concurrent_calls :
  forall (E : Type) (C : codec E) (sig : bytes) (ops : list (pop E)) (s : fp) (b e o : N) (sched : list (list (pop E))),
    codec_ok C -> sig_ok sig -> Forall (op_ok C) ops -> Forall (Forall (op_ok C)) sched -> reached C sig ops s ->
    (b < e)%N -> (e <= fp_size s)%N -> fp_iterate s b e = Ok (b, e, o) -> length sched = N.to_nat (e - b) ->
    iterate_interleaved C s b o (b, 0%Z) sched =
      Ok (filter (in_idx_range b e) (numbered (accepted C ops (snd (mp_run C mp_init ops))))).
Proof.
  intros E C sig ops s b e o sched HC Hs Ho Hsc Hr Hbe He Hit Hlen.
  destruct (reached_inv C sig ops s HC Hs Ho Hr) as (ls & H).
  pose proof (finv_next C sig _ _ _ H) as Hn. unfold mp_size, fp_size in *.
  assert (Hacc : mp_entries (fst (mp_run C mp_init ops)) = accepted C ops (snd (mp_run C mp_init ops)))
    by apply (mp_run_entries C ops mp_init).
  rewrite (it_inter_ok C sig HC sched s _ ls b o (b, 0%Z) H Hsc).
  - rewrite Hacc. unfold numbered. rewrite filter_idx_slice. rewrite N.max_r, N.sub_0_r by lia. now rewrite Hlen.
  - eapply it_inv_start; eauto.
  - lia.
Qed.
Print Assumptions C05_iterators_survive_concurrent_calls.

(** C05 refuted in full generality: the file persister does not parse the payload of PublishUnsafe. *)
Theorem C05_unparsable_unsafe_payload_refuted :
  exists (ops : list (pop N)) s0, fp_open demo_codec (bs "s") [] = Ok s0 /\
    snd (fp_run demo_codec s0 ops) <> snd (mp_run demo_codec mp_init ops).
Proof.
  exists [PublishUnsafe (json_idx (0%N, 100%Z) ++ [TAB] ++ bs "oops")].
  eexists. split; [vm_compute; reflexivity|]. vm_compute. discriminate.
Qed.
Print Assumptions C05_unparsable_unsafe_payload_refuted.

(** ... and a newline inside the raw line splits it in two: the acknowledged entry is then followed by
    garbage and the file cannot be opened any more. *)
Theorem C05_unsafe_newline_corrupts_file_refuted :
  exists (ops : list (pop N)) s0, fp_open demo_codec (bs "s") [] = Ok s0 /\
    map threw (snd (fp_run demo_codec s0 ops)) = [false] /\
    fp_open demo_codec (bs "s") (fp_file (fst (fp_run demo_codec s0 ops))) = Throw MalformedEntry.
Proof.
  exists [PublishUnsafe (json_idx (0%N, 100%Z) ++ [TAB] ++ bs "1" ++ [NL] ++ bs "2")].
  eexists. split; [vm_compute; reflexivity|]. vm_compute. auto.
Qed.
Print Assumptions C05_unsafe_newline_corrupts_file_refuted.

(** Non-trivial instance for C05, C06, C09: entries, rejected calls, head updates, a raw line. *)
Definition demo_fops : list (pop N) :=
  [ UpdateHead 5; Publish 7%N 100; UpdateHead 120; Publish 8%N 110; UpdateHead 150;
    PublishUnsafe (json_idx (1%N, 200%Z) ++ [TAB] ++ dec 9); UpdateHead 201; Publish 1%N 300 ]%Z.
Example C05_demo :
  Forall (op_ok demo_codec) demo_fops /\ Forall (op_canonical demo_codec) demo_fops /\ sig_ok (bs "s") /\
  exists s0, fp_open demo_codec (bs "s") [] = Ok s0 /\
    map threw (snd (fp_run demo_codec s0 demo_fops)) = [false; false; false; true; false; false; false; false] /\
    fp_query demo_codec (fst (fp_run demo_codec s0 demo_fops)) (QIterate 1 npos) =
      AEntries (Ok [((1%N, 200%Z), 9%N); ((2%N, 300%Z), 1%N)]) /\
    fp_iterate (fst (fp_run demo_codec s0 demo_fops)) 1 3 = Ok (1, 3, 90)%N.
Proof.
  split; [|split; [|split]].
  - repeat constructor; try (intros ?; discriminate).
    + intros Hi. vm_compute in Hi. repeat destruct Hi as [Hi|Hi]; try discriminate. exact Hi.
    + intros pre post Hc. vm_compute in Hc. injection Hc as <- <-. vm_compute. discriminate.
  - repeat constructor. exists (1%N, 200%Z), 9%N. split; [reflexivity|cbn; lia].
  - split; [|reflexivity]. intros [Hi|[]]. discriminate.
  - eexists. split; [vm_compute; reflexivity|]. vm_compute. auto.
Qed.

(** C06: reopening the file of any reached state gives literally the same state (file contents, record
    offsets, timestamps, head, appender position), hence the same behaviour from then on. *)
Theorem C06_reopen_restores_state :
  forall (E : Type) (C : codec E) (sig : bytes) (ops : list (pop E)) (s : fp),
    codec_ok C -> sig_ok sig -> Forall (op_ok C) ops -> reached C sig ops s ->
    fp_open C sig (fp_file s) = Ok s.
Proof.
  intros E C sig ops s HC Hs Ho Hr. destruct (reached_inv C sig ops s HC Hs Ho Hr) as (ls & H).
  exact (fp_open_reopen C sig s _ ls H).
Qed.
Print Assumptions C06_reopen_restores_state.

(** C06: with a close-and-reopen inserted before each of several batches of calls, all results and all
    later queries are those of one uninterrupted in-memory persister. *)
Fixpoint run_reopening {E} (C : codec E) (sig : bytes) (s : fp) (batches : list (list (pop E)))
  : outcome pexn (fp * list pout) :=
  match batches with
  | [] => Ok (s, [])
  | ops :: rest =>
      obind (fp_open C sig (fp_file s)) (fun s1 =>
        let r := fp_run C s1 ops in
        obind (run_reopening C sig (fst r) rest) (fun r2 => Ok (fst r2, snd r ++ snd r2)))
  end.

Lemma mp_run_app {E} (C : codec E) a b : forall m,
  mp_run C m (a ++ b) = (fst (mp_run C (fst (mp_run C m a)) b), snd (mp_run C m a) ++ snd (mp_run C (fst (mp_run C m a)) b)).
Proof.
  induction a as [|o a IH]; intros m; cbn; [now destruct (mp_run C m b)|]. rewrite IH. reflexivity.
Qed.

Theorem C06_reopening_is_invisible :
  forall (E : Type) (C : codec E) (sig : bytes) (batches : list (list (pop E))) (s0 : fp),
    codec_ok C -> sig_ok sig -> Forall (op_ok C) (concat batches) -> fp_open C sig [] = Ok s0 ->
    exists s, run_reopening C sig s0 batches = Ok (s, snd (mp_run C mp_init (concat batches))) /\
      forall q, is_unsafe_read q = false -> fp_query C s q = mp_query C (fst (mp_run C mp_init (concat batches))) q.
Proof.
  intros E C sig batches s0 HC Hs Ho H0. destruct (fp_open_empty C sig Hs) as (s1 & H1 & Hf).
  rewrite H1 in H0. injection H0 as <-. revert Hf. generalize (@mp_init E) as m, [sig_line sig] as ls. clear H1.
  revert s1. induction batches as [|ops rest IH]; intros s m ls Hf; cbn [concat run_reopening].
  - exists s. split; [reflexivity|]. intros q Hq. exact (fp_query_sim C sig _ _ _ q Hf Hq).
  - cbn [concat] in Ho. apply Forall_app in Ho as [Ho1 Ho2].
    rewrite (fp_open_reopen C sig s m ls Hf). cbn [obind].
    destruct (finv_run C sig HC ops s m ls Hf Ho1) as [Hout (ls1 & Hls1)].
    destruct (IH Ho2 _ _ _ Hls1) as (s2 & Hr & Hq). rewrite Hr. cbn [obind fst snd].
    exists s2. rewrite mp_run_app. cbn [fst snd]. rewrite Hout. split; [reflexivity|exact Hq].
Qed.
Print Assumptions C06_reopening_is_invisible.

Example C06_demo :
  exists s0 s, fp_open demo_codec (bs "s") [] = Ok s0 /\
    run_reopening demo_codec (bs "s") s0 [firstn 3 demo_fops; skipn 3 demo_fops] = Ok s /\
    map threw (snd s) = [false; false; false; true; false; false; false; false].
Proof. do 2 eexists. split; [vm_compute; reflexivity|]. split; vm_compute; reflexivity. Qed.

(** C07: opening succeeds exactly on the well-formed logs and otherwise throws; what it then reports is
    what the file says. *)
Theorem C07_open_succeeds_iff_well_formed :
  forall (E : Type) (C : codec E) (sig file : bytes),
    ((exists s, fp_open C sig file = Ok s) <-> log_wf C sig (lines_of file)) /\
    (~ log_wf C sig (lines_of file) -> exists x, fp_open C sig file = Throw x).
Proof.
  intros E C sig file. pose proof (fp_open_iff C sig file) as H. split; [exact H|].
  intros Hn. destruct (fp_open C sig file) as [s|x|] eqn:Ho; [|eauto|].
  - exfalso. apply Hn, H. eauto.
  - exfalso. unfold fp_open in Ho. pose proof (replay_no_ub C sig (lines_of file) rs_init) as Hu.
    destruct (replay_lines C sig rs_init (lines_of file)); cbn in Ho; congruence.
Qed.
Print Assumptions C07_open_succeeds_iff_well_formed.

Theorem C07_opened_state_reflects_file :
  forall (E : Type) (C : codec E) (sig file : bytes) (s : fp),
    fp_open C sig file = Ok s ->
    fp_size s = N.of_nat (length (flat_map (line_index C) (lines_of file))) /\
    fp_head s = List.last (flat_map (line_time C) (lines_of file)) (-1)%Z.
Proof. intros E C sig file s. exact (fp_open_facts C sig file s). Qed.
Print Assumptions C07_opened_state_reflects_file.

Definition demo_log : bytes :=
  bs "#signature s" ++ [NL] ++ json_idx (0%N, 100%Z) ++ [TAB] ++ bs "7" ++ [NL] ++
  head_record 150 ++ json_idx (1%N, 151%Z) ++ [TAB] ++ bs "8" ++ [NL].
Definition demo_bad_log : bytes :=
  bs "#signature s" ++ [NL] ++ json_idx (0%N, 100%Z) ++ [TAB] ++ bs "7" ++ [NL] ++
  head_record 150 ++ json_idx (1%N, 150%Z) ++ [TAB] ++ bs "8" ++ [NL].
Example C07_demo :
  (exists s, fp_open demo_codec (bs "s") demo_log = Ok s /\ fp_size s = 2%N /\ fp_head s = 151%Z) /\
  fp_open demo_codec (bs "s") demo_bad_log = Throw (InconsistentTimestamp 151 150) /\
  fp_open demo_codec (bs "t") demo_log = Throw InvalidStreamSignature.
Proof. split; [eexists; split; [vm_compute; reflexivity|vm_compute; auto]|vm_compute; auto]. Qed.

(** C08 (partial): whatever unterminated tail a crash leaves after the acknowledged bytes, if the file
    opens then every acknowledged entry can still be read, unchanged and at its index.  Missing with
    respect to the full claim: see the _refuted theorems. *)
Theorem C08_acknowledged_entries_survive_partial :
  forall (E : Type) (C : codec E) (sig : bytes) (ops : list (pop E)) (s s' : fp) (tail : bytes),
    codec_ok C -> sig_ok sig -> Forall (op_ok C) ops -> reached C sig ops s -> no_nl tail ->
    fp_open C sig (fp_file s ++ tail) = Ok s' ->
    (fp_size s <= fp_size s')%N /\
    forall b e, (b <= e)%N -> (e <= fp_size s)%N -> (e < npos)%N ->
      obind (fp_iterate s' b e) (fp_read C s') =
        Ok (filter (in_idx_range b e) (numbered (accepted C ops (snd (mp_run C mp_init ops))))).
Proof.
  intros E C sig ops s s' tail HC Hs Ho Hr Ht Hop.
  destruct (reached_inv C sig ops s HC Hs Ho Hr) as (ls & H).
  destruct (crash_entries_survive C sig s _ ls tail s' H Ht Hop) as [H1 H2]. split; [exact H1|].
  intros b e Hbe He Hnp. rewrite (H2 b e Hbe He Hnp).
  now rewrite (mp_run_entries C ops mp_init).
Qed.
Print Assumptions C08_acknowledged_entries_survive_partial.

(** C08: a cut inside the index/timestamp part of an entry record makes the file unopenable ... *)
Theorem C08_cut_before_tab_refuses_to_open :
  forall (E : Type) (C : codec E) (sig : bytes) (ops : list (pop E)) (s : fp) (t : Z) (k : nat),
    codec_ok C -> sig_ok sig -> Forall (op_ok C) ops -> reached C sig ops s ->
    (fp_head s < t)%Z -> 0 < k <= length (ser_idx C (fp_size s, t)) ->
    fp_open C sig (fp_file s ++ firstn k (ser_idx C (fp_size s, t))) = Throw MalformedEntry.
Proof.
  intros E C sig ops s t k HC Hs Ho Hr Ht Hk.
  destruct (reached_inv C sig ops s HC Hs Ho Hr) as (ls & H). pose proof (finv_head_ge C sig _ _ _ H).
  apply (crash_before_tab C sig HC s _ ls t k H); [lia|exact Hk].
Qed.
Print Assumptions C08_cut_before_tab_refuses_to_open.

(** ... and a cut at or after the tab makes an unacknowledged, possibly truncated, entry count: the
    opposite of "exactly the entries acknowledged before". *)
Theorem C08_cut_after_tab_counts_unacknowledged_entry :
  forall (E : Type) (C : codec E) (sig : bytes) (ops : list (pop E)) (s : fp) (t : Z) (e : E) (k : nat),
    codec_ok C -> sig_ok sig -> Forall (op_ok C) ops -> reached C sig ops s ->
    (fp_head s < t)%Z -> k <= length (ser C e) ->
    exists s', fp_open C sig (fp_file s ++ ser_idx C (fp_size s, t) ++ [TAB] ++ firstn k (ser C e)) = Ok s' /\
      fp_size s' = (fp_size s + 1)%N /\ fp_head s' = t.
Proof.
  intros E C sig ops s t e k HC Hs Ho Hr Ht Hk.
  destruct (reached_inv C sig ops s HC Hs Ho Hr) as (ls & H).
  destruct (crash_after_tab C sig HC s _ ls t e k H Ht Hk) as (s' & H1 & H2 & H3 & _). eauto.
Qed.
Print Assumptions C08_cut_after_tab_counts_unacknowledged_entry.

(** C08 refuted: after such a recovery the next publish is acknowledged but glued to the torn line, and
    is gone after the next reopen. *)
Theorem C08_entry_published_after_recovery_is_lost_refuted :
  exists (s0 s1 s2 s3 s4 : fp),
    fp_open demo_codec (bs "s") [] = Ok s0 /\
    fp_publish demo_codec s0 7%N 100 = (s1, Ok (0%N, 100%Z)) /\
    (* crash while appending entry 8 at t=200: only the payload and the newline are missing *)
    fp_open demo_codec (bs "s") (fp_file s1 ++ json_idx (1%N, 200%Z) ++ [TAB]) = Ok s2 /\
    fp_publish demo_codec s2 9%N 300 = (s3, Ok (2%N, 300%Z)) /\
    fp_open demo_codec (bs "s") (fp_file s3) = Ok s4 /\ fp_size s3 = 3%N /\ fp_size s4 = 2%N.
Proof. do 5 eexists. repeat split; vm_compute; reflexivity. Qed.
Print Assumptions C08_entry_published_after_recovery_is_lost_refuted.

(** C08 refuted for head updates: the in-place rewrite is not atomic; a crash in the middle of rewriting
    199 to 200 leaves 299, a head nobody requested, and valid publishes are then rejected. *)
Theorem C08_torn_head_rewrite_refuted :
  exists (s0 s1 s2 : fp),
    fp_open demo_codec (bs "s") [] = Ok s0 /\
    fp_update_head s0 199 = (s1, Ok tt) /\
    fp_open demo_codec (bs "s")
      (overwrite (N.to_nat (fp_headoff s1)) (firstn 18 (head_str 200 ++ [NL])) (fp_file s1)) = Ok s2 /\
    fp_head s2 = 299%Z /\ snd (fp_publish demo_codec s2 7%N 250) = Throw (InconsistentTimestamp 300 250).
Proof. do 3 eexists. repeat split; vm_compute; reflexivity. Qed.
Print Assumptions C08_torn_head_rewrite_refuted.

(** C08 refuted for a torn #head append: the rewriter then extends the file past the appender's
    position, so the offset recorded for the next entry points into the middle of a line and the
    acknowledged entry cannot be read (until the file is reopened). *)
Theorem C08_torn_head_append_refuted :
  exists (s0 s1 s2 s3 : fp),
    fp_open demo_codec (bs "s") [] = Ok s0 /\
    (* crash while appending "#head 00000000000000000005": only "#head 0" was written *)
    fp_open demo_codec (bs "s") (fp_file s0 ++ bs "#head 0") = Ok s1 /\
    fp_update_head s1 10 = (s2, Ok tt) /\
    fp_publish demo_codec s2 7%N 100 = (s3, Ok (0%N, 100%Z)) /\
    fp_query demo_codec s3 (QIterate 0 npos) = AEntries (Throw MalformedEntry) /\
    fp_open demo_codec (bs "s") (fp_file s3) <> Ok s3.
Proof. do 4 eexists. repeat split; try (vm_compute; reflexivity). vm_compute. discriminate. Qed.
Print Assumptions C08_torn_head_append_refuted.

Example C08_demo :
  exists s, reached demo_codec (bs "s") demo_fops s /\ fp_size s = 3%N /\
    fp_open demo_codec (bs "s") (fp_file s ++ firstn 5 (json_idx (3%N, 400%Z))) = Throw MalformedEntry /\
    exists s', fp_open demo_codec (bs "s") (fp_file s ++ json_idx (3%N, 400%Z) ++ [TAB] ++ bs "1") = Ok s'.
Proof.
  eexists. split; [eexists; split; [vm_compute; reflexivity|vm_compute; reflexivity]|].
  split; [vm_compute; reflexivity|]. split; [vm_compute; reflexivity|]. eexists. vm_compute. reflexivity.
Qed.

(** C09: the file of any reached state is a list of lines [body], none of which UpdateHead ever touches,
    followed by at most one #head record; any number of UpdateHead calls leaves [body] as it is, followed
    by exactly one 27-byte #head record holding the current head ([body] itself does not end with one). *)
Theorem C09_head_updates_only_rewrite_the_trailing_record :
  forall (E : Type) (C : codec E) (sig : bytes) (ops : list (pop E)) (s : fp) (ts : list Z),
    codec_ok C -> sig_ok sig -> Forall (op_ok C) ops -> reached C sig ops s ->
    Forall (fun t => (t < 2 ^ 63)%Z) ts ->
    let s' := fst (fp_run C s (map (@UpdateHead E) ts)) in
    s' = s \/
    exists body : list bytes,
      Forall no_nl body /\
      (fp_file s = unlines body \/ exists t0, fp_file s = unlines body ++ head_record t0) /\
      (forall l, List.last body [] = l -> is_head_line l = false) /\
      fp_file s' = unlines body ++ head_record (fp_head s') /\
      length (head_record (fp_head s')) = 27 /\ fp_size s' = fp_size s /\
      In (fp_head s') ts.
Proof.
  intros E C sig ops s ts HC Hs Ho Hr Hts s'.
  destruct (reached_inv C sig ops s HC Hs Ho Hr) as (ls & H).
  assert (Hin : s' = s \/ In (fp_head s') ts).
  { unfold s'. clear. revert s. induction ts as [|t ts IH]; intros s; [now left|]. cbn [map fp_run fp_step fst].
    destruct (IH (fst (fp_update_head s t))) as [Heq|Hi]; [|right; right; exact Hi].
    rewrite Heq. unfold fp_update_head. destruct (negb (Z.ltb (fp_head s) t)); [now left|].
    destruct (negb (N.eqb (fp_headoff s) 0)); right; left; reflexivity. }
  destruct (update_heads C sig ts s _ ls H Hts) as [Heq|(body & t & Ht & Hn & Hf & (r & Hr0 & Hz) & Hls)]; [now left|].
  fold s' in Hf. destruct Hin as [Hin|Hin]; [now left|]. right. exists body.
  pose proof (f_head _ _ _ _ _ Hf) as Hh. cbn [mp_head] in Hh. rewrite <- Hh in *.
  assert (Hrec : forall t, head_record t = unlines [head_line t]).
  { intros t'. rewrite unlines_one. unfold head_record, head_line. reflexivity. }
  split; [exact Hn|]. split; [|split; [|split; [|split; [|split; [|exact Hin]]]]].
  - rewrite (f_file _ _ _ _ _ H). destruct Hls as [->|(t0 & _ & ->)]; [now left|right].
    exists t0. now rewrite unlines_app, Hrec.
  - intros l <-. destruct (list_snoc_cases body) as [->|(x & l & ->)]; [reflexivity|].
    rewrite last_last. destruct (is_head_line l) eqn:Hl; [|reflexivity].
    exfalso. exact (replay_last_head C sig _ _ _ _ Hr0 Hl Hz).
  - rewrite (f_file _ _ _ _ _ Hf), unlines_app, Hrec. reflexivity.
  - rewrite Hrec, unlines_one, app_length, head_line_length by lia. reflexivity.
  - unfold fp_size. rewrite (finv_next C sig _ _ _ Hf), (finv_next C sig _ _ _ H). reflexivity.
Qed.
Print Assumptions C09_head_updates_only_rewrite_the_trailing_record.

(** C09: any single call either leaves the file as it is, appends one line, or replaces a trailing #head
    record by another one of the same length; all other bytes stay. *)
Theorem C09_calls_never_damage_written_lines :
  forall (E : Type) (C : codec E) (sig : bytes) (ops : list (pop E)) (s : fp) (o : pop E),
    codec_ok C -> sig_ok sig -> Forall (op_ok C) ops -> op_ok C o -> reached C sig ops s ->
    let s' := fst (fp_step C s o) in
    fp_file s' = fp_file s \/
    (exists line, no_nl line /\ fp_file s' = fp_file s ++ line ++ [NL]) \/
    (exists pre t0 t, fp_file s = pre ++ head_record t0 /\ fp_file s' = pre ++ head_record t).
Proof.
  intros E C sig ops s o HC Hs Ho Hoo Hr s'.
  destruct (reached_inv C sig ops s HC Hs Ho Hr) as (ls & H).
  destruct (finv_step C sig HC s _ ls o H Hoo) as [_ (ls' & H' & Hx)]. fold s' in H'.
  rewrite (f_file _ _ _ _ _ H), (f_file _ _ _ _ _ H').
  assert (Hrec : forall t, head_record t = unlines [head_line t]).
  { intros t'. rewrite unlines_one. unfold head_record, head_line. reflexivity. }
  destruct Hx as [->|[(l & ->)|(ls0 & t0 & t & -> & ->)]].
  - now left.
  - right; left. exists l. split; [|now rewrite unlines_app, unlines_one].
    pose proof (f_nl _ _ _ _ _ H') as Hn. apply Forall_app in Hn as [_ Hn]. now inversion Hn.
  - right; right. exists (unlines ls0), t0, t. now rewrite !unlines_app, !Hrec.
Qed.
Print Assumptions C09_calls_never_damage_written_lines.

Example C09_demo :
  exists s0 s, fp_open demo_codec (bs "s") [] = Ok s0 /\
    s = fst (fp_run demo_codec s0 [Publish 7%N 100; UpdateHead 120; UpdateHead 99; UpdateHead 1234567]%Z) /\
    fp_file s = unlines [bs "#signature s"; json_idx (0%N, 100%Z) ++ [TAB] ++ bs "7"] ++ head_record 1234567.
Proof. do 2 eexists. split; [vm_compute; reflexivity|]. split; vm_compute; reflexivity. Qed.
