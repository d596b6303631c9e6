(** Properties C16 (chunks) and C17 (replication). *)
From Coq Require Import String Sorted.
From Verif Require Import Base Dec Codec Persister_Model Persister_Spec Persister_Proofs Stream_Proofs Replicator_Model Replicator_Spec Replicator_Proofs Replicator_Proofs2.
From Verif Require Strings_Model.
Local Open Scope list_scope.

(** ** A concrete wire format: JSON as [JSON()] prints it. *)
Definition T1 : bytes := bs "{""us"":".
Definition json_ts (t : Z) : bytes := T1 ++ zdec t ++ P3.
Definition parse_json_ts (s : bytes) : option Z :=
  match strip T1 s with
  | None => None
  | Some s1 => let r := span is_num s1 in match zundec (fst r), strip P3 (snd r) with Some t, Some [] => Some t | _, _ => None end
  end.
Definition demo_wire : wire N := {|
  w_codec := demo_codec;
  par_tsopt := fun s => match parse_json_idx s with Some (i, t) => Some (t, Some i) | None => option_map (fun t => (t, None)) (parse_json_ts s) end;
  par_ts := fun s => match parse_json_ts s with Some t => Some t | None => option_map snd (parse_json_idx s) end; ser_ts := json_ts |}.
Lemma parse_json_ts_ok t : parse_json_ts (json_ts t) = Some t.
Proof.
  unfold parse_json_ts, json_ts. rewrite strip_app. change P3 with (125%N :: []). rewrite span_app by (apply zdec_is_num || reflexivity). cbn [fst snd]. rewrite zundec_zdec. reflexivity.
Qed.
Lemma demo_wire_ok : wire_ok demo_wire.
Proof.
  split; cbn [demo_wire w_codec par_tsopt par_ts ser_ts demo_codec ser_idx par_idx ser de].
  - intros it _. apply parse_json_idx_ok.
  - intros [i t] _. now rewrite parse_json_idx_ok.
  - intros t _. replace (parse_json_idx (json_ts t)) with (@None (N * Z)) by reflexivity. now rewrite parse_json_ts_ok.
  - intros t _. now rewrite parse_json_ts_ok.
  - intros [i t] _. replace (parse_json_ts (json_idx (i, t))) with (@None Z) by reflexivity. now rewrite parse_json_idx_ok.
  - apply undec_dec.
  - intros b Hb. assert (is_num b || existsb (N.eqb b) (P1 ++ P2 ++ P3 ++ T1) = false)%bool as Hn by (destruct Hb as [->|[->| ->]]; reflexivity).
    assert (forall t, ~ In b (zdec t)) as Hz. { intros t. apply (not_in_forall b is_num); [apply zdec_is_num|]. now apply orb_false_iff in Hn. }
    split; [|split].
    + intros it. apply json_idx_not_in. destruct Hb as [->|[->| ->]]; reflexivity.
    + intros t H. unfold json_ts in H. rewrite !in_app_iff in H. specialize (Hz t). destruct H as [H|[H|H]]; [|contradiction|]; destruct Hb as [->|[->| ->]]; revert H; clear; cbn; intuition discriminate.
    + intros e. apply (not_in_forall b is_digit); [apply dec_is_digit|]. destruct Hb as [->|[->| ->]]; reflexivity.
  - split; [|split].
    + intros it. discriminate.
    + intros t. discriminate.
    + intros e He. pose proof (undec_dec e) as H. rewrite He in H. discriminate.
Qed.

(** ** C16 *)
(** Whatever the subscriber does with the records, including throwing: it gets the records of the concatenated chunks, one by one until it
    throws, and what has not been a complete record yet is kept. *)
Theorem C16_records_of_the_body : forall (S X : Type) (pass : S -> bytes -> S * option X) (s : S) chunks records rest,
  Records (concat chunks) records rest ->
  let res := pass_chunks pass [] s chunks in
  (fst (fst res), snd res) = hand_over pass s records /\ (snd res = None -> snd (fst res) = rest).
Proof.
  intros S X pass s chunks records rest H res. destruct (pass_chunks_ok pass chunks [] s records rest (Forall_nil _) H) as (H1 & H2 & H3). fold res in H1, H2, H3.
  split; [rewrite H1, H2; symmetry; apply surjective_pairing|]. rewrite H2. exact H3.
Qed.
(** The records of a text exist, and are unique. *)
Theorem C16_records_unique : forall text, exists records rest, Records text records rest /\ forall records' rest', Records text records' rest' -> records' = records /\ rest' = rest.
Proof. intros text. destruct (Records_exists text) as (ls & r & H). exists ls, r. split; [exact H|]. intros ls' r' H'. destruct (Records_det _ _ _ _ _ H H') as [-> ->]. auto. Qed.
(** So two ways of cutting the same bytes into chunks are the same to the subscriber. *)
Theorem C16_chunking_is_irrelevant : forall (S X : Type) (pass : S -> bytes -> S * option X) (s : S) chunks chunks', concat chunks = concat chunks' ->
  let res := pass_chunks pass [] s chunks in let res' := pass_chunks pass [] s chunks' in
  fst (fst res) = fst (fst res') /\ snd res = snd res' /\ (snd res = None -> snd (fst res) = snd (fst res')).
Proof.
  intros S X pass s chunks chunks' Hc res res'. destruct (Records_exists (concat chunks)) as (ls & r & H). assert (Records (concat chunks') ls r) as H' by (now rewrite <- Hc).
  destruct (C16_records_of_the_body S X pass s chunks ls r H) as [A1 A2]. destruct (C16_records_of_the_body S X pass s chunks' ls r H') as [B1 B2]. fold res in A1, A2. fold res' in B1, B2.
  rewrite <- B1 in A1. injection A1 as A3 A4. split; [exact A3|]. split; [exact A4|]. intros Hn. rewrite A2 by exact Hn. rewrite B2; [reflexivity|congruence].
Qed.
(** Example: two records, cut inside the first one and between \r and \n; the subscriber collects what it gets. *)
Definition collect (got : list bytes) (l : bytes) : list bytes * option unit := (got ++ [l], None).
Example C16_ex : pass_chunks collect [] [] [bs "ab"; bs "c" ++ [13%N]; [10%N] ++ bs "de" ++ [10%N]; bs "f"] = ([bs "abc"; bs "de"], bs "f", None) /\
  Records (concat [bs "ab"; bs "c" ++ [13%N]; [10%N] ++ bs "de" ++ [10%N]; bs "f"]) [bs "abc"; bs "de"] (bs "f").
Proof.
  split; [reflexivity|].
  assert (forall b, N.eqb b 10 = false -> N.eqb b 13 = false -> ~ EOL b) as D. { intros b H1 H2 [->| ->]; discriminate. }
  apply (Rec_line (bs "abc") 13%N); [discriminate|repeat constructor; now apply D|now right|]. apply (Rec_skip 10%N); [now left|]. apply (Rec_line (bs "de") 10%N); [discriminate|repeat constructor; now apply D|now left|]. apply Rec_end. repeat constructor; now apply D.
Qed.

(** ** C17 *)
Lemma replica_prefix {E} (m f : mp E) : replica m f <-> prefix_of f m.
Proof.
  split; intros [H1 H2]; split; auto.
  - destruct H1 as [k Hk]. exists (skipn k (mp_entries m)). rewrite Hk. symmetry. apply firstn_skipn.
  - destruct H1 as [r Hr]. exists (List.length (mp_entries f)). rewrite Hr, firstn_app, firstn_all, Nat.sub_diag. cbn. now rewrite app_nil_r.
Qed.
Lemma replication_inv {E} (W : wire E) checked s s' : wire_ok W -> replication W checked s s' -> rinv (master s) (follower s) -> Forall (fun b => ~ EOL b) (pending s) ->
  rinv (master s') (follower s') /\ Forall (fun b => ~ EOL b) (pending s').
Proof.
  intros HW H H0 Hp0. induction H as [|s' s'' H [IH Hp] Hs]; [auto|].
  destruct Hs as [s' o|s' chunk ls r f c Hr HF He|s' chunk ls r f c x Hr HF He|s']; cbn.
  - split; [|exact Hp]. now apply rinv_grow.
  - destruct (pass_chunk_ok (pass_entry W checked) (pending s') (follower s') chunk ls r Hp Hr) as (A1 & A2 & A3). rewrite He in A1, A2, A3. cbn in A1, A2, A3.
    split; [|rewrite A3 by (now symmetry); now apply Records_rest in Hr]. rewrite A1. now apply rinv_hand_over.
  - destruct (pass_chunk_ok (pass_entry W checked) (pending s') (follower s') chunk ls r Hp Hr) as (A1 & A2 & A3). rewrite He in A1, A2, A3. cbn in A1, A2, A3.
    split; [|constructor]. rewrite A1. now apply rinv_hand_over.
  - split; [exact IH|constructor].
Qed.
(** Whatever the master's users do, however its lines are repeated, lost, reordered or interspersed with lines that make no sense, however the
    bytes are cut into chunks, and whenever the connection breaks: the follower's entries are the first entries of the master. *)
Theorem C17_replica_is_a_prefix : forall (E : Type) (W : wire E) checked s s', wire_ok W -> started W s -> replication W checked s s' ->
  replica (master s') (r_store (follower s')) /\ r_next (follower s') = mp_size (r_store (follower s')).
Proof.
  intros E W checked s s' HW ([ops Hm] & Hr & Hn & Hp) H.
  assert (rinv (master s) (follower s)) as R. { split; [rewrite Hm; apply mp_run_inv, mp_inv_init|now apply replica_prefix|exact Hn]. }
  destruct (replication_inv W checked s s' HW H R) as [[H1 H2 H3] _]; [rewrite Hp; constructor|]. split; [now apply replica_prefix|exact H3].
Qed.
Print Assumptions C16_records_of_the_body.
Print Assumptions C16_records_unique.
Print Assumptions C16_chunking_is_irrelevant.
Print Assumptions C17_replica_is_a_prefix.
