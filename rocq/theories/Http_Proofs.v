From stdpp Require Import list strings.
From Coq Require Import ZArith.
From Verif Require Base Strings_Model.
From Verif Require Import Http_Model.

(** * The meaning of a stream of bytes, without buffers *)
Fixpoint split_line (s : list N) : option (list N * list N) :=
  match s with
  | [] => None
  | c :: s' =>
      if decide (c = 0)%N then None
      else if decide (c = CR ∧ head s' = Some LF) then Some ([], tail s')
      else match split_line s' with Some (l, r) => Some (c :: l, r) | None => None end
  end.
Fixpoint interpret (fuel : nat) (p : parsed) (s : list N) : outcome :=
  match fuel with
  | 0 => OutOfFuel
  | S fuel =>
      match split_line s with
      | None => Failed SocketClosed
      | Some (line, rest) =>
          match on_line line p with
          | NextLine p' => interpret fuel p' rest
          | ReadChunk n p' => if decide (n ≤ length rest) then interpret fuel (on_chunk (take n rest) p') (drop n rest) else Failed SocketClosed
          | ReadBody n => if decide (n ≤ length rest) then message p (take n rest) else Failed SocketClosed
          | Finish o => o
          end
      end
  end.
Definition meaning (p : parsed) (s : list N) : outcome := interpret (S (length s)) p s.

Lemma split_line_eq s l r : split_line s = Some (l, r) → s = l ++ CR :: LF :: r.
Proof.
  revert l r. induction s as [|c s IH]; intros l r; simpl; [done|]. destruct (decide (c = 0)%N); [done|].
  destruct (decide _) as [[-> H]|_].
  - intros [= <- <-]. destruct s; [done|]. simpl in *. by injection H as ->.
  - destruct (split_line s) as [[l' r']|]; [|done]. intros [= <- <-]. simpl. f_equal. by apply IH.
Qed.
Lemma split_line_length s l r : split_line s = Some (l, r) → length r + 2 ≤ length s.
Proof. intros ->%split_line_eq. rewrite app_length. simpl. lia. Qed.
Lemma interpret_fuel f1 f2 p s : length s < f1 → length s < f2 → interpret f1 p s = interpret f2 p s.
Proof.
  revert f2 p s. induction f1 as [|f1 IH]; intros [|f2] p s H1 H2; try lia. simpl.
  destruct (split_line s) as [[l r]|] eqn:E; [|done]. apply split_line_length in E.
  destruct (on_line l p); try done.
  - apply IH; lia.
  - destruct (decide _); [|done]. apply IH; rewrite drop_length; lia.
Qed.
Lemma meaning_unfold p s : meaning p s =
  match split_line s with
  | None => Failed SocketClosed
  | Some (line, rest) =>
      match on_line line p with
      | NextLine p' => meaning p' rest
      | ReadChunk n p' => if decide (n ≤ length rest) then meaning (on_chunk (take n rest) p') (drop n rest) else Failed SocketClosed
      | ReadBody n => if decide (n ≤ length rest) then message p (take n rest) else Failed SocketClosed
      | Finish o => o
      end
  end.
Proof.
  unfold meaning at 1. simpl. destruct (split_line s) as [[l r]|] eqn:E; [|done]. apply split_line_length in E.
  destruct (on_line l p); try done.
  - apply interpret_fuel; simpl; lia.
  - destruct (decide _); [|done]. apply interpret_fuel; rewrite ?drop_length; simpl; lia.
Qed.
Lemma split_line_app s l r t : split_line s = Some (l, r) → split_line (s ++ t) = Some (l, r ++ t).
Proof.
  revert l r. induction s as [|c s IH]; intros l r; simpl; [done|]. destruct (decide (c = 0)%N); [done|].
  destruct (decide (c = CR ∧ head s = Some LF)) as [[-> H]|H].
  - intros [= <- <-]. destruct s as [|x s]; [done|]. simpl in *. injection H as ->. by rewrite decide_True by done.
  - destruct (split_line s) as [[l' r']|] eqn:E; [|done]. intros [= <- <-]. destruct s as [|x s]; [done|]. simpl in H |- *.
    rewrite decide_False by done. specialize (IH _ _ eq_refl). simpl in IH. by rewrite IH.
Qed.
Lemma strstr_split s j : strstr_crlf (s ++ 0%N :: j) = Some (option_map (λ lr, length lr.1) (split_line s)).
Proof.
  induction s as [|c s IH]; simpl; [done|]. destruct (decide (c = 0)%N); [done|].
  rewrite IH. destruct (decide (c = CR ∧ head (s ++ 0%N :: j) = Some LF)) as [[-> H]|H].
  - destruct s as [|x s]; [done|]. simpl in H. injection H as ->. by rewrite decide_True by done.
  - rewrite decide_False. 2:{ intros [-> H']. apply H. split; [done|]. by destruct s. }
    by destruct (split_line s) as [[l r]|].
Qed.

(** * The buffer *)
Lemma write_mid a x c d i : i = length a → length x = length d → write (a ++ x ++ c) i d = Some (a ++ d ++ c).
Proof.
  intros -> L. unfold write. rewrite decide_True by (rewrite !app_length; lia).
  f_equal. rewrite take_app. f_equal. f_equal. rewrite drop_app_ge by lia. rewrite drop_app_alt by lia. done.
Qed.
Lemma slice_mid a b c i j : i = length a → j = i + length b → slice (a ++ b ++ c) i j = Some b.
Proof.
  intros -> ->. unfold slice. rewrite decide_True by (rewrite !app_length; lia). f_equal. rewrite drop_app.
  replace (length a + length b - length a) with (length b) by lia. by rewrite take_app.
Qed.
Lemma memmove_mid a b c i n : i = length a → n = length b → ∃ c', memmove (a ++ b ++ c) i n = Some (b ++ c') ∧ length c' = length a + length c.
Proof.
  intros -> ->. unfold memmove. rewrite (slice_mid a b c) by done. unfold write. rewrite decide_True by (rewrite !app_length; lia).
  simpl. eexists. split; [done|]. rewrite drop_length, !app_length. lia.
Qed.
Lemma blocking_read_spec n net data net' : blocking_read n net = Some (data, net') →
  to_come net = data ++ to_come net' ∧ 1 ≤ length data ≤ n.
Proof.
  unfold blocking_read. destruct (n `min` length (to_come net)) as [|k] eqn:E; [done|].
  remember (1 `max` _) as q eqn:Eq. intros [= <- <-]. simpl. rewrite take_drop, take_length. split; [done|]. lia.
Qed.
Lemma blocking_read_none n net : 0 < n → blocking_read n net = None → to_come net = [].
Proof.
  unfold blocking_read. intros Hn. destruct (n `min` length (to_come net)) as [|k] eqn:E; [|done]. intros _. destruct (to_come net); [done|simpl in E; lia].
Qed.
Lemma blocking_read_full_spec n net : blocking_read_full n net =
  if decide (n ≤ length (to_come net)) then Some (take n (to_come net), Network (drop n (to_come net)) (pieces net)) else None.
Proof. done. Qed.

(** The state in which a line is looked for: what has been read and not yet interpreted is [u]. *)
Definition scan_state (pre u junk : list N) (p : parsed) : state := State (pre ++ u ++ 0%N :: junk) (length pre + length u) (length pre) p.
Definition scan_ok (pre u junk : list N) (p : parsed) : Prop :=
  1 ≤ length junk ∨ receiving_body_in_chunks p = true ∧ pre ≠ [] ∧ u = [].
Definition read_state (pre u free : list N) (p : parsed) : state := State (pre ++ u ++ free) (length pre + length u) (length pre) p.

Section with_growth.
Context (grow : nat → nat).

Lemma read_more_spec pre u free p net : 2 ≤ length free →
  (to_come net = [] ∧ read_more grow (read_state pre u free p) net = End (Failed SocketClosed)) ∨
  ∃ data net' junk, to_come net = data ++ to_come net' ∧ 1 ≤ length data ∧ 1 ≤ length junk ∧
    read_more grow (read_state pre u free p) net = Scan (scan_state pre (u ++ data) junk p) net'.
Proof.
  intros Hf. unfold read_more, read_state. simpl. rewrite decide_False by (rewrite !app_length; lia).
  replace (length (pre ++ u ++ free) - (length pre + length u) - 1) with (length free - 1) by (rewrite !app_length; lia).
  destruct (blocking_read (length free - 1) net) as [[data net']|] eqn:E.
  - right. destruct (blocking_read_spec _ _ _ _ E) as [Ht Hl]. exists data, net'.
    rewrite <- (take_drop (length data) free), (assoc_L (++) pre u). rewrite write_mid; [|by rewrite app_length|rewrite take_length; lia].
    cbn [checked]. rewrite <- (assoc_L (++)). rewrite take_drop.
    set (b := if decide (length data = length free - 1) then _ else _).
    assert (∃ x junk, b = (pre ++ (u ++ data)) ++ [x] ++ junk ∧ 1 ≤ length junk) as (x & junk & -> & Hj).
    { unfold b. destruct (decide (length data = length free - 1)) as [Hc|Hc].
      - unfold resize. destruct (drop (length data) free) as [|x r] eqn:Ed. { apply (f_equal length) in Ed. rewrite drop_length in Ed. simpl in Ed. lia. }
        assert (r = []) as ->. { apply (f_equal length) in Ed. rewrite drop_length in Ed. simpl in Ed. destruct r; [done|simpl in Ed; lia]. }
        exists x. eexists. split; [rewrite <- !(assoc_L (++)); simpl; done|].
        assert (length free = length data + 1) as Hlf by lia. rewrite replicate_length, !app_length. simpl length. rewrite Hlf. lia.
      - destruct (drop (length data) free) as [|x r] eqn:Ed. { apply (f_equal length) in Ed. rewrite drop_length in Ed. simpl in Ed. lia. }
        exists x, r. split; [by rewrite <- !(assoc_L (++))|]. apply (f_equal length) in Ed. rewrite drop_length in Ed. simpl in Ed. lia. }
    exists junk. split_and!; [done|lia|done|].
    rewrite write_mid; [|rewrite !app_length; lia|done]. cbn [checked]. unfold scan_state. f_equal. rewrite <- !(assoc_L (++)), app_length. f_equal. lia.
  - left. split; [|done]. apply blocking_read_none in E; [done|lia].
Qed.

Lemma finish_chunk_spec pre u c junk p net : finish_chunk (pre ++ c ++ u ++ 0%N :: junk) (length pre + length c + length u) (length pre) (length pre + length c) p net =
  Scan (scan_state (pre ++ c) u junk (on_chunk c p)) net.
Proof. unfold finish_chunk. rewrite slice_mid by done. cbn [checked]. unfold scan_state. by rewrite app_length, <- (assoc_L (++)). Qed.
Lemma fill_chunk_spec pre u free n p net : length u < n → n + 1 ≤ length u + length free →
  (length u + length (to_come net) < n ∧ fill_chunk (pre ++ u ++ free) (length pre + length u) (length pre) (length pre + n) p net = End (Failed SocketClosed)) ∨
  ∃ junk, n ≤ length u + length (to_come net) ∧
    fill_chunk (pre ++ u ++ free) (length pre + length u) (length pre) (length pre + n) p net =
    Scan (scan_state (pre ++ take n (u ++ to_come net)) [] junk (on_chunk (take n (u ++ to_come net)) p)) (Network (drop n (u ++ to_come net)) (pieces net)).
Proof.
  intros Hu Hf. unfold fill_chunk. rewrite blocking_read_full_spec. replace (length pre + n - (length pre + length u)) with (n - length u) by lia.
  destruct (decide _) as [Hn|Hn]; [right|left; split; [lia|done]].
  rewrite (take_app_ge u (to_come net) n) by lia. rewrite (drop_app_ge u (to_come net) n) by lia.
  remember (take (n - length u) (to_come net)) as d eqn:Ed. assert (length d = n - length u) as Ld by (subst d; rewrite take_length; lia).
  rewrite <- (take_drop (length d) free). rewrite (assoc_L (++) pre u). rewrite write_mid; [|by rewrite app_length|rewrite take_length; lia]. cbn [checked].
  destruct (drop (length d) free) as [|x junk] eqn:Ex. { apply (f_equal length) in Ex. rewrite drop_length in Ex. simpl in Ex. lia. }
  exists junk. split; [lia|].
  replace ((pre ++ u) ++ d ++ x :: junk) with ((pre ++ u ++ d) ++ [x] ++ junk) by (by rewrite <- !(assoc_L (++))).
  rewrite write_mid; [|rewrite !app_length; lia|done]. cbn [checked].
  replace ((pre ++ u ++ d) ++ [0%N] ++ junk) with (pre ++ (u ++ d) ++ [] ++ 0%N :: junk) by (by rewrite <- !(assoc_L (++))).
  replace (length pre + n) with (length pre + length (u ++ d) + length (@nil N)) at 1 by (rewrite app_length; simpl; lia).
  replace (length pre + n) with (length pre + length (u ++ d)) by (rewrite app_length; lia).
  apply finish_chunk_spec.
Qed.

Lemma fill_chunk_spec' pre u free n p net : length u < n → n + 1 ≤ length u + length free →
  (length u + length (to_come net) < n ∧ fill_chunk (pre ++ u ++ free) (length pre + length u) (length pre) (length pre + n) p net = End (Failed SocketClosed)) ∨
  ∃ pre' u' junk' net', n ≤ length u + length (to_come net) ∧
    fill_chunk (pre ++ u ++ free) (length pre + length u) (length pre) (length pre + n) p net =
      Scan (scan_state pre' u' junk' (on_chunk (take n (u ++ to_come net)) p)) net' ∧
    u' ++ to_come net' = drop n (u ++ to_come net) ∧ (1 ≤ length junk' ∨ pre' ≠ [] ∧ u' = []) ∧ length (to_come net') ≤ length (to_come net).
Proof.
  intros Hu Hf. destruct (fill_chunk_spec pre u free n p net Hu Hf) as [H|(junk & Hn & ->)]; [by left|right].
  exists (pre ++ take n (u ++ to_come net)), [], junk, (Network (drop n (u ++ to_come net)) (pieces net)). split_and!; try done.
  - right. split; [|done]. intros [_ H]%app_eq_nil. apply (f_equal length) in H. rewrite take_length, app_length in H. simpl in H. lia.
  - simpl. rewrite drop_length, app_length. lia.
Qed.
Lemma read_chunk_spec pre u junk n p net : 0 < n → 1 ≤ length junk →
  (length u + length (to_come net) < n ∧ read_chunk grow (pre ++ u ++ 0%N :: junk) (length pre + length u) net (length pre) n p = End (Failed SocketClosed)) ∨
  ∃ pre' u' junk' net', n ≤ length u + length (to_come net) ∧
    read_chunk grow (pre ++ u ++ 0%N :: junk) (length pre + length u) net (length pre) n p =
      Scan (scan_state pre' u' junk' (on_chunk (take n (u ++ to_come net)) p)) net' ∧
    u' ++ to_come net' = drop n (u ++ to_come net) ∧ (1 ≤ length junk' ∨ pre' ≠ [] ∧ u' = []) ∧ length (to_come net') ≤ length (to_come net).
Proof.
  intros Hn Hj. unfold read_chunk. destruct (decide (length pre + length u < length pre + n)) as [Hu|Hu].
  - destruct (decide _) as [Hs|Hs]; [destruct (decide _) as [Hm|Hm]|].
    + destruct (memmove_mid pre u (0%N :: junk) (length pre) (length pre + length u - length pre)) as (c & -> & Lc); [done|lia|]. cbn [checked].
      replace (length pre + length u - length pre) with (length u) by lia. replace (length pre + n - length pre) with n by lia.
      rewrite !app_length in Hm. simpl in Hm, Lc. apply (fill_chunk_spec' [] u c); lia.
    + unfold resize. rewrite <- !(assoc_L (++)). apply fill_chunk_spec'; [lia|]. simpl. rewrite !app_length, replicate_length. simpl. rewrite ?app_length. simpl. lia.
    + rewrite !app_length in Hs. simpl in Hs. apply fill_chunk_spec'; simpl; lia.
  - right. assert (n ≤ length u) as Hnu by lia. exists (pre ++ take n u), (drop n u), junk, net.
    rewrite (take_app_le u) by lia. rewrite (drop_app_le u) by lia. split_and!; try done; [lia| |by left].
    assert (length (take n u) = n) as Lt by (rewrite take_length; lia).
    replace (length pre + length u) with (length pre + length (take n u) + length (drop n u)) by (rewrite Lt, drop_length; lia).
    replace (pre ++ u ++ 0%N :: junk) with (pre ++ take n u ++ drop n u ++ 0%N :: junk) by (by rewrite (assoc_L (++) (take n u)), take_drop).
    replace (length pre + n) with (length pre + length (take n u)) by lia.
    apply finish_chunk_spec.
Qed.
Lemma read_body_spec pre u junk n p net :
  read_body (pre ++ u ++ 0%N :: junk) (length pre + length u) net (length pre) n p =
  End (if decide (n ≤ length (u ++ to_come net)) then message p (take n (u ++ to_come net)) else Failed SocketClosed).
Proof.
  unfold read_body.
  set (b := if decide (length (pre ++ _) < _) then _ else _).
  assert (∃ free, b = pre ++ u ++ free ∧ n + 1 ≤ length u + length free) as (free & -> & Hf).
  { unfold b. destruct (decide _) as [H|H].
    - unfold resize. rewrite <- !(assoc_L (++)). eexists. split; [done|]. simpl. rewrite !app_length, replicate_length. simpl. rewrite ?app_length. simpl. lia.
    - exists (0%N :: junk). split; [done|]. rewrite !app_length in H. simpl in *. lia. }
  rewrite app_length. destruct (decide (length pre + length u < length pre + n)) as [Hu|Hu].
  - rewrite blocking_read_full_spec. replace (length pre + n - (length pre + length u)) with (n - length u) by lia.
    destruct (decide (n - length u ≤ _)) as [Hn|Hn]; [|by rewrite decide_False by lia]. rewrite decide_True by lia.
    rewrite (take_app_ge u (to_come net) n) by lia. remember (take (n - length u) (to_come net)) as d eqn:Ed.
    assert (length d = n - length u) as Ld by (subst d; rewrite take_length; lia).
    rewrite <- (take_drop (length d) free). rewrite (assoc_L (++) pre u). rewrite write_mid; [|by rewrite app_length|rewrite take_length; lia]. cbn [checked].
    unfold finish_body. rewrite <- (assoc_L (++)). rewrite (assoc_L (++) u d). rewrite slice_mid; [done|done|rewrite app_length; lia].
  - rewrite decide_True by lia. unfold finish_body. rewrite (take_app_le u) by lia.
    rewrite <- (take_drop n u) at 1. rewrite <- (assoc_L (++)). rewrite slice_mid; [done|done|rewrite take_length; lia].
Qed.

Lemma on_line_chunk line p n p' : on_line line p = ReadChunk n p' → 0 < n ∧ p' = p ∧ receiving_body_in_chunks p = true.
Proof.
  unfold on_line. destruct (first_line_parsed p); [|by destruct line]. destruct (receiving_body_in_chunks p) eqn:Er.
  - destruct line as [|c line]; [done|]. unfold chunk_line. destruct (stoi16 _) as [z| |]; try done. destruct (decide (z < 0)%Z); [done|]. destruct (decide (z = 0)%Z); [done|].
    intros [= <- <-]. split_and!; [lia|done|done].
  - destruct line as [|c line].
    + unfold end_of_headers. destruct (chunked_transfer_encoding p); [done|]. destruct (body_length p); [done|]. by destruct (need_content_length _).
    + unfold header_line. destruct (split_colon _) as [[k v]|]; [|done]. destruct (header_name_equals k _); [by destruct (decide _)|]. destruct (header_name_equals k _); [done|].
      by destruct (_ && _).
Qed.

Lemma run_spec fuel :
  (∀ pre u junk p net, scan_ok pre u junk p → length u + 3 * length (to_come net) + 2 ≤ fuel →
     run grow fuel (Scan (scan_state pre u junk p) net) = meaning p (u ++ to_come net)) ∧
  (∀ pre u free p net, 2 ≤ length free → split_line u = None → length u + 3 * length (to_come net) + 1 ≤ fuel →
     run grow fuel (Read (read_state pre u free p) net) = meaning p (u ++ to_come net)).
Proof.
  induction fuel as [|fuel [IHs IHr]]; [split; intros; lia|]. split.
  - intros pre u junk p net Hok Hfuel. cbn [run]. unfold scan, scan_state. cbn [current_line buffer offset info].
    rewrite drop_app, strstr_split. destruct (split_line u) as [[line rest]|] eqn:El; cbn [option_map].
    + assert (1 ≤ length junk) as Hj. { destruct Hok as [H|(_ & _ & ->)]; [done|]. done. }
      pose proof (split_line_eq _ _ _ El) as ->. pose proof (split_line_app _ _ _ (to_come net) El) as El'.
      rewrite meaning_unfold, El'. cbn [fst].
      replace (pre ++ (line ++ CR :: LF :: rest) ++ 0%N :: junk) with (pre ++ line ++ [CR] ++ LF :: rest ++ 0%N :: junk) by (by rewrite <- !(assoc_L (++))).
      rewrite slice_mid by done. cbn [checked].
      replace (pre ++ line ++ [CR] ++ LF :: rest ++ 0%N :: junk) with ((pre ++ line) ++ [CR] ++ LF :: rest ++ 0%N :: junk) by (by rewrite <- !(assoc_L (++))).
      rewrite write_mid; [|by rewrite app_length|done]. cbn [checked].
      set (pre1 := pre ++ line ++ [0%N; LF]).
      replace ((pre ++ line) ++ [0%N] ++ LF :: rest ++ 0%N :: junk) with (pre1 ++ rest ++ 0%N :: junk) by (unfold pre1; by rewrite <- !(assoc_L (++))).
      replace (length pre + length line + 2) with (length pre1) by (unfold pre1; rewrite !app_length; simpl; lia).
      replace (length pre + length (line ++ CR :: LF :: rest)) with (length pre1 + length rest) by (unfold pre1; rewrite !app_length; simpl; lia).
      rewrite app_length in Hfuel. simpl in Hfuel.
      destruct (on_line line p) as [p'|n p'|n|o] eqn:Eo.
      * apply (IHs pre1 rest junk p' net); [by left|lia].
      * destruct (on_line_chunk _ _ _ _ Eo) as (Hn & -> & Hr).
        destruct (read_chunk_spec pre1 rest junk n p net Hn Hj) as [[Hlt ->]|(pre' & u' & junk' & net' & Hle & -> & Hu' & Hok' & Hl')].
        -- rewrite decide_False by (rewrite app_length; lia). by destruct fuel.
        -- rewrite decide_True by (rewrite app_length; lia). rewrite <- Hu'. apply IHs.
           ++ destruct Hok' as [?|[? ?]]; [by left|]. right. done.
           ++ apply (f_equal length) in Hu'. rewrite app_length, drop_length, app_length in Hu'. lia.
      * rewrite read_body_spec. by destruct fuel.
      * by destruct fuel.
    + assert (∀ b off cur, (∃ pre' free', b = pre' ++ u ++ free' ∧ off = length pre' + length u ∧ cur = length pre' ∧ 2 ≤ length free') →
        run grow fuel (Read (State b off cur p) net) = meaning p (u ++ to_come net)) as G.
      { intros b off cur (pre' & free' & -> & -> & -> & Hf). apply (IHr pre' u free' p net); [done|done|lia]. }
      destruct (receiving_body_in_chunks p && bool_decide (length pre ≠ 0)) eqn:Ec.
      * apply andb_true_iff in Ec as [Er Ep%bool_decide_eq_true_1]. destruct (decide _) as [Hu|Hu].
        -- destruct (memmove_mid pre u (0%N :: junk) (length pre) (length pre + length u - length pre)) as (c & -> & Lc); [done|lia|]. cbn [checked].
           apply G. exists [], c. split_and!; [done|simpl; lia|done|]. simpl in Lc. lia.
        -- assert (u = []) as -> by (destruct u; [done|simpl in Hu; lia]). apply G. exists [], (pre ++ 0%N :: junk). split_and!; [done|done|done|].
           rewrite app_length. simpl. lia.
      * apply G. exists pre, (0%N :: junk). split_and!; try done. destruct Hok as [H|(Hr & Hp & _)]; [simpl; lia|].
        rewrite Hr in Ec. simpl in Ec. apply bool_decide_eq_false_1 in Ec. destruct pre; [done|]. simpl in Ec. lia.
  - intros pre u free p net Hf Hu Hfuel. cbn [run].
    destruct (read_more_spec pre u free p net Hf) as [[Ht ->]|(data & net' & junk & Ht & Hd & Hj & ->)].
    + rewrite Ht, app_nil_r, meaning_unfold, Hu. by destruct fuel.
    + rewrite Ht, (assoc_L (++)). apply IHs; [by left|]. rewrite Ht, app_length in Hfuel. rewrite app_length. lia.
Qed.
Lemma receive_meaning size net : 2 ≤ size → receive grow size net = meaning nothing_parsed (to_come net).
Proof.
  intros Hs. unfold receive. destruct (run_spec (3 * length (to_come net) + 2)) as [_ Hr].
  apply (Hr [] [] (replicate size 0%N) nothing_parsed net); [by rewrite replicate_length|done|simpl; lia].
Qed.
End with_growth.
