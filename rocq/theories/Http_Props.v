(** Receiving HTTP messages (C57, C58) and chunked responses (C45). *)
From stdpp Require Import list strings.
From Coq Require Import ZArith.
From Verif Require Base Dec.
From Verif Require Import Http_Model Http_Spec Http_Proofs Http_Proofs2.

(** ** C57 *)
(** What is received depends only on the bytes sent, not on the division into reads, nor on the size and growth of the buffer. *)
Theorem C57_independent_of_segmentation : ∀ (grow1 grow2 : nat → nat) (size1 size2 : nat) (bytes : list N) (pieces1 pieces2 : list nat),
  2 ≤ size1 → 2 ≤ size2 →
  receive grow1 size1 (Network bytes pieces1) = receive grow2 size2 (Network bytes pieces2).
Proof. intros. by rewrite !receive_meaning. Qed.

Lemma lengths_ok hs (n : nat) : (N.of_nat n ≤ 16777216)%N → Forall (λ h : list N * list N, same_name h.1 content_length → h.2 = Dec.dec (N.of_nat n)) hs →
  Forall (λ h, too_large h = false) hs ∧ Forall (λ h, is_length h = true → atoi_size h.2 = N.of_nat n) hs.
Proof.
  intros Hn H. rewrite <- Forall_and. eapply Forall_impl; [exact H|]. intros h Hh. unfold too_large, is_length. destruct (header_name_equals h.1 kContentLength) eqn:E; [|done].
  apply header_name_equals_spec in E. rewrite (Hh E), atoi_dec by done. split; [|done]. cbn [andb]. apply bool_decide_eq_false_2. unfold kMaxPayload. lia.
Qed.
Lemma existsb_chunked_false hs : Forall (λ h : list N * list N, same_name h.1 transfer_encoding → ¬ same_name h.2 chunked) hs → existsb is_chunked hs = false.
Proof.
  induction 1 as [|h hs Hh H IH]; [done|]. cbn [existsb]. rewrite IH, orb_false_r. unfold is_chunked.
  destruct (header_name_equals h.1 kTransferEncoding) eqn:E; [|done]. apply header_name_equals_spec in E. cbn [andb]. apply header_name_equals_false. auto.
Qed.
Lemma head_meaning a b c hs s : word a → word b → plain c → Forall header_ok hs → Forall (λ h, too_large h = false) hs →
  meaning nothing_parsed (head_of_message a b c hs ++ s) = meaning (foldl add_header (after_first a b) hs) (CR :: LF :: s).
Proof.
  intros Ha Hb Hc Hh Hl. unfold head_of_message.
  replace ((a ++ [32%N] ++ b ++ [32%N] ++ c ++ crlf ++ concat (map header_text hs) ++ crlf) ++ s)
    with (a ++ [32%N] ++ b ++ [32%N] ++ c ++ crlf ++ (concat (map header_text hs) ++ crlf ++ s)) by (by rewrite <- !(assoc_L (++))).
  rewrite first_line_meaning by done. rewrite headers_meaning; done.
Qed.
Lemma blank_line_meaning p s : first_line_parsed p = true → receiving_body_in_chunks p = false →
  meaning p (CR :: LF :: s) = match end_of_headers p with
                              | NextLine p' => meaning p' s
                              | ReadBody n => if decide (n ≤ length s) then message p (take n s) else Failed SocketClosed
                              | ReadChunk n p' => if decide (n ≤ length s) then meaning (on_chunk (take n s) p') (drop n s) else Failed SocketClosed
                              | Finish o => o
                              end.
Proof. intros F R. change (CR :: LF :: s) with ([] ++ CR :: LF :: s). rewrite meaning_line by constructor. unfold on_line. by rewrite F, R. Qed.

(** A request with a body: exactly Content-Length bytes are the body, whatever follows; the method, the path, and the headers are as sent. *)
Theorem C57_request_with_body : ∀ (grow : nat → nat) (size : nat) (pieces : list nat) (m path version : list N) (hs : list (list N * list N)) (body extra : list N),
  2 ≤ size → word m → word path → plain version → Forall header_ok hs →
  no_header method_override hs → Forall (λ h, same_name h.1 transfer_encoding → ¬ same_name h.2 chunked) hs →
  Exists (λ h, same_name h.1 content_length) hs → Forall (λ h, same_name h.1 content_length → h.2 = Dec.dec (N.of_nat (length body))) hs →
  (N.of_nat (length body) ≤ 16777216)%N →
  receive grow size (Network (head_of_message m path version hs ++ body ++ extra) pieces) = Message m path hs body.
Proof.
  intros grow size pieces m path version hs body extra Hs Hm Hp Hv Hh Ho Hc He Hl Hn.
  rewrite receive_meaning by done. cbn [to_come]. destruct (lengths_ok hs (length body) Hn Hl) as [Hl1 Hl2]. rewrite head_meaning by done.
  destruct (foldl_fields hs (after_first m path)) as (F1 & F2 & F3 & F4 & F5 & F6 & F7 & F8 & F9). rewrite blank_line_meaning by (by rewrite ?F1, ?F4).
  unfold end_of_headers. rewrite F6, existsb_chunked_false by done. cbn [after_first chunked_transfer_encoding orb].
  rewrite (F9 (N.of_nat (length body))); [| |done].
  - rewrite Nat2N.id, decide_True by (rewrite app_length; lia). rewrite take_app. unfold message. rewrite F2, F3, F7; [done|]. by apply not_named.
  - eapply Exists_impl; [exact He|]. intros h Hh'. by apply header_name_equals_spec.
Qed.
(** A body cut short is never delivered. *)
Theorem C57_incomplete_body : ∀ (grow : nat → nat) (size : nat) (pieces : list nat) (m path version : list N) (hs : list (list N * list N)) (part : list N) (n : nat),
  2 ≤ size → word m → word path → plain version → Forall header_ok hs →
  no_header method_override hs → Forall (λ h, same_name h.1 transfer_encoding → ¬ same_name h.2 chunked) hs →
  Exists (λ h, same_name h.1 content_length) hs → Forall (λ h, same_name h.1 content_length → h.2 = Dec.dec (N.of_nat n)) hs →
  (N.of_nat n ≤ 16777216)%N → length part < n →
  receive grow size (Network (head_of_message m path version hs ++ part) pieces) = Failed SocketClosed.
Proof.
  intros grow size pieces m path version hs part n Hs Hm Hp Hv Hh Ho Hc He Hl Hn Hlt.
  rewrite receive_meaning by done. cbn [to_come]. destruct (lengths_ok hs n Hn Hl) as [Hl1 Hl2]. rewrite head_meaning by done.
  destruct (foldl_fields hs (after_first m path)) as (F1 & F2 & F3 & F4 & F5 & F6 & F7 & F8 & F9). rewrite blank_line_meaning by (by rewrite ?F1, ?F4).
  unfold end_of_headers. rewrite F6, existsb_chunked_false by done. cbn [after_first chunked_transfer_encoding orb].
  rewrite (F9 (N.of_nat n)); [| |done].
  - rewrite Nat2N.id, decide_False by lia. done.
  - eapply Exists_impl; [exact He|]. intros h Hh'. by apply header_name_equals_spec.
Qed.
(** A request without a body; if its method requires one, it is answered with 411. *)
Theorem C57_request_without_body : ∀ (grow : nat → nat) (size : nat) (pieces : list nat) (m path version : list N) (hs : list (list N * list N)) (extra : list N),
  2 ≤ size → word m → word path → plain version → Forall header_ok hs →
  no_header method_override hs → Forall (λ h, same_name h.1 transfer_encoding → ¬ same_name h.2 chunked) hs → no_header content_length hs →
  receive grow size (Network (head_of_message m path version hs ++ extra) pieces) =
  if decide (m ∈ [Base.bs "POST"; Base.bs "PUT"; Base.bs "PATCH"]) then Failed LengthRequired else Message m path hs [].
Proof.
  intros grow size pieces m path version hs extra Hs Hm Hp Hv Hh Ho Hc Hl.
  rewrite receive_meaning by done. cbn [to_come]. apply not_named in Hl.
  assert (Forall (λ h, too_large h = false) hs) as Hl1. { eapply Forall_impl; [exact Hl|]. intros h E. unfold too_large, is_length. change kContentLength with content_length. by rewrite E. }
  rewrite head_meaning by done.
  destruct (foldl_fields hs (after_first m path)) as (F1 & F2 & F3 & F4 & F5 & F6 & F7 & F8 & F9). rewrite blank_line_meaning by (by rewrite ?F1, ?F4).
  unfold end_of_headers. rewrite F6, existsb_chunked_false by done. cbn [after_first chunked_transfer_encoding orb].
  rewrite F8 by done. cbn [body_length after_first]. rewrite F7 by (by apply not_named). unfold need_content_length. cbn [method after_first].
  destruct (decide (m ∈ _)) as [H|H].
  - rewrite bool_decide_eq_true_2; [done|]. rewrite !elem_of_cons, elem_of_nil in H. tauto.
  - rewrite bool_decide_eq_false_2; [|rewrite !elem_of_cons, elem_of_nil in H; tauto]. unfold message. rewrite F2, F3, F7; [done|]. by apply not_named.
Qed.

Definition example_headers : list (list N * list N) := [(Base.bs "Host", Base.bs "localhost"); (Base.bs "content_length", Base.bs "5")].
Lemma plain_dec s : bool_decide (Forall (λ c, c ≠ 0 ∧ c ≠ 13 ∧ c ≠ 10)%N s) = true → plain s.
Proof. apply bool_decide_eq_true_1. Qed.
Lemma example_headers_ok : Forall header_ok example_headers.
Proof.
  repeat apply Forall_cons_2; [| |apply Forall_nil_2]; (split_and!; [by apply plain_dec| |by apply plain_dec|intros c [= <-] [?|?]; done|intros c [= <-] [?|?]; done]);
    by apply (bool_decide_unpack _).
Qed.
Example C57_ex : receive (λ n, n + n / 2) 8 (Network (head_of_message (Base.bs "POST") (Base.bs "/x?y=1") (Base.bs "HTTP/1.1") example_headers ++ Base.bs "hello" ++ [1%N]) [1; 7; 2; 30]) =
  Message (Base.bs "POST") (Base.bs "/x?y=1") example_headers (Base.bs "hello").
Proof.
  apply C57_request_with_body; try done.
  - lia.
  - by split; [|apply (bool_decide_unpack _)].
  - by split; [|apply (bool_decide_unpack _)].
  - by apply plain_dec.
  - apply example_headers_ok.
  - unfold no_header, same_name. by apply (bool_decide_unpack _).
  - unfold same_name. by apply (bool_decide_unpack _).
  - right. left. done.
  - unfold same_name. by apply (bool_decide_unpack _).
Qed.
(** The same by running the buffer machine. *)
Example C57_ex_run : receive (λ n, n + n / 2) 8 (Network (head_of_message (Base.bs "POST") (Base.bs "/x?y=1") (Base.bs "HTTP/1.1") example_headers ++ Base.bs "hello" ++ [1%N]) [1; 7; 2; 30]) =
  Message (Base.bs "POST") (Base.bs "/x?y=1") example_headers (Base.bs "hello").
Proof. vm_compute. reflexivity. Qed.
(** The length is read by atoi: one of 2^32 + 5 is taken for 5. *)
Theorem C57_content_length_truncated_refuted :
  receive (λ n, 2 * n) 16 (Network (head_of_message (Base.bs "PUT") (Base.bs "/") (Base.bs "HTTP/1.1") [(content_length, Base.bs "4294967301")] ++ Base.bs "hello world") []) =
  Message (Base.bs "PUT") (Base.bs "/") [(content_length, Base.bs "4294967301")] (Base.bs "hello").
Proof. vm_compute. reflexivity. Qed.

(** ** C58: whatever bytes are received *)
Lemma meaning_cases p s : meaning p s ≠ OutOfBounds ∧ meaning p s ≠ OutOfFuel.
Proof.
  remember (length s) as n eqn:En. revert p s En. induction n as [n IH] using lt_wf_ind. intros p s ->. rewrite meaning_unfold.
  destruct (split_line s) as [[l r]|] eqn:E; [|done]. apply split_line_length in E.
  destruct (on_line l p) as [p'|k p'|k|o] eqn:Eo.
  - apply (IH (length r)); [lia|done].
  - destruct (decide _); [|done]. apply (IH (length (drop k r))); [rewrite drop_length; lia|done].
  - by destruct (decide _).
  - unfold on_line in Eo. destruct (first_line_parsed p); [|by destruct l]. destruct (receiving_body_in_chunks p).
    + destruct l as [|c l]; [done|]. unfold chunk_line in Eo. destruct (stoi16 _) as [z| |]; [|by injection Eo as <-|by injection Eo as <-].
      destruct (decide (z < 0)%Z); [by injection Eo as <-|]. destruct (decide (z = 0)%Z); [|done]. by injection Eo as <-.
    + destruct l as [|c l].
      * unfold end_of_headers in Eo. destruct (chunked_transfer_encoding p); [done|]. destruct (body_length p); [done|]. destruct (need_content_length _); by injection Eo as <-.
      * unfold header_line in Eo. destruct (split_colon _) as [[k v]|]; [|done]. destruct (header_name_equals k _).
        { destruct (decide _); [|done]. by injection Eo as <-. }
        destruct (header_name_equals k _); [done|]. by destruct (_ && _).
Qed.
(** Memory is only accessed within the buffer, and receiving ends when the peer closes the connection at the latest. *)
Theorem C58_no_access_outside_of_the_buffer : ∀ (grow : nat → nat) (size : nat) (net : network),
  2 ≤ size → receive grow size net ≠ OutOfBounds ∧ receive grow size net ≠ OutOfFuel.
Proof. intros grow size net Hs. rewrite receive_meaning by done. apply meaning_cases. Qed.

(** The exceptions of the standard library are only thrown for a size of a chunk that is negative or does not fit into an int. *)
Definition bad_chunk_size (line : list N) : Prop := ∃ z, strtol 16 line = Some z ∧ (z < 0 ∨ 2 ^ 31 ≤ z)%Z.
Lemma meaning_escapes p s : meaning p s = Failed StdOutOfRange ∨ meaning p s = Failed StdLengthError →
  ∃ before line after, s = before ++ line ++ crlf ++ after ∧ bad_chunk_size line.
Proof.
  remember (length s) as n eqn:En. revert p s En. induction n as [n IH] using lt_wf_ind. intros p s ->. rewrite meaning_unfold.
  destruct (split_line s) as [[l r]|] eqn:E; [|by intros [?|?]]. pose proof (split_line_eq _ _ _ E) as Hs. apply split_line_length in E.
  destruct (on_line l p) as [p'|k p'|k|o] eqn:Eo.
  - intros H. destruct (IH (length r) ltac:(lia) p' r eq_refl H) as (b & x & a & -> & Hx). exists (l ++ crlf ++ b), x, a. split; [|done]. rewrite Hs. by rewrite <- !(assoc_L (++)).
  - destruct (decide _); [|by intros [?|?]]. intros H. destruct (IH (length (drop k r)) ltac:(rewrite drop_length; lia) _ (drop k r) eq_refl H) as (b & x & a & Hd & Hx).
    exists (l ++ crlf ++ take k r ++ b), x, a. split; [|done]. rewrite Hs. rewrite <- (take_drop k r) at 1. rewrite Hd. by rewrite <- !(assoc_L (++)).
  - by destruct (decide _); intros [?|?].
  - intros H. exists [], l, r. split; [by rewrite Hs|]. unfold on_line in Eo. destruct (first_line_parsed p); [|by destruct l]. destruct (receiving_body_in_chunks p).
    + destruct l as [|c l]; [done|]. unfold chunk_line, stoi16 in Eo. unfold bad_chunk_size. destruct (strtol 16 (c :: l)) as [z|]; [|injection Eo as <-; destruct H; done].
      exists z. split; [done|]. destruct (decide (- 2 ^ 31 ≤ z < 2 ^ 31)%Z) as [Hz|Hz]; [|lia]. destruct (decide (z < 0)%Z); [lia|]. destruct (decide (z = 0)%Z); [|done]. injection Eo as <-; destruct H; done.
    + destruct l as [|c l].
      * unfold end_of_headers in Eo. destruct (chunked_transfer_encoding p); [done|]. destruct (body_length p); [done|]. destruct (need_content_length _); injection Eo as <-; destruct H; done.
      * unfold header_line in Eo. destruct (split_colon _) as [[k v]|]; [|done]. destruct (header_name_equals k _).
        { destruct (decide _); [|done]. injection Eo as <-; destruct H; done. }
        destruct (header_name_equals k _); [done|]. by destruct (_ && _).
Qed.
Theorem C58_what_escapes_partial : ∀ (grow : nat → nat) (size : nat) (net : network) (e : message_error),
  2 ≤ size → receive grow size net = Failed e → e = StdOutOfRange ∨ e = StdLengthError →
  ∃ before line after, to_come net = before ++ line ++ crlf ++ after ∧ bad_chunk_size line.
Proof. intros grow size net e Hs. rewrite receive_meaning by done. intros H He. apply (meaning_escapes nothing_parsed). destruct He as [->| ->]; auto. Qed.
(** And they are thrown: the thread that accepts connections does not catch them (posix_server.h 416-475), the server terminates. *)
Definition chunked_post : list N := head_of_message (Base.bs "POST") (Base.bs "/") (Base.bs "HTTP/1.1") [(transfer_encoding, chunked)].
Theorem C58_server_terminates_refuted :
  receive (λ n, 2 * n) 16 (Network (chunked_post ++ Base.bs "100000000" ++ crlf) []) = Failed StdOutOfRange ∧
  receive (λ n, 2 * n) 16 (Network (chunked_post ++ Base.bs "-5" ++ crlf) []) = Failed StdLengthError.
Proof. split; vm_compute; reflexivity. Qed.
(** A size that is not a number is answered with 400. *)
Example C58_ex : receive (λ n, 2 * n) 16 (Network (chunked_post ++ Base.bs "xyz" ++ crlf) [3; 1; 4]) = Failed BadChunkSize.
Proof. vm_compute. reflexivity. Qed.

(** ** C45: chunked transfer *)
Definition chunk_text (data : list N) : list N := match data with [] => [] | _ => hex (N.of_nat (length data)) ++ crlf ++ data ++ crlf end.
Definition last_chunk : list N := [48%N] ++ crlf ++ crlf.
Lemma send_spec cs data flush s : (N.of_nat (length (cache s)) ≤ cs)%N →
  ∃ s', send cs data flush s = Some s' ∧ sent s' ++ cache s' = (sent s ++ cache s) ++ chunk_text data ∧ (N.of_nat (length (cache s')) ≤ cs)%N ∧
        (flush = true → cache s' = []).
Proof.
  intros Hc. unfold send, chunk_text. destruct data as [|x data].
  - rewrite app_nil_r. destruct flush; cbn [andb].
    + case_bool_decide as Hn.
      * exists (Sender [] (sent s ++ cache s)). cbn. rewrite app_nil_r. split_and!; [done|done|lia|done].
      * exists s. split_and!; done.
    + exists s. split_and!; done.
  - set (d := x :: data). set (h := hex (N.of_nat (length d)) ++ [CR; LF]). set (sz := N.of_nat (length h + length d + 2)).
    set (s1 := if _ && _ then _ else _).
    assert (sent s1 ++ cache s1 = sent s ++ cache s ∧ (N.of_nat (length (cache s1)) ≤ cs)%N ∧ (flush = true → cache s1 = []) ∧
            (cache s1 ≠ [] → sz ≤ cs - N.of_nat (length (cache s1)))%N) as (H1 & H2 & H3 & H4).
    { unfold s1. destruct (cache s) as [|y l] eqn:El.
      - rewrite (bool_decide_eq_false_2 ([] ≠ [])) by (intros H; by apply H). cbn [andb]. rewrite El. split_and!; try done; simpl; lia.
      - rewrite bool_decide_eq_true_2 by done. cbn [andb]. destruct flush; cbn [orb].
        + cbn. rewrite app_nil_r. split_and!; try done; lia.
        + case_bool_decide as Hb.
          * cbn. rewrite app_nil_r. split_and!; try done; lia.
          * rewrite El. split_and!; try done; intros _; lia. }
    assert (h ++ d ++ [CR; LF] = hex (N.of_nat (length d)) ++ crlf ++ d ++ crlf) as Ht by (unfold h; by rewrite <- (assoc_L (++))).
    destruct flush; cbn [orb].
    + eexists. split; [done|]. cbn. rewrite H3 by done. rewrite app_nil_r. split_and!; [|simpl; lia|done]. rewrite H3, app_nil_r in H1 by done. rewrite H1. f_equal. exact Ht.
    + case_bool_decide as Hb.
      * eexists. split; [done|]. cbn. assert (cache s1 = []) as Hz. { destruct (cache s1) as [|y l] eqn:Ez; [done|]. specialize (H4 ltac:(done)). lia. }
        rewrite Hz, app_nil_r in H1. rewrite Hz, app_nil_r. split_and!; [|simpl; lia|done]. rewrite H1. f_equal. exact Ht.
      * assert (N.of_nat (length (cache s1)) + sz ≤ cs)%N as Hfit. { destruct (cache s1) as [|y l] eqn:Ez; [simpl; lia|]. specialize (H4 ltac:(done)). lia. }
        rewrite decide_True by done. eexists. split; [done|]. cbn [sent cache]. split_and!; [|unfold sz in Hfit; rewrite !app_length; change (length [CR; LF]) with 2; lia|done].
        rewrite (assoc_L (++)), H1. f_equal. exact Ht.
Qed.
Lemma send_all_spec cs l s : (N.of_nat (length (cache s)) ≤ cs)%N →
  ∃ s', send_all cs l s = Some s' ∧ sent s' ++ cache s' = (sent s ++ cache s) ++ concat (map (λ df, chunk_text df.1) l) ∧ (N.of_nat (length (cache s')) ≤ cs)%N.
Proof.
  revert s. induction l as [|[d f] l IH]; intros s Hs; cbn [send_all].
  - exists s. rewrite app_nil_r. done.
  - destruct (send_spec cs d f s Hs) as (s1 & -> & E1 & H1 & _). destruct (IH s1 H1) as (s2 & -> & E2 & H2). exists s2. split_and!; try done.
    rewrite E2, E1. cbn [map concat fst]. by rewrite (assoc_L (++)).
Qed.
(** The cache is never overrun; with a flush nothing remains in it; all that is written, together with the cache, is one chunk per call with data. *)
Theorem C45_sender : ∀ (cache_size : N) (calls : list (list N * bool)),
  ∃ s, send_all cache_size calls new_sender = Some s ∧ (N.of_nat (length (cache s)) ≤ cache_size)%N ∧
       close_sender s = concat (map (λ call, chunk_text call.1) calls) ++ last_chunk.
Proof.
  intros cs calls. destruct (send_all_spec cs calls new_sender) as (s & E & H & Hc). { simpl. lia. }
  exists s. split_and!; try done. unfold close_sender. rewrite (assoc_L (++)), H. done.
Qed.
Theorem C45_flush : ∀ (cache_size : N) (calls : list (list N * bool)) (data : list N) (s : sender),
  send_all cache_size (calls ++ [(data, true)]) new_sender = Some s → cache s = [] ∧ sent s = concat (map (λ call, chunk_text call.1) (calls ++ [(data, true)])).
Proof.
  intros cs calls data s H.
  destruct (send_all_spec cs calls new_sender) as (s1 & E1 & H1 & Hc1). { simpl. lia. }
  destruct (send_spec cs data true s1 Hc1) as (s2 & E2 & H2 & Hc2 & Hf).
  assert (send_all cs (calls ++ [(data, true)]) new_sender = Some s2) as Hs.
  { clear H H1 H2 Hc1 Hc2 Hf. revert E1. generalize new_sender. induction calls as [|[d f] l IH]; intros s0; cbn [app send_all].
    - intros [= ->]. by rewrite E2.
    - destruct (send cs d f s0); [|done]. apply IH. }
  rewrite Hs in H. injection H as <-. specialize (Hf eq_refl). split; [done|]. rewrite Hf, app_nil_r in H2. rewrite H2, H1. rewrite map_app, concat_app. cbn. by rewrite app_nil_r.
Qed.

Lemma plain_crlf_line p l r : plain l → meaning p (l ++ crlf ++ r) = meaning p (l ++ CR :: LF :: r).
Proof. done. Qed.
Lemma chunks_meaning (ds : list (list N)) : ∀ p extra, Forall (λ d, N.of_nat (length d) < 2 ^ 31)%N ds → first_line_parsed p = true → receiving_body_in_chunks p = true →
  meaning p (concat (map chunk_text ds) ++ last_chunk ++ extra) = message p (concat (chunks p) ++ concat ds).
Proof.
  induction ds as [|d ds IH]; intros p extra H F R.
  - cbn [map concat app]. unfold last_chunk.
    change (([48%N] ++ crlf ++ crlf) ++ extra) with ([48%N] ++ CR :: LF :: crlf ++ extra). rewrite meaning_line by (by apply plain_dec). unfold on_line. rewrite F, R.
    change (chunk_line [48%N] p) with (Finish (message p (concat (chunks p)))). rewrite app_nil_r. done.
  - apply Forall_cons in H as [Hd H]. cbn [map concat]. destruct d as [|x d]; [by apply IH|].
    assert (chunk_text (x :: d) = hex (N.of_nat (length (x :: d))) ++ CR :: LF :: (x :: d) ++ [CR; LF]) as -> by done.
    set (dd := x :: d) in *.
    replace (((hex (N.of_nat (length dd)) ++ CR :: LF :: dd ++ [CR; LF]) ++ concat (map chunk_text ds)) ++ last_chunk ++ extra)
      with (hex (N.of_nat (length dd)) ++ CR :: LF :: (dd ++ CR :: LF :: (concat (map chunk_text ds) ++ last_chunk ++ extra)))
      by (rewrite <- !(assoc_L (++)); cbn [app]; by rewrite <- !(assoc_L (++))).
    rewrite meaning_line by apply hex_plain. unfold on_line. rewrite F, R.
    pose proof (stoi_hex (N.of_nat (length dd)) Hd) as Hst. destruct (hex (N.of_nat (length dd))) as [|c l] eqn:Eh. { destruct (hex_spec (N.of_nat (length dd))) as (c & r & E & _). by rewrite Eh in E. }
    unfold chunk_line. rewrite Hst. rewrite decide_False by lia. rewrite decide_False by (simpl; lia).
    replace (Z.to_nat (Z.of_N (N.of_nat (length dd)))) with (length dd) by lia.
    rewrite decide_True by (rewrite app_length; lia). rewrite take_app, drop_app.
    change (CR :: LF :: (concat (map chunk_text ds) ++ last_chunk ++ extra)) with ([] ++ CR :: LF :: (concat (map chunk_text ds) ++ last_chunk ++ extra)).
    rewrite meaning_line by constructor. unfold on_line. cbn [on_chunk first_line_parsed receiving_body_in_chunks]. rewrite F, R.
    rewrite IH by done. unfold message. cbn [on_chunk method raw_path headers chunks]. rewrite concat_app. cbn [concat]. rewrite app_nil_r. by rewrite <- (assoc_L (++)).
Qed.

(** The body received is the concatenation of the data sent, whatever the size of the cache, the flushes, the division into reads, and the buffer of the receiver;
    for chunks of less than 2 GiB. *)
Theorem C45_chunked_transfer_partial : ∀ (cache_size : N) (calls : list (list N * bool)) (grow : nat → nat) (size : nat) (pieces : list nat)
    (version code reason : list N) (hs : list (list N * list N)) (extra : list N),
  2 ≤ size → word version → word code → plain reason → Forall header_ok hs →
  no_header method_override hs → no_header content_length hs → Exists (λ h, same_name h.1 transfer_encoding ∧ same_name h.2 chunked) hs →
  Forall (λ call, N.of_nat (length call.1) < 2 ^ 31)%N calls →
  ∃ s, send_all cache_size calls new_sender = Some s ∧
       receive grow size (Network (head_of_message version code reason hs ++ close_sender s ++ extra) pieces) = Message version code hs (concat (map fst calls)).
Proof.
  intros cs calls grow size pieces version code reason hs extra Hs Hv Hc Hr Hh Ho Hl He Hd.
  destruct (C45_sender cs calls) as (s & Es & _ & Ec). exists s. split; [done|]. rewrite Ec.
  rewrite receive_meaning by done. cbn [to_come]. apply not_named in Hl.
  assert (Forall (λ h, too_large h = false) hs) as Hl1. { eapply Forall_impl; [exact Hl|]. intros h E. unfold too_large, is_length. change kContentLength with content_length. by rewrite E. }
  rewrite head_meaning by done.
  destruct (foldl_fields hs (after_first version code)) as (F1 & F2 & F3 & F4 & F5 & F6 & F7 & F8 & F9). rewrite blank_line_meaning by (by rewrite ?F1, ?F4).
  assert (existsb is_chunked hs = true) as Hx.
  { apply existsb_exists. apply Exists_exists in He as (h & Hin & H1 & H2). exists h. split; [by apply elem_of_list_In|]. unfold is_chunked.
    apply andb_true_iff. split; by apply header_name_equals_spec. }
  unfold end_of_headers. rewrite F6, Hx. cbn [orb].
  rewrite <- (assoc_L (++)). rewrite <- (map_map fst chunk_text). rewrite chunks_meaning; cbn [first_line_parsed receiving_body_in_chunks]; try done.
  - unfold message. cbn [method raw_path headers chunks]. rewrite F2, F3, F5, F7; [done|]. by apply not_named.
  - by apply Forall_map.
Qed.
(** A chunk of 2 GiB or more can be sent but not received. *)
Lemma large_chunk : ∀ p extra (data : list N), (2 ^ 31 ≤ N.of_nat (length data))%N → first_line_parsed p = true → receiving_body_in_chunks p = true →
  meaning p (chunk_text data ++ extra) = Failed StdOutOfRange.
Proof.
  intros p extra data Hd F R. destruct data as [|x d]; [simpl in Hd; lia|]. set (dd := x :: d) in *.
  assert (chunk_text dd ++ extra = hex (N.of_nat (length dd)) ++ CR :: LF :: (dd ++ crlf) ++ extra) as ->. { unfold chunk_text, dd. by rewrite <- !(assoc_L (++)). }
  rewrite meaning_line by apply hex_plain. unfold on_line. rewrite F, R.
  assert (stoi16 (hex (N.of_nat (length dd))) = OutOfRange) as Hst.
  { generalize dependent (N.of_nat (length dd)). intros n Hn. destruct (hex_spec n) as (c & r & -> & Hdg & HF). unfold stoi16, strtol.
    pose proof HF as HF'. apply Forall_cons in HF' as [(e & He16 & Hc) HF']. pose proof (hex_digit_range e He16) as Hr. rewrite <- Hc in Hr.
    cbn [skip_spaces]. assert (is_space c = false) as ->. { apply not_space_false; lia. }
    rewrite decide_False by lia. rewrite decide_False by lia. rewrite decide_True by done.
    assert (skip_0x (c :: r) = c :: r) as ->.
    { unfold skip_0x. destruct r as [|y [|z r]]; [done|done|]. rewrite decide_False; [done|]. intros [_ Hx]. apply Forall_cons in HF' as [(g & Hg & ->) _].
      pose proof (hex_digit_range g Hg). lia. }
    rewrite Hdg. rewrite decide_False; [done|lia]. }
  destruct (hex (N.of_nat (length dd))) as [|c l] eqn:Eh. { destruct (hex_spec (N.of_nat (length dd))) as (c & r & E & _). by rewrite Eh in E. }
  unfold chunk_line. by rewrite Hst.
Qed.
Theorem C45_large_chunk_refuted : ∀ (cache_size : N) (data : list N) (grow : nat → nat) (size : nat) (pieces : list nat),
  2 ≤ size → (2 ^ 31 ≤ N.of_nat (length data))%N →
  ∃ s, send_all cache_size [(data, true)] new_sender = Some s ∧
       receive grow size (Network (head_of_message (Base.bs "HTTP/1.1") (Base.bs "200") (Base.bs "OK") [(transfer_encoding, chunked)] ++ close_sender s) pieces) = Failed StdOutOfRange.
Proof.
  intros cs data grow size pieces Hs Hd. destruct (C45_sender cs [(data, true)]) as (s & Es & _ & Ec). exists s. split; [done|]. rewrite Ec.
  rewrite receive_meaning by done. cbn [to_come]. rewrite head_meaning.
  - rewrite blank_line_meaning by done. change (end_of_headers _) with
      (NextLine (Parsed true (Base.bs "HTTP/1.1") (Base.bs "200") [(transfer_encoding, chunked)] None true true [])). cbn [map concat fst]. rewrite app_nil_r. by apply large_chunk.
  - by split; [|apply (bool_decide_unpack _)].
  - by split; [|apply (bool_decide_unpack _)].
  - by apply plain_dec.
  - apply Forall_cons_2; [|apply Forall_nil_2]. split_and!; [by apply plain_dec| |by apply plain_dec|intros c [= <-] [?|?]; done|intros c [= <-] [?|?]; done].
    by apply (bool_decide_unpack _).
  - by repeat constructor.
Qed.
Definition C45_ex_calls : list (list N * bool) := [(Base.bs "abc", false); ([], true); (Base.bs "defgh", false); (Base.bs "ij", true); (Base.bs "k", false)].
Example C45_ex : option_map (λ s, receive (λ n, 2 * n) 8 (Network (head_of_message (Base.bs "HTTP/1.1") (Base.bs "200") (Base.bs "OK") [(transfer_encoding, chunked)] ++ close_sender s) [5; 1; 1; 40; 2]))
    (send_all 20 C45_ex_calls new_sender) =
  Some (Message (Base.bs "HTTP/1.1") (Base.bs "200") [(transfer_encoding, chunked)] (Base.bs "abcdefghijk")).
Proof. vm_compute. reflexivity. Qed.

Print Assumptions C57_independent_of_segmentation.
Print Assumptions C57_request_with_body.
Print Assumptions C57_incomplete_body.
Print Assumptions C57_request_without_body.
Print Assumptions C57_content_length_truncated_refuted.
Print Assumptions C58_no_access_outside_of_the_buffer.
Print Assumptions C58_what_escapes_partial.
Print Assumptions C58_server_terminates_refuted.
Print Assumptions C45_sender.
Print Assumptions C45_flush.
Print Assumptions C45_chunked_transfer_partial.
Print Assumptions C45_large_chunk_refuted.
