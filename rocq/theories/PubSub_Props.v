(** Property C15: what an HTTP subscription returns. *)
From Coq Require Import String Sorted.
From Verif Require Import Base Dec Codec Persister_Model Persister_Spec Persister_Proofs Stream_Model Stream_Spec Stream_Proofs Stream_Proofs2 Stream_Props Replicator_Model Replicator_Spec Replicator_Props PubSub_Model PubSub_Spec PubSub_Proofs PubSub_Proofs2 PubSub_Proofs3 PubSub_Proofs4 PubSub_Proofs5 PubSub_Proofs6 PubSub_Proofs7 PubSub_Proofs8 PubSub_Proofs9 PubSub_Proofs10.
Local Open Scope list_scope.
Lemma and_assoc' (A B C : Prop) : A /\ B /\ C <-> (A /\ B) /\ C.
Proof. tauto. Qed.

(** ** Any request, whatever is published meanwhile *)
(** At every moment of the session the body consists of whole records -- of an array, with `array` -- in the order of the stream and of
    strictly increasing timestamps, without gaps; with the limits kept.  All of them are asked for; and if the request limits the beginning
    by time, or by index, but not by both, nothing asked for has been left out. *)
Theorem C15_what_is_sent : forall (E : Type) (W : wire E) (M : mode E) (ser_tsJ : Z -> bytes) (q : query) now a b c during s e body,
  wire_ok W -> sane q now -> ~ In LSignal during -> session W M ser_tsJ q now true a b c during s e body ->
  let log := contents (w_codec W) (a ++ b ++ c ++ calls during) in
  let size := N.of_nat (List.length (contents (w_codec W) a)) in
  (N.of_nat (List.length log) < npos)%N ->
  exists lines closed, let sent := entries_of lines in
    body = (if q_array q then array_body q (M_idx W M) (M_ser W M) closed sent else flat_map (line_of q (M_idx W M) (M_ser W M) ser_tsJ) lines) /\
    (closed = true -> ss_pc s = PStop) /\
    (q_array q || q_entries_only q = true -> lines = map LEntry sent) /\
    StronglySorted Z.lt (map line_time lines) /\
    (forall t, In (LHead t) lines -> required (q_since q) (fun since => Z.leb (Z.of_N since) t) = true /\ required (q_recent q) (fun r => Z.leb (now - Z.of_N r) t) = true /\ (0 <= t <= stream_head (w_codec W) (a ++ b ++ c ++ calls during))%Z) /\
    (exists lo hi, sent = filter (in_idx_range lo hi) (numbered log)) /\
    (q_tail q <> None \/ q_i q = None \/ time_bound q = false -> Forall (fun x => selected q now size x = true) sent) /\
    (forall n, q_n q = Some n -> N.of_nat (List.length sent) <= n)%N /\
    (forall d, q_period q = Some d -> d <> 0%N -> forall x y, In x sent -> In y sent -> (snd (fst y) <= snd (fst x) + Z.of_N d)%Z) /\
    (forall B, q_bytes q = Some B -> B <> 0%N -> forall l x, sent = l ++ [x] -> sum (text_size q (M_idx W M) (M_ser W M)) l < B)%N /\
    (time_bound q = false \/ (q_tail q = None /\ q_i q = None) ->
       exists hi, sent = filter (selected q now size) (filter (in_idx_range 0 hi) (numbered log)) /\
         (* it is over only because *)
         (ss_pc s = PStop ->
            q_n q = Some (N.of_nat (List.length sent)) \/
            (exists B, q_bytes q = Some B /\ B <= sum (text_size q (M_idx W M) (M_ser W M)) sent)%N \/
            (exists d, q_period q = Some d /\ d <> 0%N) \/
            q_nowait q = true /\ (size <= hi)%N) /\
         (* a head line comes after everything asked for up to its time *)
         (q_period q = None -> forall t x, In (LHead t) lines -> In x (numbered log) -> (snd (fst x) <= t)%Z -> (fst (fst x) < hi)%N)).
Proof.
  intros E W M tJ q now a b c during s e body HW Hsane Hsig Hses log size Hnpos.
  destruct (session_sound W HW M tJ q now a b c during s e body Hsane Hsig Hses Hnpos) as (begin & from & p & sk & se & extra & told & cl & Hserve & (F1 & F2 & F3 & F4 & F5 & F6 & F7) & Hsub & (n & Hdel) & S & Hbody & Htimes & Hend).
  fold log in F2, Hdel. fold size in F2, F3, F5, Hserve.
  assert (Hlog : log = mp_entries (fst (mp_run (w_codec W) mp_init (a ++ b ++ c ++ calls during)))) by (symmetry; apply (mp_run_entries (w_codec W) (a ++ b ++ c ++ calls during) mp_init)).
  assert (Hinv : mp_inv (fst (mp_run (w_codec W) mp_init (a ++ b ++ c ++ calls during)))) by apply mp_run_inv, mp_inv_init.
  assert (Hpos : Forall (fun x => 0 <= fst x)%Z log) by (rewrite Hlog; apply (inv_nonneg _ Hinv)).
  assert (Hsort : StronglySorted Z.lt (map fst log)) by (rewrite Hlog; apply (inv_sorted _ Hinv)).
  assert (Hse : entries_of told = se) by apply S.
  assert (Hpn : p_n p = or0 (q_n q)) by (rewrite F1; reflexivity). assert (Hpb : p_bytes p = or0 (q_bytes q)) by (rewrite F1; reflexivity). assert (Hpp : p_period p = Z.of_N (or0 (q_period q))) by (rewrite F1; reflexivity).
  assert (Hpw : p_nowait p = q_nowait q) by (rewrite F1; reflexivity).
  assert (Htot : forall l, sum (text_size q (M_idx W M) (M_ser W M)) l = total p (M_idx W M) (M_ser W M) l). { intros l. unfold sum, total. induction l as [|x l IH]; cbn; [reflexivity|]. now rewrite IH, (sizeof_eq p q (M_idx W M) (M_ser W M) F1). }
  exists told, (match cl with [] => false | _ => true end). cbv zeta. rewrite Hse.
  split.
  { rewrite Hbody. destruct Hend as [(-> & _)|(_ & -> & _)].
    - rewrite app_nil_r, (body_eq p q _ _ tJ F1), Hse. reflexivity.
    - rewrite <- Hse at 1. rewrite (closed_eq p q _ _ tJ F1), Hse. destruct (q_array q) eqn:Ea; [|reflexivity].
      assert (closing p se <> []) as Hc. { unfold closing. rewrite F1. cbn. rewrite Ea. destruct se; discriminate. }
      destruct (closing p se); [contradiction|reflexivity]. }
  split. { intros Hc. destruct Hend as [(-> & _)|(Hp & _)]; [discriminate|exact Hp]. }
  split. { intros Ha. apply (o_plain _ _ _ _ _ _ _ _ _ S). rewrite F1. cbn. destruct (q_array q), (q_entries_only q); (reflexivity || discriminate). }
  split; [apply S|].
  split.
  { intros t Ht. assert (Htp : (0 <= t)%Z) by (rewrite Forall_forall in Htimes; apply Htimes; eapply heads_times; eauto; apply (o_heads _ _ _ _ _ _ _ _ _ S t Ht)). rewrite and_assoc'. split.
    2: { split; [exact Htp|]. pose proof (o_heads _ _ _ _ _ _ _ _ _ S t Ht) as Hh. unfold heads in Hh. apply in_flat_map in Hh as ([ev r] & Hev & Hh). destruct ev as [it f0 la|it|h|]; cbn in Hh; try contradiction. destruct Hh as [<-|[]].
      apply in_split in Hev as (told0 & rest & Hev). destruct (C11_head_only_after_older_entries E E (w_codec W) everything begin from _ _ _ Hsub _ _ _ _ Hev) as [Hh _]. now rewrite <- !app_assoc in Hh. }
    pose proof (o_hfrom _ _ _ _ _ _ _ _ _ S t Ht) as Ho. rewrite F1 in Ho. unfold init, ep_init in Ho. cbn [e_serving e_from with_tail parse_params p_recent p_since] in Ho.
    destruct Hsane as (Z1 & _ & _ & Z2 & _ & Z3). destruct (q_recent q) as [r|] eqn:Er, (q_since q) as [si|] eqn:Ei; cbn [required or0] in *; try (destruct Z2; discriminate); auto.
    - split; [reflexivity|]. specialize (Z3 _ eq_refl). assert (r <> 0%N) by congruence. replace (Z.ltb 0 (Z.of_N r)) with true in Ho by lia. cbn [orb negb] in Ho. specialize (Ho eq_refl). cbv iota in Ho. lia.
    - split; [|reflexivity]. change (Z.ltb 0 (Z.of_N 0)) with false in Ho. cbn [orb] in Ho. destruct (Z.ltb_spec 0 (Z.of_N si)); [specialize (Ho eq_refl); lia|lia]. }
  split; [eapply (se_range p now _ _ log begin n (ss_trace s) sk se extra told S Hdel)|].
  split; [eapply (se_selected p q now _ _ Hsane F1 size log Hpos Hsort begin n (ss_trace s) sk se extra told S Hdel); assumption|].
  split. { intros k Hk. pose proof (o_n _ _ _ _ _ _ _ _ _ S) as Ho. rewrite Hpn, Hk in Ho. cbn [or0] in Ho. apply Ho. intros ->. destruct Hsane as (_ & Hz & _). contradiction. }
  split. { intros d Hd Hd0 x y Hx Hy. pose proof (o_period _ _ _ _ _ _ _ _ _ S) as Ho. rewrite Hpp, Hd in Ho. cbn [or0] in Ho. apply Ho; auto. lia. }
  split. { intros B HB HB0 l x Hl. pose proof (o_bytes _ _ _ _ _ _ _ _ _ S l x Hl) as Ho. rewrite Hpb, HB in Ho. cbn [or0] in Ho. rewrite Htot. auto. }
  intros Hc. destruct (se_filter p q now _ _ tJ Hsane F1 size log Hpos Hsort begin n (ss_trace s) sk se extra told S Hdel F3 F6 Hc F2) as (hi & H1 & H2 & H3). exists hi. split; [exact H1|]. split.
  2: { intros Hper t x Ht Hx Hle. destruct (N.lt_ge_cases (fst (fst x)) begin) as [Hlt|Hge].
    - enough (begin <= hi)%N by lia. exact H3.
    - apply H2. assert (extra = []) as Hextra.
      { destruct Hend as [(_ & Hx0 & _)|(_ & _ & Hwhy)]; [exact Hx0|]. destruct Hwhy as [| | |? ? Hq0]; try reflexivity. rewrite Hpp, Hper in Hq0. now contradiction Hq0. }
      assert (In x (delivered (ss_trace s))) as Hd; [|rewrite (o_del _ _ _ _ _ _ _ _ _ S), Hextra, app_nil_r in Hd; exact Hd].
      pose proof (o_heads _ _ _ _ _ _ _ _ _ S t Ht) as Hh. unfold heads in Hh. apply in_flat_map in Hh as ([ev r] & Hev & Hh). destruct ev as [it f0 la|it|h|]; cbn in Hh; try contradiction. destruct Hh as [<-|[]].
      apply in_split in Hev as (told0 & rest & Hev). destruct (C11_head_only_after_older_entries E E (w_codec W) everything begin from _ _ _ Hsub _ _ _ _ Hev) as [_ Hall].
      destruct x as [[j u] x]. cbn [fst snd] in *. apply numbered_in in Hx. rewrite <- !app_assoc in Hall. pose proof (Hall j u x x Hx Hge Hle eq_refl) as Hin. rewrite Hev. unfold delivered in *. rewrite flat_map_app. apply in_or_app. now left. }
  intros Hstop. destruct Hend as [(_ & _ & [Hend|[_ Hend]])|(_ & _ & Hwhy)]; [contradiction| |].
  - right. right. left. rewrite Hpp in Hend. destruct (q_period q) as [d|]; cbn [or0] in Hend; [|contradiction]. exists d. split; [reflexivity|lia].
  - inversion Hwhy as [Hn Hn'|Hn Hn'|x last Hn Hn' Hn2|x t Hn Hn' _].
    + left. rewrite Hpn in Hn, Hn'. destruct (q_n q); cbn [or0] in *; [now rewrite Hn'|contradiction].
    + right. left. rewrite Hpb in Hn, Hn'. destruct (q_bytes q) as [B|]; cbn [or0] in *; [|contradiction]. exists B. rewrite Htot. auto.
    + right. right. right. split; [congruence|]. subst extra. pose proof (o_del _ _ _ _ _ _ _ _ _ S) as Hd. rewrite app_nil_r in Hd.
      assert (In x (sk ++ se)) as Hx. { rewrite <- Hd. unfold delivered. apply in_flat_map. eexists. split; [exact Hn'|]. left. now destruct x. }
      pose proof (H2 x Hx) as Hlt. pose proof (last_bound W begin from a (b ++ c) during s Hsub _ _ _ _ Hn') as Hlb. fold size in Hlb. lia.
    + right. right. left. rewrite Hpp in Hn. destruct (q_period q) as [d|]; cbn [or0] in Hn; [|contradiction]. exists d. split; [reflexivity|lia].
Qed.
Print Assumptions C15_what_is_sent.

(** ** `nowait` *)
(** A request with `nowait`, if nothing is published meanwhile: the session ends, after a bounded number of the thread's steps, and the
    whole body is then exactly the entries asked for, cut by `period`, `n` and `stop_after_bytes`. *)
Theorem C15_nowait_body : forall (E : Type) (W : wire E) (M : mode E) (ser_tsJ : Z -> bytes) (q : query) now a during s e body,
  wire_ok W -> sane q now -> q_nowait q = true -> (N.of_nat (List.length (contents (w_codec W) a)) < npos)%N -> thread_only during ->
  session W M ser_tsJ q now true a [] [] during s e body -> ss_pc s = PStop ->
  body = answer_body q now (N.of_nat (List.length (contents (w_codec W) a))) (M_idx W M) (M_ser W M) (contents (w_codec W) a).
Proof. intros E W M tJ q now a during s e body HW Hs Hn Hp Ht H He. now apply (static_body W HW M tJ q now a Hs Hn Hp during s e body). Qed.
Print Assumptions C15_nowait_body.
Theorem C15_nowait_ends : forall (E : Type) (W : wire E) (M : mode E) (ser_tsJ : Z -> bytes) (q : query) now a during s e body,
  wire_ok W -> sane q now -> q_nowait q = true -> (N.of_nat (List.length (contents (w_codec W) a)) < npos)%N -> thread_only during ->
  session W M ser_tsJ q now true a [] [] during s e body ->
  (N.of_nat (List.length during) <= 2 * N.of_nat (List.length (contents (w_codec W) a)) + 6)%N /\
  (ss_pc s <> PStop -> exists r s' e' body', session W M ser_tsJ q now true a [] [] (during ++ [LThread r]) s' e' body').
Proof. intros E W M tJ q now a during s e body HW Hs Hn Hp Ht H. split; [now apply (static_bound W HW M tJ q now a Hs Hn Hp during s e body)|]. now apply (static_progress W HW M tJ q now a Hs Hn Hp during s e body). Qed.
Print Assumptions C15_nowait_ends.

(** The answer 204 is given only to a request with `nowait`, if the stream has no entry asked for. *)
Theorem C15_no_content : forall (E : Type) (W : wire E) (q : query) now a b,
  sane q now -> let log := contents (w_codec W) (a ++ b) in let size := N.of_nat (List.length (contents (w_codec W) a)) in (N.of_nat (List.length log) < npos)%N ->
  serve (mp_size (fst (mp_run (w_codec W) mp_init a))) (fst (mp_run (w_codec W) mp_init (a ++ b))) now (parse_params q) = NoContent ->
  q_nowait q = true /\ forall x, In x (numbered log) -> (fst (fst x) < size)%N -> selected q now size x = false.
Proof.
  intros E W q now a b Hs log size Hn H. destruct (no_content W q now a b Hs Hn H) as [H1 H2]. split; [exact H1|]. intros x Hx Hlt. fold log size in H2.
  destruct (selected q now size x) eqn:Es; [|reflexivity]. exfalso. assert (In x []) as []. rewrite <- H2. apply filter_In. split; [|exact Es]. apply filter_In. split; [exact Hx|].
  unfold in_idx_range. apply andb_true_iff. split; [apply N.leb_le; lia|now apply N.ltb_lt].
Qed.
Print Assumptions C15_no_content.

(** The array is a well-formed one: with the texts of the entries separated by commas, in brackets. *)
Example array_shape : forall (E : Type) q (aJ : idxts -> bytes) (bJ : E -> bytes) x y z, q_array q = true ->
  array_body q aJ bJ true [x; y; z] = bs "[" ++ [NL] ++ bJ (snd x) ++ [NL] ++ bs "," ++ [NL] ++ bJ (snd y) ++ [NL] ++ bs "," ++ [NL] ++ bJ (snd z) ++ [NL] ++ bs "]" ++ [NL].
Proof. intros E q aJ bJ x y z H. unfold array_body, commas, text_of. rewrite H, orb_true_r. now rewrite <- !app_assoc. Qed.

(** ** Sessions to look at *)
(** Replays the endpoint's calls. *)
Fixpoint replay {E} (W : wire E) (tJ : Z -> bytes) (p : params) (tr : list (ev E * bool)) (e : ep) (body : bytes) : option (ep * bytes) :=
  match tr with
  | [] => Some (e, body)
  | (EvEntry it x last, r) :: tr =>
      match ep_raw W p e false (ser_idx (w_codec W) it ++ [TAB] ++ ser (w_codec W) x) (fst it) last with
      | Some (e', out, r') => if Bool.eqb r r' then replay W tJ p tr e' (body ++ out) else None
      | None => None
      end
  | (EvHead t, r) :: tr => let '(e', out, r') := ep_head p tJ e false t in if Bool.eqb r r' then replay W tJ p tr e' (body ++ out) else None
  | _ => None
  end.
Lemma replay_answered {E} (W : wire E) tJ p now : forall tr tr0 e body e' body', answered W Raw tJ p now true tr0 e body -> replay W tJ p tr e body = Some (e', body') -> answered W Raw tJ p now true (tr0 ++ tr) e' body'.
Proof.
  induction tr as [|[x r] tr IH]; intros tr0 e body e' body' Ha H; cbn [replay] in H; [rewrite app_nil_r; injection H as <- <-; exact Ha|].
  change ((x, r) :: tr) with ([(x, r)] ++ tr). rewrite app_assoc. destruct x as [it x last|it|t|]; try discriminate.
  - destruct (ep_raw _ _ _ _ _ _ _) as [[[e1 out] r']|] eqn:Ee; [|discriminate]. destruct (Bool.eqb_spec r r') as [<-|]; [|discriminate]. eapply IH; [|exact H]. apply (an_entry W Raw tJ p now true tr0 e body false); auto.
  - destruct (ep_head _ _ _ _ _) as [[e1 out] r'] eqn:Ee. destruct (Bool.eqb_spec r r') as [<-|]; [|discriminate]. eapply IH; [|exact H]. apply (an_head W Raw tJ p now true tr0 e body false); auto.
Qed.
Lemma session_by q now (a b c : list (pop N)) during begin from p s e body :
  serve (mp_size (fst (mp_run demo_codec mp_init a))) (fst (mp_run demo_codec mp_init (a ++ b))) now (parse_params q) = Subscribed begin from p ->
  srun demo_codec everything begin (s_init begin from (fst (mp_run demo_codec mp_init (a ++ b ++ c)))) during = Some s ->
  replay demo_wire json_ts p (ss_trace s) (ep_init p now) [] = Some (e, body) ->
  session demo_wire Raw json_ts q now true a b c during s e body.
Proof. intros H1 H2 H3. exists begin, from, p. split; [exact H1|]. split; [exact H2|]. apply (replay_answered demo_wire json_ts p now _ []) in H3; [exact H3|constructor]. Qed.

Definition ask : query := {| q_recent := None; q_since := None; q_i := None; q_tail := None; q_n := None; q_period := None; q_bytes := None; q_nowait := false; q_entries_only := false; q_array := false |}.
Definition more_steps (n : nat) : list (label N) := repeat (LThread true) n.
Definition three : list (pop N) := [Publish 7%N 10; Publish 8%N 20; Publish 9%N 30]%Z.

(** `?i=1&n=2&array&nowait` *)
Definition ask1 : query := {| q_recent := None; q_since := None; q_i := Some 1%N; q_tail := None; q_n := Some 2%N; q_period := None; q_bytes := None; q_nowait := true; q_entries_only := false; q_array := true |}.
Example ask1_ok : exists s e body, session demo_wire Raw json_ts ask1 100 true three [] [] (more_steps 5 ++ [LThread false]) s e body /\ ss_pc s = PStop /\
  body = bs "[" ++ [NL] ++ bs "8" ++ [NL] ++ bs "," ++ [NL] ++ bs "9" ++ [NL] ++ bs "]" ++ [NL] /\ sane ask1 100 /\ thread_only (more_steps 5 ++ [LThread false]).
Proof.
  do 3 eexists. split; [eapply session_by; vm_compute; reflexivity|]. split; [vm_compute; reflexivity|]. split; [vm_compute; reflexivity|]. split.
  - repeat split; try discriminate; auto.
  - repeat constructor; eauto.
Qed.
(** `?since=15`, with an entry and a head published while the session is on. *)
Definition ask2 : query := {| q_recent := None; q_since := Some 15%N; q_i := None; q_tail := None; q_n := None; q_period := None; q_bytes := None; q_nowait := false; q_entries_only := false; q_array := false |}.
Definition during2 : list (label N) := more_steps 4 ++ [LPublisher (Publish 5%N 40)] ++ more_steps 11 ++ [LPublisher (UpdateHead 50)] ++ more_steps 4.
Example ask2_ok : exists s e body, session demo_wire Raw json_ts ask2 100 true three [] [] during2 s e body /\
  body = bs "{""index"":1,""us"":20}" ++ [TAB] ++ bs "8" ++ [NL] ++ bs "{""index"":2,""us"":30}" ++ [TAB] ++ bs "9" ++ [NL] ++ bs "{""index"":3,""us"":40}" ++ [TAB] ++ bs "5" ++ [NL] ++ bs "{""us"":50}" ++ [NL] /\
  sane ask2 100 /\ ~ In LSignal during2.
Proof.
  do 3 eexists. split; [eapply session_by; vm_compute; reflexivity|]. split; [vm_compute; reflexivity|]. split.
  - repeat split; try discriminate; auto.
  - vm_compute. intuition discriminate.
Qed.

(** ** What does not hold *)
Definition with_i (q : query) n := {| q_recent := q_recent q; q_since := q_since q; q_i := Some n; q_tail := q_tail q; q_n := q_n q; q_period := q_period q; q_bytes := q_bytes q; q_nowait := q_nowait q; q_entries_only := q_entries_only q; q_array := q_array q |}.
Definition with_since (q : query) n := {| q_recent := q_recent q; q_since := Some n; q_i := q_i q; q_tail := q_tail q; q_n := q_n q; q_period := q_period q; q_bytes := q_bytes q; q_nowait := q_nowait q; q_entries_only := q_entries_only q; q_array := q_array q |}.
Definition with_recent (q : query) n := {| q_recent := Some n; q_since := q_since q; q_i := q_i q; q_tail := q_tail q; q_n := q_n q; q_period := q_period q; q_bytes := q_bytes q; q_nowait := q_nowait q; q_entries_only := q_entries_only q; q_array := q_array q |}.
Definition tailing (q : query) n := {| q_recent := q_recent q; q_since := q_since q; q_i := q_i q; q_tail := Some n; q_n := q_n q; q_period := q_period q; q_bytes := q_bytes q; q_nowait := q_nowait q; q_entries_only := q_entries_only q; q_array := q_array q |}.
Definition with_period (q : query) n := {| q_recent := q_recent q; q_since := q_since q; q_i := q_i q; q_tail := q_tail q; q_n := q_n q; q_period := Some n; q_bytes := q_bytes q; q_nowait := q_nowait q; q_entries_only := q_entries_only q; q_array := q_array q |}.
Definition nowait (q : query) := {| q_recent := q_recent q; q_since := q_since q; q_i := q_i q; q_tail := q_tail q; q_n := q_n q; q_period := q_period q; q_bytes := q_bytes q; q_nowait := true; q_entries_only := q_entries_only q; q_array := q_array q |}.
Definition as_array (q : query) := {| q_recent := q_recent q; q_since := q_since q; q_i := q_i q; q_tail := q_tail q; q_n := q_n q; q_period := q_period q; q_bytes := q_bytes q; q_nowait := q_nowait q; q_entries_only := q_entries_only q; q_array := true |}.

(** `?i=5&since=15`: a head update, to 15 or later, turns the output on for all the entries after it (pubsub.h 438-442), so an entry of an index below 5 is sent. *)
Definition during_r1 : list (label N) := more_steps 3 ++ [LPublisher (Publish 6%N 200%Z)] ++ more_steps 6.
Theorem C15_index_and_time_refuted : exists s e body, let q := with_i (with_since ask 15) 5 in
  session demo_wire Raw json_ts q 100 true [Publish 7%N 10%Z; UpdateHead 100%Z] [] [] during_r1 s e body /\ sane q 100 /\
  body = bs "{""us"":100}" ++ [NL] ++ bs "{""index"":1,""us"":200}" ++ [TAB] ++ bs "6" ++ [NL] /\ selected q 100 1 ((1%N, 200%Z), 6%N) = false.
Proof.
  do 3 eexists. cbv zeta. split; [eapply session_by; vm_compute; reflexivity|]. split; [repeat split; try discriminate; auto|]. split; vm_compute; reflexivity.
Qed.
(** `?tail=1&since=5`: "if the stream contains at least `tail` records at the time the request is being fulfilled, the first `tail` records returned would be
    the ones already available" (pubsub.h 74-77); but an entry published meanwhile makes the one already available (of index 0) fail the check (278-281). *)
Theorem C15_tail_and_time_refuted : exists s e body, let q := tailing (with_since ask 5) 1 in
  session demo_wire Raw json_ts q 100 true [Publish 7%N 10%Z] [] [] (LPublisher (Publish 8%N 20%Z) :: more_steps 6) s e body /\ sane q 100 /\
  body = bs "{""index"":1,""us"":20}" ++ [TAB] ++ bs "8" ++ [NL] /\ selected q 100 1 ((0%N, 10%Z), 7%N) = true.
Proof.
  do 3 eexists. cbv zeta. split; [eapply session_by; vm_compute; reflexivity|]. split; [repeat split; try discriminate; auto|]. split; vm_compute; reflexivity.
Qed.
(** `?tail=0&i=3`: `i` is ignored. *)
Theorem C15_tail_0_ignores_i_refuted : exists s e body, let q := tailing (with_i ask 3) 0 in
  session demo_wire Raw json_ts q 100 true [Publish 7%N 10%Z] [] [] (more_steps 3 ++ [LPublisher (Publish 8%N 20%Z)] ++ more_steps 6) s e body /\
  body = bs "{""us"":10}" ++ [NL] ++ bs "{""index"":1,""us"":20}" ++ [TAB] ++ bs "8" ++ [NL] /\ selected q 100 1 ((1%N, 20%Z), 8%N) = false.
Proof.
  do 3 eexists. cbv zeta. split; [eapply session_by; vm_compute; reflexivity|]. split; vm_compute; reflexivity.
Qed.
(** `?recent=50&since=90`: `since` is ignored. *)
Theorem C15_recent_and_since_refuted : exists s e body, let q := nowait (with_recent (with_since ask 90) 50) in
  session demo_wire Raw json_ts q 100 true [Publish 7%N 60%Z] [] [] (more_steps 3 ++ [LThread false]) s e body /\ ss_pc s = PStop /\
  body = bs "{""index"":0,""us"":60}" ++ [TAB] ++ bs "7" ++ [NL] /\ selected q 100 1 ((0%N, 60%Z), 7%N) = false.
Proof.
  do 3 eexists. cbv zeta. split; [eapply session_by; vm_compute; reflexivity|]. split; [vm_compute; reflexivity|]. split; vm_compute; reflexivity.
Qed.
(** `?array&period=5`, ended by a head update: the array is not closed, and the body is no JSON (pubsub.h 434-456 returns Done without closing it). *)
Theorem C15_array_is_closed_refuted : exists s e body, let q := as_array (with_period ask 5) in
  session demo_wire Raw json_ts q 100 true [Publish 7%N 10%Z] [] [] (more_steps 6 ++ [LPublisher (UpdateHead 100)] ++ more_steps 2 ++ [LThread false]) s e body /\ sane q 100 /\ ss_pc s = PStop /\
  body = bs "[" ++ [NL] ++ bs "7" ++ [NL].
Proof.
  do 3 eexists. cbv zeta. split; [eapply session_by; vm_compute; reflexivity|]. split; [repeat split; try discriminate; auto|]. split; vm_compute; reflexivity.
Qed.
(** `period`: "as soon as the next data record [...] is `period` or more microseconds from the minimum between the first record returned and the earliest
    timestamp requested via `since`" (pubsub.h 91-93): with `?since=5&period=10` a record at 15 or later would end it.  The records at 16 and 20 are returned. *)
Theorem C15_period_as_documented_refuted : exists s e body, let q := nowait (with_period (with_since ask 5) 10) in
  session demo_wire Raw json_ts q 100 true [Publish 7%N 10; Publish 8%N 16; Publish 9%N 20]%Z [] [] (more_steps 7 ++ [LThread false]) s e body /\ sane q 100 /\ ss_pc s = PStop /\
  body = bs "{""index"":0,""us"":10}" ++ [TAB] ++ bs "7" ++ [NL] ++ bs "{""index"":1,""us"":16}" ++ [TAB] ++ bs "8" ++ [NL] ++ bs "{""index"":2,""us"":20}" ++ [TAB] ++ bs "9" ++ [NL].
Proof.
  do 3 eexists. cbv zeta. split; [eapply session_by; vm_compute; reflexivity|]. split; [repeat split; try discriminate; auto|]. split; vm_compute; reflexivity.
Qed.
Print Assumptions C15_index_and_time_refuted.
Print Assumptions C15_tail_and_time_refuted.
Print Assumptions C15_tail_0_ignores_i_refuted.
Print Assumptions C15_recent_and_since_refuted.
Print Assumptions C15_array_is_closed_refuted.
Print Assumptions C15_period_as_documented_refuted.
