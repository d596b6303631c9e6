(** The endpoint's calls, one by one. *)
From Coq Require Import String Sorted.
From Verif Require Import Base Persister_Model Persister_Spec Stream_Model Stream_Spec Stream_Proofs Replicator_Model Replicator_Spec Replicator_Proofs2 PubSub_Model PubSub_Spec.
Local Open Scope list_scope.

Definition start (p : params) (from : Z) (i : N) (us : Z) (last : N) : bool :=
  N.leb (p_i p) i && (N.eqb (p_tail p) 0 || N.ltb (last - i) (p_tail p)) && (Z.eqb from 0 || Z.leb from us).
Definition to_of (p : params) (e : ep) (us : Z) : Z := if negb (Z.eqb (p_period p) 0) && Z.eqb (e_to e) 0 then (us + p_period p)%Z else e_to e.
Definition full (p : params) (size : N) : bool := negb (N.eqb (p_bytes p) 0) && N.leb (p_bytes p) size.
Definition sep (p : params) (e : ep) : bytes := if p_array p then (if e_started e then COMMA else OPEN) else [].
Definition mk (s : bool) (f t : Z) (n z : N) (st : bool) : ep := {| e_serving := s; e_from := f; e_to := t; e_n := n; e_size := z; e_started := st |}.

Lemma lambda_cases p e i us last text e' out r : ep_lambda p e false i us last text = (e', out, r) ->
  (e_serving e = false /\ start p (e_from e) i us last = false /\ e' = e /\ out = [] /\ r = negb (N.eqb i last && p_nowait p)) \/
  ((e_serving e = true \/ start p (e_from e) i us last = true) /\
   ((to_of p e us <> 0%Z /\ (to_of p e us < us)%Z /\ e' = mk true (e_from e) (to_of p e us) (e_n e) (e_size e) (e_started e) /\ out = [] /\ r = false) \/
    ((to_of p e us = 0%Z \/ (us <= to_of p e us)%Z) /\ out = sep p e ++ text /\
     e' = mk true (e_from e) (to_of p e us) (if full p (e_size e + blen text) then e_n e else e_n e - 1)%N (e_size e + blen text) (e_started e || p_array p) /\
     r = negb (full p (e_size e + blen text) || (negb (N.eqb (e_n e) 0) && N.eqb (e_n e - 1) 0) || (N.eqb i last && p_nowait p))))).
Proof.
  destruct e as [sv fr to n sz st]. unfold ep_lambda, to_of. cbn [e_serving e_from e_to e_n e_size e_started].
  change (N.leb (p_i p) i && (N.eqb (p_tail p) 0 || N.ltb (last - i) (p_tail p)) && (Z.eqb fr 0 || Z.leb fr us)) with (start p fr i us last).
  destruct sv, (start p fr i us last) eqn:Es; cbn [orb negb andb]; intros H.
  4: { left. destruct (N.eqb i last && p_nowait p); injection H as <- <- <-; auto 10. }
  all: right; split; [auto|].
  all: set (t := if negb (Z.eqb (p_period p) 0) && Z.eqb to 0 then (us + p_period p)%Z else to) in *.
  all: destruct (Z.eqb_spec t 0) as [Ht|Ht]; cbn [negb andb] in H.
  all: try (destruct (Z.ltb_spec t us) as [Hl|Hl]; [left; injection H as <- <- <-; repeat split; auto|]).
  all: right; split; [auto; right; lia|]; fold (full p (sz + blen text)) in H.
  all: unfold sep, mk; cbn [e_started].
  all: destruct (full p (sz + blen text)); [injection H as <- <- <-; destruct (p_array p); cbn; auto|].
  all: destruct (N.eqb_spec n 0) as [->|Hn]; cbn [negb] in H; [injection H as <- <- <-; destruct (p_array p); cbn; auto|].
  all: destruct (N.eqb (n - 1) 0); injection H as <- <- <-; destruct (p_array p); cbn; auto.
Qed.

Lemma lambda_terminate p e i us last text : ep_lambda p e true i us last text = (e, [], false).
Proof. reflexivity. Qed.

Lemma head_cases p f e us e' out r : ep_head p f e false us = (e', out, r) ->
  let hit := Z.ltb 0 (e_from e) && Z.leb (e_from e) us in
  (e_serving e = false /\ hit = false /\ e' = e /\ out = [] /\ r = true) \/
  ((e_serving e = true \/ hit = true) /\ e' = mk true (e_from e) (to_of p e us) (e_n e) (e_size e) (e_started e) /\
   ((to_of p e us <> 0%Z /\ (to_of p e us < us)%Z /\ out = [] /\ r = false) \/
    ((to_of p e us = 0%Z \/ (us <= to_of p e us)%Z) /\ out = (if p_array p || p_entries_only p then [] else f us ++ [NL]) /\ r = true))).
Proof.
  destruct e as [sv fr to n sz st]. unfold ep_head, to_of. cbn [e_serving e_from e_to e_n e_size e_started].
  generalize (Z.ltb 0 fr && Z.leb fr us). intros hit H.
  destruct sv, hit; cbn [orb] in H; [| | |left; repeat split; congruence].
  all: right; split; [auto|].
  all: set (t := if negb (Z.eqb (p_period p) 0) && Z.eqb to 0 then (us + p_period p)%Z else to) in *.
  all: destruct (Z.eqb_spec t 0) as [Ht|Ht]; cbn [negb andb] in H.
  all: try (destruct (Z.ltb_spec t us) as [Hl|Hl]; [injection H as <- <- <-; split; [reflexivity|left; split; [exact Ht|split; [exact Hl|split; reflexivity]]]|]).
  all: injection H as <- <- <-; split; [reflexivity|right; split; [auto; right; lia|destruct (p_array p), (p_entries_only p); auto]].
Qed.

Lemma cut_at_tab_ a c : ~ In TAB a -> cut_at TAB (a ++ TAB :: c) = Some (a, c).
Proof. exact (cut_at_tab a c). Qed.
(** The raw line of an entry is served as the entry itself is. *)
Lemma raw_entry {E} (W : wire E) p e terminate it (x : E) last : wire_ok W -> (0 <= snd it)%Z ->
  ep_raw W p e terminate (ser_idx (w_codec W) it ++ [TAB] ++ ser (w_codec W) x) (fst it) last = Some (ep_entry (ser (w_codec W)) (ser_idx (w_codec W)) p e terminate it x last).
Proof.
  intros HW Hn. unfold ep_raw, ep_entry. cbn [app]. rewrite cut_at_tab_ by (apply (wk_plain W HW); now left). rewrite (wk_ts_idx W HW it Hn). f_equal. f_equal.
  destruct (p_entries_only p); cbn [negb]; [reflexivity|]. now rewrite <- app_assoc.
Qed.
