(** Property C65: a follower which reconnects takes everything it is sent, wherever the connections break. *)
From Coq Require Import String Sorted.
From Verif Require Import Base Dec Codec Persister_Model Persister_Spec Persister_Proofs Stream_Model Stream_Spec Stream_Proofs Stream_Proofs2 Stream_Props Replicator_Model Replicator_Spec Replicator_Proofs Replicator_Proofs2 Replicator_Props
  PubSub_Model PubSub_Spec PubSub_Proofs5 PubSub_Props Flip_Model Flip_Spec Flip_Proofs Flip_Proofs4 Reconnect_Model Reconnect_Spec Reconnect_Proofs Reconnect_Proofs2.
Local Open Scope list_scope.

Section R.
Context {E : Type}.
Variable W : wire E.
Hypothesis HW : wire_ok W.
Variable checked : bool.
Notation C := (w_codec W).
Lemma mode_idx : M_idx W (mode_of W checked) = ser_idx C.
Proof. unfold mode_of. now destruct checked. Qed.
Lemma mode_ser : M_ser W (mode_of W checked) = ser C.
Proof. unfold mode_of. now destruct checked. Qed.

Definition linv (l : @link E) : Prop :=
  mp_inv (r_store (l_follower l)) /\ prefix_of (r_store (l_follower l)) (l_master W l) /\ in_time (l_master W l) (r_store (l_follower l)) /\
  (r_from (l_follower l) = 0%Z \/ r_from (l_follower l) = (mp_head (r_store (l_follower l)) + 1)%Z) /\ r_next (l_follower l) = mp_size (r_store (l_follower l)).
Lemma linv_new calls : linv (new_link calls).
Proof.
  assert (mp_inv (fst (mp_run C mp_init calls))) by (apply mp_run_inv, mp_inv_init).
  unfold linv, new_link, new_follower, l_master. cbn [l_calls l_follower r_store r_next r_from]. split; [apply mp_inv_init|]. split; [|split; [|split; [now left|reflexivity]]].
  - split; [exists (mp_entries (fst (mp_run C mp_init calls))); reflexivity|]. cbn. apply (inv_headm1 _ H).
  - intros j t e Hj _. pose proof (at_nonneg _ _ _ _ H Hj). cbn. lia.
Qed.
Lemma prefix_inv (f m : mp E) : mp_inv m -> prefix_of f m -> (mp_head f = -1 \/ 0 <= mp_head f)%Z -> Forall (fun x => (fst x <= mp_head f)%Z) (mp_entries f) -> mp_inv f.
Proof.
  intros Hm [[r Hr] Hh] Hh0 Hf. pose proof (inv_sorted _ Hm) as S1. pose proof (inv_nonneg _ Hm) as S2. rewrite Hr in S1, S2. split; auto.
  - rewrite map_app in S1. revert S1. generalize (map fst r). induction (map fst (mp_entries f)) as [|y l IH]; intros w H; [constructor|]. cbn in H. inversion H as [|? ? H1 H2]; subst. constructor; [eapply IH; eauto|]. now apply Forall_app in H2 as [H2 _].
  - now apply Forall_app in S2 as [S2 _].
  - lia.
Qed.
(** The follower's stream remains well-formed whatever it is fed. *)
Lemma store_inv (s : rep E) l : mp_inv (r_store s) -> mp_inv (r_store (fst (pass_entry W checked s l))).
Proof.
  intros H.
  assert (He : forall t e, mp_inv (r_store (fst (rep_entry s t e)))).
  { intros t e. unfold rep_entry. pose proof (mp_step_inv C (r_store s) (Publish e t) H) as Hs. cbn [mp_step] in Hs. destruct (mp_publish (r_store s) e t) as [m [x|x|]]; cbn [fst r_store] in *; assumption. }
  assert (Hh : forall t, mp_inv (r_store (fst (rep_head s t)))).
  { intros t. unfold rep_head. pose proof (mp_step_inv C (r_store s) (UpdateHead t) H) as Hs. cbn [mp_step] in Hs. destruct (mp_update_head (r_store s) t) as [m [x|x|]]; cbn [fst r_store] in *; assumption. }
  assert (Hr : forall x, mp_inv (r_store (fst (rep_raw W s x)))).
  { intros t. unfold rep_raw. pose proof (mp_step_inv C (r_store s) (PublishUnsafe t) H) as Hs. cbn [mp_step] in Hs. destruct (mp_publish_unsafe C (r_store s) t) as [m [x|x|]]; cbn [fst r_store] in *; assumption. }
  destruct checked; cbn [pass_entry].
  - unfold pass_checked. repeat match goal with |- context [match ?x with _ => _ end] => destruct x end; cbn [fst]; auto.
  - unfold pass_unchecked. repeat match goal with |- context [match ?x with _ => _ end] => destruct x end; cbn [fst]; auto.
Qed.
Lemma hand_inv ls : forall s : rep E, mp_inv (r_store s) -> mp_inv (r_store (fst (hand_over (pass_entry W checked) s ls))).
Proof. induction ls as [|l ls IH]; intros s H; cbn [hand_over]; [exact H|]. pose proof (store_inv s l H) as H1. destruct (pass_entry W checked s l) as [s' [x|]]; cbn [fst] in *; [exact H1|]. now apply IH. Qed.
Lemma chunks_inv chunks (s : rep E) : mp_inv (r_store s) -> mp_inv (r_store (fst (fst (pass_chunks (pass_entry W checked) [] s chunks)))).
Proof. intros H. destruct (Records_exists (concat chunks)) as (ls & r & HR). destruct (pass_chunks_ok (pass_entry W checked) chunks [] s ls r (Forall_nil _) HR) as (B1 & _). rewrite B1. now apply hand_inv. Qed.

Lemma linv_calls (l : link) more : linv l -> linv {| l_calls := l_calls l ++ more; l_follower := l_follower l |}.
Proof.
  intros (A1 & A2 & A3 & A4 & A5). assert (Hm : mp_inv (l_master W l)) by (apply mp_run_inv, mp_inv_init). destruct (in_time_run W (l_master W l) (r_store (l_follower l)) more Hm A1 A2 A3) as [T1 T2].
  unfold linv, l_master in *. cbn [l_calls l_follower]. rewrite mp_run_app. auto.
Qed.
Lemma linv_connection (l : link) now b c during s e body chunks lost : linv l -> connection W checked l now b c during s e body chunks lost ->
  (N.of_nat (List.length (contents C (l_calls l ++ b ++ c ++ calls during))) < npos)%N -> linv (connected W checked l b c during chunks).
Proof.
  intros Hl (H1 & H2 & H3) Hn. pose proof Hl as (A1 & A2 & A3 & A4 & A5). rewrite A5 in H1.
  destruct (taken W HW checked (mode_of W checked) mode_idx mode_ser (l_follower l) now (l_calls l) b c during s e body chunks lost A1 A2 A3 A4 A5 H2 H1 Hn H3) as (lines & _ & Ht).
  pose proof (chunks_inv chunks (l_follower l) A1) as Hi. unfold linv, connected, l_master. cbn [l_calls l_follower].
  destruct (pass_chunks (pass_entry W checked) [] (l_follower l) chunks) as [[f' carried] x]. cbn [fst] in *.
  destruct Ht as [(B1 & B2 & B3 & B4 & B5 & _)|(_ & -> & _)]; [auto|]. apply (linv_calls l (b ++ c ++ calls during) Hl).
Qed.
Lemma linv_run l l' : linv l -> link_run W checked l l' -> (N.of_nat (List.length (contents C (l_calls l'))) < npos)%N -> linv l'.
Proof.
  intros Hl Hr. induction Hr as [|l l1 l2 Hr IH Hs]; intros Hn; [exact Hl|].
  assert (Hn1 : (N.of_nat (List.length (contents C (l_calls l1))) < npos)%N).
  { destruct Hs as [l1 more|l1 now b c during s e body chunks lost _]; unfold connected in Hn; cbn [l_calls] in Hn;
    match type of Hn with context [contents _ (?x ++ ?y)] => destruct (contents_more W x y) as (mo & Hmo); rewrite Hmo, app_length in Hn; pose proof (contents_length W x) as Hc; unfold mp_size in Hc; lia end. }
  specialize (IH Hl Hn1). destruct Hs as [l1 more|l1 now b c during s e body chunks lost Hs]; [now apply linv_calls|]. eapply linv_connection; eauto.
Qed.
End R.

(** However many times the connection breaks, at whichever byte, and whatever the users of the master do meanwhile: the follower's entries are the first [k] of the master's; the follower is not past the head of the master;
    and none of the entries it still lacks is at or before its head, so nothing it will be sent later can be refused as out of order. *)
Theorem C65_reconnecting_loses_nothing : forall (E : Type) (W : wire E) checked calls (l : @link E),
  wire_ok W -> link_run W checked (new_link calls) l -> let log := contents (w_codec W) (l_calls l) in (N.of_nat (List.length log) < npos)%N ->
  let f := r_store (l_follower l) in
  (exists k, mp_entries f = firstn k log) /\ (mp_head f <= stream_head (w_codec W) (l_calls l))%Z /\
  (forall j t e, nth_error log j = Some (t, e) -> (List.length (mp_entries f) <= j)%nat -> (mp_head f < t)%Z) /\
  r_next (l_follower l) = mp_size f.
Proof.
  intros E W checked calls l HW Hr log Hn f. destruct (linv_run W HW checked _ _ (linv_new W calls) Hr Hn) as (A1 & ([r Hr0] & A2) & A3 & A4 & A5). fold f in A2, A3, A5, Hr0.
  assert (Hlog : mp_entries (l_master W l) = log) by apply (mp_run_entries (w_codec W) _ mp_init).
  split; [|split; [|split; [|exact A5]]].
  - exists (List.length (mp_entries f)). rewrite <- Hlog, Hr0. now rewrite firstn_app, firstn_all, Nat.sub_diag, firstn_O, app_nil_r.
  - unfold l_master in A2. now rewrite (mp_run_head (w_codec W) _ mp_init) in A2.
  - intros j t e Hj Hge. apply (A3 j t e); [now rewrite Hlog|]. unfold mp_size. lia.
Qed.
Print Assumptions C65_reconnecting_loses_nothing.

(** One connection of such a follower: everything it is sent is taken, as long as it arrives; no exception, and it is again in a state to continue from.  The only other possibility: the follower's last line
    was an entry, and the first line it is sent is a head not after that. *)
Theorem C65_everything_sent_is_taken : forall (E : Type) (W : wire E) checked calls (l : @link E) now b c during s e body chunks lost,
  wire_ok W -> link_run W checked (new_link calls) l -> connection W checked l now b c during s e body chunks lost ->
  let l' := connected W checked l b c during chunks in (N.of_nat (List.length (contents (w_codec W) (l_calls l'))) < npos)%N ->
  let f := r_store (l_follower l) in let f' := r_store (l_follower l') in
  exists lines, body = flat_map (fun x => match x with LEntry y => entry_line W (fst (fst y)) (snd (fst y)) (snd y) | LHead t => head_line W t end ++ [NL]) lines /\
  ((snd (pass_chunks (pass_entry W checked) [] (l_follower l) chunks) = None /\ (exists more, mp_entries f' = mp_entries f ++ more) /\
    (lost = [] -> mp_entries f' = mp_entries f ++ map (fun x => (snd (fst x), snd x)) (entries_of lines))) \/
   (r_from (l_follower l) = 0%Z /\ l_follower l' = l_follower l /\ exists t rest, lines = LHead t :: rest /\ (0 <= t <= mp_head f)%Z)).
Proof.
  intros E W checked calls l now b c during s e body chunks lost HW Hr (H1 & H2 & H3) l' Hn f f'.
  assert (Hn1 : (N.of_nat (List.length (contents (w_codec W) (l_calls l))) < npos)%N).
  { unfold l', connected in Hn. cbn [l_calls] in Hn. destruct (contents_more W (l_calls l) (b ++ c ++ Stream_Spec.calls during)) as (mo & Hmo). rewrite Hmo, app_length in Hn. pose proof (contents_length W (l_calls l)) as Hc. unfold mp_size in Hc. lia. }
  destruct (linv_run W HW checked _ _ (linv_new W calls) Hr Hn1) as (A1 & A2 & A3 & A4 & A5). rewrite A5 in H1.
  destruct (taken W HW checked (mode_of W checked) (mode_idx W checked) (mode_ser W checked) (l_follower l) now (l_calls l) b c during s e body chunks lost A1 A2 A3 A4 A5 H2 H1 Hn H3) as (lines & Hb & Ht).
  exists lines. split.
  { rewrite Hb. clear. induction lines as [|x lines IH]; [reflexivity|]. cbn [map flat_map]. rewrite IH. f_equal. }
  unfold f', l', connected. cbn [l_follower]. destruct (pass_chunks (pass_entry W checked) [] (l_follower l) chunks) as [[g carried] x]. cbn [fst snd] in *.
  destruct Ht as [(B1 & B2 & B3 & B4 & B5 & B6 & B7)|Ht]; [left|right; exact Ht]. split; [exact B1|]. split; [exact B6|]. intros Hl. now apply B7.
Qed.
Print Assumptions C65_everything_sent_is_taken.

(** ** Cases *)
(** The follower of a master with one entry, and the first connection: all of it arrives but the last two bytes; the second: all of it. *)
Definition one : @link N := new_link [Publish 7%N 10%Z].
Definition first_body : bytes := bs "{""index"":0,""us"":10}" ++ [TAB] ++ bs "7" ++ [NL].
Definition synced : @link N := connected demo_wire false one [] [] (more_steps 5) [first_body].
Example C65_case : exists s e, connection demo_wire false one 100 [] [] (more_steps 5) s e first_body [first_body] [] /\
  link_run demo_wire false one synced /\ mp_entries (r_store (l_follower synced)) = [(10%Z, 7%N)] /\ wire_ok demo_wire.
Proof.
  assert (exists s e, connection demo_wire false one 100 [] [] (more_steps 5) s e first_body [first_body] []) as (s & e & H).
  { do 2 eexists. split; [eapply session_by; vm_compute; reflexivity|]. split; [|reflexivity]. intros Hin. apply repeat_spec in Hin. discriminate. }
  exists s, e. split; [exact H|]. split; [eapply lr_step; [apply lr_refl|eapply ls_connection; exact H]|]. split; [vm_compute; reflexivity|apply demo_wire_ok].
Qed.

(** "A follower which has everything waits for more": no.  If the last line it has received was an entry, it subscribes again without `since` (replicator.h 86-89, 198-199); an idle master then begins with its head, which the
    follower refuses, as it is not after its own (C65_everything_sent_is_taken, the second case).  The exception makes the follower subscribe again, at once (replicator.h 311-316); and the state of both is the same as before. *)
Theorem C65_idle_follower_waits_refuted : exists during s e body,
  link_run demo_wire false one synced /\ mp_entries (r_store (l_follower synced)) = contents (w_codec demo_wire) (l_calls synced) /\
  mp_head (r_store (l_follower synced)) = stream_head (w_codec demo_wire) (l_calls synced) /\
  connection demo_wire false synced 100 [] [] during s e body [body] [] /\ body = bs "{""us"":10}" ++ [NL] /\
  snd (pass_chunks (pass_entry demo_wire false) [] (l_follower synced) [body]) <> None /\ connected demo_wire false synced [] [] during [body] = synced.
Proof.
  exists (more_steps 3). do 3 eexists. split; [destruct C65_case as (? & ? & _ & H & _); exact H|]. split; [vm_compute; reflexivity|]. split; [vm_compute; reflexivity|].
  split. { split; [eapply session_by; vm_compute; reflexivity|]. split; [|rewrite app_nil_r; symmetry; apply app_nil_r]. intros Hin. apply repeat_spec in Hin. discriminate. }
  split; [vm_compute; reflexivity|]. split; [vm_compute; discriminate|vm_compute; reflexivity].
Qed.
Print Assumptions C65_idle_follower_waits_refuted.
