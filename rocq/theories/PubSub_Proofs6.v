(** Which entries have been sent. *)
From Coq Require Import String Sorted.
From Verif Require Import Base Persister_Model Persister_Spec Persister_Proofs Stream_Model Stream_Spec Stream_Proofs Stream_Proofs2 Stream_Props Replicator_Model Replicator_Spec PubSub_Model PubSub_Spec PubSub_Proofs PubSub_Proofs2 PubSub_Proofs3 PubSub_Proofs4 PubSub_Proofs5.
Local Open Scope list_scope.

Lemma filter_none {A} (f : A -> bool) l : Forall (fun x => f x = false) l -> filter f l = [].
Proof. induction 1 as [|x l H _ IH]; cbn; [reflexivity|]. now rewrite H. Qed.

Section T.
Context {E : Type}.
Variables (p : params) (q : query) (now : Z) (aJ : idxts -> bytes) (bJ : E -> bytes) (tJ : Z -> bytes).
Hypothesis Hsane : sane q now.
Hypothesis Hp : p = with_tail (parse_params q) (p_tail p).

Lemma text_eq x : text p aJ bJ x = text_of q aJ bJ x.
Proof. rewrite Hp. unfold text, text_of. cbn. destruct (q_entries_only q || q_array q); [reflexivity|]. now rewrite <- app_assoc. Qed.
Lemma sizeof_eq x : sizeof p aJ bJ x = text_size q aJ bJ x.
Proof. unfold sizeof, text_size, blen. now rewrite text_eq. Qed.
Lemma joined_eq l : joined p aJ bJ l = commas q aJ bJ l.
Proof. induction l as [|x l IH]; [reflexivity|]. destruct l as [|y l]; [cbn; apply text_eq|]. cbn [joined commas] in *. rewrite text_eq, IH. unfold COMMA. now rewrite <- app_assoc. Qed.
Lemma body_eq told : body_of p aJ bJ tJ told = if q_array q then array_body q aJ bJ false (entries_of told) else flat_map (line_of q aJ bJ tJ) told.
Proof.
  unfold body_of. assert (p_array p = q_array q) as -> by (now rewrite Hp). destruct (q_array q).
  - unfold open_array, array_body. rewrite joined_eq. destruct (entries_of told); [reflexivity|]. unfold OPEN. now rewrite app_nil_r, <- app_assoc.
  - induction told as [|l told IH]; [reflexivity|]. cbn [flat_map]. rewrite IH. f_equal. destruct l; cbn [line_text line_of]; [apply text_eq|reflexivity].
Qed.
Lemma closed_eq told : body_of p aJ bJ tJ told ++ closing p (entries_of told) = if q_array q then array_body q aJ bJ true (entries_of told) else flat_map (line_of q aJ bJ tJ) told.
Proof.
  rewrite body_eq. unfold closing. assert (p_array p = q_array q) as -> by (now rewrite Hp). destruct (q_array q); [|now rewrite app_nil_r].
  unfold array_body. destruct (entries_of told); [reflexivity|]. rewrite app_nil_r. unfold CLOSE. cbn [app]. rewrite <- !app_assoc. cbn [app]. reflexivity.
Qed.

Variable size : N.
Variable L : list (Z * E).
Hypothesis Hpos : Forall (fun x => 0 <= fst x)%Z L.
Hypothesis Hsort : StronglySorted Z.lt (map fst L).
Variable begin n : N.
Variables (tr : list (ev E * bool)) (sk se extra : list (idxts * E)) (told : list (line E)).
Hypothesis Hs : sound p now aJ bJ tr sk se extra told.
Hypothesis Hdel : delivered tr = filter (in_idx_range begin n) (numbered L).
Hypothesis Hidx : q_tail q <> None \/ q_i q = None \/ time_bound q = false -> forall i, (begin <= i)%N -> sel_idx q size i = true.
Hypothesis Htail : q_tail q = None -> p_tail p = 0%N.

Lemma all_in x : In x (sk ++ se ++ extra) -> In x (numbered L) /\ (begin <= fst (fst x))%N /\ (0 <= snd (fst x))%Z.
Proof using Hs Hdel Hpos.
  rewrite <- (o_del _ _ _ _ _ _ _ _ _ Hs), Hdel. intros H. apply filter_In in H as [H1 H2]. split; [exact H1|]. split; [unfold in_idx_range in H2; apply andb_true_iff in H2 as [H2 _]; now apply N.leb_le|].
  destruct x as [[i t] e]. apply numbered_in in H1. apply nth_error_In in H1. rewrite Forall_forall in Hpos. exact (Hpos _ H1).
Qed.

Lemma sk_unselected : time_bound q = false \/ (q_tail q = None /\ q_i q = None) -> Forall (fun x => selected q now size x = false) sk.
Proof.
  intros Hc. pose proof (init_serving q now Hsane (p_tail p)) as Hi. rewrite <- Hp in Hi. destruct (time_bound q) eqn:Eb; cbn [negb] in Hi.
  - destruct Hc as [|[Hc1 Hc2]]; [discriminate|]. pose proof (o_skip _ _ _ _ _ _ _ _ _ Hs) as H. rewrite Forall_forall in H |- *. intros x Hx. destruct (H x Hx) as (last & r & _ & H2).
    destruct (all_in x) as (_ & _ & Hx0); [apply in_or_app; now left|]. rewrite selected_split. rewrite (init_from q now Hsane (p_tail p)) by exact Hx0. rewrite <- Hp, Eb. cbn [negb orb].
    unfold starts, start in H2. rewrite Htail in H2 by exact Hc1. assert (p_i p = 0%N) as Hpi by (rewrite Hp; cbn; now rewrite Hc2). rewrite Hpi in H2. cbn in H2.
    change (N.leb 0 (fst (fst x))) with (N.leb 0 (fst (fst x))) in H2. destruct (N.leb_spec 0 (fst (fst x))) as [_|]; [|lia]. cbn in H2. apply orb_false_iff in H2 as [_ H2]. unfold init in H2.
    rewrite Hp in H2. rewrite Hp. cbn in H2 |- *. rewrite H2. apply andb_false_r.
  - rewrite (o_on _ _ _ _ _ _ _ _ _ Hs) by exact Hi. constructor.
Qed.

Lemma sub_sorted : StronglySorted Z.lt (map (fun x => snd (fst x)) (delivered tr)).
Proof using Hdel Hsort.
  rewrite Hdel, filter_range_length. generalize begin at 1. assert (StronglySorted Z.lt (map fst (firstn (N.to_nat (n - begin)) (skipn (N.to_nat begin) L)))) as H.
  { rewrite <- firstn_map, <- skipn_map. revert Hsort. generalize (map fst L). clear. intros l. generalize (N.to_nat begin), (N.to_nat (n - begin)). intros k j H.
    assert (StronglySorted Z.lt (skipn k l)) as H1. { rewrite <- (firstn_skipn k l) in H. revert H. generalize (firstn k l) as u. induction u as [|x u IH]; cbn; intros H; [exact H|]. inversion H; auto. }
    rewrite <- (firstn_skipn j) in H1. now apply SS_app_l in H1. }
  revert H. generalize (firstn (N.to_nat (n - begin)) (skipn (N.to_nat begin) L)). clear. induction l as [|[t e] l IH]; intros H k; cbn [numbered_from map fst snd]; [constructor|].
  inversion H as [|? ? H1 H2]; subst. constructor; [now apply IH|]. clear -H2. revert k H2. generalize t. induction l as [|[u f] l IH]; intros t' k H2; cbn [numbered_from map]; [constructor|]. inversion H2; subst. constructor; auto.
Qed.

Lemma se_selected : q_tail q <> None \/ q_i q = None \/ time_bound q = false -> Forall (fun x => selected q now size x = true) se.
Proof.
  intros Hc. pose proof (init_serving q now Hsane (p_tail p)) as Hi. rewrite <- Hp in Hi.
  assert (Forall (fun x => sel_time q now (snd (fst x)) = true) se) as Ht.
  { destruct (time_bound q) eqn:Eb; cbn [negb] in Hi.
    - pose proof sub_sorted as Hso. rewrite (o_del _ _ _ _ _ _ _ _ _ Hs), !map_app in Hso.
      assert (Hall : Forall (fun x => (0 <= snd (fst x))%Z) se). { apply Forall_forall. intros x Hx. apply all_in. apply in_or_app. right. apply in_or_app. now left. }
      assert (Hfrom : Forall (fun x => (e_from (init p now) <= snd (fst x))%Z) se).
      { destruct se as [|x0 se0] eqn:Ese; [constructor|]. destruct (o_why _ _ _ _ _ _ _ _ _ Hs) as [Hw|[(t & _ & [_ Hw1] & Hw2)|(x & l & last & r & Hw1 & _ & Hw2)]]; [discriminate|unfold init in Hw; congruence| |].
        - eapply Forall_impl; [|exact Hw2]. intros y Hy; apply Z.lt_le_incl; eapply Z.le_lt_trans; [exact Hw1|exact Hy].
        - injection Hw1 as <- <-. unfold starts, start in Hw2. apply andb_true_iff in Hw2 as [_ Hw2].
          assert (Hx0 : (e_from (init p now) <= snd (fst x0))%Z). { apply orb_true_iff in Hw2 as [Hw2|Hw2]; [apply Z.eqb_eq in Hw2; rewrite Hw2; inversion Hall; assumption|now apply Z.leb_le]. }
          constructor; [exact Hx0|]. clear -Hso Hx0. rewrite app_assoc in Hso. apply SS_app_l in Hso. revert Hso. generalize (map (fun x => snd (fst x)) sk) as u. induction u as [|y u IH]; cbn; intros H.
          + inversion H as [|? ? _ H2]; subst. rewrite Forall_map in H2. eapply Forall_impl; [|exact H2]. intros z Hz; apply Z.lt_le_incl; eapply Z.le_lt_trans; [exact Hx0|exact Hz].
          + inversion H; auto. }
      rewrite Forall_forall in Hall, Hfrom |- *. intros x Hx. rewrite (init_from q now Hsane (p_tail p)) by (now apply Hall). rewrite Eb. cbn [negb orb]. apply Z.leb_le. specialize (Hfrom x Hx). unfold init in Hfrom. now rewrite <- Hp.
    - apply Forall_forall. intros x Hx. destruct (all_in x) as (_ & _ & Hx0); [apply in_or_app; right; apply in_or_app; now left|]. rewrite (init_from q now Hsane (p_tail p)) by exact Hx0. now rewrite Eb. }
  rewrite Forall_forall in Ht |- *. intros x Hx. rewrite selected_split, (Ht x Hx), andb_true_r. apply Hidx; [exact Hc|]. apply all_in. apply in_or_app. right. apply in_or_app. now left.
Qed.

(** The entries sent are those selected among the first ones of the log. *)
Lemma se_range : exists lo hi, se = filter (in_idx_range lo hi) (numbered L).
Proof.
  pose proof (o_del _ _ _ _ _ _ _ _ _ Hs) as H. rewrite Hdel in H. pose proof (range_suffix L begin n sk _ H) as H1. symmetry in H1. apply range_prefix in H1. eauto.
Qed.
Lemma se_filter : time_bound q = false \/ (q_tail q = None /\ q_i q = None) -> (forall x, In x (numbered L) -> (fst (fst x) < begin)%N -> selected q now size x = false) ->
  exists hi, se = filter (selected q now size) (filter (in_idx_range 0 hi) (numbered L)) /\ (forall x, In x (sk ++ se) -> fst (fst x) < hi)%N /\ (begin <= hi)%N.
Proof.
  intros Hc Hbeg. pose proof (o_del _ _ _ _ _ _ _ _ _ Hs) as H. rewrite Hdel, app_assoc in H. apply range_prefix in H. set (hi := (begin + _)%N) in H. exists hi. split; [|split; [intros x Hx; rewrite H in Hx; apply filter_In in Hx as [_ Hx]; unfold in_idx_range in Hx; apply andb_true_iff in Hx as [_ Hx]; now apply N.ltb_lt|unfold hi; lia]].
  rewrite (range_cat L 0 begin hi) by (unfold hi; lia). rewrite <- H, !filter_app.
  rewrite (filter_none _ (filter (in_idx_range 0 begin) (numbered L))).
  - rewrite (filter_none _ sk) by (now apply sk_unselected). rewrite filter_all; [reflexivity|]. apply se_selected. destruct Hc as [Hc|[Hc1 Hc2]]; auto.
  - apply Forall_forall. intros x Hx. apply filter_In in Hx as [Hx1 Hx2]. apply Hbeg; [exact Hx1|]. unfold in_idx_range in Hx2. lia.
Qed.
End T.
