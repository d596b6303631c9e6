(** Where the subscription begins, and which entries are sent. *)
From Coq Require Import String Sorted.
From Verif Require Import Base Persister_Model Persister_Spec Persister_Proofs Stream_Model Stream_Spec Stream_Proofs Stream_Proofs2 Stream_Props Replicator_Model Replicator_Spec PubSub_Model PubSub_Spec PubSub_Proofs PubSub_Proofs2 PubSub_Proofs3.
Local Open Scope list_scope.

Section Q.
Context {E : Type}.
Variable q : query.
Variable now : Z.
Hypothesis Hsane : sane q now.
Variable size : N.

Local Notation time_bound := (PubSub_Spec.time_bound q).
Definition sel_idx (i : N) : bool := required (q_i q) (fun k => N.leb k i) && required (q_tail q) (fun t => N.leb (size - t) i).
Definition sel_time (us : Z) : bool := required (q_since q) (fun s => Z.leb (Z.of_N s) us) && required (q_recent q) (fun r => Z.leb (now - Z.of_N r) us).
Lemma selected_split (x : idxts * E) : selected q now size x = sel_idx (fst (fst x)) && sel_time (snd (fst x)).
Proof. unfold selected, sel_idx, sel_time. now rewrite !andb_assoc. Qed.

Lemma init_serving t : e_serving (ep_init (with_tail (parse_params q) t) now) = negb time_bound.
Proof.
  destruct Hsane as (H1 & _ & _ & H4 & _). unfold time_bound. cbn. destruct (q_recent q) as [r|], (q_since q) as [s|]; cbn.
  - destruct H4; discriminate.
  - destruct (Z.ltb_spec 0 (Z.of_N r)); [reflexivity|]. exfalso. apply H1. f_equal. lia.
  - destruct (N.eqb_spec s 0), (Z.ltb_spec 0 (Z.of_N s)); try reflexivity; lia.
  - reflexivity.
Qed.
Lemma init_from t us : (0 <= us)%Z -> sel_time us = (negb time_bound || Z.leb (e_from (ep_init (with_tail (parse_params q) t) now)) us).
Proof.
  intros Hus. destruct Hsane as (H1 & _ & _ & H4 & _). unfold time_bound, sel_time. cbn. destruct (q_recent q) as [r|], (q_since q) as [s|]; cbn.
  - destruct H4; discriminate.
  - destruct (Z.ltb_spec 0 (Z.of_N r)); [reflexivity|]. exfalso. apply H1. f_equal. lia.
  - rewrite andb_true_r. destruct (N.eqb_spec s 0), (Z.ltb_spec 0 (Z.of_N s)); try lia; try reflexivity; subst; cbn; destruct (Z.leb_spec 0 us); (reflexivity || lia).
  - reflexivity.
Qed.
Lemma init_from_pos t : (0 <= e_from (ep_init (with_tail (parse_params q) t) now))%Z.
Proof.
  destruct Hsane as (H1 & _ & _ & H4 & _ & H6). cbn. destruct (q_recent q) as [r|] eqn:Er, (q_since q) as [s|]; cbn;
  repeat match goal with |- context [Z.ltb ?a ?b] => destruct (Z.ltb_spec a b) end; try lia; specialize (H6 r eq_refl); lia.
Qed.

Lemma numbered_in (l : list (Z * E)) i t e : In ((i, t), e) (numbered l) <-> nth_error l (N.to_nat i) = Some (t, e).
Proof.
  unfold numbered. assert (forall l k, In ((i, t), e) (numbered_from k l) <-> (k <= i)%N /\ nth_error l (N.to_nat (i - k)) = Some (t, e)) as H.
  { clear l. induction l as [|[t' e'] l IH]; intros k; cbn [numbered_from In].
    - split; [easy|]. intros [_ A]. destruct (N.to_nat (i - k)); discriminate.
    - rewrite IH. split.
      + intros [[= -> -> ->]|[A B]].
        * split; [lia|]. now replace (N.to_nat (i - i)) with 0 by lia.
        * split; [lia|]. replace (N.to_nat (i - k)) with (S (N.to_nat (i - (k + 1)))) by lia. exact B.
      + intros [A B]. destruct (N.eq_dec k i) as [->|Hn].
        * left. replace (N.to_nat (i - i)) with 0 in B by lia. injection B as -> ->. reflexivity.
        * right. split; [lia|]. replace (N.to_nat (i - k)) with (S (N.to_nat (i - (k + 1)))) in B by lia. exact B. }
  rewrite H. rewrite N.sub_0_r. split; [easy|]. intros A. split; [lia|exact A].
Qed.

Variable m : mp E.
Hypothesis Hm : mp_inv m.
Hypothesis Hsize : (size <= mp_size m < npos)%N.
Variable L : list (Z * E).
Hypothesis HL : exists more, L = mp_entries m ++ more.
Hypothesis Hpos : Forall (fun x => 0 <= fst x)%Z L.

Lemma first_by_time from i t e : In ((i, t), e) (numbered L) -> (i < N.min (fst (mp_index_range m from 0)) size)%N -> (t < from)%Z.
Proof.
  intros Hin Hi. apply numbered_in in Hin. destruct HL as [more ->].
  assert (Hn : nth_error (mp_entries m) (N.to_nat i) = Some (t, e)). { rewrite nth_error_app1 in Hin; [exact Hin|]. unfold mp_size in Hsize. lia. }
  assert (Hd : mp_deref m i = Some ((i, t), e)) by (unfold mp_deref; now rewrite Hn).
  destruct (mp_index_range_spec m from 0 Hm ltac:(lia)) as [[[_ A]|(t' & e' & _ & _ & A)] _].
  - now apply (A i t e).
  - apply (A i t e); [exact Hd|lia].
Qed.

Lemma serve_facts begin from p : serve size m now (parse_params q) = Subscribed begin from p ->
  p = with_tail (parse_params q) (p_tail p) /\
  (forall x, In x (numbered L) -> (fst (fst x) < begin)%N -> selected q now size x = false) /\
  (q_tail q <> None \/ q_i q = None \/ time_bound = false -> forall i, (begin <= i)%N -> sel_idx i = true) /\
  (0 <= from)%Z /\ (q_nowait q = true -> begin < size)%N /\
  (q_tail q = None -> p_tail p = 0%N) /\ (forall t, q_tail q = Some t -> t <> 0%N -> p_tail p = t) /\
  (q_tail q = None -> time_bound = true -> from = e_from (ep_init p now)) /\ (begin <= size \/ time_bound = false /\ q_i q = Some begin \/ q_tail q <> None /\ q_i q = Some begin)%N.
Proof.
  intros H. destruct Hsane as (H1 & H2 & H3 & H4 & H5 & H6). unfold serve in H. cbn [parse_params p_tail p_recent p_since p_i p_nowait with_tail] in H.
  destruct (q_tail q) as [t|] eqn:Et.
  - (* tail *)
    assert (Htb : (match t with 0%N => npos | _ => t end) <> 0%N) by (destruct t; discriminate). cbn [or0] in H.
    assert (Ht : match t with 0%N => npos | N.pos _ => t end = match t with 0%N => npos | _ => t end) by reflexivity.
    destruct (N.eqb_spec (match t with 0%N => npos | N.pos _ => t end) 0); [contradiction|]. cbn [negb andb] in H.
    change (Z.ltb 0 0) with false in H. cbv iota in H.
    destruct (N.eq_dec t 0) as [->|Hn0].
    + rewrite N.eqb_refl in H. destruct (q_nowait q && N.leb size size) eqn:En; [discriminate|]. injection H as <- <- <-.
      assert (q_i q = None) as Hi by auto.
      split; [reflexivity|]. split; [|split; [|split; [lia|split; [|split; [discriminate|split; [intros t [= <-]; easy|split; [discriminate|left; lia]]]]]]].
      * intros x _ Hx. rewrite selected_split. unfold sel_idx. rewrite Et, Hi. cbn [required]. destruct (N.leb_spec (size - 0) (fst (fst x))); [lia|reflexivity].
      * intros _ i Hi'. unfold sel_idx. rewrite Et, Hi. cbn [required]. destruct (N.leb_spec (size - 0) i); [reflexivity|lia].
      * intros Hnw. rewrite Hnw in En. cbn in En. apply N.leb_gt in En. lia.
    + assert (Hm' : match t with 0%N => npos | N.pos _ => t end = t) by (destruct t; [contradiction|reflexivity]). rewrite Hm' in *.
      destruct (N.eqb_spec t npos) as [->|Hnp]; [contradiction|].
      set (b0 := N.max (or0 (q_i q)) (if N.ltb t size then size - t else 0)%N) in *.
      destruct (q_nowait q && N.leb size b0) eqn:En; [discriminate|]. injection H as <- <- <-.
      assert (Hb : forall i, sel_idx i = N.leb b0 i).
      { intros i. unfold sel_idx, b0. rewrite Et. cbn [required]. destruct (q_i q) as [k|]; cbn [required or0].
        - destruct (N.leb_spec k i), (N.leb_spec (size - t) i), (N.ltb_spec t size); cbn [andb]; symmetry; (apply N.leb_le || apply N.leb_gt); lia.
        - cbn [andb]. destruct (N.leb_spec (size - t) i), (N.ltb_spec t size); symmetry; (apply N.leb_le || apply N.leb_gt); lia. }
      split; [reflexivity|]. split; [|split; [|split; [lia|split; [|split; [discriminate|split; [intros t' [= <-]; reflexivity|split; [discriminate|]]]]]]].
      * intros x _ Hx. rewrite selected_split, Hb. destruct (N.leb_spec b0 (fst (fst x))); [lia|reflexivity].
      * intros _ i Hi'. rewrite Hb. now apply N.leb_le.
      * intros Hnw. rewrite Hnw in En. cbn in En. apply N.leb_gt in En. lia.
      * unfold b0. destruct (q_i q) as [k|]; cbn [or0]; destruct (N.ltb_spec t size).
        -- destruct (N.max_spec k (size - t)) as [[? ->]|[? ->]]; [left; lia|right; right; split; [discriminate|reflexivity]].
        -- rewrite N.max_0_r. right. right. split; [discriminate|reflexivity].
        -- left. lia.
        -- left. lia.
  - (* no tail *)
    change (N.eqb 0 0) with true in H. cbn [negb andb] in H.
    assert (Hself : p = with_tail (parse_params q) 0 /\ (q_nowait q && N.leb size begin = false)).
    { match goal with [ H : (if ?c then NoContent else _) = _ |- _ ] => destruct c eqn:En; [discriminate|] end. injection H as <- <- <-. auto. }
    destruct Hself as [Hself Hnw0].
    assert (Hnw : q_nowait q = true -> (begin < size)%N). { intros Hw. rewrite Hw in Hnw0. now apply N.leb_gt in Hnw0. }
    pose proof (init_from_pos 0) as Hfp. rewrite <- Hself in Hfp.
    assert (Hidx : q_i q = None \/ time_bound = false /\ begin = or0 (q_i q) -> forall i, (begin <= i)%N -> sel_idx i = true).
    { intros Hc i Hi. unfold sel_idx. rewrite Et. cbn [required]. rewrite andb_true_r. destruct (q_i q) as [k|]; [|reflexivity]. cbn [required or0] in *. destruct Hc as [|[_ ->]]; [discriminate|]. now apply N.leb_le. }
    destruct time_bound eqn:Eb.
    + assert (Hbf : from = e_from (ep_init p now) /\ begin = if Z.ltb 0 from then N.min (fst (mp_index_range m from 0)) size else 0%N).
      { subst p. unfold time_bound in Eb. cbn [with_tail parse_params ep_init p_recent p_since e_from]. destruct (q_recent q) as [r|] eqn:Er.
        - assert (Hr : (0 < Z.of_N r)%Z) by (destruct r; [now destruct H1|reflexivity]). cbn [or0] in *. destruct (Z.ltb_spec 0 (Z.of_N r)); [|lia]. cbn [orb] in H.
          match goal with [ H : (if ?c then NoContent else _) = _ |- _ ] => destruct c eqn:En; [discriminate|] end. injection H as <- <-. split; [reflexivity|]. destruct (Z.ltb 0 (now - Z.of_N r)); [|reflexivity]. apply N.max_0_l.
        - cbn [or0] in *. change (Z.ltb 0 (Z.of_N 0)) with false in *. cbv iota in *. cbn [orb] in *. destruct (q_since q) as [s|]; [|discriminate]. cbn [or0] in *.
          assert (Hr : (0 < Z.of_N s)%Z) by (destruct s; [discriminate|reflexivity]). destruct (Z.ltb_spec 0 (Z.of_N s)) as [Hs|]; [|lia]. pose proof (proj2 (Z.ltb_lt _ _) Hs) as Hs'. rewrite Hs' in H.
          match goal with [ H : (if ?c then NoContent else _) = _ |- _ ] => destruct c eqn:En; [discriminate|] end. injection H as <- <-. rewrite Hs'. split; [reflexivity|]. apply N.max_0_l. }
      destruct Hbf as [Hf Hbg].
      split; [subst p; reflexivity|]. split; [|split; [|split; [lia|split; [exact Hnw|split; [intros _; subst p; reflexivity|split; [discriminate|split; [auto|]]]]]]].
      * intros x Hx Hlt. rewrite selected_split. destruct x as [[i t] e]. cbn [fst snd] in *.
        assert (0 <= t)%Z. { rewrite Forall_forall in Hpos. apply numbered_in in Hx. apply nth_error_In in Hx. exact (Hpos _ Hx). }
        rewrite (init_from 0) by assumption. rewrite Eb, <- Hself, <- Hf. cbn [negb orb].
        destruct (Z.ltb_spec 0 from); [|lia]. rewrite Hbg in Hlt. pose proof (first_by_time from i t e Hx Hlt). destruct (Z.leb_spec from t); [lia|]. apply andb_false_r.
      * intros [Hc|[Hc|Hc]]; [contradiction| |discriminate]. apply Hidx. now left.
      * left. rewrite Hbg. destruct (Z.ltb 0 from); lia.
    + assert (Hbf : from = 0%Z /\ begin = or0 (q_i q)).
      { unfold time_bound in Eb. destruct (q_recent q); [discriminate|]. cbn [or0] in H. change (Z.ltb 0 (Z.of_N 0)) with false in H. cbn [orb] in H. cbv iota in H.
        assert (Z.ltb 0 (Z.of_N (or0 (q_since q))) = false) as Hs. { destruct (q_since q) as [s|]; [|reflexivity]. destruct (N.eqb_spec s 0); [subst; reflexivity|discriminate]. }
        rewrite Hs in H. cbv iota in H. change (Z.ltb 0 0) with false in H. cbv iota in H.
        match goal with [ H : (if ?c then NoContent else _) = _ |- _ ] => destruct c eqn:En; [discriminate|] end. injection H as <- <-. auto. }
      destruct Hbf as [Hf Hbg].
      split; [subst p; reflexivity|]. split; [|split; [|split; [lia|split; [exact Hnw|split; [intros _; subst p; reflexivity|split; [discriminate|split; [discriminate|]]]]]]].
      * intros x Hx Hlt. rewrite selected_split. unfold sel_idx. destruct (q_i q) as [k|]; cbn [or0 required] in *; [|lia]. destruct (N.leb_spec k (fst (fst x))); [lia|reflexivity].
      * intros _. apply Hidx. now right.
      * rewrite Hbg. destruct (q_i q) as [k|]; cbn [or0]; [|left; lia]. right. left. auto.
Qed.
End Q.
