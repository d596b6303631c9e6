(** Property C68: pages of a collection. *)
From Coq Require Import List NArith Arith Lia Bool.
From Verif Require Import Pages_Model Pages_Spec Pages_Proofs.
Import ListNotations.
Open Scope N_scope.

Section Props.
  Context {E : Type} (max : N) (l : list E).
  Notation total := (N.of_nat (length l)).

  (** C68. A page of [n] entries from number [i] on holds exactly those entries, in
      order; it says where it begins, how many there are in it and in all; it refers
      to a previous page unless it begins the collection, and to a next page exactly
      when there are entries after it. *)
  Theorem C68_page_partial (i n : N) : n <= max -> i + n < two64 -> total + 2 * n < two64 -> i <= total ->
    exists p, build_page max l i n = Some p /\
      pg_data p = window l (N.to_nat i) (N.to_nat n) /\ pg_i p = i /\ pg_total p = total /\
      pg_n p = N.of_nat (length (pg_data p)) /\ pg_n p <= n /\
      (pg_previous p = None <-> i = 0) /\ (pg_next p = None <-> total <= i + n).
  Proof.
    intros Hmax Hin Htot Hi. rewrite build_page_spec by assumption. eexists. split; [reflexivity|]. cbn.
    rewrite (N.min_l i total) by lia. unfold window. rewrite firstn_length, skipn_length.
    repeat split; try lia.
    - destruct (N.ltb_spec 0 i), (N.ltb_spec 0 total); cbn; intros; try congruence; lia.
    - intros ->. reflexivity.
    - destruct (N.ltb_spec (i + n) total); [discriminate|lia].
    - destruct (N.ltb_spec (i + n) total); [lia|reflexivity].
  Qed.

  Lemma walk_next_from (n : N) : 1 <= n -> n <= max -> total + 2 * n < two64 ->
    forall k (i : N), i < total \/ i = 0 -> total - i <= N.of_nat k * n -> (1 <= k)%nat ->
    exists ps, walk pg_next (build_page max l) i n ps /\ (length ps <= k)%nat /\
      (forall seen, length seen = N.to_nat i -> seen = firstn (N.to_nat i) l ->
        fold_left (fun seen p => firstn (N.to_nat (pg_i p)) seen ++ pg_data p) ps seen = l) /\
      Forall (fun p => N.of_nat (length (pg_data p)) <= n) ps.
  Proof.
    intros Hn Hmax Htot. induction k as [|k IH]; intros i Hi Hk Hk1; [lia|].
    pose proof (build_page_spec max l i n Hmax ltac:(lia) Htot) as Hp. cbn zeta in Hp.
    rewrite (N.min_l i total) in Hp by lia.
    destruct (N.ltb_spec (i + n) total) as [Hx|Hx].
    - destruct (IH (N.min (i + n) (total - n))) as (ps & Hw & Hl & Hc & Hf); [lia| |destruct k; [change (N.of_nat 1) with 1 in Hk; lia|lia]|].
      { destruct k as [|k]; [change (N.of_nat 1) with 1 in Hk; lia|]. rewrite !Nat2N.inj_succ in *. nia. }
      eexists (_ :: ps). split; [eapply walk_step; [exact Hp|reflexivity|exact Hw]|]. split; [cbn; lia|]. split.
      + intros seen Hlen ->. cbn [fold_left pg_i pg_data]. rewrite firstn_window by lia.
        set (j := N.min (i + n) (total - n)) in *.
        assert (Hj : exists p ps', ps = p :: ps' /\ pg_i p = j).
        { assert (Hpj : build_page max l j n = Some (match build_page max l j n with Some p => p | None => Page 0 0 0 (0,0) None None [] end) /\
            pg_i (match build_page max l j n with Some p => p | None => Page 0 0 0 (0,0) None None [] end) = j).
          { rewrite (build_page_spec max l j n Hmax ltac:(lia) Htot). cbn. split; [reflexivity|lia]. }
          destruct Hpj as [Hpj Hpi]. inversion Hw as [? ? p E1|? ? p ? ? ps' E1]; subst; rewrite Hpj in E1; injection E1 as <-; eauto. }
        destruct Hj as (p & ps' & -> & Ej). specialize (Hc (firstn (N.to_nat j) l)).
        rewrite firstn_length in Hc. specialize (Hc ltac:(lia) eq_refl). cbn [fold_left] in *. rewrite Ej in *.
        rewrite firstn_firstn, Nat.min_id in Hc. rewrite firstn_firstn.
        rewrite Nat.min_l by lia. exact Hc.
      + constructor; [|exact Hf]. cbn. unfold window. rewrite firstn_length, skipn_length. lia.
    - eexists [_]. split; [eapply walk_end; [exact Hp|reflexivity]|]. split; [cbn; lia|]. split.
      + intros seen Hlen ->. cbn [fold_left pg_i pg_data]. rewrite firstn_window by lia. apply firstn_all2. lia.
      + constructor; [|constructor]. cbn. unfold window. rewrite firstn_length, skipn_length. lia.
  Qed.

  Lemma walk_unique next get i n (ps ps' : list (page E)) : walk next get i n ps -> walk next get i n ps' -> ps = ps'.
  Proof.
    intros H. revert ps'. induction H as [i n p Hg Hn|i n p i' n' ps Hg Hn Hw IH]; intros ps' H'.
    - inversion H' as [? ? p' Hg' Hn'|? ? p' ? ? ? Hg' Hn']; subst; rewrite Hg in Hg'; injection Hg' as <-; congruence.
    - inversion H' as [? ? p' Hg' Hn'|? ? p' ? ? ps2 Hg' Hn' Hw']; subst; rewrite Hg in Hg'; injection Hg' as <-; [congruence|].
      rewrite Hn in Hn'. injection Hn' as <- <-. f_equal. now apply IH.
  Qed.

  (** C68. Following [url_next_page] from the first page ends, after at most
      [1 + (total - 1) / n] pages, and a client that puts the pages together where they say they
      begin has the whole collection: every entry, once, in order. *)
  Theorem C68_next_pages_cover_partial (n : N) : 1 <= n -> n <= max -> total + 2 * n < two64 ->
    exists ps, walk pg_next (build_page max l) 0 n ps /\
      collect ps = l /\ Forall (fun p => N.of_nat (length (pg_data p)) <= n) ps /\
      N.of_nat (length ps) <= 1 + (total - 1) / n.
  Proof.
    intros Hn Hmax Htot.
    destruct (walk_next_from n Hn Hmax Htot (N.to_nat (1 + (total - 1) / n)) 0) as (ps & Hw & Hl & Hc & Hf); [now right| |rewrite N2Nat.inj_add; apply Nat.le_add_r|].
    - rewrite N2Nat.id. pose proof (N.div_mod (total - 1) n ltac:(lia)). pose proof (N.mod_lt (total - 1) n ltac:(lia)). nia.
    - exists ps. split; [exact Hw|]. split; [apply Hc; reflexivity|]. split; [exact Hf|]. revert Hl. generalize ((total - 1) / n). clear. intros q. lia.
  Qed.

  (** C68. Following [url_previous_page] from anywhere ends at the first page. *)
  Theorem C68_previous_pages_reach_the_first_partial (i n : N) : 1 <= n -> n <= max -> i + n < two64 -> total + 2 * n < two64 ->
    exists ps p, walk pg_previous (build_page max l) i n (ps ++ [p]) /\ pg_i p = 0 /\
      pg_data p = window l 0 (N.to_nat n) /\ pg_previous p = None.
  Proof.
    intros Hn Hmax Hin Htot. remember (N.to_nat i) as k eqn:Ek. revert i Hin Ek.
    induction k as [k IH] using lt_wf_ind; intros i Hin Ek.
    pose proof (build_page_spec max l i n Hmax Hin Htot) as Hp. cbn zeta in Hp.
    destruct ((0 <? i) && (0 <? total)) eqn:Eb.
    - apply andb_true_iff in Eb as [Hi0%N.ltb_lt Ht0%N.ltb_lt].
      destruct (IH (N.to_nat (N.min i total - n)) ltac:(lia) (N.min i total - n) ltac:(lia) eq_refl) as (ps & p & Hw & H).
      eexists (_ :: ps), p. split; [cbn; eapply walk_step; [exact Hp|reflexivity|exact Hw]|exact H].
    - assert (Hi0 : N.min i total = 0).
      { apply andb_false_iff in Eb as [?%N.ltb_ge|?%N.ltb_ge]; lia. }
      rewrite Hi0 in Hp.
      eexists [], _. split; [cbn; eapply walk_end; [exact Hp|reflexivity]|]. cbn. auto.
  Qed.
End Props.

(** Cases that meet the hypotheses: seven entries by three; the last page overlaps. *)
Definition px : list nat := [1; 2; 3; 4; 5; 6; 7]%nat.
Example C68_example : let get := build_page 100 px in
  exists p0 p1 p2, walk pg_next get 0 3 [p0; p1; p2] /\
    pg_data p0 = [1; 2; 3]%nat /\ pg_data p1 = [4; 5; 6]%nat /\ pg_data p2 = [5; 6; 7]%nat /\ collect [p0; p1; p2] = px.
Proof.
  intros get. eexists _, _, _. split.
  - eapply walk_step; [reflexivity|reflexivity|]. eapply walk_step; [reflexivity|reflexivity|].
    eapply walk_end; reflexivity.
  - repeat split; reflexivity.
Qed.

(** The hypothesis [1 <= n] is needed: with [n=0] (or an [n] that is not a number) every
    page is empty and the next page is the same page: the walk never ends. *)
Theorem C68_zero_page_size_refuted :
  ~ (forall (max : N) (l : list nat) n, n <= max -> N.of_nat (length l) + 2 * n < two64 ->
       exists ps, walk pg_next (build_page max l) 0 n ps).
Proof.
  intros H. destruct (H 100 px 0) as [ps Hw]; [lia|unfold two64; cbn; lia|].
  remember 0 as i eqn:Ei in Hw at 1. remember 0 as n eqn:En in Hw.
  induction Hw as [i n p Hg Hn|i n p i' n' ps Hg Hn Hw IH]; subst; vm_compute in Hg; injection Hg as <-.
  - discriminate.
  - injection Hn as <- <-. now apply IH.
Qed.

(** So is the bound on [i + n]: a page asked for with [i=1] and a great [n] is empty
    although there are entries from number 1 on. *)
Theorem C68_page_overflow_refuted :
  ~ (forall (max : N) (l : list nat) i n p, n <= max -> i < two64 -> n < two64 ->
       build_page max l i n = Some p -> pg_data p = window l (N.to_nat i) (N.to_nat n)).
Proof.
  intros H.
  assert (Hc : match build_page two64 px 1 (two64 - 1) with Some p => pg_data p | None => [1%nat] end = []) by (vm_compute; reflexivity).
  destruct (build_page two64 px 1 (two64 - 1)) as [p|] eqn:Ep; [|discriminate].
  specialize (H two64 px 1 (two64 - 1) p ltac:(unfold two64; lia) ltac:(unfold two64; lia) ltac:(unfold two64; lia) Ep).
  assert (Hm : (1 <= N.to_nat (two64 - 1))%nat) by (unfold two64; lia). clear Ep.
  revert H Hm. rewrite Hc. generalize (N.to_nat (two64 - 1)). intros m H Hm.
  destruct m as [|m]; [lia|discriminate H].
Qed.

(** Pages are numbered, not anchored to entries: when an entry is deleted between two
    requests, a client that follows [url_next_page] never sees an entry that was in the
    collection all the time. *)
Theorem C68_deletion_between_pages_refuted :
  ~ (forall (l l' : list nat) n p i' n' p' e, 1 <= n -> n <= 100 ->
       build_page 100 l 0 n = Some p -> pg_next p = Some (i', n') -> build_page 100 l' i' n' = Some p' ->
       pg_next p' = None -> In e l -> In e l' -> In e (pg_data p) \/ In e (pg_data p')).
Proof.
  intros H.
  destruct (H [1; 2; 3; 4]%nat [1; 3; 4]%nat 2 (Page 0 2 4 (0, 2) None (Some (2, 2)) [1; 2]%nat) 2 2
    (Page 2 1 3 (2, 2) (Some (0, 2)) None [4]%nat) 3%nat); try lia; try reflexivity; cbn in *; intuition lia.
Qed.

Print Assumptions C68_page_partial.
Print Assumptions C68_next_pages_cover_partial.
Print Assumptions C68_previous_pages_reach_the_first_partial.
Print Assumptions C68_zero_page_size_refuted.
Print Assumptions C68_page_overflow_refuted.
Print Assumptions C68_deletion_between_pages_refuted.
