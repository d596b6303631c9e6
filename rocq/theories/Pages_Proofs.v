(** Proofs about pages of a collection. *)
From Coq Require Import List NArith Arith Lia Bool.
From Verif Require Import Pages_Model Pages_Spec.
Import ListNotations.
Open Scope N_scope.

Lemma u64_id x : x < two64 -> u64 x = x.
Proof. apply N.mod_small. Qed.

Section Proofs.
  Context {E : Type}.

  (** the loop, from an entry number not past the end of the page *)
  Lemma page_loop_spec (l : list E) : forall i n index prev, i + n < two64 -> index + N.of_nat (length l) < two64 ->
    index <= i + n ->
    page_loop i n l index prev =
    (window l (N.to_nat (i - index)) (N.to_nat (i + n - N.max i index)),
     prev || ((index <? i) && (0 <? N.of_nat (length l))), i + n <? index + N.of_nat (length l)).
  Proof.
    induction l as [|e l IH]; intros i n index prev Hin Hlen Hle.
    - cbn [page_loop length]. unfold window. rewrite skipn_nil, firstn_nil. change (N.of_nat 0) with 0.
      replace (0 <? 0) with false by reflexivity. rewrite andb_false_r, orb_false_r.
      f_equal. symmetry. apply N.ltb_ge. lia.
    - cbn [page_loop length] in *. rewrite Nat2N.inj_succ in *. rewrite (u64_id (i + n)) by lia.
      rewrite (u64_id (index + 1)) by lia.
      assert (Hl0 : 0 <? N.succ (N.of_nat (length l)) = true) by (apply N.ltb_lt; lia). rewrite Hl0, andb_true_r.
      destruct (N.leb_spec i index) as [Hi|Hi]; [destruct (N.ltb_spec index (i + n)) as [Hx|Hx]|]; cbn [andb].
      + rewrite IH by lia. unfold window.
        replace (N.to_nat (i - index)) with O by lia. replace (N.to_nat (i - (index + 1))) with O by lia.
        replace (N.to_nat (i + n - N.max i index)) with (S (N.to_nat (i + n - N.max i (index + 1)))) by lia.
        cbn [skipn firstn]. f_equal; [f_equal|].
        * rewrite (proj2 (N.ltb_ge (index + 1) i)), (proj2 (N.ltb_ge index i)) by lia. reflexivity.
        * f_equal. lia.
      + rewrite (proj2 (N.ltb_ge index i)) by lia. rewrite (proj2 (N.leb_le (i + n) index)) by lia.
        unfold window. replace (N.to_nat (i + n - N.max i index)) with O by lia. cbn [firstn].
        rewrite orb_false_r. f_equal. symmetry. apply N.ltb_lt. lia.
      + rewrite (proj2 (N.ltb_lt index i)) by lia. rewrite IH by lia. unfold window.
        replace (N.to_nat (i - index)) with (S (N.to_nat (i - (index + 1)))) by lia. cbn [skipn].
        replace (N.max i (index + 1)) with (N.max i index) by lia. rewrite orb_true_r. cbn [orb].
        f_equal. f_equal. lia.
  Qed.

  (** What a request for a page returns when nothing overflows. *)
  Lemma build_page_spec (max : N) (l : list E) (i n : N) : let total := N.of_nat (length l) in
    n <= max -> i + n < two64 -> total + 2 * n < two64 ->
    let i' := N.min i total in
    build_page max l i n = Some (Page i' (N.min n (total - i')) total (i', n)
      (if (0 <? i) && (0 <? total) then Some (i' - n, n) else None)
      (if i + n <? total then Some (N.min (i + n) (total - n), n) else None)
      (window l (N.to_nat i') (N.to_nat n))).
  Proof.
    intros total Hmax Hin Htot i'. unfold build_page. rewrite (proj2 (N.ltb_ge max n)) by lia.
    fold total. rewrite page_loop_spec by (change (N.of_nat (length l)) with total; lia). change (N.of_nat (length l)) with total.
    cbn [orb]. rewrite N.sub_0_r, N.add_0_l.
    replace (N.max i 0) with i by lia. replace (i + n - i) with n by lia.
    assert (Ei : (if total <? i then total else i) = i').
    { unfold i'. destruct (N.ltb_spec total i); lia. }
    rewrite Ei. f_equal. f_equal.
    - destruct ((0 <? i) && (0 <? total)); [|reflexivity]. f_equal. f_equal.
      destruct (N.leb_spec n i'); lia.
    - destruct (N.ltb_spec (i + n) total) as [Hx|Hx]; [|reflexivity]. f_equal. f_equal.
      assert (i' = i) as -> by lia. rewrite (u64_id (n * 2)), (u64_id (i + n * 2)), (u64_id (i + n)) by lia.
      destruct (N.ltb_spec total (i + n * 2)); [|lia].
      replace (total + two64 - n) with (total - n + 1 * two64) by lia. unfold u64. rewrite N.mod_add by (unfold two64; lia).
      fold (u64 (total - n)). rewrite u64_id by lia. lia.
    - destruct (N.leb_spec i total) as [Hx|Hx]; [unfold i'; now rewrite N.min_l by lia|].
      unfold window. rewrite !skipn_all2 by lia. reflexivity.
  Qed.

  Lemma firstn_window (l : list E) i j m : (j <= i)%nat -> firstn j (firstn i l) ++ window l j m = firstn (j + m) l.
  Proof.
    intros Hji. unfold window. rewrite firstn_firstn, Nat.min_l by lia.
    rewrite <- (firstn_skipn j l) at 3. rewrite firstn_app.
    destruct (Nat.le_gt_cases j (length l)) as [Hl|Hl].
    - rewrite firstn_length, Nat.min_l by lia. rewrite (firstn_all2 (firstn j l)) by (rewrite firstn_length; lia).
      do 2 f_equal. lia.
    - rewrite (skipn_all2 l) by lia. rewrite !firstn_nil, !app_nil_r.
      rewrite (firstn_all2 (firstn j l)); [reflexivity|]. rewrite firstn_length. lia.
  Qed.
End Proofs.
