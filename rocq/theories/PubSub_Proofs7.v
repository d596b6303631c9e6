(** Requests with `nowait`, of a stream which is not being published to: the whole answer. *)
From Coq Require Import String Sorted.
From Verif Require Import Base Persister_Model Persister_Spec Persister_Proofs Stream_Model Stream_Spec Stream_Proofs Stream_Proofs2 Stream_Props Replicator_Model Replicator_Spec PubSub_Model PubSub_Spec PubSub_Proofs PubSub_Proofs2 PubSub_Proofs3 PubSub_Proofs4 PubSub_Proofs5 PubSub_Proofs6.
Local Open Scope list_scope.

(** ** The cuts *)
Section Cut.
Context {E : Type}.
Implicit Types (se more : list (idxts * E)).
Variable q : query.
Variable size_of : idxts * E -> N.
Definition sum (l : list (idxts * E)) : N := fold_right (fun x n => size_of x + n)%N 0%N l.

Lemma take_while_app f se more : Forall (fun x => f x = true) se -> take_while f (se ++ more) = se ++ take_while f more.
Proof. induction 1 as [|x l H _ IH]; cbn; [reflexivity|]. now rewrite H, IH. Qed.
Lemma take_bytes_app budget se more : (forall l x, se = l ++ [x] -> sum l < budget)%N -> more = [] \/ (se <> [] /\ budget <= sum se)%N -> take_bytes size_of budget (se ++ more) = se.
Proof.
  revert budget. induction se as [|x se IH]; intros budget H1 H2; cbn [app].
  - destruct H2 as [->|[]]; [reflexivity|congruence].
  - cbn [take_bytes]. destruct (N.leb_spec budget (size_of x)) as [Hle|Hgt].
    + destruct se as [|y se]; [reflexivity|]. exfalso. destruct (list_snoc_cases (y :: se)) as [|(l & z & Hl)]; [discriminate|]. specialize (H1 (x :: l) z). rewrite Hl in H1. specialize (H1 eq_refl). cbn [sum fold_right] in H1. lia.
    + f_equal. destruct se as [|y se].
      * cbn [app]. destruct H2 as [->|[_ H2]]; [reflexivity|]. cbn in H2. lia.
      * apply IH.
        -- intros l z Hl. specialize (H1 (x :: l) z). rewrite Hl in H1. specialize (H1 eq_refl). change (sum (x :: l)) with (size_of x + sum l)%N in H1. lia.
        -- destruct H2 as [H2|[_ H2]]; [now left|]. right. split; [discriminate|]. change (sum (x :: y :: se)) with (size_of x + sum (y :: se))%N in H2. lia.
Qed.

Lemma cut_ok se more :
  (q_n q <> Some 0%N) ->
  (forall d, q_period q = Some d -> d <> 0%N -> forall x y, In x se -> In y se -> (snd (fst y) <= snd (fst x) + Z.of_N d)%Z) ->
  (forall n, q_n q = Some n -> N.of_nat (List.length se) <= n)%N ->
  (forall B, q_bytes q = Some B -> B <> 0%N -> forall l x, se = l ++ [x] -> sum l < B)%N ->
  (more = [] \/ q_n q = Some (N.of_nat (List.length se)) \/ (exists B, q_bytes q = Some B /\ B <> 0%N /\ B <= sum se)%N \/
   (exists d y l x m', q_period q = Some d /\ d <> 0%N /\ se = y :: l /\ more = x :: m' /\ (snd (fst y) + Z.of_N d < snd (fst x))%Z)) ->
  within_bytes q size_of (at_most_n q (within_period q (se ++ more))) = se.
Proof.
  intros Hn0 HP HN HB HR.
  assert (Hse : se = [] -> more = []).
  { intros ->. destruct HR as [->|[HR|[(B & _ & H1 & H2)|(d & y & l & x & m' & _ & _ & HR & _)]]]; [reflexivity|cbn in HR; contradiction|cbn in H2; lia|discriminate]. }
  destruct se as [|y se]; [rewrite Hse by reflexivity; unfold within_bytes, at_most_n, within_period; cbn; destruct (q_period q), (q_n q), (q_bytes q) as [B|]; cbn; rewrite ?firstn_nil; try reflexivity; destruct (N.eqb B 0); rewrite ?firstn_nil; reflexivity|].
  set (s := y :: se) in *.
  assert (exists m1, within_period q (s ++ more) = s ++ m1 /\ (m1 = [] \/ q_n q = Some (N.of_nat (List.length s)) \/ (exists B, q_bytes q = Some B /\ B <> 0%N /\ B <= sum s)%N)) as (m1 & -> & HR1).
  { unfold within_period. destruct (q_period q) as [d|] eqn:Ed.
    - subst s. cbn [app]. destruct (N.eqb_spec d 0) as [->|Hd].
      + exists more. split; [reflexivity|]. destruct HR as [HR|[HR|[HR|(d & y' & l & x & m' & [= <-] & Hd & _)]]]; auto. contradiction.
      + change (y :: se ++ more) with ((y :: se) ++ more). rewrite take_while_app.
        * exists (take_while (fun y0 => Z.leb (snd (fst y0)) (snd (fst y) + Z.of_N d)) more). split; [reflexivity|].
          destruct HR as [->|[HR|[HR|(d' & y' & l & x & m' & [= <-] & _ & [= <- <-] & -> & HR)]]]; auto. left. cbn. destruct (Z.leb_spec (snd (fst x)) (snd (fst y) + Z.of_N d)); [lia|reflexivity].
        * apply Forall_forall. intros z Hz. apply Z.leb_le. apply (HP d eq_refl Hd); [now left|exact Hz].
    - exists more. split; [reflexivity|]. destruct HR as [HR|[HR|[HR|(d & y' & l & x & m' & HR & _)]]]; auto. discriminate. }
  assert (exists m2, at_most_n q (s ++ m1) = s ++ m2 /\ (m2 = [] \/ (exists B, q_bytes q = Some B /\ B <> 0%N /\ B <= sum s)%N)) as (m2 & -> & HR2).
  { unfold at_most_n. destruct (q_n q) as [n|] eqn:En.
    - specialize (HN n eq_refl). rewrite firstn_app, firstn_all2 by lia. eexists. split; [reflexivity|]. destruct HR1 as [->|[[= ->]|HR1]]; [left; apply firstn_nil| |auto]. left. rewrite Nat2N.id, Nat.sub_diag. reflexivity.
    - exists m1. split; [reflexivity|]. destruct HR1 as [HR1|[HR1|HR1]]; auto. discriminate. }
  unfold within_bytes. destruct (q_bytes q) as [B|] eqn:EB.
  - destruct (N.eqb_spec B 0) as [->|HB0].
    + destruct HR2 as [->|(B & [= <-] & H & _)]; [apply app_nil_r|contradiction].
    + apply take_bytes_app; [now apply (HB B)|]. destruct HR2 as [HR2|(B' & [= <-] & _ & HR2)]; [now left|]. right. split; [discriminate|exact HR2].
  - destruct HR2 as [->|(B & HR2 & _)]; [apply app_nil_r|discriminate].
Qed.
End Cut.

(** ** The thread alone with the stream *)
Section Alone.
Context {E : Type}.
Variable C : codec E.
Variable m : mp E.
Hypothesis Hm : mp_inv m.
Variables (begin : N) (from : Z).
Hypothesis Hbegin : (begin < mp_size m)%N.
Hypothesis Hfrom : (from - 1 < mp_head m)%Z.

Definition lasts (tr : list (ev E * bool)) : Prop := forall it x last r, In (EvEntry it x last, r) tr -> mp_last m = Ok last.
Definition at_end (tr : list (ev E * bool)) : Prop := exists it x last, In (EvEntry it x last, true) tr /\ fst it = fst last.
Definition jinv (s : sst E E) : Prop :=
  ss_store s = m /\ ss_term s = false /\
  (at_end (ss_trace s) \/ heads (ss_trace s) = [] /\ lasts (ss_trace s) /\
    match ss_pc s with
    | PTop | PSnap => ss_index s = begin /\ ss_head s = (from - 1)%Z
    | PPass cur size _ _ _ => size = mp_size m /\ (begin <= cur < size)%N
    | PStop => True
    | _ => False
    end).

Lemma at_end_app tr tr' : at_end tr -> at_end (tr ++ tr').
Proof. intros (it & x & last & H1 & H2). exists it, x, last. split; [apply in_or_app; now left|exact H2]. Qed.
Lemma m_last : exists t, mp_last m = Ok ((mp_size m - 1)%N, t) /\ mp_head_and_last m = (mp_head m, Some ((mp_size m - 1)%N, t)).
Proof.
  unfold mp_last, mp_head_and_last. destruct (nth_error _ _) as [[t e]|] eqn:En; [exists t; auto|]. apply nth_error_None in En. unfold mp_size in Hbegin. lia.
Qed.

Lemma thread_trace r s s' : thread_step (F:=E) everything begin r s = Some s' -> exists x, ss_trace s' = ss_trace s ++ x.
Proof.
  unfold thread_step. destruct (ss_pc s) as [| |cur size h lu ck|size h| | |]; intros H.
  - unfold check_terminate in H. destruct (negb (ss_sent s) && ss_term s); injection H as <-; cbn; [eauto|exists []; now rewrite app_nil_r].
  - destruct (Z.ltb _ _); [destruct (N.ltb _ _); [destruct (snd _) as [[? ?]|]|]|]; injection H as <-; exists []; cbn; now rewrite app_nil_r.
  - destruct (N.eqb cur size); [injection H as <-; exists []; cbn; now rewrite app_nil_r|]. destruct ck; cbn [negb] in H.
    + destruct (nth_error _ _) as [[t e]|]; [|injection H as <-; exists []; cbn; now rewrite app_nil_r]. destruct (mp_last _); injection H as <-; cbn; try (exists []; now rewrite app_nil_r). eauto.
    + unfold check_terminate in H. destruct (negb (ss_sent s) && ss_term s); injection H as <-; cbn; [eauto|exists []; now rewrite app_nil_r].
  - destruct (N.leb begin size && Z.ltb (ss_head s) h); injection H as <-; cbn; [eauto|exists []; now rewrite app_nil_r].
  - destruct (wait_done begin s); [|discriminate]. injection H as <-. exists []. cbn. now rewrite app_nil_r.
  - discriminate.
  - discriminate.
Qed.

Lemma lasts_snoc tr it x last r : lasts tr -> mp_last m = Ok last -> lasts (tr ++ [(EvEntry it x last, r)]).
Proof. intros H Hl it' x' last' r' Hin. apply in_app_or in Hin as [Hin|[[= <- <- <- <-]|[]]]; [eapply H; eauto|exact Hl]. Qed.

(** One step: [more] is how many steps there are at most still to go. *)
Definition more (s : sst E E) : N :=
  match ss_pc s with PTop => 2 * mp_size m + 5 | PSnap => 2 * mp_size m + 4 | PPass cur size _ _ ck => 2 * (size - cur) + (if ck then 0 else 1) | _ => 0 end.

Lemma jstep s : jinv s -> ~ at_end (ss_trace s) -> ss_pc s <> PStop ->
  (exists s', (forall r', sstep C everything begin s (LThread r') = Some s') /\ jinv s' /\ ss_trace s' = ss_trace s /\ (more s' < more s)%N) \/
  (exists it x last, (forall r', exists s', sstep C everything begin s (LThread r') = Some s' /\ ss_trace s' = ss_trace s ++ [(EvEntry it x last, r')] /\ (jinv s') /\ (ss_pc s' = PStop \/ at_end (ss_trace s') \/ more s' < more s)%N) /\ (0 <= snd it)%Z).
Proof.
  intros (J1 & J2 & J3) Hne Hstop. destruct J3 as [J3|(J3 & J4 & J5)]; [contradiction|]. cbn [sstep]. unfold thread_step. destruct m_last as (tl & Hl1 & Hl2). unfold more.
  destruct (ss_pc s) as [| |cur size h lu ck|size h| | |] eqn:Ep; cbn in J5; try contradiction.
  - left. eexists. split; [intros r'; rewrite check_no_term by exact J2; reflexivity|]. cbn. split; [|split; [reflexivity|lia]]. split; [exact J1|]. split; [exact J2|]. right. auto.
  - left. rewrite J1, Hl2. cbn [fst snd]. destruct J5 as [J5 J6]. rewrite J5, J6. destruct (Z.ltb_spec (from - 1) (mp_head m)); [|lia]. replace (mp_size m - 1 + 1)%N with (mp_size m) by lia. destruct (N.ltb_spec begin (mp_size m)); [|lia].
    eexists. split; [reflexivity|]. cbn. split; [|split; [reflexivity|lia]]. split; [exact J1|]. split; [exact J2|]. right. split; [exact J3|]. split; [exact J4|]. split; [reflexivity|lia].
  - destruct J5 as [-> J5]. destruct (N.eqb_spec cur (mp_size m)); [lia|]. destruct ck; cbn [negb].
    + right. rewrite J1, Hl1. destruct (at_ex m cur) as (t & x & Hat); [lia|]. rewrite Hat. unfold everything at 1.
      exists (cur, t), x, ((mp_size m - 1)%N, tl). split.
      * intros r'. eexists. split; [reflexivity|]. split; [reflexivity|].
        assert (Hh : heads (ss_trace s ++ [(EvEntry (cur, t) x ((mp_size m - 1)%N, tl), r')]) = []) by (rewrite heads_app, J3; reflexivity).
        destruct r'.
        -- destruct (N.eq_dec (cur + 1) (mp_size m)) as [Hc|Hc].
           ++ assert (at_end (ss_trace s ++ [(EvEntry (cur, t) x ((mp_size m - 1)%N, tl), true)])) as He. { exists (cur, t), x, ((mp_size m - 1)%N, tl). split; [apply in_or_app; right; now left|cbn; lia]. }
              split; [|right; left; exact He]. split; [exact J1|]. split; [exact J2|]. left. exact He.
           ++ split; [|right; right; cbn; lia]. split; [exact J1|]. split; [exact J2|]. right. split; [exact Hh|]. split; [now apply lasts_snoc|]. cbn. split; [reflexivity|lia].
        -- split; [|left; reflexivity]. split; [exact J1|]. split; [exact J2|]. right. split; [exact Hh|]. split; [now apply lasts_snoc|]. exact I.
      * cbn. pose proof (inv_nonneg _ Hm) as Hn. rewrite Forall_forall in Hn. apply nth_error_In in Hat. exact (Hn _ Hat).
    + left. eexists. split; [intros r'; rewrite check_no_term by exact J2; reflexivity|]. cbn. split; [|split; [reflexivity|lia]]. split; [exact J1|]. split; [exact J2|]. right. repeat split; auto; lia.
Qed.

Lemma at_end_dec tr : at_end tr \/ ~ at_end tr.
Proof.
  unfold at_end. induction tr as [|y tr IH]; [right; intros (? & ? & ? & [] & _)|].
  destruct IH as [(it & x & last & H1 & H2)|IH]; [left; exists it, x, last; split; [now right|exact H2]|].
  assert ((exists it x last, y = (EvEntry it x last, true) /\ fst it = fst last) \/ ~ (exists it x last, y = (EvEntry it x last, true) /\ fst it = fst last)) as [(it & x & last & -> & Hq)|Hy].
  { destruct y as [[it x last|it|t|] [|]]; try solve [right; intros (? & ? & ? & H & _); discriminate H]. destruct (N.eq_dec (fst it) (fst last)) as [Hq|Hq]; [left; eauto 6|right; intros (? & ? & ? & [= <- <- <-] & ?); contradiction]. }
  - left. exists it, x, last. split; [now left|exact Hq].
  - right. intros (it & x & last & [H1|H1] & H2); [apply Hy; eauto 6|apply IH; eauto 6].
Qed.
Lemma jinv_step r s s' : jinv s -> sstep C everything begin s (LThread r) = Some s' -> jinv s'.
Proof.
  intros J H. cbn in H. destruct J as (J1 & J2 & [J3|J3]).
  - split; [rewrite (thread_store everything begin r s s' H); exact J1|]. split; [rewrite (thread_term everything begin r s s' H); exact J2|]. left. destruct (thread_trace r s s' H) as (x & ->). now apply at_end_app.
  - destruct (ss_pc s) eqn:Ep. 6: { unfold thread_step in H. rewrite Ep in H. discriminate. }
    all: destruct (at_end_dec (ss_trace s)) as [He|He].
    all: try (split; [rewrite (thread_store everything begin r s s' H); exact J1|]; split; [rewrite (thread_term everything begin r s s' H); exact J2|]; left; destruct (thread_trace r s s' H) as (y & ->); now apply at_end_app).
    all: assert (jinv s) as J by (split; [exact J1|split; [exact J2|right; rewrite Ep; exact J3]]).
    all: destruct (jstep s J He) as [(s1 & H1 & H2 & _)|(it & x & last & H1 & _)]; [congruence| |]; [specialize (H1 r); cbn in H1; rewrite H1 in H; injection H as <-; exact H2|destruct (H1 r) as (s1 & H2 & _ & H3 & _); cbn in H2; rewrite H2 in H; injection H as <-; exact H3].
Qed.
Lemma jinv_init : jinv (s_init begin from m).
Proof. split; [reflexivity|]. split; [reflexivity|]. right. split; [reflexivity|]. split; [easy|]. cbn. auto. Qed.
End Alone.
