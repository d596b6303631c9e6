(** * What is to be seen of progress lines *)
From Coq Require Import ZArith Lia.
From stdpp Require Import list.
From Verif Require Import Progress_Model Progress_Spec.
Local Open Scope Z_scope.

Lemma prints_app H t l l' : prints H t (l ++ l') = prints H (prints H t l) l'.
Proof. apply foldl_app. Qed.

(** ** Printing a status *)
Definition restyles (st : list Z) (s : status) : list Z := foldl (λ st p, match p with Text _ => st | Style c => restyle st c end) st s.
Lemma print_text H l : ∀ t, let t' := prints H t (Char <$> l) in
  row t' = row t ∧ col t' = (col t + length l)%nat ∧ style t' = style t ∧ top t' = top t ∧
  ∀ r k, screen t' r k = if decide (r = row t ∧ (col t <= k < col t + length l)%nat) then nth (k - col t) ((λ c, (c, style t)) <$> l) blank else screen t r k.
Proof.
  induction l as [|c l IH]; intros t; cbn zeta.
  - simpl. split_and!; [done|lia|done|done|]. intros r k. rewrite decide_False by lia. done.
  - specialize (IH (put t c)). change (prints H t (Char <$> c :: l)) with (prints H (put t c) (Char <$> l)). set (t' := prints H (put t c) (Char <$> l)) in *. cbn zeta in IH. destruct IH as (R & C & SS & T & X).
    simpl in R, C, SS, T, X. split_and!; [done|rewrite C; simpl; lia|done|done|]. intros r k. rewrite X. simpl length. clear X.
    destruct (decide _) as [D1|D1].
    + rewrite decide_True by lia. replace (k - col t)%nat with (S (k - S (col t))) by lia. done.
    + destruct (decide (r = row t ∧ k = col t)) as [D2|D2].
      * rewrite decide_True by lia. replace (k - col t)%nat with 0%nat by lia. done.
      * rewrite decide_False by lia. done.
Qed.
Lemma print_status H s : ∀ t, let t' := prints H t (oss_text s) in
  row t' = row t ∧ col t' = (col t + length (looks (style t) s))%nat ∧ style t' = restyles (style t) s ∧ top t' = top t ∧
  ∀ r k, screen t' r k = if decide (r = row t ∧ (col t <= k < col t + length (looks (style t) s))%nat) then nth (k - col t) (looks (style t) s) blank else screen t r k.
Proof.
  induction s as [|[l|c] s IH]; intros t.
  - simpl. split_and!; [done|lia|done|done|]. intros r k. rewrite decide_False by lia. done.
  - change (oss_text (Text l :: s)) with ((Char <$> l) ++ oss_text s). rewrite prints_app. destruct (print_text H l t) as (R & C & S & T & X).
    destruct (IH (prints H t (Char <$> l))) as (R' & C' & S' & T' & X'). clear IH. rewrite R, C, S, T in *. simpl. rewrite app_length, fmap_length.
    split_and!; [done|rewrite C'; lia|done|done|]. intros r k. rewrite X', X. clear X X'.
    destruct (decide (r = row t ∧ (col t + length l <= k < col t + length l + length (looks (style t) s))%nat)) as [D1|D1].
    + rewrite decide_True by lia. rewrite app_nth2 by (rewrite fmap_length; lia). f_equal. rewrite fmap_length. lia.
    + destruct (decide (r = row t ∧ (col t <= k < col t + length l)%nat)) as [D2|D2].
      * rewrite decide_True by lia. rewrite app_nth1 by (rewrite fmap_length; lia). done.
      * rewrite decide_False by lia. done.
  - change (oss_text (Style c :: s)) with (Sgr c :: oss_text s). destruct (IH (act H t (Sgr c))) as (R' & C' & S' & T' & X'). simpl in *. split_and!; done.
Qed.
Lemma looks_length st s : length (looks st s) = length (oss_text_with_no_vt100_escape_sequences s).
Proof.
  revert st. induction s as [|[l|c] s IH]; intros st; [done| |apply IH].
  change (oss_text_with_no_vt100_escape_sequences (Text l :: s)) with (l ++ oss_text_with_no_vt100_escape_sequences s). simpl. by rewrite !app_length, fmap_length, IH.
Qed.
(** The looks of what is printed *)
Fixpoint looks_of (st : list Z) (l : list token) : list cell :=
  match l with [] => [] | Char c :: l => (c, st) :: looks_of st l | Sgr c :: l => looks_of (restyle st c) l | _ :: l => looks_of st l end.
Lemma looks_of_text st l k : looks_of st ((Char <$> l) ++ k) = ((λ c, (c, st)) <$> l) ++ looks_of st k.
Proof. induction l as [|c l IH]; [done|]. simpl. f_equal. exact IH. Qed.
Lemma looks_of_status st s : looks_of st (oss_text s) = looks st s.
Proof.
  revert st. induction s as [|[l|c] s IH]; intros st; [done| |].
  - change (oss_text (Text l :: s)) with ((Char <$> l) ++ oss_text s). rewrite looks_of_text, IH. done.
  - change (oss_text (Style c :: s)) with (Sgr c :: oss_text s). simpl. apply IH.
Qed.
Lemma same_looks s s' : oss_text s = oss_text s' → looks [] s = looks [] s'.
Proof. intros E. by rewrite <- !looks_of_status, E. Qed.
Lemma spaces n : replicate n (Char 32) = oss_text [Text (replicate n 32)].
Proof. unfold oss_text. simpl. rewrite app_nil_r. induction n as [|n IH]; [done|]. simpl. f_equal. exact IH. Qed.
Lemma print_spaces H n t : style t = [] → let t' := prints H t (replicate n (Char 32)) in
  row t' = row t ∧ col t' = (col t + n)%nat ∧ style t' = [] ∧ top t' = top t ∧
  ∀ r k, screen t' r k = if decide (r = row t ∧ (col t <= k < col t + n)%nat) then blank else screen t r k.
Proof.
  intros S. rewrite spaces. destruct (print_status H [Text (replicate n 32)] t) as (R & C & SS & T & X). cbn zeta.
  assert (L : length (looks (style t) [Text (replicate n 32)]) = n) by (rewrite looks_length; unfold oss_text_with_no_vt100_escape_sequences; simpl; rewrite app_nil_r; apply replicate_length).
  rewrite L in *. split_and!; [done|done|by rewrite SS|done|]. intros r k. rewrite X. destruct (decide _) as [D|D]; [|done]. simpl. rewrite app_nil_r, S.
  clear -D. generalize (k - col t)%nat as j. induction n as [|n IH]; [lia|]. intros j. simpl.
  assert (∀ m j, nth j ((λ c, (c, [])) <$> replicate m 32) blank = blank) as A by (intros m; induction m as [|m IHm]; intros [|i]; simpl; try done).
  destruct j; [done|]. apply A.
Qed.
Lemma print_backs H n : ∀ t, let t' := prints H t (replicate n Back) in row t' = row t ∧ col t' = (col t - n)%nat ∧ style t' = style t ∧ top t' = top t ∧ screen t' = screen t.
Proof.
  induction n as [|n IH]; intros t; simpl; [split_and!; done || lia|]. destruct (IH (act H t Back)) as (R & C & S & T & X). simpl in *. unfold prints in *. split_and!; try done. rewrite C. lia.
Qed.

(** ** The lines of a MultilineProgress *)
Definition line_ok (l : line) (s : status) : Prop :=
  current_status l = oss_text s ∧ current_undecorated_status l = oss_text_with_no_vt100_escape_sequences s ∧ current_status_length l = length (looks [] s).
Lemma plain s s' : oss_text s = oss_text s' → oss_text_with_no_vt100_escape_sequences s = oss_text_with_no_vt100_escape_sequences s'.
Proof.
  assert (A : ∀ s, oss_text_with_no_vt100_escape_sequences s = omap (λ k, match k with Char c => Some c | _ => None end) (oss_text s)).
  { clear. intros s. induction s as [|[l|c] s IH]; [done| |].
    - change (oss_text (Text l :: s)) with ((Char <$> l) ++ oss_text s). rewrite omap_app, <- IH. change (oss_text_with_no_vt100_escape_sequences (Text l :: s)) with (l ++ oss_text_with_no_vt100_escape_sequences s).
      f_equal. clear. induction l as [|c l IH]; [done|]. simpl. f_equal. exact IH.
    - exact IH. }
  intros E. by rewrite !A, E.
Qed.
Lemma do_update_ok up_ l s0 s : line_ok l s0 → line_ok (do_update up_ l s).2 s.
Proof.
  intros (E & U & L). unfold do_update. destruct (decide _) as [D|D]; split_and!; simpl; try done.
  - rewrite L. f_equal. apply same_looks. congruence.
  - by rewrite looks_length.
Qed.
Lemma print_up H t n : 0 < n → prints H t (up n) = Terminal (screen t) (Z.max (top t) (row t - n)) (col t) (style t) (top t).
Proof. intros P. unfold up, ud. rewrite decide_True by lia. simpl. by rewrite Z.opp_involutive. Qed.
Lemma print_down H t n : 0 <= n → row t < top t + H → let t' := prints H t (down n) in
  row t' = Z.min (top t + H - 1) (row t + n) ∧ col t' = col t ∧ style t' = style t ∧ top t' = top t ∧ screen t' = screen t.
Proof.
  intros P Q. unfold down, ud. rewrite decide_False by lia. destruct (decide (0 < n)) as [D|D]; simpl; split_and!; try done. lia.
Qed.

Definition good (H : Z) (t0 : terminal) (ss : list status) (t : terminal) : Prop := displays t0 ss t ∧ top t <= row t0 ∧ row t < top t + H.
Lemma good_create H t0 ss t : good H t0 ss t → Z.of_nat (length ss) + 1 < H → good H t0 (ss ++ [[]]) (prints H t [Newline]).
Proof.
  intros ((R & C & S & A & B & D) & T1 & T2) L. unfold good, displays. simpl. rewrite app_length. simpl. split_and!; try done; try lia.
  - intros i s k E. destruct (decide (i < length ss)%nat) as [I|I].
    + rewrite lookup_app_l in E by done. by apply B.
    + rewrite lookup_app_r in E by lia. destruct (i - length ss)%nat eqn:N; simpl in E; [|done]. injection E as <-. rewrite D by lia. unfold shows. simpl. by destruct k.
  - intros r k G. apply D. lia.
Qed.
Lemma good_update H t0 ss t i l s0 s : good H t0 ss t → Z.of_nat (length ss) < H → ss !! i = Some s0 → line_ok l s0 →
  good H t0 (<[i := s]> ss) (prints H t (do_update (Some (Z.of_nat (length ss) - (Z.of_nat i + 1))) l s).1).
Proof.
  intros (DI & T1 & T2) LH E (E1 & E2 & E3). pose proof DI as (R & C & S & A & B & D). pose proof (lookup_lt_Some _ _ _ E) as I.
  unfold do_update. destruct (decide _) as [Q|Q].
  - simpl. unfold good, displays. rewrite insert_length. split_and!; try done. intros j s' k J.
    destruct (decide (i = j)) as [<-|N]; [|rewrite list_lookup_insert_ne in J by done; by apply B]. rewrite list_lookup_insert in J by done. injection J as <-.
    rewrite (B i s0 k E). unfold shows. by rewrite (same_looks s0 s) by congruence.
  - set (n := Z.of_nat (length ss) - (Z.of_nat i + 1)). set (m := length (oss_text_with_no_vt100_escape_sequences s)).
    assert (M : m = length (looks [] s)) by (unfold m; by rewrite (looks_length [] s)).
    (* both branches print the same, with as many spaces as are needed *)
    assert (F : ∀ d, (d = current_status_length l - m)%nat → good H t0 (<[i:=s]> ss) (prints H t (up (n + 1) ++ oss_text s ++ [reset] ++ replicate d (Char 32) ++ [Newline] ++ down n))).
    { intros d Dd. rewrite prints_app, print_up by lia. rewrite prints_app. set (t1 := Terminal _ _ _ _ _).
      assert (R1 : row t1 = row t0 + Z.of_nat i) by (simpl; lia).
      destruct (print_status H s t1) as (R2 & C2 & S2 & P2 & X2). set (t2 := prints H t1 (oss_text s)) in *. rewrite prints_app. set (t3 := prints H t2 [reset]).
      assert (S3 : style t3 = []) by done. rewrite prints_app. destruct (print_spaces H d t3 S3) as (R4 & C4 & S4 & P4 & X4). set (t4 := prints H t3 (replicate d (Char 32))) in *.
      rewrite prints_app. set (t5 := prints H t4 [Newline]). change (row t3) with (row t2) in *. change (col t3) with (col t2) in *. change (top t3) with (top t2) in *. change (screen t3) with (screen t2) in *.
      assert (R5 : row t5 = row t0 + Z.of_nat i + 1) by (unfold t5; simpl; lia).
      assert (TT : top t4 = top t) by (rewrite P4, P2; done).
      assert (P5 : top t5 = top t) by (unfold t5; simpl; rewrite TT; lia).
      destruct (print_down H t5 n) as (R6 & C6 & S6 & P6 & X6); [lia|rewrite P5; lia|]. set (t6 := prints H t5 (down n)) in *.
      change (style t1) with (style t) in *. change (col t1) with (col t) in *. rewrite S, C in *.
      assert (X : ∀ r k, screen t6 r k = if decide (r = row t0 + Z.of_nat i) then shows s k else screen t r k).
      { intros r k. rewrite X6. change (screen t5) with (screen t4). rewrite X4, R2, R1, C2. destruct (decide (r = row t0 + Z.of_nat i)) as [Er|Nr].
        - destruct (decide _) as [K|K].
          + unfold shows. rewrite nth_overflow; [done|]. lia.
          + rewrite X2, R1. destruct (decide _) as [K'|K']; [unfold shows; f_equal; lia|]. change (screen t1) with (screen t). rewrite Er, (B i s0 k E).
            unfold shows. rewrite !nth_overflow by lia. done.
        - rewrite decide_False by (intros [? ?]; done). rewrite X2, R1. rewrite decide_False by (intros [? ?]; done). done. }
      unfold good, displays. rewrite insert_length. split_and!.
      - rewrite R6, P5, R5. lia.
      - rewrite C6. done.
      - rewrite S6. unfold t5. simpl. done.
      - intros r k G. rewrite X, decide_False by lia. by apply A.
      - intros j s' k J. rewrite X. destruct (decide (i = j)) as [<-|N].
        + rewrite list_lookup_insert in J by done. injection J as <-. by rewrite decide_True.
        + rewrite list_lookup_insert_ne in J by done. rewrite decide_False by lia. by apply B.
      - intros r k G. rewrite X, decide_False by lia. by apply D.
      - rewrite P6, P5. done.
      - rewrite R6, P6, P5, R5. lia. }
    cbn [fst]. destruct (decide _) as [W|W].
    + specialize (F 0%nat). replace (oss_text s ++ [reset; Newline] ++ down n) with (oss_text s ++ [reset] ++ replicate 0 (Char 32) ++ [Newline] ++ down n) by done. apply F. lia.
    + by apply F.
Qed.
Lemma latest_length ss os : (length ss <= length (foldl latest1 ss os))%nat.
Proof. revert ss. induction os as [|o os IH]; intros ss; simpl; [lia|]. specialize (IH (latest1 ss o)). destruct o; simpl in *; rewrite ?app_length, ?insert_length in IH; simpl in *; lia. Qed.
Lemma run_good H t0 os : ∀ m ss t, good H t0 ss t → Forall2 line_ok (lines m) ss → total_ m = Z.of_nat (length ss) → Z.of_nat (length (foldl latest1 ss os)) < H →
  good H t0 (foldl latest1 ss os) (prints H t (run m os).1) ∧ Forall2 line_ok (lines (run m os).2) (foldl latest1 ss os) ∧ total_ (run m os).2 = Z.of_nat (length (foldl latest1 ss os)).
Proof.
  induction os as [|o os IH]; intros m ss t G L T B; [done|]. cbn [run]. destruct (step m o) as [p m1] eqn:E1. destruct (run m1 os) as [q m2] eqn:E2. cbn [fst snd]. rewrite prints_app.
  simpl foldl in *. pose proof (latest_length (latest1 ss o) os) as LL.
  assert (K : good H t0 (latest1 ss o) (prints H t p) ∧ Forall2 line_ok (lines m1) (latest1 ss o) ∧ total_ m1 = Z.of_nat (length (latest1 ss o))).
  { destruct o as [|i s]; simpl in *.
    - injection E1 as <- <-. rewrite app_length in *. simpl in *. split_and!; [apply (good_create H t0 ss t G); lia| |lia].
      apply Forall2_app; [done|]. by repeat constructor.
    - rewrite insert_length in *. destruct (lines m !! i) as [l|] eqn:LI.
      + destruct (Forall2_lookup_l _ _ _ _ _ L LI) as (s0 & SI & OK). destruct (do_update _ l s) as [o1 l1] eqn:DU. injection E1 as <- <-.
        pose proof (good_update H t0 ss t i l s0 s G ltac:(lia) SI OK) as G'. rewrite <- T, DU in G'. split_and!; [done| |done].
        apply Forall2_insert; [done|]. pose proof (do_update_ok (Some (total_ m - (Z.of_nat i + 1))) l s0 s OK) as O. by rewrite DU in O.
      + injection E1 as <- <-. rewrite list_insert_ge by (apply lookup_ge_None in LI; erewrite <- Forall2_length by done; done). done. }
  destruct K as (K1 & K2 & K3). specialize (IH m1 (latest1 ss o) (prints H t p) K1 K2 K3 B). by rewrite E2 in IH.
Qed.
Lemma ready_good H t0 : ready H t0 → good H t0 [] t0.
Proof.
  intros (S & C & T & B). unfold good, displays. simpl. split_and!; try done; try lia. intros r k G. apply B. lia.
Qed.
(** However many lines are created and updated, in whatever order, each line of the terminal shows the latest status of that line, and nothing else of earlier ones; what
    was above stays. This needs the lines, and the cursor below them, to fit on the screen. *)
Theorem C99_each_line_shows_its_status H t0 os : ready H t0 → Z.of_nat (length (latest os)) < H →
  displays t0 (latest os) (prints H t0 (run no_lines os).1).
Proof. intros R B. apply (run_good H t0 os no_lines [] t0 (ready_good H t0 R)); [constructor|done|done]. Qed.
(** GetUndecoratedString gives the latest status without its colors. *)
Theorem C99_undecorated os i s : latest os !! i = Some s →
  ∃ l, lines (run no_lines os).2 !! i = Some l ∧ current_undecorated_status l = oss_text_with_no_vt100_escape_sequences s.
Proof.
  assert (A : ∀ os m ss, Forall2 line_ok (lines m) ss → Forall2 line_ok (lines (run m os).2) (foldl latest1 ss os)).
  { clear. induction os as [|o os IH]; intros m ss L; [done|]. cbn [run]. destruct (step m o) as [p m1] eqn:E1. destruct (run m1 os) as [q m2] eqn:E2. cbn [snd]. simpl foldl.
    assert (K : Forall2 line_ok (lines m1) (latest1 ss o)); [|specialize (IH m1 (latest1 ss o) K); by rewrite E2 in IH].
    destruct o as [|i s]; simpl in *.
    - injection E1 as <- <-. apply Forall2_app; [done|]. by repeat constructor.
    - destruct (lines m !! i) as [l|] eqn:LI.
      + destruct (Forall2_lookup_l _ _ _ _ _ L LI) as (s0 & SI & OK). destruct (do_update _ l s) as [o1 l1] eqn:DU. injection E1 as <- <-.
        apply Forall2_insert; [done|]. pose proof (do_update_ok (Some (total_ m - (Z.of_nat i + 1))) l s0 s OK) as O. by rewrite DU in O.
      + injection E1 as <- <-. rewrite list_insert_ge by (apply lookup_ge_None in LI; erewrite <- Forall2_length by done; done). done. }
  intros E. destruct (Forall2_lookup_r _ _ _ _ _ (A os no_lines [] ltac:(by constructor)) E) as (l & L & (_ & U & _)). eauto.
Qed.

(** ** A line on its own *)
Lemma clear_at H t0 t l s : displays_at t0 s t → current_status_length l = length (looks [] s) → 
  displays_at t0 [] (prints H t (do_clear_string l)).
Proof.
  intros (R & C & S & X) L. unfold do_clear_string. rewrite L. set (n := length (looks [] s)) in *. rewrite !prints_app.
  destruct (print_backs H n t) as (R1 & C1 & S1 & P1 & X1). set (t1 := prints H t (replicate n Back)) in *.
  destruct (print_spaces H n t1) as (R2 & C2 & S2 & P2 & X2); [by rewrite S1|]. set (t2 := prints H t1 (replicate n (Char 32))) in *.
  destruct (print_backs H n t2) as (R3 & C3 & S3 & P3 & X3). set (t3 := prints H t2 (replicate n Back)) in *.
  split_and!; [lia|simpl; lia|by rewrite S3|]. intros r k. rewrite X3, X2, X1, X, R1, C1, R, C.
  destruct (decide (r = row t0 ∧ (col t0 <= k)%nat)) as [D|D].
  - unfold shows at 2. replace (nth (k - col t0) (looks [] []) blank) with blank by (by destruct (k - col t0)%nat). destruct (decide _) as [D'|D']; [done|]. unfold shows. apply nth_overflow. lia.
  - rewrite decide_False by lia. done.
Qed.
Lemma update_at H t0 t l s0 s : displays_at t0 s0 t → line_ok l s0 → displays_at t0 s (prints H t (do_update None l s).1).
Proof.
  intros DA (E1 & E2 & E3). unfold do_update. destruct (decide _) as [Q|Q].
  - assert (K : looks [] s0 = looks [] s) by (apply same_looks; congruence). simpl. unfold displays_at, shows in *. by rewrite <- K.
  - cbn [fst]. rewrite prints_app. pose proof (clear_at H t0 t l s0 DA E3) as (R1 & C1 & S1 & X1). set (t1 := prints H t (do_clear_string l)) in *.
    rewrite prints_app. destruct (print_status H s t1) as (R2 & C2 & S2 & P2 & X2). set (t2 := prints H t1 (oss_text s)) in *.
    rewrite S1 in *. simpl in C1. rewrite Nat.add_0_r in C1. unfold displays_at. simpl. split_and!; [lia|lia|done|]. intros r k. rewrite X2, R1, C1, X1.
    destruct (decide (r = row t0 ∧ (col t0 <= k)%nat)) as [D|D].
    + destruct (decide _) as [D'|D']; [done|]. unfold shows. rewrite !nth_overflow; [done|lia|simpl; lia].
    + rewrite decide_False by lia. done.
Qed.
Lemma run_line_at H t0 ss : ∀ l s0 t, displays_at t0 s0 t → line_ok l s0 →
  displays_at t0 (List.last ss s0) (prints H t (run_line l ss).1) ∧ line_ok (run_line l ss).2 (List.last ss s0).
Proof.
  induction ss as [|s ss IH]; intros l s0 t D O; [done|]. cbn [run_line]. pose proof (update_at H t0 t l s0 s D O) as D1. pose proof (do_update_ok None l s0 s O) as O1.
  destruct (do_update None l s) as [o l1]. specialize (IH l1 s _ D1 O1). destruct (run_line l1 ss) as [o' l2]. cbn [fst snd] in *. rewrite prints_app.
  replace (List.last (s :: ss) s0) with (List.last ss s); [done|]. clear. revert s s0. induction ss as [|x ss IH]; intros s s0; [done|]. simpl in *. destruct ss; [done|]. apply IH.
Qed.
(** A line on its own shows its latest status where the cursor was, and when it is destroyed all is as it was. *)
Theorem C99_a_line_shows_its_status H t0 ss : style t0 = [] → (∀ k, (col t0 <= k)%nat → screen t0 (row t0) k = blank) →
  displays_at t0 (List.last ss []) (prints H t0 (run_line new_line ss).1) ∧
  let t := prints H t0 ((run_line new_line ss).1 ++ destroy (run_line new_line ss).2) in
  row t = row t0 ∧ col t = col t0 ∧ style t = [] ∧ ∀ r k, screen t r k = screen t0 r k.
Proof.
  intros S B. assert (D : displays_at t0 [] t0).
  { split_and!; [done|simpl; lia|done|]. intros r k. destruct (decide _) as [[-> K]|K]; [|done]. rewrite B by done. unfold shows. simpl. by destruct (k - col t0)%nat. }
  destruct (run_line_at H t0 ss new_line [] t0 D) as (D1 & (E1 & E2 & E3)); [done|]. split; [done|]. rewrite prints_app.
  set (t1 := prints H t0 _) in *. set (l := (run_line new_line ss).2) in *.
  assert (D2 : displays_at t0 [] (prints H t1 (destroy l))).
  { unfold destroy. destruct (decide _) as [Z|Z]; [|by eapply clear_at]. destruct D1 as (R & C & S' & X). simpl. split_and!; try done; [simpl; lia|]. intros r k. rewrite X.
    destruct (decide _) as [W|W]; [|done]. unfold shows. rewrite !nth_overflow; [done|simpl; lia|lia]. }
  destruct D2 as (R & C & S' & X). cbn zeta. split_and!; [done|simpl in C; lia|done|]. intros r k. rewrite X. destruct (decide _) as [[-> W]|W]; [|done].
  rewrite B by done. unfold shows. simpl. by destruct (k - col t0)%nat.
Qed.

Print Assumptions C99_each_line_shows_its_status.
Print Assumptions C99_undecorated.
Print Assumptions C99_a_line_shows_its_status.
