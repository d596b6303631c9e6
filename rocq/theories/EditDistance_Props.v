(** Property C44 (bricks/strings/distance.h). *)
From Coq Require Import String.
From Verif Require Import Base EditDistance_Model.
Local Open Scope list_scope.

(** ** Specification. *)
(** One single-character edit. *)
Inductive edit1 : bytes -> bytes -> Prop :=
| Insertion p s c : edit1 (p ++ s) (p ++ c :: s)
| Deletion p s c : edit1 (p ++ c :: s) (p ++ s)
| Substitution p s c d : edit1 (p ++ c :: s) (p ++ d :: s).
(** [n] edits turn [x] into [y]. *)
Inductive edits : nat -> bytes -> bytes -> Prop :=
| Edits0 x : edits 0 x x
| EditsS n x y z : edits n x y -> edit1 y z -> edits (S n) x z.
Definition levenshtein (x y : bytes) (n : nat) : Prop :=
  edits n x y /\ forall m, edits m x y -> n <= m.

(** ** Proofs. *)
Inductive align : bytes -> bytes -> nat -> Prop :=
| A_nil : align [] [] 0
| A_eq c x y n : align x y n -> align (c :: x) (c :: y) n
| A_sub c d x y n : align x y n -> align (c :: x) (d :: y) (S n)
| A_ins d x y n : align x y n -> align x (d :: y) (S n)
| A_del c x y n : align x y n -> align (c :: x) y (S n).

Fixpoint L (x : bytes) : bytes -> nat :=
  match x with
  | [] => fun y => List.length y
  | c :: x' =>
      fix Ly (y : bytes) : nat :=
        match y with
        | [] => S (List.length x')
        | d :: y' => if N.eqb c d then L x' y' else S (Nat.min (L x' y') (Nat.min (Ly y') (L x' y)))
        end
  end.
Lemma L_cons c d x y : L (c :: x) (d :: y) =
  if N.eqb c d then L x y else S (Nat.min (L x y) (Nat.min (L (c :: x) y) (L x (d :: y)))).
Proof. reflexivity. Qed.
Lemma L_nil_r x : L x [] = List.length x.
Proof. destruct x; reflexivity. Qed.
#[local] Arguments L : simpl never.

Lemma L_sym x : forall y, L x y = L y x.
Proof.
  induction x as [|c x IHx]; intros y; [now rewrite L_nil_r|].
  induction y as [|d y IHy]; [now rewrite L_nil_r|].
  rewrite !L_cons, N.eqb_sym. destruct (N.eqb d c); [apply IHx|].
  rewrite (IHx y), IHy, (IHx (d :: y)). f_equal. lia.
Qed.

Lemma L_lipschitz n : forall x y c, List.length x + List.length y <= n -> L (c :: x) y <= S (L x y) /\ L x y <= S (L (c :: x) y).
Proof.
  induction n as [|n IH]; intros x y c Hn.
  - destruct x, y; cbn in Hn; try lia. rewrite !L_nil_r; cbn; lia.
  - destruct y as [|d y]; [rewrite !L_nil_r; cbn; lia|]. cbn [List.length] in Hn.
    assert (H1 : L x (d :: y) <= S (L x y) /\ L x y <= S (L x (d :: y))) by (rewrite (L_sym x (d :: y)), (L_sym x y); apply IH; lia).
    assert (H2 : L (c :: x) y <= S (L x y) /\ L x y <= S (L (c :: x) y)) by (apply IH; lia).
    rewrite L_cons. destruct (N.eqb c d); lia.
Qed.
Lemma L_l x y c : L (c :: x) y <= S (L x y) /\ L x y <= S (L (c :: x) y).
Proof. eapply L_lipschitz, le_n. Qed.
Lemma L_r x y d : L x (d :: y) <= S (L x y) /\ L x y <= S (L x (d :: y)).
Proof. rewrite (L_sym x (d :: y)), (L_sym x y). apply L_l. Qed.

Lemma align_L x y n : align x y n -> L x y <= n.
Proof.
  induction 1 as [|c x y n _ IH|c d x y n _ IH|d x y n _ IH|c x y n _ IH].
  - reflexivity.
  - rewrite L_cons, N.eqb_refl. exact IH.
  - rewrite L_cons. destruct (N.eqb c d); lia.
  - pose proof (L_r x y d). lia.
  - pose proof (L_l x y c). lia.
Qed.

Lemma align_refl x : align x x 0.
Proof. induction x; constructor; assumption. Qed.

Lemma align_edit x y n : align x y n -> forall z, edit1 y z -> exists m, m <= S n /\ align x z m.
Proof.
  assert (Hcons : forall y z, edit1 y z -> (exists c, z = c :: y) \/ (exists c, y = c :: z) \/
     (exists c d w, y = c :: w /\ z = d :: w) \/ (exists c y' z', y = c :: y' /\ z = c :: z' /\ edit1 y' z')).
  { intros y0 z0 H. destruct H as [[|q p] s c|[|q p] s c|[|q p] s c d].
    - left. exists c. reflexivity.
    - right; right; right. exists q, (p ++ s), (p ++ c :: s). repeat split. constructor.
    - right; left. exists c. reflexivity.
    - right; right; right. exists q, (p ++ c :: s), (p ++ s). repeat split. constructor.
    - right; right; left. exists c, d, s. auto.
    - right; right; right. exists q, (p ++ c :: s), (p ++ d :: s). repeat split. constructor. }
  induction 1 as [|c x y n H IH|c d x y n H IH|d x y n H IH|c x y n H IH]; intros z Hz.
  - destruct (Hcons _ _ Hz) as [(e & ->)|[(e & He)|[(e & f & w & He & _)|(e & y' & z' & He & _)]]]; try discriminate.
    exists 1. split; [lia|]. repeat constructor.
  - destruct (Hcons _ _ Hz) as [(e & ->)|[(e & He)|[(e & f & w & He & ->)|(e & y' & z' & He & -> & Hz')]]].
    + exists (S n). split; [lia|]. apply A_ins, A_eq. assumption.
    + injection He as -> ->. exists (S n). split; [lia|]. apply A_del. assumption.
    + injection He as -> ->. exists (S n). split; [lia|]. apply A_sub. assumption.
    + injection He as -> ->. destruct (IH z' Hz') as (m & Hm & Ha). exists m. split; [exact Hm|]. apply A_eq. assumption.
  - destruct (Hcons _ _ Hz) as [(e & ->)|[(e & He)|[(e & f & w & He & ->)|(e & y' & z' & He & -> & Hz')]]].
    + exists (S (S n)). split; [lia|]. apply A_ins, A_sub. assumption.
    + injection He as -> ->. exists (S n). split; [lia|]. apply A_del. assumption.
    + injection He as -> ->. exists (S n). split; [lia|]. apply A_sub. assumption.
    + injection He as -> ->. destruct (IH z' Hz') as (m & Hm & Ha). exists (S m). split; [lia|]. apply A_sub. assumption.
  - destruct (Hcons _ _ Hz) as [(e & ->)|[(e & He)|[(e & f & w & He & ->)|(e & y' & z' & He & -> & Hz')]]].
    + exists (S (S n)). split; [lia|]. apply A_ins, A_ins. assumption.
    + injection He as -> ->. exists n. split; [lia|]. assumption.
    + injection He as -> ->. exists (S n). split; [lia|]. apply A_ins. assumption.
    + injection He as -> ->. destruct (IH z' Hz') as (m & Hm & Ha). exists (S m). split; [lia|]. apply A_ins. assumption.
  - destruct (IH z Hz) as (m & Hm & Ha). exists (S m). split; [lia|]. apply A_del. assumption.
Qed.

Lemma edits_L n x y : edits n x y -> L x y <= n.
Proof.
  intros H. assert (Ha : exists m, m <= n /\ align x y m).
  { induction H as [x|n x y z _ (m & Hm & Ha) Hz]; [exists 0; split; [lia|apply align_refl]|].
    destruct (align_edit _ _ _ Ha _ Hz) as (m' & Hm' & Ha'). exists m'. split; [lia|exact Ha']. }
  destruct Ha as (m & Hm & Ha). apply align_L in Ha. lia.
Qed.

Lemma edits_trans n m x y z : edits n x y -> edits m y z -> edits (n + m) x z.
Proof.
  intros H1 H2. induction H2 as [y|m y z w _ IH Hw]; [now rewrite Nat.add_0_r|].
  rewrite Nat.add_succ_r. econstructor; [apply IH; exact H1|exact Hw].
Qed.
Lemma edits_cons n x y c : edits n x y -> edits n (c :: x) (c :: y).
Proof.
  induction 1 as [x|n x y z _ IH Hz]; [constructor|]. econstructor; [exact IH|].
  destruct Hz as [p s d|p s d|p s d e].
  - apply (Insertion (c :: p) s d).
  - apply (Deletion (c :: p) s d).
  - apply (Substitution (c :: p) s d e).
Qed.
Lemma edits_ins y : forall x, edits (List.length y) x (y ++ x).
Proof.
  induction y as [|c y IH]; intros x; [constructor|]. cbn [List.length app]. econstructor; [apply IH|]. apply (Insertion [] (y ++ x) c).
Qed.
Lemma edits_del x : edits (List.length x) x [].
Proof.
  induction x as [|c x IH]; [constructor|]. cbn [List.length]. change (S (List.length x)) with (1 + List.length x).
  eapply edits_trans; [|exact IH]. econstructor; [constructor|]. apply (Deletion [] x c).
Qed.
Lemma L_edits x : forall y, edits (L x y) x y.
Proof.
  induction x as [|c x IHx]; intros y.
  - pose proof (edits_ins y []) as H. rewrite app_nil_r in H. exact H.
  - induction y as [|d y IHy]; [rewrite L_nil_r; apply edits_del|].
    rewrite L_cons. destruct (N.eqb_spec c d) as [->|Hcd]; [apply edits_cons, IHx|].
    assert (Hmin : exists k, Nat.min (L x y) (Nat.min (L (c :: x) y) (L x (d :: y))) = k /\
       (k = L x y \/ k = L (c :: x) y \/ k = L x (d :: y))) by (eexists; split; [reflexivity|]; lia).
    destruct Hmin as (k & -> & [-> | [-> | ->]]).
    + econstructor; [apply edits_cons, IHx|]. apply (Substitution [] y c d).
    + econstructor; [exact IHy|]. apply (Insertion [] y d).
    + change (S (L x (d :: y))) with (1 + L x (d :: y)). eapply edits_trans; [|apply IHx].
      econstructor; [constructor|]. apply (Deletion [] x c).
Qed.

Lemma edit1_rev x y : edit1 x y -> edit1 (rev x) (rev y).
Proof.
  intros [p s c|p s c|p s c d]; rewrite ?rev_app_distr; cbn [rev]; rewrite <- ?app_assoc; cbn [app]; constructor.
Qed.
Lemma edits_rev n x y : edits n x y -> edits n (rev x) (rev y).
Proof. induction 1 as [x|n x y z _ IH Hz]; [constructor|]. econstructor; [exact IH|now apply edit1_rev]. Qed.

(** The recursion over prefixes, as in the code, without the table. *)
Section Rec.
Variables a b : bytes.
Definition lev (i j : nat) : nat := L (rev (firstn i a)) (rev (firstn j b)).

Lemma firstn_S (l : bytes) i : i < List.length l -> rev (firstn (S i) l) = nth i l 0%N :: rev (firstn i l).
Proof.
  intros H. rewrite (firstn_S_nth_error l i (nth i l 0%N)) by now apply nth_error_nth'. now rewrite rev_app_distr.
Qed.
Lemma lev_0 j : j <= List.length b -> lev 0 j = j.
Proof. intros H. unfold lev. cbn [firstn rev]. change (L [] (rev (firstn j b))) with (List.length (rev (firstn j b))). rewrite rev_length, firstn_length. lia. Qed.
Lemma lev_r0 i : i <= List.length a -> lev i 0 = i.
Proof. intros H. unfold lev. rewrite firstn_O. cbn [rev]. rewrite L_nil_r, rev_length, firstn_length. lia. Qed.
Lemma lev_SS i j : i < List.length a -> j < List.length b ->
  lev (S i) (S j) = if N.eqb (nth i a 0%N) (nth j b 0%N) then lev i j
                    else S (Nat.min (lev i j) (Nat.min (lev (S i) j) (lev i (S j)))).
Proof. intros Hi Hj. unfold lev. rewrite (firstn_S a i Hi), (firstn_S b j Hj). apply L_cons. Qed.
Lemma lev_bound i j : i <= List.length a -> j <= List.length b -> lev i j <= i + j.
Proof.
  intros Hi Hj. unfold lev. assert (H : forall x y, L x y <= List.length x + List.length y).
  { induction x as [|c x IH]; intros y; [apply le_n|]. pose proof (L_l x y c). specialize (IH y). cbn [List.length]. lia. }
  specialize (H (rev (firstn i a)) (rev (firstn j b))). rewrite !rev_length, !firstn_length in H. lia.
Qed.
(** Distance is at least the difference of lengths. *)
Lemma lev_diff i j : i <= List.length a -> j <= List.length b -> i <= j + lev i j /\ j <= i + lev i j.
Proof.
  intros Hi Hj. unfold lev.
  assert (H : forall x y, List.length y <= List.length x + L x y).
  { induction x as [|c x IH]; intros y; [apply le_n|]. pose proof (L_l x y c). specialize (IH y). cbn [List.length]. lia. }
  pose proof (H (rev (firstn i a)) (rev (firstn j b))) as H1. pose proof (H (rev (firstn j b)) (rev (firstn i a))) as H2.
  rewrite (L_sym (rev (firstn j b))) in H2. rewrite !rev_length, !firstn_length in H1, H2. lia.
Qed.
End Rec.

Section Slow.
Variables a b : bytes.
Hypothesis Hsmall : (N.of_nat (List.length a + List.length b) < SIZE_MAX - 1)%N.
Notation lev := (lev a b).

Definition table_ok (D : table) : Prop := forall i j, i <= List.length a -> j <= List.length b ->
  D i j = SIZE_MAX \/ D i j = N.of_nat (lev i j).

Lemma slow_ok fuel : forall i j D, i + j < fuel -> i <= List.length a -> j <= List.length b -> table_ok D ->
  fst (slow a b fuel i j D) = N.of_nat (lev i j) /\ table_ok (snd (slow a b fuel i j D)).
Proof.
  induction fuel as [|f IH]; intros i j D Hf Hi Hj HD; [lia|]. cbn [slow].
  destruct (N.eqb_spec (D i j) SIZE_MAX) as [Hmax|Hmax].
  2:{ cbn [fst snd]. split; [|exact HD]. destruct (HD i j Hi Hj); [contradiction|assumption]. }
  assert (Hput : forall D' r, table_ok D' -> r = N.of_nat (lev i j) -> table_ok (put D' i j r)).
  { intros D' r HD' -> i' j' Hi' Hj'. unfold put. destruct (Nat.eqb_spec i' i) as [->|], (Nat.eqb_spec j' j) as [->|]; cbn [andb]; auto. }
  destruct i as [|i]; [rewrite lev_0 in * by assumption; cbn [fst snd]; auto|].
  destruct j as [|j]; [rewrite lev_r0 in * by assumption; cbn [fst snd]; auto|].
  rewrite (lev_SS a b i j) in * by lia.
  destruct (N.eqb (nth i a 0%N) (nth j b 0%N)).
  - destruct (IH i j D ltac:(lia) ltac:(lia) ltac:(lia) HD) as [H1 H2]. destruct (slow a b f i j D) as [r D1]. cbn [fst snd] in *. auto.
  - destruct (IH i j D ltac:(lia) ltac:(lia) ltac:(lia) HD) as [H1 H2]. destruct (slow a b f i j D) as [r1 D1]. cbn [fst snd] in *.
    destruct (IH (S i) j D1 ltac:(lia) ltac:(lia) ltac:(lia) H2) as [H3 H4]. destruct (slow a b f (S i) j D1) as [r2 D2]. cbn [fst snd] in *.
    destruct (IH i (S j) D2 ltac:(lia) ltac:(lia) ltac:(lia) H4) as [H5 H6]. destruct (slow a b f i (S j) D2) as [r3 D3]. cbn [fst snd] in *.
    pose proof (lev_bound a b i j ltac:(lia) ltac:(lia)).
    assert (Hr : size_add 1 (N.min r1 (N.min r2 r3)) = N.of_nat (S (Nat.min (lev i j) (Nat.min (lev (S i) j) (lev i (S j)))))).
    { subst. unfold size_add. unfold SIZE_MAX in Hsmall. rewrite N.mod_small; lia. }
    rewrite Hr. auto.
Qed.
End Slow.

Section Fast.
Variables a b : bytes.
Variable k : nat.
Hypothesis Hsmall : (N.of_nat (List.length a + List.length b) < SIZE_MAX - 1)%N.
Notation lev := (lev a b).

Definition in_band (i j : nat) : Prop := i <= j + k /\ j <= i + k.
(** What the code computes, without the table; only meaningful in the band. *)
Definition good (i j : nat) (r : N) : Prop :=
  (in_band i j -> (r < SIZE_MAX)%N /\ (r <= N.of_nat (i + j))%N) /\
  (~ in_band i j -> r = SIZE_MAX) /\ (N.of_nat (lev i j) <= r)%N /\ (lev i j <= k -> r = N.of_nat (lev i j)).
Definition ftable_ok (D : table) : Prop := forall i j, i <= List.length a -> j <= List.length b -> in_band i j ->
  D i (j + k - i) = SIZE_MAX \/ good i j (D i (j + k - i)).

Lemma fast_ok fuel : forall i j D, i + j < fuel -> i <= List.length a -> j <= List.length b -> ftable_ok D ->
  good i j (fst (fast a b k fuel i j D)) /\ ftable_ok (snd (fast a b k fuel i j D)).
Proof.
  induction fuel as [|f IH]; intros i j D Hf Hi Hj HD; [lia|]. cbn [fast]. unfold offset_of.
  pose proof (lev_bound a b i j Hi Hj) as Hb. pose proof (lev_diff a b i j Hi Hj) as Hdiff.
  assert (Hout : ~ in_band i j -> good i j SIZE_MAX).
  { intros Hn. unfold good. repeat split; try tauto; unfold in_band in *; lia. }
  destruct (Nat.leb_spec i (j + k)) as [H1|H1].
  2:{ cbn [fst snd]. split; [apply Hout; unfold in_band; lia|exact HD]. }
  destruct (Nat.leb_spec (j + k - i) (k * 2)) as [H2|H2].
  2:{ cbn [fst snd]. split; [apply Hout; unfold in_band; lia|exact HD]. }
  assert (Hin : in_band i j) by (unfold in_band; lia).
  destruct (N.eqb_spec (D i (j + k - i)) SIZE_MAX) as [Hmax|Hmax].
  2:{ cbn [fst snd]. split; [|exact HD]. destruct (HD i j Hi Hj Hin); [contradiction|assumption]. }
  assert (Hput : forall D' r, ftable_ok D' -> good i j r -> ftable_ok (put D' i (j + k - i) r)).
  { intros D' r HD' Hg i' j' Hi' Hj' Hin'. unfold put, in_band in *.
    destruct (Nat.eqb_spec i' i) as [Hii|], (Nat.eqb_spec (j' + k - i') (j + k - i)); cbn [andb]; auto.
    assert (j' = j) as -> by lia. subst i'. auto. }
  destruct i as [|i].
  { rewrite lev_0 in * by assumption. cbn [fst snd].
    assert (Hg : good 0 j (N.of_nat j)) by (unfold good; rewrite lev_0 by assumption; repeat split; try tauto; lia). auto. }
  destruct j as [|j].
  { rewrite lev_r0 in * by assumption. cbn [fst snd].
    assert (Hg : good (S i) 0 (N.of_nat (S i))) by (unfold good; rewrite lev_r0 by assumption; repeat split; try tauto; lia). auto. }
  pose proof (lev_SS a b i j ltac:(lia) ltac:(lia)) as Hlev.
  assert (Hin' : in_band i j) by (unfold in_band in *; lia).
  destruct (N.eqb (nth i a 0%N) (nth j b 0%N)).
  - destruct (IH i j D ltac:(lia) ltac:(lia) ltac:(lia) HD) as [G1 G2]. destruct (fast a b k f i j D) as [r D1]. cbn [fst snd] in *.
    assert (Hg : good (S i) (S j) r).
    { unfold good in *. rewrite Hlev. destruct G1 as (A & B & C & E). specialize (A Hin'). repeat split; try tauto; lia. }
    auto.
  - destruct (IH i j D ltac:(lia) ltac:(lia) ltac:(lia) HD) as [G1 G2]. destruct (fast a b k f i j D) as [r1 D1]. cbn [fst snd] in *.
    destruct (IH (S i) j D1 ltac:(lia) ltac:(lia) ltac:(lia) G2) as [G3 G4]. destruct (fast a b k f (S i) j D1) as [r2 D2]. cbn [fst snd] in *.
    destruct (IH i (S j) D2 ltac:(lia) ltac:(lia) ltac:(lia) G4) as [G5 G6]. destruct (fast a b k f i (S j) D2) as [r3 D3]. cbn [fst snd] in *.
    assert (Hg : good (S i) (S j) (size_add 1 (N.min r1 (N.min r2 r3)))).
    { unfold good in *. destruct G1 as (A1 & _ & C1 & E1). destruct G3 as (_ & _ & C2 & E2). destruct G5 as (_ & _ & C3 & E3).
      specialize (A1 Hin'). unfold size_add, SIZE_MAX in *. rewrite N.mod_small by lia.
      rewrite Hlev. repeat split; try tauto; try lia.
 }
    auto.
Qed.
End Fast.

(** C44: SlowEditDistance is the Levenshtein distance (the strings' total length must not reach 2^64-2). *)
Theorem C44_slow_is_levenshtein :
  forall a b, (N.of_nat (List.length a + List.length b) < 2 ^ 64 - 2)%N ->
    exists n, slow_edit_distance a b = N.of_nat n /\ levenshtein a b n.
Proof.
  intros a b H. exists (lev a b (List.length a) (List.length b)). split.
  - unfold slow_edit_distance. apply slow_ok; try lia; [unfold SIZE_MAX; lia|]. intros i j _ _. now left.
  - unfold lev, levenshtein. rewrite !firstn_all. split.
    + pose proof (edits_rev _ _ _ (L_edits (rev a) (rev b))) as He. now rewrite !rev_involutive in He.
    + intros m Hm. apply edits_L, edits_rev, Hm.
Qed.
Print Assumptions C44_slow_is_levenshtein.

(** C44: FastEditDistance equals it whenever it does not exceed the offset, and never reports less. *)
Theorem C44_fast_is_levenshtein_within_offset :
  forall a b k n, (N.of_nat (List.length a + List.length b) < 2 ^ 64 - 2)%N ->
    levenshtein a b n ->
    (n <= k -> fast_edit_distance a b k = N.of_nat n) /\ (N.of_nat n <= fast_edit_distance a b k)%N.
Proof.
  intros a b k n H [Hn1 Hn2].
  assert (Hlev : lev a b (List.length a) (List.length b) = n).
  { unfold lev. rewrite !firstn_all. apply Nat.le_antisymm; [apply edits_L, edits_rev, Hn1|].
    apply Hn2. pose proof (edits_rev _ _ _ (L_edits (rev a) (rev b))) as He. now rewrite !rev_involutive in He. }
  destruct (fast_ok a b k ltac:(unfold SIZE_MAX; lia) (S (List.length a + List.length b)) (List.length a) (List.length b) empty_table)
    as [(A & B & C & D) _]; try lia.
  { intros i j _ _ _. now left. }
  fold (fast_edit_distance a b k) in *. rewrite Hlev in *. auto.
Qed.
Print Assumptions C44_fast_is_levenshtein_within_offset.

(** C44: the distance is unique, so the two statements speak about the same number. *)
Theorem C44_levenshtein_unique : forall a b n m, levenshtein a b n -> levenshtein a b m -> n = m.
Proof. intros a b n m [H1 H2] [H3 H4]. apply Nat.le_antisymm; auto. Qed.
Print Assumptions C44_levenshtein_unique.

Example C44_demo : slow_edit_distance (bs "kitten") (bs "sitting") = 3%N /\
  fast_edit_distance (bs "kitten") (bs "sitting") 3 = 3%N /\ fast_edit_distance (bs "abcdefg") (bs "x") 2 = SIZE_MAX.
Proof. vm_compute. auto. Qed.
