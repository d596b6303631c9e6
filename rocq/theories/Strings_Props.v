(** Properties C42, C43, C55, C59, C60 (bricks/strings). *)
From Coq Require Import String.
From Verif Require Import Base Dec Strings_Model.
Local Open Scope list_scope.

(** ** C42: specification.  [interleave fields seps]: f0 ++ [s0] ++ f1 ++ [s1] ++ ... ++ fn. *)
Fixpoint interleave (fields : list bytes) (seps : bytes) : option bytes :=
  match fields, seps with
  | [f], [] => Some f
  | f :: fs, c :: cs => option_map (fun r => f ++ c :: r) (interleave fs cs)
  | _, _ => None
  end.
(** [fs] is the division of [s] by separators into fields. *)
Definition division (sep : byte -> bool) (s : bytes) (fs : list bytes) : Prop :=
  Forall (Forall (fun c => sep c = false)) fs /\
  exists seps, Forall (fun c => sep c = true) seps /\ interleave fs seps = Some s.

(** ** Proofs. *)
Fixpoint fields (sep : byte -> bool) (s : bytes) : list bytes :=
  match s with
  | [] => [[]]
  | c :: r => if sep c then [] :: fields sep r
              else match fields sep r with f :: fs => (c :: f) :: fs | [] => [[c]] end
  end.
Definition nonempty (f : bytes) : bool := match f with [] => false | _ => true end.
Definition keepf (keep : bool) (fs : list bytes) : list bytes := if keep then fs else filter nonempty fs.

Lemma fields_cons sep s : exists f fs, fields sep s = f :: fs.
Proof. destruct s as [|c r]; cbn; [eauto|]. destruct (sep c); [eauto|]. destruct (fields sep r); eauto. Qed.

Lemma keepf_cons keep f fs : keepf keep (f :: fs) = keepf keep [f] ++ keepf keep fs.
Proof. destruct keep; cbn; [reflexivity|]. destruct (nonempty f); reflexivity. Qed.

Lemma emit_field keep a pre rest : split_emit keep (a ++ pre ++ rest) (List.length a + List.length pre) (List.length a) = keepf keep [pre].
Proof.
  unfold split_emit, substr, keepf. rewrite skipn_app, skipn_all, Nat.sub_diag. cbn [app skipn].
  replace (List.length a + List.length pre - List.length a) with (List.length pre) by lia.
  rewrite firstn_app, firstn_all, Nat.sub_diag, firstn_O, app_nil_r.
  destruct keep; cbn [orb]; [reflexivity|]. destruct pre as [|x pre]; cbn [List.length].
  - rewrite Nat.add_0_r, Nat.eqb_refl. reflexivity.
  - destruct (Nat.eqb_spec (List.length a + S (List.length pre)) (List.length a)); [lia|]. reflexivity.
Qed.

Lemma split_loop_fields sep keep rest : forall a pre,
  split_loop sep keep (a ++ pre ++ rest) rest (List.length a + List.length pre) (List.length a) =
  match fields sep rest with f :: fs => keepf keep ((pre ++ f) :: fs) | [] => [] end.
Proof.
  induction rest as [|c rest IH]; intros a pre; cbn [split_loop fields].
  - rewrite emit_field, app_nil_r. destruct keep; reflexivity.
  - destruct (sep c).
    + rewrite emit_field, app_nil_r.
      specialize (IH (a ++ pre ++ [c]) []). cbn [app] in IH. rewrite <- !app_assoc in IH. cbn [app] in IH.
      rewrite !app_length, Nat.add_0_r in IH. cbn [List.length] in IH.
      replace (List.length a + (List.length pre + 1)) with (S (List.length a + List.length pre)) in IH by lia.
      rewrite IH. destruct (fields_cons sep rest) as (f & fs & ->). symmetry. apply (keepf_cons keep pre (f :: fs)).
    + specialize (IH a (pre ++ [c])). rewrite <- app_assoc in IH. cbn [app] in IH. rewrite app_length in IH. cbn [List.length] in IH.
      replace (S (List.length a + List.length pre)) with (List.length a + (List.length pre + 1)) by lia. rewrite IH.
      destruct (fields_cons sep rest) as (f & fs & ->). now rewrite <- app_assoc.
Qed.

Lemma split_fields sep keep s : split sep keep s = keepf keep (fields sep s).
Proof.
  unfold split. pose proof (split_loop_fields sep keep s [] []) as H. cbn [app List.length Nat.add] in H. rewrite H.
  destruct (fields_cons sep s) as (f & fs & ->). reflexivity.
Qed.

Lemma interleave_cons f fs c cs : interleave (f :: fs) (c :: cs) = option_map (fun r => f ++ c :: r) (interleave fs cs).
Proof. destruct fs; reflexivity. Qed.
#[local] Arguments interleave : simpl never.

Lemma fields_division sep s : division sep s (fields sep s).
Proof.
  induction s as [|c r (IH1 & seps & IH2 & IH3)]; cbn [fields].
  - split; [repeat constructor|]. exists []. split; [constructor|reflexivity].
  - destruct (sep c) eqn:Hc.
    + split; [repeat constructor; exact IH1|]. exists (c :: seps). split; [constructor; assumption|].
      now rewrite interleave_cons, IH3.
    + destruct (fields_cons sep r) as (f & fs & Hf). rewrite Hf in *. inversion IH1; subst.
      split; [repeat constructor; assumption|]. exists seps. split; [assumption|].
      destruct seps as [|c' seps].
      * destruct fs; [|discriminate]. cbv in IH3 |- *. congruence.
      * rewrite interleave_cons in *. destruct (interleave fs seps); cbn in *; [|discriminate]. congruence.
Qed.

Lemma division_unique sep : forall fs1 s fs2, division sep s fs1 -> division sep s fs2 -> fs1 = fs2.
Proof.
  assert (Hsep : forall a b c d x y, Forall (fun c => sep c = false) a -> Forall (fun c => sep c = false) b ->
     sep c = true -> sep d = true -> a ++ c :: x = b ++ d :: y -> a = b /\ c = d /\ x = y).
  { induction a as [|a0 a IHa]; intros [|b0 b] c d x y Ha Hb Hc Hd Heq; cbn in Heq.
    - injection Heq; auto.
    - injection Heq as -> _. inversion Hb; congruence.
    - injection Heq as -> _. inversion Ha; congruence.
    - injection Heq as -> Heq. inversion Ha; inversion Hb; subst. destruct (IHa b c d x y) as (-> & -> & ->); auto. }
  assert (Hno : forall a b c x, Forall (fun c => sep c = false) a -> sep c = true -> a = b ++ c :: x -> False).
  { intros a b c x Ha Hc ->. rewrite Forall_app in Ha. destruct Ha as [_ Ha]. inversion Ha; congruence. }
  induction fs1 as [|f1 fs1 IH]; intros s fs2 (H1 & seps1 & H2 & H3) (G1 & seps2 & G2 & G3).
  - destruct seps1; discriminate.
  - inversion H1 as [|? ? Hf1 Hfs1]; subst. destruct fs2 as [|f2 fs2]; [destruct seps2; discriminate|].
    inversion G1 as [|? ? Hf2 Hfs2]; subst.
    assert (Hcase : forall f fs seps, interleave (f :: fs) seps = Some s -> fs = [] /\ seps = [] /\ f = s \/
              exists c cs r, seps = c :: cs /\ interleave fs cs = Some r /\ s = f ++ c :: r).
    { intros f fs seps H. destruct seps as [|c cs].
      - left. destruct fs; [|discriminate]. injection H as <-. auto.
      - right. rewrite interleave_cons in H. destruct (interleave fs cs) as [r|] eqn:Hr; [|discriminate].
        cbn in H. injection H as <-. exists c, cs, r. auto. }
    destruct (Hcase _ _ _ H3) as [(-> & -> & ->)|(c1 & cs1 & r1 & -> & Hr1 & Hs1)];
    destruct (Hcase _ _ _ G3) as [(-> & -> & ->)|(c2 & cs2 & r2 & -> & Hr2 & Hs2)].
    + reflexivity.
    + exfalso. inversion G2; subst. eapply Hno; [exact Hf1| |]; eauto.
    + exfalso. inversion H2; subst. eapply Hno; [exact Hf2| |]; eauto.
    + pose proof (Forall_inv H2) as Hc1. pose proof (Forall_inv G2) as Hc2.
      apply Forall_inv_tail in H2, G2. rewrite Hs1 in Hs2.
      destruct (Hsep f1 f2 c1 c2 r1 r2) as (-> & -> & ->); auto. f_equal.
      apply (IH r2); split; eauto.
Qed.

(** C42: with empty fields kept, the result is the one and only division of the string by separators. *)
Theorem C42_split_is_the_division :
  forall sep s, division sep s (split sep true s) /\ forall fs, division sep s fs -> fs = split sep true s.
Proof.
  intros sep s. rewrite split_fields. cbn [keepf]. split; [apply fields_division|].
  intros fs H. eapply division_unique; [exact H|apply fields_division].
Qed.
Print Assumptions C42_split_is_the_division.

(** C42: skipping drops exactly the empty fields. *)
Theorem C42_skip_drops_empty_fields :
  forall sep s, split sep false s = filter (fun f => negb (Nat.eqb (List.length f) 0)) (split sep true s).
Proof.
  intros sep s. rewrite !split_fields. cbn [keepf]. apply filter_ext. intros [|c f]; reflexivity.
Qed.
Print Assumptions C42_skip_drops_empty_fields.

Lemma join_loop_acc l : forall r sep, join_loop false r sep l = r ++ flat_map (fun x => sep ++ x) l.
Proof.
  induction l as [|x l IH]; intros r sep; cbn; [now rewrite app_nil_r|]. rewrite IH. now rewrite <- !app_assoc.
Qed.
Lemma join_cons x l sep : join (x :: l) sep = x ++ flat_map (fun y => sep ++ y) l.
Proof. unfold join. cbn. now rewrite join_loop_acc. Qed.

(** C42: Join puts the separator between any two consecutive elements. *)
Theorem C42_join_spec :
  forall sep, join [] sep = [] /\ forall x l, join (x :: l) sep = x ++ flat_map (fun y => sep ++ y) l.
Proof. intros sep. split; [reflexivity|]. intros x l. apply join_cons. Qed.
Print Assumptions C42_join_spec.

Lemma interleave_join c : forall l x, interleave (x :: l) (repeat c (List.length l)) = Some (join (x :: l) [c]).
Proof.
  induction l as [|y l IH]; intros x.
  - rewrite join_cons. cbn [List.length repeat flat_map]. now rewrite app_nil_r.
  - cbn [List.length repeat]. rewrite interleave_cons, IH. cbn [option_map]. f_equal. rewrite !join_cons. reflexivity.
Qed.

(** C42: Split inverts Join for separator-free fields, *)
Theorem C42_split_inverts_join :
  forall c l, l <> [] -> Forall (fun f => ~ In c f) l -> split (sep_char c) true (join l [c]) = l.
Proof.
  intros c l Hl H. symmetry. apply C42_split_is_the_division. destruct l as [|x l]; [congruence|]. split.
  - eapply Forall_impl; [|exact H]. intros f Hf. apply Forall_forall. intros b Hb. unfold sep_char.
    apply N.eqb_neq. intros ->. auto.
  - exists (repeat c (List.length l)). split; [|apply interleave_join]. apply Forall_forall. intros b Hb.
    apply repeat_spec in Hb. subst. unfold sep_char. apply N.eqb_refl.
Qed.
Print Assumptions C42_split_inverts_join.

(** and Join inverts Split, for every string. *)
Theorem C42_join_inverts_split :
  forall c s, join (split (sep_char c) true s) [c] = s.
Proof.
  intros c s. rewrite split_fields. cbn [keepf]. destruct (fields_division (sep_char c) s) as (_ & seps & H1 & H2).
  destruct (fields_cons (sep_char c) s) as (f & fs & Hf). rewrite Hf in *.
  assert (Hs : seps = repeat c (List.length fs)).
  { clear Hf. revert f fs s H2. induction H1 as [|x seps Hx _ IH]; intros f fs s H2.
    - destruct fs; [reflexivity|discriminate].
    - rewrite interleave_cons in H2. destruct fs as [|f' fs]; [discriminate|].
      destruct (interleave (f' :: fs) seps) eqn:Hi; [|discriminate]. cbn [List.length repeat]. f_equal; [|eapply IH; eauto].
      unfold sep_char in Hx. now apply N.eqb_eq in Hx. }
  rewrite Hs, interleave_join in H2. congruence.
Qed.
Print Assumptions C42_join_inverts_split.

(** The in-place version. *)
Lemma set_nth_length l : forall i b, List.length (set_nth l i b) = List.length l.
Proof. induction l as [|a l IH]; intros [|i] b; cbn; auto. Qed.
Lemma set_nth_eq l : forall i b, i < List.length l -> nth_error (set_nth l i b) i = Some b.
Proof. induction l as [|a l IH]; intros [|i] b H; cbn in *; try lia; auto. apply IH. lia. Qed.
Lemma set_nth_back l : forall i b, set_nth (set_nth l i b) i (nth i l 0%N) = l.
Proof. induction l as [|a l IH]; intros [|i] b; cbn; auto. now rewrite IH. Qed.
Lemma set_nth_substr l : forall i b j, j <= i -> substr (set_nth l i b) j (i - j) = substr l j (i - j).
Proof.
  unfold substr. induction l as [|a l IH]; intros i b j H; [reflexivity|].
  destruct i as [|i]; [assert (j = 0) as -> by lia; reflexivity|].
  destruct j as [|j].
  - specialize (IH i b 0 ltac:(lia)). rewrite !Nat.sub_0_r in *. cbn [skipn set_nth firstn] in *. now rewrite IH.
  - change (S i - S j) with (i - j). cbn [set_nth skipn]. apply IH. lia.
Qed.

Lemma inplace_emit_spec keep buf i j : j <= i -> i < List.length buf ->
  inplace_emit keep buf i j = (map (fun f => (f, Some 0%N)) (split_emit keep buf i j), buf).
Proof.
  intros Hj Hi. unfold inplace_emit, split_emit. destruct (_ || _)%bool; [|reflexivity].
  cbn [map]. rewrite set_nth_back, set_nth_eq, set_nth_substr by assumption. reflexivity.
Qed.

Lemma inplace_loop_spec sep keep len buf : forall fuel i j, j <= i -> i + fuel < List.length buf ->
  inplace_loop fuel sep keep len buf i j =
  (map (fun f => (f, Some 0%N)) (split_loop sep keep buf (firstn fuel (skipn i buf)) i j), buf).
Proof.
  induction fuel as [|fuel IH]; intros i j Hj Hi; cbn [inplace_loop].
  - rewrite firstn_O. cbn [split_loop]. apply inplace_emit_spec; lia.
  - assert (Hn : firstn (S fuel) (skipn i buf) = nth i buf 0%N :: firstn fuel (skipn (S i) buf)).
    { clear -Hi. revert buf Hi. induction i as [|i IHi]; intros [|a buf] Hi; cbn in Hi; try lia; [reflexivity|].
      cbn [skipn nth]. apply IHi. lia. }
    rewrite Hn. cbn [split_loop]. destruct (sep (nth i buf 0%N)).
    + rewrite inplace_emit_spec by lia. cbn [fst snd]. rewrite IH by lia. cbn [fst snd]. now rewrite map_app.
    + apply IH; lia.
Qed.

(** C42, the in-place version over the buffer of a string (its terminating byte, whatever it holds,
    included): the same fields, each followed by a NUL while it is being processed, and the buffer is
    in the end as it was. *)
Theorem C42_inplace_split :
  forall sep keep s tail, tail <> [] ->
    split_inplace sep keep (s ++ tail) (List.length s) =
    (map (fun f => (f, Some 0%N)) (split sep keep s), s ++ tail).
Proof.
  intros sep keep s tail Ht. unfold split_inplace.
  rewrite inplace_loop_spec by (rewrite ?app_length; destruct tail; [congruence|cbn [List.length]; lia]).
  cbn [skipn]. rewrite firstn_app, firstn_all, Nat.sub_diag, firstn_O, app_nil_r. do 2 f_equal.
  unfold split.
  assert (H : forall rest i j, j <= i -> i + List.length rest = List.length s -> split_loop sep keep (s ++ tail) rest i j = split_loop sep keep s rest i j).
  { assert (He : forall i j, j <= i -> i <= List.length s -> split_emit keep (s ++ tail) i j = split_emit keep s i j).
    { intros i j Hj Hi. unfold split_emit, substr. destruct (_ || _)%bool; [|reflexivity]. f_equal.
      rewrite skipn_app, firstn_app, skipn_length. replace (i - j - (List.length s - j)) with 0 by lia.
      now rewrite firstn_O, app_nil_r. }
    induction rest as [|c rest IH]; intros i j Hj Hi; cbn [split_loop List.length] in *; [apply He; lia|].
    destruct (sep c); [rewrite He by lia; f_equal|]; apply IH; lia. }
  apply H; lia.
Qed.
Print Assumptions C42_inplace_split.

Example C42_demo : split (sep_char 44) true (bs "a,,bc,") = [bs "a"; bs ""; bs "bc"; bs ""] /\
  split (sep_char 44) false (bs "a,,bc,") = [bs "a"; bs "bc"] /\
  join [bs "a"; bs ""; bs "bc"] (bs ", ") = bs "a, , bc" /\
  split_inplace (sep_char 44) false (bs "a,b" ++ [0%N]) 3 = ([(bs "a", Some 0%N); (bs "b", Some 0%N)], bs "a,b" ++ [0%N]).
Proof. vm_compute. auto. Qed.

(** ** C43: specification.  The newline-terminated lines of a text and what follows the last newline. *)
Fixpoint lines (s : bytes) : list bytes * bytes :=
  match s with
  | [] => ([], [])
  | c :: r => let (ls, last) := lines r in
              if N.eqb c 10 then ([] :: ls, last)
              else match ls with [] => ([], c :: last) | l :: ls' => ((c :: l) :: ls', last) end
  end.
Definition no_nul (s : bytes) : Prop := ~ In 0%N s.
Definition never : nat -> bool := fun _ => false.

(** [lines] is what it should be: joining gives the text back, and no line holds a newline. *)
Lemma lines_spec s : concat (map (fun l => l ++ [10%N]) (fst (lines s))) ++ snd (lines s) = s /\
  Forall (fun l => ~ In 10%N l) (fst (lines s)) /\ ~ In 10%N (snd (lines s)).
Proof.
  induction s as [|c r (IH1 & IH2 & IH3)]; cbn [lines]; [cbn; auto|]. destruct (lines r) as [ls last]. cbn [fst snd] in *.
  destruct (N.eqb_spec c 10) as [->|Hc].
  - cbn [fst snd map concat app]. rewrite IH1. repeat split; auto.
  - destruct ls as [|l ls]; cbn [fst snd map concat app] in *.
    + subst. repeat split; auto. intros [H|H]; auto.
    + rewrite IH1. inversion IH2; subst. split; [reflexivity|]. split; [|exact IH3]. constructor; [|assumption]. intros [H|H]; auto.
Qed.

Lemma gl_scan_lines text : no_nul text -> forall s,
  gl_scan never s text =
  ({| gl_residual := match fst (lines text) with [] => gl_residual s ++ snd (lines text) | _ => snd (lines text) end;
      gl_excn := gl_excn s; gl_done := gl_done s;
      gl_out := gl_out s ++ match fst (lines text) with [] => [] | l :: ls => (gl_residual s ++ l) :: ls end |}, false).
Proof.
  induction text as [|c r IH]; intros Hn s.
  - cbn. rewrite !app_nil_r. destruct s; reflexivity.
  - cbn [gl_scan lines]. destruct (N.eqb_spec c 0) as [->|H0]; [exfalso; apply Hn; now left|].
    assert (Hr : no_nul r) by (intros H; apply Hn; now right).
    specialize (IH Hr). destruct (lines r) as [ls last]. cbn [fst snd] in IH.
    destruct (N.eqb c 10).
    + cbn [gl_emit fst snd never]. rewrite IH. cbn [fst snd gl_residual gl_excn gl_done gl_out app].
      rewrite <- app_assoc. destruct ls; cbn [app]; rewrite ?app_nil_r; reflexivity.
    + rewrite IH. cbn [fst snd gl_residual gl_excn gl_done gl_out].
      destruct ls as [|l ls]; cbn [fst snd]; rewrite <- ?app_assoc; reflexivity.
Qed.

Lemma lines_app a b : lines (a ++ b) =
  match fst (lines b) with
  | [] => (fst (lines a), snd (lines a) ++ snd (lines b))
  | l :: ls => (fst (lines a) ++ (snd (lines a) ++ l) :: ls, snd (lines b))
  end.
Proof.
  induction a as [|c a IH]; cbn [app lines fst snd].
  - destruct (lines b) as [[|l ls] last]; reflexivity.
  - rewrite IH. destruct (lines a) as [la ta], (lines b) as [lb tb]. cbn [fst snd].
    destruct lb as [|l lb]; destruct (N.eqb c 10); cbn [fst snd app]; try reflexivity;
      destruct la as [|l' la]; reflexivity.
Qed.

Lemma gl_feed_all_lines blocks : Forall no_nul blocks -> forall s, gl_done s = false -> gl_excn s = false ->
  let t := lines (concat blocks) in
  let s' := gl_feed_all never s blocks in
  gl_residual s' = match fst t with [] => gl_residual s ++ snd t | _ => snd t end /\
  gl_excn s' = false /\ gl_done s' = false /\
  gl_out s' = gl_out s ++ match fst t with [] => [] | l :: ls => (gl_residual s ++ l) :: ls end.
Proof.
  induction 1 as [|b blocks Hb _ IH]; intros s Hd He; cbn zeta.
  - cbn. rewrite !app_nil_r. auto.
  - cbn [gl_feed_all concat]. unfold gl_feed at 1 2 3 4. rewrite Hd, He, gl_scan_lines by exact Hb. cbn [fst snd].
    match goal with |- context [gl_feed_all never ?z blocks] => specialize (IH z) end.
    cbn [gl_done gl_excn gl_residual gl_out] in IH. specialize (IH Hd He). cbn zeta in IH.
    destruct IH as (-> & -> & -> & ->). rewrite lines_app.
    destruct (lines b) as [lb tb], (lines (concat blocks)) as [lc tc]. cbn [fst snd].
    destruct lb as [|l1 lb], lc as [|l2 lc]; cbn [fst snd app]; rewrite ?app_nil_r, <- ?app_assoc; auto.
Qed.

(** C43: however a text without NUL bytes is divided into blocks, the callback has been called with the
    newline-terminated lines of the whole text, in order; the incomplete last line is delivered by Done
    (or the destructor) iff it is not empty. *)
Theorem C43_lines_independent_of_blocks :
  forall blocks, Forall no_nul blocks ->
    let s := gl_feed_all never gl_init blocks in
    let t := lines (concat blocks) in
    gl_out s = fst t /\
    gl_out (fst (gl_dodone never s)) = fst t ++ (match snd t with [] => [] | last => [last] end) /\
    gl_out (fst (gl_call_done never s)) = gl_out (fst (gl_dodone never s)).
Proof.
  intros blocks H s t. destruct (gl_feed_all_lines blocks H gl_init eq_refl eq_refl) as (H1 & H2 & H3 & H4).
  fold s t in H1, H2, H3, H4. cbn [gl_init gl_residual gl_out app] in H1, H4.
  assert (Hr : gl_residual s = snd t) by (rewrite H1; destruct (fst t); reflexivity).
  assert (Ho : gl_out s = fst t) by (rewrite H4; destruct (fst t); reflexivity).
  split; [exact Ho|]. split.
  - unfold gl_dodone. rewrite Hr. destruct (snd t) eqn:Ht; cbn; rewrite ?Ho, ?app_nil_r, ?Hr, ?Ht; reflexivity.
  - unfold gl_call_done. rewrite H3. unfold gl_dodone. cbn [gl_residual]. destruct (gl_residual s) eqn:Hx; cbn; rewrite ?Hx; reflexivity.
Qed.
Print Assumptions C43_lines_independent_of_blocks.

(** The specification function is the usual notion of lines. *)
Theorem C43_lines_are_the_lines :
  forall s, concat (map (fun l => l ++ [10%N]) (fst (lines s))) ++ snd (lines s) = s /\
    Forall (fun l => ~ In 10%N l) (fst (lines s)) /\ ~ In 10%N (snd (lines s)).
Proof. exact lines_spec. Qed.
Print Assumptions C43_lines_are_the_lines.

(** C43: Feed after Done throws and does nothing; a second Done throws. *)
Theorem C43_feed_after_done_throws :
  forall throws s text, let s' := fst (gl_call_done throws s) in
    gl_feed throws s' text = (s', Throw FeedAfterDone) /\ gl_call_done throws s' = (s', Throw DoneTwice).
Proof.
  intros throws s text s'. assert (Hd : gl_done s' = true).
  { unfold s', gl_call_done. destruct (gl_done s) eqn:Hd; [exact Hd|]. unfold gl_dodone. cbn [gl_residual]. destruct (gl_residual s); reflexivity. }
  unfold gl_feed, gl_call_done. rewrite Hd. auto.
Qed.
Print Assumptions C43_feed_after_done_throws.

(** C43: once the callback has thrown, it is not called again by Feed, however the callback behaves. *)
Theorem C43_no_calls_after_exception :
  forall throws s text blocks,
    snd (gl_feed throws s text) = Throw UserException ->
    gl_out (gl_feed_all throws (fst (gl_feed throws s text)) blocks) = gl_out (fst (gl_feed throws s text)).
Proof.
  intros throws s text blocks H.
  assert (He : gl_excn (fst (gl_feed throws s text)) = true).
  { unfold gl_feed in *. destruct (gl_done s); [discriminate|]. destruct (gl_excn s); [discriminate|].
    destruct (snd (gl_scan throws s text)); [reflexivity|discriminate]. }
  clear H. generalize dependent (fst (gl_feed throws s text)). clear.
  induction blocks as [|b blocks IH]; intros s He; [reflexivity|]. cbn [gl_feed_all].
  assert (Hs : fst (gl_feed throws s b) = s) by (unfold gl_feed; rewrite He; destruct (gl_done s); reflexivity).
  rewrite Hs. now apply IH.
Qed.
Print Assumptions C43_no_calls_after_exception.

(** C43 is false of texts with NUL bytes: Feed(std::string) drops the rest of the block from the NUL on,
    so the division into blocks matters. *)
Theorem C43_nul_bytes_refuted :
  let a := [97; 0; 98; 10]%N in
  gl_out (gl_feed_all never gl_init [a]) = [] /\
  gl_out (gl_feed_all never gl_init [[97; 0]; [98; 10]]%N) = [[97; 98]]%N.
Proof. vm_compute. auto. Qed.
Print Assumptions C43_nul_bytes_refuted.

Example C43_demo :
  let s := gl_feed_all never gl_init [bs "ab"; [99; 10; 10]%N; bs "d"; [10; 101]%N] in
  gl_out s = [bs "abc"; bs ""; bs "d"] /\ gl_out (fst (gl_call_done never s)) = [bs "abc"; bs ""; bs "d"; bs "e"].
Proof. vm_compute. auto. Qed.
Example C43_exception_demo :
  let r := gl_feed (fun n => Nat.eqb n 1) gl_init (bs "a" ++ [10%N] ++ bs "b" ++ [10%N] ++ bs "c" ++ [10%N]) in
  snd r = Throw UserException /\ gl_out (fst r) = [bs "a"; bs "b"].
Proof. vm_compute. auto. Qed.

(** ** C55: specification: [std::string]'s operator<. *)
Fixpoint string_lt (a b : bytes) : bool :=
  match a, b with
  | _, [] => false
  | [], _ :: _ => true
  | x :: a', y :: b' => N.ltb x y || (N.eqb x y && string_lt a' b')
  end.

Lemma horner_acc s : forall x, fold_left (fun a b => (a * 10 + (b - 48))%N) s x = (x * 10 ^ N.of_nat (List.length s) + horner s)%N.
Proof.
  unfold horner. induction s as [|c s IH]; intros x; cbn [fold_left List.length].
  - rewrite N.mul_1_r. lia.
  - rewrite IH, (IH (0 * 10 + (c - 48))%N). rewrite Nat2N.inj_succ, N.pow_succ_r'. lia.
Qed.
Lemma horner_cons c s : horner (c :: s) = ((c - 48) * 10 ^ N.of_nat (List.length s) + horner s)%N.
Proof. unfold horner at 1. cbn [fold_left]. rewrite horner_acc. lia. Qed.
Lemma horner_bound s : Forall (fun b => is_digit b = true) s -> (horner s < 10 ^ N.of_nat (List.length s))%N.
Proof.
  induction 1 as [|c s Hc _ IH]; [cbn; lia|]. rewrite horner_cons. cbn [List.length]. rewrite Nat2N.inj_succ, N.pow_succ_r'.
  unfold is_digit in Hc. nia.
Qed.
Lemma digits_order a : forall b, Forall (fun b => is_digit b = true) a -> Forall (fun b => is_digit b = true) b ->
  List.length a = List.length b -> string_lt a b = N.ltb (horner a) (horner b).
Proof.
  induction a as [|x a IH]; intros [|y b] Ha Hb Hl; cbn [List.length] in Hl; try lia; [reflexivity|].
  inversion_clear Ha as [|? ? Hx Ha']. inversion_clear Hb as [|? ? Hy Hb'].
  cbn [string_lt]. rewrite (IH b Ha' Hb') by lia. rewrite !horner_cons. replace (List.length b) with (List.length a) by lia.
  pose proof (horner_bound a Ha'). pose proof (horner_bound b Hb') as Hbb. replace (List.length b) with (List.length a) in Hbb by lia.
  unfold is_digit in *. revert H Hbb. generalize (10 ^ N.of_nat (List.length a))%N (horner a) (horner b). intros p u v Hu Hv.
  destruct (N.lt_trichotomy x y) as [H|[->|H]].
  - replace (N.ltb x y) with true by (symmetry; apply N.ltb_lt; exact H). symmetry. apply N.ltb_lt. nia.
  - rewrite N.ltb_irrefl, N.eqb_refl. cbn [orb andb].
    destruct (N.ltb_spec u v); symmetry; [apply N.ltb_lt|apply N.ltb_ge]; lia.
  - replace (N.ltb x y) with false by (symmetry; apply N.ltb_ge; lia).
    replace (N.eqb x y) with false by (symmetry; apply N.eqb_neq; lia). symmetry. apply N.ltb_ge. nia.
Qed.

Definition unsigned_width (w : N) : Prop := (w = 16 \/ w = 32 \/ w = 64)%N.
Lemma width_fits w x : unsigned_width w -> (x < 2 ^ w)%N -> (x < 10 ^ N.of_nat (fss_size w))%N /\ 0 < fss_size w.
Proof.
  intros H Hx. split; [|destruct H as [->|[->| ->]]; vm_compute; lia].
  eapply N.lt_trans; [exact Hx|]. destruct H as [->|[->| ->]]; vm_compute; reflexivity.
Qed.

(** C55: for uint16_t, uint32_t and uint64_t: fixed length, round trip, and order. *)
Theorem C55_fixed_size_and_order :
  forall w x, unsigned_width w -> (x < 2 ^ w)%N ->
    List.length (pack w x) = fss_size w /\
    unpack w (pack w x) = Some x /\
    forall y, (y < 2 ^ w)%N -> string_lt (pack w x) (pack w y) = N.ltb x y.
Proof.
  intros w x Hw Hx. destruct (width_fits w x Hw Hx) as [Hf Hp]. change (pack w x) with (pad (fss_size w) x).
  split; [now apply pad_length|]. split.
  - unfold unpack. rewrite undec_pad. f_equal. apply N.min_l. lia.
  - intros y Hy. destruct (width_fits w y Hw Hy) as [Hfy _]. change (pack w y) with (pad (fss_size w) y).
    rewrite digits_order, !horner_pad; [reflexivity|apply pad_is_digit..|]. now rewrite !pad_length.
Qed.
Print Assumptions C55_fixed_size_and_order.
Example C55_demo : pack 16 42 = bs "00042" /\ unpack 16 (bs "00042") = Some 42%N /\
  pack 64 (2 ^ 64 - 1) = bs "18446744073709551615" /\ string_lt (pack 32 999) (pack 32 1000) = true.
Proof. vm_compute. auto. Qed.

(** ** C59: Trim. *)
Lemma trim_left_spec s : exists a, s = a ++ trim_left s /\ Forall (fun c => is_space c = true) a /\
  (forall c r, trim_left s = c :: r -> is_space c = false).
Proof.
  induction s as [|c s (a & IH1 & IH2 & IH3)]; cbn [trim_left].
  - exists []. repeat split; [constructor|discriminate].
  - destruct (is_space c) eqn:Hc.
    + exists (c :: a). split; [cbn; congruence|]. split; [now constructor|exact IH3].
    + exists []. repeat split; [constructor|]. intros c' r [= <- _]. exact Hc.
Qed.
Lemma trim_right_spec s : forall n, n <= List.length s -> exists b, firstn n s = trim_right_n n s ++ b /\
  Forall (fun c => is_space c = true) b /\ (forall c r, trim_right_n n s = r ++ [c] -> is_space c = false).
Proof.
  induction n as [|n IH]; intros Hn; cbn [trim_right_n].
  - exists []. rewrite app_nil_r. repeat split; [constructor|]. intros c r H. destruct r; discriminate.
  - assert (Hs : firstn (S n) s = firstn n s ++ [nth n s 0%N]).
    { apply firstn_S_nth_error. apply nth_error_nth'. lia. }
    destruct (is_space (nth n s 0%N)) eqn:Hc.
    + destruct IH as (b & IH1 & IH2 & IH3); [lia|]. exists (b ++ [nth n s 0%N]). rewrite Hs, IH1, <- app_assoc.
      split; [reflexivity|]. split; [|exact IH3]. apply Forall_app. split; [exact IH2|]. now constructor.
    + exists []. rewrite app_nil_r. split; [reflexivity|]. split; [constructor|].
      intros c r H. rewrite Hs in H. apply app_inj_tail in H as [_ <-]. exact Hc.
Qed.

(** C59: the result is the input without the leading and trailing white space, and nothing else is lost. *)
Theorem C59_trim :
  forall s, exists a b, s = a ++ trim s ++ b /\
    Forall (fun c => is_space c = true) a /\ Forall (fun c => is_space c = true) b /\
    (forall c r, trim s = c :: r -> is_space c = false) /\ (forall c r, trim s = r ++ [c] -> is_space c = false).
Proof.
  intros s. destruct (trim_left_spec s) as (a & H1 & H2 & H3).
  destruct (trim_right_spec (trim_left s) (List.length (trim_left s)) (le_n _)) as (b & G1 & G2 & G3).
  rewrite firstn_all in G1. exists a, b. unfold trim. cbv zeta. split; [congruence|]. split; [exact H2|]. split; [exact G2|].
  split; [|exact G3]. intros c r Hc. rewrite Hc in G1. cbn in G1. exact (H3 _ _ G1).
Qed.
Print Assumptions C59_trim.
Example C59_demo : trim (bs "  a b " ++ [10%N]) = bs "a b" /\ trim (bs "   ") = [].
Proof. vm_compute. auto. Qed.

(** ** C60: SplitIntoKeyValuePairs. *)
Lemma split_skip_one sep s : s <> [] -> Forall (fun c => sep c = false) s -> split sep false s = [s].
Proof.
  intros Hs H. rewrite C42_skip_drops_empty_fields.
  assert (Hk : [s] = split sep true s).
  { apply C42_split_is_the_division. split; [now constructor|]. exists []. split; [constructor|reflexivity]. }
  rewrite <- Hk. destruct s; [congruence|reflexivity].
Qed.

(** C60: a text composed of key/value pairs without separators inside and without empty keys or values
    is parsed back to the pairs, in both modes. *)
Theorem C60_key_value_pairs_round_trip :
  forall kc fc throwing (pairs : list (bytes * bytes)), kc <> fc ->
    Forall (fun p => fst p <> [] /\ snd p <> [] /\ Forall (fun c => c <> kc /\ c <> fc) (fst p ++ snd p)) pairs ->
    split_kv (sep_char kc) (sep_char fc) throwing (join (map (fun p => fst p ++ [kc] ++ snd p) pairs) [fc]) = Ok pairs.
Proof.
  intros kc fc throwing pairs Hne Hall.
  assert (Hsplit : split (sep_char fc) false (join (map (fun p => fst p ++ [kc] ++ snd p) pairs) [fc]) = map (fun p => fst p ++ [kc] ++ snd p) pairs).
  { rewrite C42_skip_drops_empty_fields. destruct pairs as [|p0 pairs]; [reflexivity|].
    rewrite C42_split_inverts_join.
    - clear. induction (p0 :: pairs) as [|p l IH]; [reflexivity|]. cbn [map filter].
      rewrite IH, !app_length. cbn [List.length]. destruct (Nat.eqb_spec (List.length (fst p) + (1 + List.length (snd p))) 0); [lia|].
      reflexivity.
    - discriminate.
    - apply Forall_map. eapply Forall_impl; [|exact Hall]. intros [k v] (_ & _ & Hf). cbn [fst snd] in *.
      rewrite Forall_forall in Hf. intros Hin. apply in_app_iff in Hin as [Hin|[Hin|Hin]].
      + apply (Hf fc); [apply in_app_iff; auto|reflexivity].
      + congruence.
      + apply (Hf fc); [apply in_app_iff; auto|reflexivity]. }
  unfold split_kv. rewrite Hsplit. clear Hsplit.
  induction Hall as [|[k v] pairs (Hk & Hv & Hf) _ IH]; [reflexivity|].
  cbn [map kv_loop fst snd] in *.
  assert (Hkv : split (sep_char kc) false (k ++ kc :: v) = [k; v]).
  { rewrite C42_skip_drops_empty_fields.
    assert (Hd : [k; v] = split (sep_char kc) true (k ++ kc :: v)).
    { apply C42_split_is_the_division. split.
      - rewrite Forall_forall in Hf. repeat constructor; apply Forall_forall; intros c Hc; apply N.eqb_neq; apply Hf; apply in_app_iff; auto.
      - exists [kc]. split; [constructor; [apply N.eqb_refl|constructor]|reflexivity]. }
    rewrite <- Hd. destruct k; [congruence|]. destruct v; [congruence|]. reflexivity. }
  change (k ++ [kc] ++ v) with (k ++ kc :: v). rewrite Hkv. rewrite IH. reflexivity.
Qed.
Print Assumptions C60_key_value_pairs_round_trip.

(** C60: in the throwing mode every field must be a pair: success means that no field was dropped. *)
Theorem C60_throw_mode_drops_nothing :
  forall kvsep fsep s r, split_kv kvsep fsep true s = Ok r ->
    map (split kvsep false) (split fsep false s) = map (fun p => [fst p; snd p]) r.
Proof.
  intros kvsep fsep s r. unfold split_kv. generalize (split fsep false s). intros fs. revert r.
  induction fs as [|f fs IH]; intros r H; cbn [kv_loop map] in *; [injection H as <-; reflexivity|].
  destruct (split kvsep false f) as [|k [|v [|x l]]]; try discriminate.
  destruct (kv_loop kvsep true fs) as [r'| |] eqn:Hr; cbn in H; try discriminate. injection H as <-.
  cbn [map fst snd]. now rewrite (IH r' eq_refl).
Qed.
Print Assumptions C60_throw_mode_drops_nothing.

Example C60_demo : split_kv (sep_char 61) is_space false (bs "a=1  b=2 junk c=3=4") = Ok [(bs "a", bs "1"); (bs "b", bs "2")] /\
  split_kv (sep_char 61) is_space true (bs "a=1  b=2 junk") = Throw false.
Proof. vm_compute. auto. Qed.
