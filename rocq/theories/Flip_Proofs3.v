(** The invariant of two controllers, continued. *)
From Verif Require Import Base Codec Persister_Model Persister_Spec Persister_Proofs Stream_Proofs Replicator_Model Replicator_Spec Replicator_Proofs Replicator_Proofs2 Flip_Model Flip_Spec Flip_Proofs Flip_Proofs2.
Local Open Scope list_scope.

Section Flip.
Context {E : Type}.
Variable W : wire E.
Hypothesis HW : wire_ok W.
Notation C := (w_codec W).
Variable rm : bool.

Lemma upd_same {A} (f : bool -> A) x a : upd f x a x = a.
Proof. unfold upd. now rewrite Bool.eqb_reflx. Qed.
Lemma upd_other {A} (f : bool -> A) x a : upd f x a (negb x) = f (negb x).
Proof. unfold upd. now destruct x. Qed.
Lemma upd_neg {A} (f : bool -> A) x a : upd f (negb x) a x = f x.
Proof. unfold upd. now destruct x. Qed.
Lemma two (x y : bool) : y = x \/ y = negb x.
Proof. destruct x, y; auto. Qed.

(** [o]: the one which is ahead. *)
Record J (s : sys E) (o : bool) : Prop := {
  j_inv : forall y, mp_inv (c_store (node s y));
  j_pre : prefix_of (c_store (node s (negb o))) (c_store (node s o));
  j_size : (mp_size (c_store (node s o)) < npos)%N;
  j_master : c_role (node s (negb o)) <> Master;
  j_exp : forall x, c_role (node s x) = Following -> c_exposed (node s x) = None;
  j_fl : forall x, fl s x <> Idle -> c_role (node s x) = Following;
  j_asked : forall x rq, fl s x = Asked rq \/ fl s x = Checked rq -> exists key clock checked, rq = flip_request (c_store (node s x)) key clock checked;
  j_checked : forall x rq, fl s x = Checked rq -> facts (c_store (node s (negb x))) (mp_head (c_store (node s x))) (next_index rq);
  j_diff : forall x b, fl s x = Answered (Some (Diff b)) ->
    x = negb o /\ c_role (node s o) <> Master /\ grows (c_store (node s x)) (c_store (node s o)) /\ receive W rm (c_store (node s x)) b = (c_store (node s o), None) }.

Lemma j_sizes s o : J s o -> forall y, (mp_size (c_store (node s y)) < npos)%N.
Proof.
  intros H y. pose proof (j_size _ _ H) as Hs. destruct (two o y) as [->| ->]; [exact Hs|]. destruct (j_pre _ _ H) as [[r Hr] _]. unfold mp_size in *. rewrite Hr, app_length in Hs. lia.
Qed.
Lemma j_idle s o x : J s o -> c_role (node s x) <> Following -> fl s x = Idle.
Proof. intros H Hr. destruct (fl s x) eqn:Ef; [reflexivity| | |]; exfalso; apply Hr; apply (j_fl _ _ H); congruence. Qed.
Lemma request_next (f : mp E) key clock checked : (mp_size f < npos)%N -> next_index (flip_request f key clock checked) = mp_size f.
Proof.
  intros Hs. unfold next_index, flip_request. cbn. rewrite head_and_last. cbn [snd]. destruct (rev (mp_entries f)) as [|y l] eqn:Er; cbn.
  - unfold mp_size. apply (f_equal (@length _)) in Er. rewrite rev_length in Er. cbn in Er. now rewrite Er.
  - apply (f_equal (@length _)) in Er. rewrite rev_length in Er. cbn in Er. assert (0 < mp_size f)%N by (unfold mp_size; lia). replace (mp_size f - 1 + 1)%N with (mp_size f) by lia.
    apply N.mod_small. unfold npos in Hs. lia.
Qed.

(** Changing only the role and the exposure of one. *)
Lemma J_same s o x c : J s o -> c_store c = c_store (node s x) -> (x = negb o -> c_role c <> Master) -> (c_role c = Master -> c_role (node s x) = Master) ->
  (c_role c = Following -> c_exposed c = None) -> (c_role (node s x) = Following -> c_role c = Following) -> J {| node := upd (node s) x c; fl := fl s |} o.
Proof.
  intros H Hst Hm Hm2 He Hf. assert (Hs : forall y, c_store (upd (node s) x c y) = c_store (node s y)) by (intros y; destruct (two x y) as [->| ->]; [now rewrite upd_same|now rewrite upd_other]).
  destruct H as [A1 A2 A3 A4 A5 A6 A7 A8 A9]. split; cbn [node fl]; intros; rewrite ?Hs in *; eauto.
  - destruct (two x (negb o)) as [Hy|Hy]; rewrite Hy; [rewrite upd_same; now apply Hm|rewrite upd_other, <- Hy; exact A4].
  - destruct (two x x0) as [->| ->]; [rewrite upd_same in *; auto|rewrite upd_other in *; auto].
  - destruct (two x x0) as [->| ->]; [rewrite upd_same in *; auto|rewrite upd_other in *; auto].
  - destruct (A9 _ _ H) as (B1 & B2 & B3 & B4). repeat split; auto. destruct (two x o) as [Ho|Ho]; rewrite Ho; [rewrite upd_same; subst; auto|rewrite upd_other, <- Ho; auto].
Qed.
(** Changing only the flight of one. *)
Lemma J_flight s o x (f : flight) : J s o -> (f <> Idle -> c_role (node s x) = Following) ->
  (forall rq, f = Asked rq \/ f = Checked rq -> exists key clock checked, rq = flip_request (c_store (node s x)) key clock checked) ->
  (forall rq, f = Checked rq -> facts (c_store (node s (negb x))) (mp_head (c_store (node s x))) (next_index rq)) ->
  (forall b, f = Answered (Some (Diff b)) -> x = negb o /\ c_role (node s o) <> Master /\ grows (c_store (node s x)) (c_store (node s o)) /\ receive W rm (c_store (node s x)) b = (c_store (node s o), None)) ->
  J {| node := node s; fl := upd (fl s) x f |} o.
Proof.
  intros [A1 A2 A3 A4 A5 A6 A7 A8 A9] B1 B2 B3 B4. split; cbn [node fl]; eauto.
  - intros y Hy. destruct (two x y) as [->| ->]; [rewrite upd_same in Hy; auto|rewrite upd_other in Hy; auto].
  - intros y rq Hy. destruct (two x y) as [->| ->]; [rewrite upd_same in Hy; auto|rewrite upd_other in Hy; auto].
  - intros y rq Hy. destruct (two x y) as [->| ->]; [rewrite upd_same in Hy; auto|rewrite upd_other in Hy; auto].
  - intros y b Hy. destruct (two x y) as [->| ->]; [rewrite upd_same in Hy; auto|rewrite upd_other in Hy; auto].
Qed.
(** The data of one grow. *)
Lemma J_store s o x m : J s o -> mp_inv m -> (mp_size m < npos)%N -> grows (c_store (node s x)) m -> fl s x = Idle ->
  (if Bool.eqb x o then prefix_of (c_store (node s (negb o))) m /\ (c_role (node s o) = Master \/ m = c_store (node s o)) else prefix_of m (c_store (node s o))) ->
  J {| node := upd (node s) x (with_store (node s x) m); fl := fl s |} o.
Proof.
  intros [A1 A2 A3 A4 A5 A6 A7 A8 A9] Hm Hs Hg Hi Hp.
  assert (Hr : forall y, c_role (upd (node s) x (with_store (node s x) m) y) = c_role (node s y)) by (intros y; destruct (two x y) as [->| ->]; [now rewrite upd_same|now rewrite upd_other]).
  assert (He : forall y, c_exposed (upd (node s) x (with_store (node s x) m) y) = c_exposed (node s y)) by (intros y; destruct (two x y) as [->| ->]; [now rewrite upd_same|now rewrite upd_other]).
  split; cbn [node fl]; intros; rewrite ?Hr, ?He in *; eauto.
  - destruct (two x y) as [->| ->]; [rewrite upd_same; exact Hm|rewrite upd_other; auto].
  - destruct x, o; cbn in *; unfold upd; cbn; tauto.
  - destruct x, o; cbn in *; unfold upd; cbn; auto.
  - destruct (two x x0) as [->| ->]; [rewrite Hi in H; destruct H; discriminate|rewrite upd_other; auto].
  - destruct (two x x0) as [->| ->]; [rewrite Hi in H; discriminate|]. rewrite upd_other. rewrite Bool.negb_involutive, upd_same. cbn. pose proof (A8 _ _ H) as F. rewrite Bool.negb_involutive in F. eapply facts_grows; eauto.
  - destruct (A9 _ _ H) as (B1 & B2 & B3 & B4). destruct (two x x0) as [->| ->]; [rewrite Hi in H; discriminate|].
    assert (x = o) as -> by (destruct x, o; cbn in *; congruence). rewrite Bool.eqb_reflx in Hp. destruct Hp as [_ [|Hp]]; [contradiction|]. subst m.
    rewrite upd_other, upd_same. cbn. auto.
Qed.

Lemma J_receive s o x r : J s o -> fl s x = Answered r ->
  exists o', J {| node := upd (node s) x (fst (flip_done W rm (node s x) r)); fl := upd (fl s) x Idle |} o' /\
    ((fst (flip_done W rm (node s x) r) = node s x /\ o' = o /\ forall b, r <> Some (Diff b)) \/
     (x = negb o /\ o' = x /\ c_role (node s o) <> Master /\ flip_done W rm (node s x) r = ({| c_store := c_store (node s o); c_role := Master; c_exposed := c_exposed (node s x) |}, true))).
Proof.
  intros H Hf. destruct r as [[k|b]|].
  1,3: exists o; (split; [|left; repeat split; auto; discriminate]); cbn [flip_done fst];
    pose proof (J_flight s o x Idle H) as G; destruct G as [B1 B2 B3 B4 B5 B6 B7 B8 B9]; try (intros; discriminate); try (intros ? [|]; discriminate); try congruence;
    assert (Hn : forall y, upd (node s) x (node s x) y = node s y) by (intros y; destruct (two x y) as [->| ->]; [now rewrite upd_same|now rewrite upd_other]);
    split; cbn [node fl] in *; intros; rewrite ?Hn in *; eauto.
  destruct (j_diff _ _ H _ _ Hf) as (-> & Ho & Hg & Hrec).
  assert (Hd : flip_done W rm (node s (negb o)) (Some (Diff b)) = ({| c_store := c_store (node s o); c_role := Master; c_exposed := c_exposed (node s (negb o)) |}, true)) by (cbn; now rewrite Hrec).
  exists (negb o). split; [|right; repeat split; auto]. rewrite Hd. cbn [fst].
  assert (Hst : forall y, c_store (upd (node s) (negb o) {| c_store := c_store (node s o); c_role := Master; c_exposed := c_exposed (node s (negb o)) |} y) = c_store (node s o)).
  { intros y. destruct (two (negb o) y) as [->| ->]; [now rewrite upd_same|rewrite upd_other]. now rewrite Bool.negb_involutive. }
  destruct H as [A1 A2 A3 A4 A5 A6 A7 A8 A9]. split; cbn [node fl]; intros; rewrite ?Hst in *; eauto.
  - apply prefix_refl.
  - rewrite upd_other, Bool.negb_involutive. exact Ho.
  - destruct (two (negb o) x) as [->| ->]; [rewrite upd_same in *; discriminate|rewrite upd_other in *; auto].
  - destruct (two (negb o) x) as [->| ->]; [exfalso; apply H; apply upd_same|rewrite !upd_other in *; auto].
  - destruct (two (negb o) x) as [->| ->]; [rewrite upd_same in *; destruct H; discriminate|rewrite upd_other, Bool.negb_involutive in *; auto].
  - destruct (two (negb o) x) as [->| ->]; [rewrite upd_same in *; discriminate|rewrite upd_other, Bool.negb_involutive in *]. pose proof (A8 _ _ H) as F. eapply facts_grows; eauto.
  - destruct (two (negb o) x) as [->| ->]; [rewrite upd_same in H; discriminate|rewrite upd_other, Bool.negb_involutive in H]. destruct (A9 _ _ H) as (B1 & _). destruct o; discriminate.
Qed.

(** One step: the invariant, and what becomes of the data of the one ahead. *)
Lemma J_step s o s' : J s o -> step W rm s s' ->
  exists o', J s' o' /\ prefix_of (c_store (node s o)) (c_store (node s' o')) /\
    (o' = o \/ (c_role (node s o) <> Master /\ c_store (node s' o') = c_store (node s o) /\ o' = negb o)) /\
    (forall x, c_role (node s' x) = Master -> c_role (node s x) = Master \/ (o' = x /\ x = negb o /\ c_store (node s' x) = c_store (node s o) /\ c_role (node s o) <> Master)).
Proof.
  intros H Hs. destruct Hs.
  - (* publish *) assert (x = o) as -> by (destruct (two o x) as [->| ->]; [reflexivity|]; exfalso; exact (j_master _ _ H H0)).
    exists o. pose proof (grows_step W (c_store (node s o)) o0) as Hg. split; [|split; [|split; [now left|]]].
    + apply J_store; auto; [apply mp_step_inv; apply (j_inv _ _ H)|apply (j_idle s o); [exact H|congruence]|]. rewrite Bool.eqb_reflx. split; [|now left]. eapply prefix_trans; [apply (j_pre _ _ H)|now apply grows_prefix].
    + cbn [node]. rewrite upd_same. now apply grows_prefix.
    + cbn [node]. intros y Hy. left. destruct (two o y) as [->| ->]; [exact H0|now rewrite upd_other in Hy].
  - (* replicate *) exists o. destruct (two o x) as [->| ->].
    + rewrite (pass_line_behind W HW rm (c_store (node s o)) (c_store (node s (negb o)))); auto; [|apply (j_inv _ _ H)|apply (j_inv _ _ H)|apply (j_pre _ _ H)].
      split; [|split; [|split; [now left|]]].
      * apply J_store; auto; [apply (j_inv _ _ H)|apply (j_size _ _ H)|apply grows_refl|]. rewrite Bool.eqb_reflx. split; [apply (j_pre _ _ H)|now right].
      * cbn [node]. rewrite upd_same. apply prefix_refl.
      * cbn [node]. intros y Hy. left. destruct (two o y) as [->| ->]; [now rewrite upd_same in Hy|now rewrite upd_other in Hy].
    + rewrite Bool.negb_involutive in H2. destruct (pass_line_inv W HW rm (c_store (node s o)) (c_store (node s (negb o))) from l (j_inv _ _ H o) (j_inv _ _ H (negb o)) (j_pre _ _ H) H2) as (P1 & P2 & P3).
      split; [|split; [|split; [now left|]]].
      * apply J_store; auto; [|now destruct o]. destruct P2 as [[r Hr] _]. pose proof (j_size _ _ H) as Hz. unfold mp_size in *. rewrite Hr, app_length in Hz. lia.
      * cbn [node]. rewrite upd_neg. apply prefix_refl.
      * cbn [node]. intros y Hy. left. destruct (two (negb o) y) as [->| ->]; [now rewrite upd_same in Hy|now rewrite upd_other in Hy].
  - (* expose *) exists o. split; [|split; [|split; [now left|]]].
    + apply J_same; auto; cbn; try tauto. intros ->. apply (j_master _ _ H).
    + cbn [node]. destruct (two x o) as [->| ->]; [rewrite upd_same|rewrite upd_other]; apply prefix_refl.
    + cbn [node]. intros y Hy. left. destruct (two x y) as [->| ->]; [now rewrite upd_same in Hy|now rewrite upd_other in Hy].
  - (* unexpose *) exists o. split; [|split; [|split; [now left|]]].
    + apply J_same; auto; cbn; try tauto. intros ->. apply (j_master _ _ H).
    + cbn [node]. destruct (two x o) as [->| ->]; [rewrite upd_same|rewrite upd_other]; apply prefix_refl.
    + cbn [node]. intros y Hy. left. destruct (two x y) as [->| ->]; [now rewrite upd_same in Hy|now rewrite upd_other in Hy].
  - (* follow *) exists o. split; [|split; [|split; [now left|]]].
    + apply J_same; auto; cbn; try tauto; discriminate.
    + cbn [node]. destruct (two x o) as [->| ->]; [rewrite upd_same|rewrite upd_other]; apply prefix_refl.
    + cbn [node]. intros y Hy. left. destruct (two x y) as [->| ->]; [now rewrite upd_same in Hy|now rewrite upd_other in Hy].
  - (* ask *) exists o. split; [|split; [apply prefix_refl|split; [now left|now left]]].
    apply J_flight; auto; try discriminate.
    + intros _. unfold may_flip in H0. now destruct (c_role (node s x)).
    + intros rq [Hq|Hq]; [|discriminate]. injection Hq as <-. eauto.
  - (* check *) exists o. split; [|split; [apply prefix_refl|split; [now left|now left]]].
    destruct (j_asked _ _ H _ _ (or_introl H0)) as (key & clock & checked & ->). destruct (precheck _ _) eqn:Ep.
    + apply J_flight; auto; try discriminate; [|intros ? [|]; discriminate]. intros _. apply (j_fl _ _ H). congruence.
    + apply J_flight; auto; try discriminate.
      * intros _. apply (j_fl _ _ H). congruence.
      * intros rq [Hq|Hq]; [discriminate|]. injection Hq as <-. eauto.
      * intros rq Hq. injection Hq as <-. apply precheck_facts; [apply (j_inv _ _ H)|apply (j_sizes _ _ H)|exact Ep|reflexivity].
  - (* serve *) destruct (j_asked _ _ H _ _ (or_intror H0)) as (key & clock & checked & Hrq). pose proof (j_checked _ _ H _ _ H0) as F.
    destruct (locked W now (node s (negb x)) rq UpRefused) as [c' r] eqn:El. subst res. cbn [fst snd].
    destruct (locked_cases W now (node s (negb x)) rq (j_exp _ _ H (negb x)) c' r El) as (L1 & L2 & L3). exists o.
    assert (Hx : c_role (node s x) = Following) by (apply (j_fl _ _ H); congruence).
    assert (Hq2 : prefix_of (c_store (node s o)) (c_store (upd (node s) (negb x) c' o))).
    { destruct (two (negb x) o) as [->| ->]; [rewrite upd_same, L1|rewrite upd_other]; apply prefix_refl. }
    destruct L3 as [(R1 & k & ->)|(R1 & R2 & e & b & R3 & -> & R4 & R5)].
    + split; [|split; [exact Hq2|split; [now left|]]].
      * apply (J_flight {| node := upd (node s) (negb x) c'; fl := fl s |} o x); try discriminate; [|cbn; intros _|intros ? [|]; discriminate].
        -- apply J_same; auto; [intros Hy; rewrite R1, Hy; apply (j_master _ _ H)|intros; congruence|intros Hy; rewrite R1 in Hy; apply L2; now apply (j_exp _ _ H)|congruence].
        -- now rewrite upd_neg.
      * cbn [node]. intros y Hy. left. destruct (two (negb x) y) as [->| ->]; [rewrite upd_same in Hy; congruence|now rewrite upd_other in Hy].
    + assert (o = negb x) as -> by (destruct (two o (negb x)) as [Hy|Hy]; [auto|]; exfalso; apply (j_master _ _ H); congruence).
      pose proof (j_pre _ _ H) as Hp. rewrite Bool.negb_involutive in Hp.
      split; [|split; [exact Hq2|split; [now left|]]].
      * apply (J_flight {| node := upd (node s) (negb x) c'; fl := fl s |} (negb x) x); try discriminate; [|cbn; intros _|intros ? [|]; discriminate|].
        -- apply J_same; auto; intros; try congruence.
        -- now rewrite upd_neg.
        -- intros b' Hb. injection Hb as <-. cbn [node]. rewrite Bool.negb_involutive, upd_same, L1, upd_neg.
           repeat split; auto; [congruence| |].
           ++ eapply facts_prefix_grows; eauto; [apply (j_inv _ _ H)|]. subst rq. apply request_next. apply (j_sizes _ _ H).
           ++ subst rq. eapply flip_ok; eauto; [apply (j_inv _ _ H)|apply (j_inv _ _ H)|reflexivity].
      * cbn [node]. intros y Hy. left. destruct (two (negb x) y) as [->| ->]; [rewrite upd_same in Hy; congruence|now rewrite upd_other in Hy].
  - (* receive *) destruct (J_receive s o x r H H0) as (o' & Hj & [(R1 & -> & _)|(-> & -> & R2 & R3)]); [exists o|exists (negb o)].
    + split; [exact Hj|]. rewrite R1 in *. cbn [node]. assert (Hn : forall y, upd (node s) x (node s x) y = node s y) by (intros y; destruct (two x y) as [->| ->]; [now rewrite upd_same|now rewrite upd_other]).
      rewrite Hn. split; [apply prefix_refl|split; [now left|]]. intros y. rewrite Hn. now left.
    + split; [exact Hj|]. rewrite R3 in *. cbn [node fst]. rewrite upd_same. cbn [c_store]. split; [apply prefix_refl|]. split; [right; auto|].
      intros y Hy. destruct (two (negb o) y) as [->| ->]; [right; rewrite upd_same; auto|left; now rewrite upd_other in Hy].
  - (* lose *) exists o. split; [|split; [apply prefix_refl|split; [now left|now left]]]. apply J_flight; auto; try discriminate; [congruence|intros ? [|]; discriminate].
  - (* stranger *) destruct (locked W now (node s x) rq UpRefused) as [c' r] eqn:El. cbn [fst].
    destruct (locked_cases W now (node s x) rq (j_exp _ _ H x) c' r El) as (L1 & L2 & L3). exists o.
    assert (Hq2 : prefix_of (c_store (node s o)) (c_store (upd (node s) x c' o))) by (destruct (two x o) as [->| ->]; [rewrite upd_same, L1|rewrite upd_other]; apply prefix_refl).
    assert (Hm : c_role c' = Master -> c_role (node s x) = Master) by (destruct L3 as [(R1 & _)|(R1 & _)]; congruence).
    split; [|split; [exact Hq2|split; [now left|]]].
    + apply J_same; auto.
      * intros -> Hy. exact (j_master _ _ H (Hm Hy)).
      * intros Hy. apply L2. apply (j_exp _ _ H). destruct L3 as [(R1 & _)|(R1 & R2 & _)]; congruence.
      * intros Hy. destruct L3 as [(R1 & _)|(R1 & R2 & _)]; congruence.
    + cbn [node]. intros y Hy. left. destruct (two x y) as [->| ->]; [rewrite upd_same in Hy; auto|now rewrite upd_other in Hy].
Qed.

Lemma J_started s : started W s -> exists o, J s o.
Proof.
  intros (x & A1 & A2 & A3 & A4 & A5 & [[k A6] A6'] & A7). exists x. split; auto.
  - intros y. destruct (A4 y) as [ops ->]. apply mp_run_inv, mp_inv_init.
  - split; [|exact A6']. exists (skipn k (mp_entries (c_store (node s x)))). rewrite A6. now rewrite firstn_skipn.
  - intros y Hy. destruct (two x y) as [->| ->]; [congruence|exact A3].
  - intros y Hy. now rewrite A7 in Hy.
  - intros y rq [Hy|Hy]; now rewrite A7 in Hy.
  - intros y rq Hy; now rewrite A7 in Hy.
  - intros y b Hy; now rewrite A7 in Hy.
Qed.
Lemma J_steps s s' o : J s o -> steps W rm s s' -> exists o', J s' o' /\ prefix_of (c_store (node s o)) (c_store (node s' o')).
Proof.
  intros H. induction 1 as [|s' s'' _ IH Hs]; [exists o; split; [exact H|apply prefix_refl]|]. destruct IH as (o1 & H1 & P1).
  destruct (J_step _ _ _ H1 Hs) as (o2 & H2 & P2 & _). exists o2. split; [exact H2|]. eapply prefix_trans; eauto.
Qed.
Lemma J_who s o x : J s o -> c_role (node s x) = Master -> x = o.
Proof. intros H Hx. destruct (two o x) as [->| ->]; [reflexivity|]. exfalso. exact (j_master _ _ H Hx). Qed.
End Flip.
