(** C54: replaying an OT log applies the edits like a text editor. *)
From stdpp Require Import list.
From Coq Require Import ZArith.
From Verif Require Import Json_Model OT_Model OT_Spec.
From Verif Require Base Json_Spec Json_Proofs.

Section proofs.
Context (decode : list N → option (list N)).

(** The caret of the code and the cursor of the editor. *)
Definition same (rope : list N) (caret : Z) (d : editor) : Prop :=
  match d with
  | Cursor b a => rope = b ++ a ∧ caret = Z.of_nat (length b)
  | Beyond t => rope = t ∧ (Z.of_nat (length t) < caret)%Z
  end.
Lemma step_forward e j rope caret d d' : edit_json decode j e → same rope caret d → apply_edit e d = Some d' → (caret + travel e ≤ 2147483647)%Z →
  ∃ rope' caret', element_step decode j rope caret = Done (rope', caret') ∧ same rope' caret' d' ∧ (caret' = caret + travel e)%Z.
Proof.
  intros Hj Hs Ha Hb. destruct Hj as [bytes s Hd|n Hn|n Hn]; cbn [element_step apply_edit travel] in *.
  - rewrite Hd. destruct d as [b a|t]; [|done]. injection Ha as <-. destruct Hs as [-> ->].
    rewrite bool_decide_eq_true_2 by (rewrite app_length; lia). rewrite bool_decide_eq_true_2 by (unfold int_max; lia).
    rewrite Nat2Z.id, take_app, drop_app. eexists _, _. split; [done|]. split; [|done]. split; [by rewrite (assoc_L (++))|]. rewrite app_length. lia.
  - unfold is_int32, int_max. rewrite bool_decide_eq_true_2 by lia. rewrite bool_decide_eq_true_2 by lia. rewrite bool_decide_eq_true_2 by lia.
    eexists _, _. split; [done|]. split; [|lia]. destruct d as [b a|t].
    + destruct Hs as [-> ->]. destruct (decide _) as [Hl|Hl]; injection Ha as <-; simpl.
      * rewrite <- (assoc_L (++)), take_drop. split; [done|]. rewrite app_length, take_length. lia.
      * split; [done|]. rewrite app_length. lia.
    + injection Ha as <-. destruct Hs as [-> Hc]. simpl. split; [done|lia].
  - unfold is_int32, int_max. rewrite bool_decide_eq_true_2 by lia. rewrite bool_decide_eq_false_2 by lia.
    destruct d as [b a|t]; [|done]. destruct Hs as [-> ->]. destruct (decide _) as [Hl|Hl]; [|done]. injection Ha as <-.
    rewrite bool_decide_eq_true_2 by (rewrite app_length; lia). eexists _, _. split; [done|]. split; [|lia].
    rewrite Nat2Z.id, take_app. rewrite drop_app_ge by lia. simpl. split; [|done]. do 2 f_equal. lia.
Qed.
Lemma step_backward j rope caret rope' caret' d : same rope caret d → element_step decode j rope caret = Done (rope', caret') →
  ∃ e d', edit_json decode j e ∧ apply_edit e d = Some d' ∧ same rope' caret' d'.
Proof.
  intros Hs. destruct j as [|b|z|n|bytes|l|l]; cbn [element_step]; try done.
  - unfold is_int32. case_bool_decide as H1; [|done]. unfold int_max in *. case_bool_decide as H2.
    + case_bool_decide as H3; [|done]. intros [= <- <-]. exists (Retain (Z.to_nat z)).
      destruct d as [b a|t]; cbn [apply_edit].
      * destruct Hs as [-> ->]. destruct (decide _) as [Hl|Hl]; eexists; (split; [constructor; lia|]); (split; [done|]); simpl.
        -- rewrite <- (assoc_L (++)), take_drop. split; [done|]. rewrite app_length, take_length. lia.
        -- split; [done|]. rewrite app_length. lia.
      * destruct Hs as [-> Hc]. eexists. split; [constructor; lia|]. split; [done|]. simpl. split; [done|lia].
    + case_bool_decide as H3; [|done]. intros [= <- <-]. exists (Delete (Z.to_nat (- z))).
      destruct d as [b a|t]; cbn [apply_edit]; [|destruct Hs as [-> Hc]; lia].
      destruct Hs as [-> ->]. rewrite app_length in H3. destruct (decide _) as [Hl|Hl]; [|lia]. eexists. split.
      { rewrite <- (Z.opp_involutive z) at 1. constructor. lia. }
      split; [done|]. rewrite Nat2Z.id, take_app. rewrite drop_app_ge by lia. simpl. split; [|done]. do 2 f_equal. lia.
  - destruct (decode bytes) as [s|] eqn:Hd; [|done]. case_bool_decide as H1; [|done]. case_bool_decide as H2; [|done]. intros [= <- <-].
    exists (Insert s). destruct d as [b a|t]; cbn [apply_edit]; [|destruct Hs as [-> Hc]; lia].
    destruct Hs as [-> ->]. eexists. split; [by constructor|]. split; [done|]. rewrite Nat2Z.id, take_app, drop_app. simpl.
    split; [by rewrite (assoc_L (++))|]. rewrite app_length. lia.
Qed.

Lemma elements_forward js es : Forall2 (edit_json decode) js es → ∀ rope caret d d', same rope caret d → apply_edits es d = Some d' →
  (caret + foldr (λ e x, travel e + x) 0 es ≤ 2147483647)%Z → elements decode js rope caret = Done (text_of d').
Proof.
  induction 1 as [|j e js es Hj H IH]; intros rope caret d d' Hs Ha Hb; cbn [elements apply_edits foldr] in *.
  - injection Ha as <-. f_equal. destruct d; by destruct Hs as [-> _].
  - destruct (apply_edit e d) as [d1|] eqn:E1; [|done].
    assert (0 ≤ foldr (λ e x, travel e + x) 0 es)%Z as Hp by (clear; induction es as [|e es IH]; simpl; [lia|]; destruct e; simpl; lia).
    destruct (step_forward e j rope caret d d1 Hj Hs E1 ltac:(lia)) as (rope' & caret' & -> & Hs' & ->). cbn [bind].
    eapply IH; [exact Hs'|done|lia].
Qed.
Lemma elements_backward js : ∀ rope caret d rope', same rope caret d → elements decode js rope caret = Done rope' →
  ∃ es d', Forall2 (edit_json decode) js es ∧ apply_edits es d = Some d' ∧ rope' = text_of d'.
Proof.
  induction js as [|j js IH]; intros rope caret d rope' Hs; cbn [elements].
  - intros [= <-]. exists [], d. split_and!; [constructor|done|]. destruct d; by destruct Hs as [-> _].
  - destruct (element_step decode j rope caret) as [[rope1 caret1]| |] eqn:E1; [|done|done]. cbn [bind]. intros H.
    destruct (step_backward _ _ _ _ _ _ Hs E1) as (e & d1 & Hj & Ha & Hs1). destruct (IH _ _ _ _ Hs1 H) as (es & d' & Hes & Has & ->).
    exists (e :: es), d'. split_and!; [by constructor| |done]. cbn [apply_edits]. by rewrite Ha.
Qed.
Lemma entry_forward j s : session_json decode j s → ∃ js, entry j = Done (at_ms s, js) ∧ Forall2 (edit_json decode) js (edits s).
Proof.
  intros [ms t js es Ht Hr Ho He]. exists js. split; [|done]. cbn [entry]. rewrite Ht, Ho. simpl. by rewrite bool_decide_eq_true_2 by lia.
Qed.
Lemma entry_backward j t js es : entry j = Done (t, js) → Forall2 (edit_json decode) js es → session_json decode j (Session t es).
Proof.
  destruct j as [| | | | | |ms]; cbn [entry]; try done. destruct (member [116%N] ms) as [tj|] eqn:Et; [|done]. destruct (member [111%N] ms) as [oj|] eqn:Eo; [|done].
  destruct tj; try done. destruct (is_uint64 _) eqn:Eu; [|done]. destruct oj; try done. intros [= <- <-]. apply bool_decide_eq_true_1 in Eu. intros H. by econstructor.
Qed.
Lemma play_forward js s rope rope' : Forall2 (edit_json decode) js (edits s) → play s rope = Some rope' → moderate s → elements decode js rope 0 = Done rope'.
Proof.
  unfold play. intros H Hp Hm. destruct (apply_edits _ _) as [d|] eqn:E1; [|done]. injection Hp as <-.
  eapply elements_forward; [exact H| |exact E1|exact Hm]. done.
Qed.
End proofs.

(** ** The calls the user's processor gets, and what it returns: it is given the text after each session, until it asks to stop. *)
Section spec_processor.
Context {P R : Type} (process : P → Z → list N → P * bool) (generate : P → list N → bool → R).
Fixpoint feed (snapshots : list (Z * list N)) (p : P) (last : list N) : R :=
  match snapshots with
  | [] => generate p last false
  | (t, text) :: rest => let '(p', go_on) := process p (microseconds t) text in if go_on : bool then feed rest p' text else generate p' text true
  end.
End spec_processor.

(** A log in which every number is within the text is replayed without undefined behavior: the processor gets the texts a text editor
    would show after each session. *)
Theorem C54_replay_is_editing : ∀ P R (process : P → Z → list N → P * bool) (generate : P → list N → bool → R)
    (decode : list N → option (list N)) (j : json) (ss : list session) (snapshots : list (Z * list N)) (p : P),
  log_json decode j ss → Forall moderate ss → play_all ss [] = Some snapshots →
  ot process generate decode j p = Done (feed process generate snapshots p []).
Proof.
  intros P R process generate decode j ss snapshots p (ms & -> & H) Hm Hp. cbn [ot]. revert p snapshots Hm Hp. generalize (@nil N) as rope.
  remember (map snd ms) as inners eqn:Ei. revert ms Ei.
  induction H as [|i s is ss Hi H IH]; intros ms Ei rope p snapshots Hm Hp; destruct ms as [|[k i'] ms]; try done; cbn [play_all] in Hp.
  - by injection Hp as <-.
  - injection Ei as <- ->. apply Forall_cons in Hm as [Hm1 Hm].
    destruct (play s rope) as [rope'|] eqn:E1; [|done]. destruct (play_all ss rope') as [rest|] eqn:E2; [|done]. injection Hp as <-.
    destruct (entry_forward decode i s Hi) as (js & Hen & Hjs). cbn [replay feed]. rewrite Hen. cbn [bind].
    rewrite (play_forward decode js s rope rope' Hjs E1 Hm1). cbn [bind]. destruct (process p _ rope') as [p' go]. destruct go; [|done]. by apply IH.
Qed.
Theorem C54_text : ∀ (decode : list N → option (list N)) (j : json) (ss : list session) (snapshots : list (Z * list N)),
  log_json decode j ss → Forall moderate ss → play_all ss [] = Some snapshots →
  ot_text decode j = Done (List.last (map snd snapshots) []).
Proof.
  intros decode j ss snapshots Hl Hm Hp. unfold ot_text. rewrite (C54_replay_is_editing _ _ _ _ decode j ss snapshots tt Hl Hm Hp). f_equal.
  clear. generalize (@nil N) as t0. induction snapshots as [|[t text] rest IH]; intros t0; [done|]. cbn [feed]. rewrite IH. destruct rest as [|[t1 x1] rest]; [done|]. simpl.
  clear. revert x1. induction rest as [|[t2 x2] rest IH]; intros x1; [done|]. simpl in *. destruct rest; [done|]. apply IH.
Qed.

(** The times the processor is given are the ones in the log, in microseconds. *)
Theorem C54_times : ∀ t, (0 ≤ t)%Z → (t * 1000 < 2 ^ 63)%Z → microseconds t = (t * 1000)%Z.
Proof. intros t H0 H1. apply Json_Proofs.wrap_in_range; [done|]. unfold Json_Spec.in_range. simpl. lia. Qed.

(** Conversely, if a text is returned at all, the input was a log, and the text is what a text editor makes of it. *)
Theorem C54_only_editing : ∀ (decode : list N → option (list N)) (j : json) (text : list N),
  ot_text decode j = Done text →
  ∃ ss snapshots, log_json decode j ss ∧ play_all ss [] = Some snapshots ∧ text = List.last (map snd snapshots) [].
Proof.
  intros decode j text H. unfold ot_text, ot in H. destruct j as [| | | | | |ms]; try done.
  assert (∀ rope, replay (λ (p : unit) _ _, (p, true)) (λ _ rope _, rope) decode ms tt rope = Done text →
    ∃ ss snapshots, Forall2 (session_json decode) (map snd ms) ss ∧ play_all ss rope = Some snapshots ∧ text = List.last (map snd snapshots) rope) as G.
  { clear H. induction ms as [|[k i] ms IH]; intros rope; cbn [replay].
    { intros [= <-]. exists [], []. split_and!; [constructor|done..]. }
    destruct (entry i) as [[t js]| |] eqn:E1; [|done|done]. cbn [bind].
    destruct (elements decode js rope 0) as [rope'| |] eqn:E2; [|done|done]. cbn [bind]. intros H.
    destruct (elements_backward decode js rope 0 (Cursor [] rope) rope' (conj eq_refl eq_refl) E2) as (es & d & Hes & Ha & ->).
    destruct (IH _ H) as (ss & sn & Hss & Hp & ->). exists (Session t es :: ss), ((t, text_of d) :: sn).
    split_and!; [constructor; [by eapply entry_backward|done]| |].
    - cbn [play_all]. unfold play. cbn [edits]. rewrite Ha. cbn [option_map]. by rewrite Hp.
    - destruct sn as [|[t1 x1] sn]; [done|]. simpl. clear. revert x1. induction sn as [|[t2 x2] sn IH]; intros x1; [done|]. simpl in *. destruct sn; [done|]. apply IH. }
  destruct (G [] H) as (ss & sn & Hss & Hp & ->). exists ss, sn. split_and!; [by exists ms|done|done].
Qed.

(** Numbers are not checked against the text: a log may make the program write outside of it. *)
Definition ascii_decode (s : list N) : option (list N) := if decide (Forall (λ c, c < 128)%N s) then Some s else None.
Definition entry_of (t : Z) (es : list json) : json := JObj [([116%N], JInt t); ([111%N], JArr es)].
Definition key (s : list N) (j : json) : list N * json := (s, j).
Theorem C54_out_of_range_is_not_checked :
  ot_text ascii_decode (JObj [key [97%N] (entry_of 1 [JStr [65%N; 66%N]]); key [98%N] (entry_of 2 [JInt 5; JStr [67%N]])]) = Undefined ∧
  ot_text ascii_decode (JObj [key [97%N] (entry_of 1 [JInt (-1)])]) = Undefined.
Proof. split; reflexivity. Qed.
Definition ot_log : json :=
  JObj [key [97%N] (entry_of 1 [JStr [65%N; 66%N; 67%N]]); key [98%N] (entry_of 2 [JInt 1; JInt (-1); JStr [68%N; 69%N]; JInt 1; JStr [70%N]])].
Definition ot_sessions : list session :=
  [Session 1 [Insert [65%N; 66%N; 67%N]]; Session 2 [Retain 1; Delete 1; Insert [68%N; 69%N]; Retain 1; Insert [70%N]]].
Example C54_ex : log_json ascii_decode ot_log ot_sessions ∧ Forall moderate ot_sessions ∧
  play_all ot_sessions [] = Some [(1%Z, [65; 66; 67]%N); (2%Z, [65; 68; 69; 67; 70]%N)] ∧
  ot_text ascii_decode ot_log = Done [65; 68; 69; 67; 70]%N.
Proof.
  split_and!; try reflexivity.
  - eexists. split; [reflexivity|]. simpl map. repeat apply Forall2_cons_2; try apply Forall2_nil_2.
    + apply (sj _ _ 1 [JStr [65%N; 66%N; 67%N]]); try reflexivity; [lia|]. repeat constructor.
    + apply (sj _ _ 2 [JInt 1; JInt (-1); JStr [68%N; 69%N]; JInt 1; JStr [70%N]]); try reflexivity; [lia|].
      repeat apply Forall2_cons_2; try apply Forall2_nil_2.
      * apply (ej_retain _ 1). lia. * apply (ej_delete _ 1). lia. * by constructor. * apply (ej_retain _ 1). lia. * by constructor.
  - repeat constructor; unfold moderate; simpl; lia.
Qed.

Print Assumptions C54_replay_is_editing.
Print Assumptions C54_text.
Print Assumptions C54_only_editing.
Print Assumptions C54_times.
Print Assumptions C54_out_of_range_is_not_checked.
