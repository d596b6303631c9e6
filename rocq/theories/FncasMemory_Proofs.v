(** Recording and differentiating keep the nodes well-formed, for any arithmetic and any constants. *)
From Coq Require Import List Arith Bool Lia.
Import ListNotations.
From Verif Require Import Fncas_Model Fncas_Spec Fncas_Proofs.

Section Shape.
Context (A : arith) (dim : nat).
Notation memory := (memory A).
Definition shape (m : memory) : Prop :=
  nodes_ok A dim (nodes m) /\ forall c i, In (c, i) (allocated_values m) -> i < length (nodes m).
(** [r] is a memory made from [m], and a node of it. *)
Definition makes (m : memory) (r : memory * nat) : Prop :=
  shape (fst r) /\ length (nodes m) <= length (nodes (fst r)) /\ snd r < length (nodes (fst r)).

Lemma makes_here m i : shape m -> i < length (nodes m) -> makes m (m, i).
Proof. intros S L. split; [exact S|]. cbn. auto. Qed.
Lemma replace_length {X} (l : list X) : forall i x, length (replace_nth l i x) = length l.
Proof. induction l as [|y l IH]; intros [|i] x; cbn; auto. Qed.
Lemma replace_nth_error {X} (l : list X) : forall i x j y, nth_error (replace_nth l i x) j = Some y -> nth_error l j = Some y \/ y = x.
Proof.
  induction l as [|z l IH]; intros [|i] x [|j] y; cbn; auto; try discriminate.
  - intros H. injection H as <-. auto.
  - intros H. apply IH in H. exact H.
Qed.
Lemma makes_new m n : shape m -> node_ok A dim (length (nodes m)) n -> makes m (new_node A m n).
Proof.
  intros [S1 S2] N. split; [split|cbn; rewrite app_length; cbn; lia].
  - cbn. now apply nodes_ok_snoc.
  - cbn. intros c i H. apply S2 in H. rewrite app_length. cbn. lia.
Qed.
Lemma find_in c l i : find_value A c l = Some i -> exists d, In (d, i) l.
Proof. intros H. apply find_value_in in H as (d & H & _). eauto. Qed.
Lemma makes_val m c : shape m -> makes m (value_node A m c).
Proof.
  intros [S1 S2]. unfold value_node. destruct (find_value A c (allocated_values m)) as [i|] eqn:E.
  - apply find_in in E as [d E]. apply S2 in E as L. split; [split|cbn; rewrite replace_length; lia]; cbn.
    + intros j n H. apply replace_nth_error in H as [H|H]; [now apply S1|]. subst n. exact I.
    + intros c' i' H. rewrite replace_length. now apply S2 in H.
  - split; [split|cbn; rewrite app_length; cbn; lia]; cbn.
    + apply nodes_ok_snoc; [exact S1|exact I].
    + intros c' i [H|H]; rewrite app_length; cbn; [injection H as <- <-; lia|]. apply S2 in H. lia.
Qed.
Lemma makes_op m o l r : shape m -> l < length (nodes m) -> r < length (nodes m) -> makes m (op_node A m o l r).
Proof. intros S L R. apply makes_new; [exact S|]. cbn. auto. Qed.
Lemma makes_fun m f a : shape m -> a < length (nodes m) -> makes m (fun_node A m f a).
Proof. intros S L. apply makes_new; [exact S|]. cbn. auto. Qed.
Lemma makes_more m m' r : length (nodes m) <= length (nodes m') -> makes m' r -> makes m r.
Proof. intros L (S & L' & B). split; [exact S|split; [lia|exact B]]. Qed.
(** One more step. *)
Lemma then_makes m r (k : memory -> nat -> memory * nat) : makes m r ->
  (forall m' i, shape m' -> length (nodes m) <= length (nodes m') -> i < length (nodes m') -> makes m' (k m' i)) ->
  makes m (let (m', i) := r in k m' i).
Proof. intros (S & L & B) K. destruct r as [m' i]. cbn in *. eapply makes_more; [exact L|]. now apply K. Qed.
Definition omakes (m : memory) (r : option (memory * nat)) : Prop := match r with Some r => makes m r | None => True end.
Lemma then_omakes m r (k : memory -> nat -> option (memory * nat)) : makes m r ->
  (forall m' i, shape m' -> length (nodes m) <= length (nodes m') -> i < length (nodes m') -> omakes m' (k m' i)) ->
  omakes m (let (m', i) := r in k m' i).
Proof.
  intros (S & L & B) K. destruct r as [m' i]. cbn in *. specialize (K m' i S L B). destruct (k m' i); [|exact I]. cbn in *. eapply makes_more; eauto.
Qed.

Ltac go := repeat first
  [ match goal with |- makes _ (let (_, _) := _ in _) => apply then_makes; [|intros ? ? ? ? ?] end
  | match goal with |- omakes _ (let (_, _) := _ in _) => apply then_omakes; [|intros ? ? ? ? ?] end
  | match goal with |- omakes _ (Some _) => change (omakes ?m (Some ?r)) with (makes m r) end
  | match goal with |- makes _ (match ?x with Some _ => _ | None => _ end) => destruct x end
  | match goal with |- makes _ (if ?x then _ else _) => destruct x end
  | apply makes_val; [assumption] | apply makes_op; [assumption|lia|lia] | apply makes_fun; [assumption|lia] | apply makes_here; [assumption|lia] ].

Lemma makes_neg m a : shape m -> a < length (nodes m) -> makes m (neg_node A m a).
Proof. intros. unfold neg_node. go. Qed.
Lemma makes_d_add m a b : shape m -> a < length (nodes m) -> b < length (nodes m) -> makes m (d_add A m a b).
Proof. intros. unfold d_add. go. Qed.
Lemma makes_d_sub m a b : shape m -> a < length (nodes m) -> b < length (nodes m) -> makes m (d_sub A m a b).
Proof. intros. unfold d_sub. go; now apply makes_neg. Qed.
Lemma makes_mul m a b : shape m -> a < length (nodes m) -> b < length (nodes m) -> makes m (simplified_mul A m a b).
Proof. intros. unfold simplified_mul. go. Qed.
Ltac go2 := repeat first [ progress go | apply makes_mul; [assumption|lia|lia] | apply makes_neg; [assumption|lia] ].
Lemma makes_d_op m o a b da db : shape m -> a < length (nodes m) -> b < length (nodes m) -> da < length (nodes m) -> db < length (nodes m) ->
  makes m (d_op A m o a b da db).
Proof.
  intros. destruct o; cbn [d_op]; [now apply makes_d_add|now apply makes_d_sub|unfold d_mul; go2|unfold d_div; go2].
Qed.
Lemma makes_d_f m f o a da : shape m -> o < length (nodes m) -> a < length (nodes m) -> da < length (nodes m) -> omakes m (d_f A m f o a da).
Proof.
  intros. destruct f; unfold d_f, sqrt_1_minus_sqr; cbn beta zeta; try exact I; go2.
Qed.

Definition bounded (m : memory) (df : nat -> option nat) : Prop := forall i d, df i = Some d -> d < length (nodes m).
Lemma bounded_set m m' df i d : bounded m df -> length (nodes m) <= length (nodes m') -> d < length (nodes m') -> bounded m' (set_derivative df i d).
Proof.
  intros B L D j e. unfold set_derivative. destruct (Nat.eqb j i); intros H; [injection H as <-; exact D|]. apply B in H. lia.
Qed.
Lemma diff_step_shape zero one var fr stack m df stack' m' df' :
  shape m -> bounded m df -> zero < length (nodes m) -> one < length (nodes m) ->
  diff_step A zero one var fr stack m df = Ok (stack', m', df') ->
  shape m' /\ bounded m' df' /\ length (nodes m) <= length (nodes m').
Proof.
  intros S B Z O. destruct fr as [i|i]; cbn; destruct (nth_error (nodes m) i) as [nd|] eqn:E; try discriminate;
    assert (Hi : i < length (nodes m)) by (apply nth_error_Some; congruence); pose proof (proj1 S _ _ E) as N; destruct nd as [v|c|o l r|f a]; cbn in N; try discriminate.
  - intros H. injection H as <- <- <-. split; [exact S|split; [|lia]]. apply (bounded_set m); [exact B|lia|]. destruct (Nat.eqb v var); assumption.
  - intros H. injection H as <- <- <-. split; [exact S|split; [|lia]]. apply (bounded_set m); [exact B|lia|assumption].
  - intros H. injection H as <- <- <-. auto.
  - intros H. injection H as <- <- <-. auto.
  - destruct (df l) as [dl|] eqn:El; [|discriminate]. destruct (df r) as [dr|] eqn:Er; [|discriminate].
    pose proof (B _ _ El). pose proof (B _ _ Er).
    pose proof (makes_d_op m o l r dl dr S ltac:(lia) ltac:(lia) ltac:(lia) ltac:(lia)) as (S' & L' & D').
    destruct (d_op A m o l r dl dr) as [m1 d]. intros H1. injection H1 as <- <- <-. cbn in *.
    split; [exact S'|split; [|exact L']]. now apply (bounded_set m).
  - destruct (df a) as [da|] eqn:Ea; [|discriminate]. pose proof (B _ _ Ea).
    pose proof (makes_d_f m f i a da S ltac:(lia) ltac:(lia) ltac:(lia)) as K.
    destruct (d_f A m f i a da) as [[m1 d]|]; [|discriminate]. intros H1. injection H1 as <- <- <-. destruct K as (S' & L' & D'). cbn in *.
    split; [exact S'|split; [|exact L']]. now apply (bounded_set m).
Qed.
Lemma diff_loop_shape zero one var fuel : forall stack m df m' df',
  shape m -> bounded m df -> zero < length (nodes m) -> one < length (nodes m) ->
  diff_loop A fuel zero one var stack m df = Some (Ok (m', df')) ->
  shape m' /\ bounded m' df' /\ length (nodes m) <= length (nodes m').
Proof.
  induction fuel as [|fuel IH]; intros [|fr stack] m df m' df' S B Z O; cbn; try discriminate.
  - intros H. injection H as <- <-. auto.
  - intros H. injection H as <- <-. auto.
  - destruct (diff_step A zero one var fr stack m df) as [[[st1 m1] df1]| |] eqn:E; try discriminate.
    apply diff_step_shape in E as (S1 & B1 & L1); try assumption. intros H. apply IH in H as (S2 & B2 & L2); try assumption; try lia.
    split; [exact S2|split; [exact B2|lia]].
Qed.
Lemma differentiate_shape fuel m df index var m' df' d : shape m -> bounded m df ->
  differentiate_node A fuel m df index var = Some (Ok (m', df', d)) ->
  shape m' /\ bounded m' df' /\ length (nodes m) <= length (nodes m') /\ d < length (nodes m').
Proof.
  intros S B. unfold differentiate_node. destruct (df index) as [d0|] eqn:E.
  - intros H. injection H as <- <- <-. pose proof (B _ _ E). auto.
  - pose proof (makes_val m (c0 A) S) as (S1 & L1 & Z1). destruct (value_node A m (c0 A)) as [m1 zero]. cbn in S1, L1, Z1.
    pose proof (makes_val m1 (c1 A) S1) as (S2 & L2 & Z2). destruct (value_node A m1 (c1 A)) as [m2 one]. cbn in S2, L2, Z2.
    destruct (diff_loop A fuel zero one var [Enter index] m2 df) as [[[m3 df3]| |]|] eqn:El; try discriminate.
    apply diff_loop_shape in El as (S3 & B3 & L3); [|exact S2| |lia|exact Z2].
    + destruct (df3 index) as [d3|] eqn:E3; [|discriminate]. intros H. injection H as <- <- <-. pose proof (B3 _ _ E3). split; [exact S3|split; [exact B3|lia]].
    + intros i e He. apply B in He. lia.
Qed.
Lemma gradient_from_shape fuel f n : forall i m df m' df' gs, shape m -> (forall j, bounded m (df j)) ->
  gradient_from A fuel m df f i n = Some (Ok (m', df', gs)) ->
  shape m' /\ (forall j, bounded m' (df' j)) /\ length (nodes m) <= length (nodes m') /\ length gs = n /\ Forall (fun d => d < length (nodes m')) gs.
Proof.
  induction n as [|n IH]; intros i m df m' df' gs S B; cbn.
  - intros H. injection H as <- <- <-. auto.
  - destruct (differentiate_node A fuel m (df i) f i) as [[[[m1 dfi] d]| |]|] eqn:E; try discriminate.
    apply differentiate_shape in E as (S1 & B1 & L1 & D1); [|exact S|apply B].
    destruct (gradient_from A fuel m1 (fun j => if Nat.eqb j i then dfi else df j) f (Datatypes.S i) n) as [[[[m2 df2] ds]| |]|] eqn:E2; try discriminate.
    apply IH in E2 as (S2 & B2 & L2 & Ln & F2); [|exact S1|].
    + intros H. injection H as <- <- <-. split; [exact S2|split; [exact B2|split; [lia|split; [cbn; lia|]]]]. constructor; [lia|exact F2].
    + intros j. destruct (Nat.eqb j i); [exact B1|]. intros k e He. apply B in He. lia.
Qed.
Lemma repeat_default_shape n : 0 < dim -> forall m, shape m -> shape (repeat_default A n m) /\ length (nodes m) <= length (nodes (repeat_default A n m)).
Proof.
  intros D. induction n as [|n IH]; intros m S; [cbn; auto|]. cbn [repeat_default].
  pose proof (makes_new m (NVar 0) S D) as (S1 & L1 & _). destruct (IH _ S1) as [S2 L2]. split; [exact S2|]. unfold default_node in *. lia.
Qed.
Lemma gradient_shape fuel m df f m' df' gs : 0 < dim -> shape m -> (forall j, bounded m (df j)) ->
  gradient A fuel m df dim f = Some (Ok (m', df', gs)) ->
  shape m' /\ (forall j, bounded m' (df' j)) /\ length (nodes m) <= length (nodes m') /\ length gs = dim /\ Forall (fun d => d < length (nodes m')) gs.
Proof.
  intros D S B H. destruct (repeat_default_shape dim D m S) as [S1 L1].
  apply gradient_from_shape in H as (S2 & B2 & L2 & Ln & F); [|exact S1|].
  - split; [exact S2|split; [exact B2|split; [lia|split; [exact Ln|exact F]]]].
  - intros j k e He. apply B in He. lia.
Qed.

(** Recording. *)
Lemma variable_nodes_shape : forall n i m, shape m -> i + n <= dim ->
  shape (fst (variable_nodes A i n m)) /\ length (nodes m) <= length (nodes (fst (variable_nodes A i n m))) /\ length (snd (variable_nodes A i n m)) = n /\
  Forall (fun k => k < length (nodes (fst (variable_nodes A i n m)))) (snd (variable_nodes A i n m)).
Proof.
  induction n as [|n IH]; intros i m S Hi; [cbn; auto|]. cbn [variable_nodes].
  pose proof (makes_new m (NVar i) S) as (S1 & L1 & B1); [cbn; lia|]. destruct (new_node A m (NVar i)) as [m1 k]. cbn in S1, L1, B1.
  destruct (IH (Datatypes.S i) m1 S1 ltac:(lia)) as (S2 & L2 & Ln & F). destruct (variable_nodes A (Datatypes.S i) n m1) as [m2 ks]. cbn in *.
  split; [exact S2|split; [lia|split; [lia|]]]. constructor; [lia|exact F].
Qed.
Lemma new_x_shape : 0 < dim -> shape (fst (new_x A dim)) /\ length (snd (new_x A dim)) = dim /\ Forall (fun k => k < length (nodes (fst (new_x A dim)))) (snd (new_x A dim)).
Proof.
  intros D. assert (S0 : shape (Memory [] [])) by (split; [intros [|i] n H; discriminate|intros c i []]).
  destruct (repeat_default_shape dim D _ S0) as [S1 _]. destruct (variable_nodes_shape dim 0 _ S1 (le_n _)) as (S2 & _ & Ln & F). auto.
Qed.
Lemma record_shape xs p : forall m results, shape m -> length xs = dim -> Forall (fun k => k < length (nodes m)) xs ->
  Forall (fun k => k < length (nodes m)) results ->
  0 < dim -> (forall k i, nth_error p k = Some i -> instr_ok A dim (length results + k) i) ->
  shape (fst (record_from A m xs p results)) /\ length (snd (record_from A m xs p results)) = length results + length p /\
  Forall (fun k => k < length (nodes (fst (record_from A m xs p results)))) (snd (record_from A m xs p results)).
Proof.
  induction p as [|i p IH]; intros m results S Lx Fx Fr D0 P; cbn [record_from].
  - cbn. split; [exact S|split; [lia|exact Fr]].
  - assert (K : makes m (record_step A m xs results i)).
    { pose proof (P 0 i eq_refl) as Pi. rewrite Nat.add_0_r in Pi.
      assert (Op : forall a, a < length results -> nth a results 0 < length (nodes m)) by (intros a Ha; rewrite Forall_forall in Fr; apply Fr, nth_In, Ha).
      destruct i as [c|v|o a b|f a|a|]; cbn in Pi |- *.
      - now apply makes_val.
      - apply makes_here; [exact S|]. rewrite Forall_forall in Fx. apply Fx, nth_In. lia.
      - destruct Pi. apply makes_op; auto.
      - apply makes_fun; auto.
      - apply makes_neg; auto.
      - apply makes_new; [exact S|]. exact D0. }
    destruct (record_step A m xs results i) as [m1 r]. destruct K as (S1 & L1 & B1). cbn in S1, L1, B1.
    destruct (IH m1 (results ++ [r]) S1 Lx) as (S2 & Ln & F).
    + eapply Forall_impl; [|exact Fx]. cbn. lia.
    + apply Forall_app. split; [|auto]. eapply Forall_impl; [|exact Fr]. cbn. lia.
    + exact D0.
    + intros k j Hk. rewrite app_length. cbn. replace (length results + 1 + k) with (length results + Datatypes.S k) by lia. now apply P.
    + rewrite app_length in Ln. cbn in Ln |- *. split; [exact S2|split; [lia|exact F]].
Qed.
Lemma recorded_shape p : 0 < dim -> program_ok A dim p ->
  let (m, rs) := recorded A dim p in shape m /\ length rs = length p /\ forall k, k < length p -> nth k rs 0 < length (nodes m).
Proof.
  intros D P. unfold recorded. destruct (new_x_shape D) as (S & L & F). destruct (new_x A dim) as [m xs]. cbn in S, L, F.
  destruct (record_shape xs p m [] S L F (Forall_nil _) D P) as (S2 & L2 & F2). destruct (record_from A m xs p []) as [m' rs]. cbn in S2, L2, F2.
  split; [exact S2|split; [exact L2|]]. intros k Hk. rewrite Forall_forall in F2. apply F2, nth_In. lia.
Qed.

(** The nodes of the variables are there. *)
Lemma variable_nodes_length : forall n i m, length (nodes (fst (variable_nodes A i n m))) = length (nodes m) + n.
Proof.
  induction n as [|n IH]; intros i m; [cbn; lia|]. cbn [variable_nodes]. destruct (new_node A m (NVar i)) as [m1 k] eqn:E.
  unfold new_node in E. injection E as <- <-. specialize (IH (Datatypes.S i) (Memory (nodes m ++ [NVar i]) (allocated_values m))).
  destruct (variable_nodes A (Datatypes.S i) n _) as [m2 ks]. cbn in *. rewrite IH, app_length. cbn. lia.
Qed.
Lemma record_grows xs p : forall m results, length (nodes m) <= length (nodes (fst (record_from A m xs p results))).
Proof.
  induction p as [|i p IH]; intros m results; cbn [record_from]; [cbn; lia|].
  assert (K : length (nodes m) <= length (nodes (fst (record_step A m xs results i)))).
  { assert (V : forall m c, length (nodes m) <= length (nodes (fst (value_node A m c)))).
    { intros m0 c. unfold value_node. destruct (find_value A c (allocated_values m0)); cbn; [rewrite replace_length|rewrite app_length]; lia. }
    destruct i as [c|v|o a b|f a|a|]; cbn; try (rewrite app_length; lia); [apply V|lia|].
    unfold neg_node. specialize (V m (c0 A)). destruct (value_node A m (c0 A)) as [m1 z]. cbn in *. rewrite app_length. lia. }
  destruct (record_step A m xs results i) as [m1 r]. specialize (IH m1 (results ++ [r])). cbn in K. lia.
Qed.
Lemma repeat_default_length : forall n m, length (nodes (repeat_default A n m)) = length (nodes m) + n.
Proof. induction n as [|n IH]; intros m; cbn [repeat_default]; [lia|]. rewrite IH. unfold default_node. cbn. rewrite app_length. cbn. lia. Qed.
Lemma recorded_length p : 2 * dim <= length (nodes (fst (recorded A dim p))).
Proof.
  unfold recorded, new_x. pose proof (variable_nodes_length dim 0 (repeat_default A dim (Memory [] []))) as L.
  rewrite repeat_default_length in L.
  destruct (variable_nodes A 0 dim _) as [m xs]. pose proof (record_grows xs p m []) as G. cbn in L. lia.
Qed.
End Shape.
