(** The nodes recorded for a program are those of its instructions. *)
From Coq Require Import List Arith Bool Lia.
Import ListNotations.
From Verif Require Import Fncas_Model Fncas_Spec Fncas_Proofs.

Section Shape.
Context (A : arith) (K : num A -> Prop) (consistent : forall c d, K c -> K d -> a_eqb A c d = true -> c = d).
Notation sub := (sub A K).
Notation memory_ok := (memory_ok A K).

Definition node_of (m : memory A) (rs : list nat) (i : instr A) (j : nat) : Prop :=
  match i with
  | IConst c => nth_error (nodes m) j = Some (NVal c)
  | IVar v => nth_error (nodes m) j = Some (NVar v)
  | IOp o a b => nth_error (nodes m) j = Some (NOp o (nth a rs 0) (nth b rs 0))
  | IFun f a => nth_error (nodes m) j = Some (NFun f (nth a rs 0))
  | INeg a => exists z, nth_error (nodes m) j = Some (NOp subtract z (nth a rs 0)) /\ nth_error (nodes m) z = Some (NVal (c0 A))
  | IDefault => nth_error (nodes m) j = Some (NVar 0)
  end.
Lemma node_of_sub dim m m' rs i j : sub dim m m' -> node_of m rs i j -> node_of m' rs i j.
Proof.
  intros S. destruct i; cbn; try apply (sub_nth A K dim m m' j _ S). intros (z & H & Hz). exists z.
  split; eapply sub_nth; eassumption.
Qed.
Lemma node_of_app dim m rs r i j : instr_ok A dim (length rs) i -> node_of m rs i j -> node_of m (rs ++ [r]) i j.
Proof.
  destruct i; cbn; try tauto.
  - intros [Ha Hb]. now rewrite !app_nth1 by assumption.
  - intros Ha. now rewrite app_nth1 by assumption.
  - intros Ha. now rewrite app_nth1 by assumption.
Qed.

Lemma variable_nodes_shape dim : forall n i m, memory_ok dim m -> i + n <= dim ->
  forall v, v < n -> nth_error (nodes (fst (variable_nodes A i n m))) (nth v (snd (variable_nodes A i n m)) 0) = Some (NVar (i + v)).
Proof.
  induction n as [|n IH]; intros i m M D v Hv; [lia|].
  cbn [variable_nodes]. destruct (new_node A m (NVar i)) as [m1 k] eqn:E.
  pose proof (new_node_ok A K dim m (NVar i) M) as H. cbn [node_ok] in H. rewrite E in H. cbn [fst snd] in H. destruct (H ltac:(lia)) as (S1 & _ & N1). clear H.
  pose proof (IH (S i) m1 (proj1 S1) ltac:(lia)) as V2. destruct (variable_nodes_ok A K dim n (S i) m1 (proj1 S1) ltac:(lia)) as (S2 & _ & _).
  destruct (variable_nodes A (S i) n m1) as [m2 ks]. cbn [fst snd] in *.
  destruct v as [|v]; cbn [nth].
  - rewrite Nat.add_0_r. eapply sub_nth; eassumption.
  - replace (i + S v) with (S i + v) by lia. apply V2. lia.
Qed.
Lemma new_x_shape dim v : 0 < dim -> v < dim -> nth_error (nodes (fst (new_x A dim))) (nth v (snd (new_x A dim)) 0) = Some (NVar v).
Proof.
  intros D Hv. unfold new_x. pose proof (repeat_default_ok A K dim dim _ (empty_ok A K dim) D) as S1.
  exact (variable_nodes_shape dim dim 0 _ (proj1 S1) (le_n _) v Hv).
Qed.

Lemma record_shape dim xs p : forall done m results,
  memory_ok dim m -> 0 < dim -> (forall v, v < dim -> nth_error (nodes m) (nth v xs 0) = Some (NVar v)) ->
  length results = length done -> (forall k, k < length results -> nth k results 0 < length (nodes m)) ->
  (forall k i, nth_error done k = Some i -> node_of m results i (nth k results 0)) ->
  (forall k i, nth_error (done ++ p) k = Some i -> instr_ok A dim k i) ->
  (forall i, In i p -> match i with IConst c => K c | INeg _ => K (c0 A) | _ => True end) ->
  let r := record_from A m xs p results in
  sub dim m (fst r) /\ forall k i, nth_error (done ++ p) k = Some i -> node_of (fst r) (snd r) i (nth k (snd r) 0).
Proof.
  induction p as [|i p IH]; intros done m results M D X L B H P Kp; cbn [record_from fst snd].
  { split; [now apply sub_refl|]. now rewrite app_nil_r. }
  destruct (record_step A m xs results i) as [m1 r] eqn:E.
  assert (Pi : instr_ok A dim (length results) i).
  { rewrite L. apply P. rewrite nth_error_app2, Nat.sub_diag by lia. reflexivity. }
  pose proof (Kp i (or_introl eq_refl)) as Ki.
  assert (S1 : sub dim m m1 /\ r < length (nodes m1) /\ node_of m1 results i r).
  { destruct i as [c|v|o a b|f a|a|]; cbn in E, Pi, Ki |- *.
    - pose proof (value_node_ok A K consistent dim m c M Ki) as R. rewrite E in R. exact R.
    - injection E as <- <-. split; [now apply sub_refl|]. split; [apply nth_error_Some; rewrite X by assumption; discriminate|now apply X].
    - destruct Pi as [Pa Pb]. pose proof (new_node_ok A K dim m (NOp o (nth a results 0) (nth b results 0)) M (conj (B a Pa) (B b Pb))) as R.
      unfold op_node in E. rewrite E in R. exact R.
    - pose proof (new_node_ok A K dim m (NFun f (nth a results 0)) M (B a Pi)) as R. unfold fun_node in E. rewrite E in R. exact R.
    - unfold neg_node in E. destruct (value_node A m (c0 A)) as [m0 z] eqn:Ez.
      pose proof (value_node_ok A K consistent dim m _ M Ki) as R. rewrite Ez in R. cbn [fst snd] in R. destruct R as (S0 & Hz & Nz).
      assert (Ba : nth a results 0 < length (nodes m0)).
      { destruct (proj2 S0) as [more Em]. rewrite Em, app_length. pose proof (B a Pi). lia. }
      pose proof (new_node_ok A K dim m0 (NOp subtract z (nth a results 0)) (proj1 S0) (conj Hz Ba)) as R.
      unfold op_node in E. rewrite E in R. cbn [fst snd] in R. destruct R as (S2 & Hr & Nr).
      split; [eapply sub_trans; eassumption|]. split; [exact Hr|]. exists z. split; [exact Nr|eapply sub_nth; eassumption].
    - pose proof (new_node_ok A K dim m (NVar 0) M D) as R. unfold default_node in E. rewrite E in R. exact R. }
  destruct S1 as (S1 & Hr & Nr).
  destruct (IH (done ++ [i]) m1 (results ++ [r]) (proj1 S1) D) as (S2 & H2).
  - intros v Hv. eapply sub_nth; [exact S1|now apply X].
  - rewrite !app_length, L. reflexivity.
  - destruct (proj2 S1) as [more Em]. intros k Hk. rewrite app_length in Hk. cbn in Hk. destruct (Nat.eq_dec k (length results)) as [->|Hn].
    + now rewrite app_nth2, Nat.sub_diag by lia.
    + rewrite app_nth1 by lia. rewrite Em, app_length. pose proof (B k ltac:(lia)). lia.
  - intros k j Hk. destruct (Nat.lt_ge_cases k (length done)) as [Hl|Hl].
    + rewrite nth_error_app1 in Hk by exact Hl. rewrite app_nth1 by lia. apply (node_of_app dim).
      { assert (Pj : instr_ok A dim k j) by (apply P; now rewrite nth_error_app1).
        destruct j; cbn in *; try tauto; lia. }
      eapply node_of_sub; [exact S1|]. now apply H.
    + rewrite nth_error_app2 in Hk by exact Hl. destruct (k - length done) as [|d] eqn:Ed; cbn in Hk; [|destruct d; discriminate].
      injection Hk as <-. replace k with (length results) by lia. rewrite (app_nth2 results), Nat.sub_diag by lia. cbn [nth].
      now apply (node_of_app dim).
  - intros k j Hk. apply P. now rewrite <- app_assoc in Hk.
  - intros j Hj. apply Kp. now right.
  - split; [eapply sub_trans; eassumption|]. intros k j Hk. apply H2. now rewrite <- app_assoc.
Qed.
Lemma recorded_shape dim p : 0 < dim -> program_ok A dim p ->
  (forall i, In i p -> match i with IConst c => K c | INeg _ => K (c0 A) | _ => True end) ->
  let (m, rs) := recorded A dim p in
  forall k i, nth_error p k = Some i -> node_of m rs i (nth k rs 0).
Proof.
  intros D P Kp. unfold recorded. destruct (new_x_ok A K dim D) as [M _]. pose proof (new_x_shape dim) as X. destruct (new_x A dim) as [m xs]. cbn [fst snd] in *.
  destruct (record_shape dim xs p [] m [] M D (fun v => X v D) eq_refl ltac:(cbn; lia)) as [_ H].
  - intros [|k] i Hk; discriminate Hk.
  - exact P.
  - exact Kp.
  - destruct (record_from A m xs p []) as [m' rs]. exact H.
Qed.
End Shape.
