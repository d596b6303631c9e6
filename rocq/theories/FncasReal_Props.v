(** Property C72: the gradient of a recorded function (over the real numbers). *)
From Coq Require Import List Arith Bool Lia Reals Lra.
Import ListNotations.
From Verif Require Import Fncas_Model Fncas_Spec Fncas_Proofs FncasReal_Spec FncasReal_Proofs FncasCalculus_Proofs FncasShape_Proofs.
Open Scope R_scope.

(** Nothing differentiated yet. *)
Definition no_derivatives : nat -> nat -> option nat := fun _ _ => None.

(** *** From instructions to nodes *)
Section Link.
Context (dim : nat) (p : list (instr reals)) (D : (0 < dim)%nat) (P : program_ok reals dim p) (NoD : ~ In IDefault p).
Context (m : memory reals) (rs : list nat) (E : recorded reals dim p = (m, rs)).

Lemma all_faithful : Forall (faithful reals all) p.
Proof.
  apply Forall_forall. intros i Hi. destruct i; cbn; try exact I; [|contradiction]. split; [exact I|]. intros y. lra.
Qed.
Lemma link_ok : ok dim m /\ length rs = length p /\ forall k, (k < length p)%nat -> rhas m (nth k rs 0%nat) (fun x => native reals x p k).
Proof. pose proof (recorded_ok reals all all_consistent dim p D P all_faithful) as R. now rewrite E in R. Qed.
Lemma link_shape k i : nth_error p k = Some i -> node_of reals m rs i (nth k rs 0%nat).
Proof.
  pose proof (recorded_shape reals all all_consistent dim p D P) as R. rewrite E in R. apply R. intros j _. now destruct j.
Qed.
Lemma needs_lt f k : (f < length p)%nat -> needs reals p f k -> (k < length p)%nat.
Proof.
  intros Hf. induction 1; [exact Hf| | | |]; match goal with H : nth_error _ _ = Some _ |- _ => apply P in H; cbn in H end; lia.
Qed.
(** What the node of a result rests on: nodes of the results needed, constants and variables. *)
Lemma reached f j : (f < length p)%nat -> reaches (nodes m) (nth f rs 0%nat) j ->
  (exists k, needs reals p f k /\ j = nth k rs 0%nat) \/ exists c, nth_error (nodes m) j = Some (NVal c).
Proof.
  intros Hf. induction 1 as [|j o l r H IH Ej|j o l r H IH Ej|j g a H IH Ej].
  - left. exists f. split; [constructor|reflexivity].
  - destruct IH as [(k & Hk & ->)|[c Hc]]; [|congruence]. pose proof (needs_lt _ _ Hf Hk) as Lk.
    destruct (nth_error p k) as [i|] eqn:Ei; [|apply nth_error_None in Ei; lia]. pose proof (link_shape _ _ Ei) as S. destruct i; cbn in S.
    1, 2, 4, 6: congruence.
    + rewrite S in Ej. injection Ej as -> <- <-. left. eexists. split; [|reflexivity]. eapply needs_left; eassumption.
    + destruct S as (z & S & Z). rewrite S in Ej. injection Ej as _ <- _. right. eexists. exact Z.
  - destruct IH as [(k & Hk & ->)|[c Hc]]; [|congruence]. pose proof (needs_lt _ _ Hf Hk) as Lk.
    destruct (nth_error p k) as [i|] eqn:Ei; [|apply nth_error_None in Ei; lia]. pose proof (link_shape _ _ Ei) as S. destruct i; cbn in S.
    1, 2, 4, 6: congruence.
    + rewrite S in Ej. injection Ej as -> <- <-. left. eexists. split; [|reflexivity]. eapply needs_right; eassumption.
    + destruct S as (z & S & Z). rewrite S in Ej. injection Ej as _ _ <-. left. eexists. split; [|reflexivity]. eapply needs_negated; eassumption.
  - destruct IH as [(k & Hk & ->)|[c Hc]]; [|congruence]. pose proof (needs_lt _ _ Hf Hk) as Lk.
    destruct (nth_error p k) as [i|] eqn:Ei; [|apply nth_error_None in Ei; lia]. pose proof (link_shape _ _ Ei) as S. destruct i; cbn in S.
    1, 2, 3, 6: congruence.
    + rewrite S in Ej. injection Ej as -> <-. left. eexists. split; [|reflexivity]. eapply needs_argument; eassumption.
    + destruct S as (z & S & Z). congruence.
Qed.
Lemma needs_reaches f k : (f < length p)%nat -> needs reals p f k -> reaches (nodes m) (nth f rs 0%nat) (nth k rs 0%nat).
Proof.
  intros Hf. induction 1 as [|o k a b H IH E1|o k a b H IH E1|g k a H IH E1|k a H IH E1]; [constructor| | | |]; pose proof (link_shape _ _ E1) as S; cbn in S.
  - eapply r_left; eassumption.
  - eapply r_right; eassumption.
  - eapply r_arg; eassumption.
  - destruct S as (z & S & _). eapply r_right; eassumption.
Qed.
Lemma link_no_step f : (f < length p)%nat -> (forall k a, needs reals p f k -> nth_error p k <> Some (IFun unit_step a)) <-> no_step (nodes m) (nth f rs 0%nat).
Proof.
  intros Hf. split.
  - intros H j a Hj Ej. destruct (reached _ _ Hf Hj) as [(k & Hk & ->)|[c Hc]]; [|congruence]. pose proof (needs_lt _ _ Hf Hk) as Lk.
    destruct (nth_error p k) as [i|] eqn:Ei; [|apply nth_error_None in Ei; lia]. pose proof (link_shape _ _ Ei) as S. destruct i; cbn in S; try congruence.
    + rewrite S in Ej. injection Ej as -> _. exact (H _ _ Hk Ei).
    + destruct S as (z & S & _). congruence.
  - intros H k a Hk Ek. pose proof (link_shape _ _ Ek) as S. exact (H _ _ (needs_reaches _ _ Hf Hk) S).
Qed.
Lemma link_fine f x : (f < length p)%nat -> (forall k, needs reals p f k -> smooth p x k) -> fine (nodes m) x (nth f rs 0%nat).
Proof.
  intros Hf H j Hj. unfold fine_node. destruct link_ok as (_ & _ & V). destruct (reached _ _ Hf Hj) as [(k & Hk & ->)|[c Hc]]; [|now rewrite Hc].
  pose proof (needs_lt _ _ Hf Hk) as Lk. specialize (H k Hk). unfold smooth in H.
  destruct (nth_error p k) as [i|] eqn:Ei; [|apply nth_error_None in Ei; lia]. pose proof (link_shape _ _ Ei) as S. pose proof (P _ _ Ei) as Pi.
  destruct i as [c|v|o a b|g a|a|]; cbn in S, Pi.
  - now rewrite S.
  - now rewrite S.
  - rewrite S. destruct o; try exact I. destruct (V b ltac:(lia)) as [_ Vb]. now rewrite Vb.
  - rewrite S. destruct (V a ltac:(lia)) as [_ Va]. now rewrite Va.
  - destruct S as (z & S & _). now rewrite S.
  - now rewrite S.
Qed.
End Link.

(** *** Gradients *)
(** The gradients of some results of the program, taken one after another: each time the nodes and the
    derivatives known are those left by the previous ones. *)
Fixpoint gradients (fuel : nat) (m : memory reals) (df : nat -> nat -> option nat) (dim : nat) (fs : list nat)
  : option (outcome (memory reals * (nat -> nat -> option nat) * list (list nat))) :=
  match fs with
  | [] => Some (Ok (m, df, []))
  | f :: fs' =>
      match gradient reals fuel m df dim f with
      | Some (Ok (m, df, g)) =>
          match gradients fuel m df dim fs' with
          | Some (Ok (m, df, gs)) => Some (Ok (m, df, g :: gs))
          | other => other
          end
      | Some Throws => Some Throws
      | Some Undefined => Some Undefined
      | None => None
      end
  end.

Lemma gradients_ok dim : forall fs m df, (0 < dim)%nat -> ok dim m -> (forall f, In f fs -> (f < length (nodes m))%nat /\ no_step (nodes m) f) ->
  (forall k, (k < dim)%nat -> df_ok dim k m (df k)) ->
  exists b m' df' gs, (forall fuel, (b <= fuel)%nat -> gradients fuel m df dim fs = Some (Ok (m', df', gs))) /\ rsub dim m m' /\
    length gs = length fs /\ forall n, (n < length fs)%nat -> length (nth n gs []) = dim /\ forall j, (j < dim)%nat -> diff_ok dim j m' (nth n fs 0%nat) (nth j (nth n gs []) 0%nat).
Proof.
  induction fs as [|f fs IH]; intros m df D M Hfs Hdf.
  { exists 0%nat, m, df, []. split; [reflexivity|]. split; [now apply sub_refl|]. split; [reflexivity|]. cbn. lia. }
  destruct (Hfs f (or_introl eq_refl)) as [Hf NS].
  pose proof (repeat_default_ok reals all dim dim m M D) as S0. destruct (proj2 S0) as [more E0].
  assert (Hf0 : (f < length (nodes (repeat_default reals dim m)))%nat) by (rewrite E0, app_length; lia).
  destruct (gradient_from_ok dim f dim 0 (repeat_default reals dim m) df (le_n _) (proj1 S0) Hf0) as (b & [[Bad _]|[_ (m1 & df1 & g & T1 & S1 & L1 & D1 & G1)]]).
  { intros k Hk. eapply df_ok_sub; [exact M|exact S0|now apply Hdf]. }
  { exfalso. apply Bad. rewrite E0. apply (no_step_app dim); [apply M|exact Hf|exact NS]. }
  assert (S01 : rsub dim m m1) by (eapply sub_trans; eassumption). destruct (proj2 S01) as [more1 E1].
  destruct (IH m1 df1 D (proj1 S1)) as (b2 & m2 & df2 & gs & T2 & S2 & L2 & G2).
  { intros f' Hf'. destruct (Hfs f' (or_intror Hf')) as [B NS']. rewrite E1. split; [rewrite app_length; lia|]. apply (no_step_app dim); [apply M|exact B|exact NS']. }
  { exact D1. }
  exists (Nat.max b b2), m2, df2, (g :: gs). split.
  { intros fuel Hb. cbn. unfold gradient. rewrite T1 by lia. rewrite T2 by lia. reflexivity. }
  split; [eapply sub_trans; eassumption|]. split; [cbn; lia|].
  intros [|n] Hn; cbn [nth].
  - split; [exact L1|]. intros j Hj. eapply diff_ok_sub; [apply S1|exact S2|]. exact (G1 j Hj).
  - apply G2. cbn in Hn. lia.
Qed.

(** C72.  Record any straight-line code [p] of [dim] variables, then take the gradients of any of its results
    [fs], none of which is computed with [unit_step].  This ends with no exception; afterwards:
    - every result of the code still evaluates to what it is natively, at every point;
    - each gradient, called at any point [x] (whatever was evaluated before), ends with [dim] numbers; and if every
      instruction the function [f] needs is differentiable at [x], the number [i] is the partial derivative of [f] by [x[i]]. *)
Theorem C72_gradient dim p fs :
  (0 < dim)%nat -> program_ok reals dim p -> ~ In IDefault p ->
  (forall f, In f fs -> (f < length p)%nat /\ forall k a, needs reals p f k -> nth_error p k <> Some (IFun unit_step a)) ->
  let (m, rs) := recorded reals dim p in
  exists enough m' df gs,
    (forall fuel, (enough <= fuel)%nat -> gradients fuel m no_derivatives dim (map (fun f => nth f rs 0%nat) fs) = Some (Ok (m', df, gs))) /\
    length gs = length fs /\
    forall fuel x c, length x = dim -> (1 + 3 * length (nodes m') <= fuel)%nat ->
      (forall k, (k < length p)%nat -> exists c', call reals fuel m' (nth k rs 0%nat) x c = Some (Ok (native reals x p k, c'))) /\
      forall n f, nth_error fs n = Some f ->
        exists ds c', call_gradient reals fuel m' (nth n gs []) x c = Some (Ok (ds, c')) /\ length ds = dim /\
          ((forall k, needs reals p f k -> smooth p x k) -> forall i, (i < dim)%nat -> partial_derivative p f i x (nth i ds 0)).
Proof.
  intros D P NoD Hfs. destruct (recorded reals dim p) as [m rs] eqn:E. destruct (link_ok dim p D P NoD m rs E) as (M & L & V).
  destruct (gradients_ok dim (map (fun f => nth f rs 0%nat) fs) m no_derivatives D M) as (b & m' & df & gs & T & S & Lg & G).
  { intros j Hj. apply in_map_iff in Hj as (f & <- & Hf). destruct (Hfs f Hf) as [B NS]. split; [apply (V f B)|]. now apply (link_no_step dim p D P m rs E f B). }
  { intros k _ i d H. discriminate H. }
  rewrite map_length in Lg, G. exists b, m', df, gs. split; [exact T|]. split; [exact Lg|]. intros fuel x c Lx Hfuel. pose proof (proj1 S) as M'. split.
  - intros k Hk. destruct (r_mono dim m m' _ _ M S (V k Hk)) as [B Vk].
    destruct (eval_node_ok reals dim (nodes m') x _ (invalidate reals c) fuel (mo_nodes _ _ _ _ M') Lx B (invalidate_ok reals _ _ _) Hfuel) as (c' & Ec & _).
    exists c'. unfold call. rewrite Ec, Vk. reflexivity.
  - intros n f Hn. assert (Ln : (n < length fs)%nat) by (apply nth_error_Some; congruence).
    destruct (G n Ln) as [Lgn Gn]. assert (Ef : nth n (map (fun f => nth f rs 0%nat) fs) 0%nat = nth f rs 0%nat).
    { apply nth_error_nth. now rewrite nth_error_map, Hn. }
    rewrite Ef in Gn. destruct (Hfs f (nth_error_In _ _ Hn)) as [Hf NS].
    assert (Bg : forall d, In d (nth n gs []) -> (d < length (nodes m'))%nat).
    { intros d Hd. apply (In_nth _ _ 0%nat) in Hd as (j & Hj & <-). rewrite Lgn in Hj. apply (Gn j Hj). }
    assert (Cg : cache_ok reals (nodes m') x (match nth n gs [] with [] => c | _ => invalidate reals c end)).
    { destruct (nth n gs []); [cbn in Lgn; lia|apply invalidate_ok]. }
    destruct (eval_all_ok reals dim (nodes m') x fuel (mo_nodes _ _ _ _ M') Lx Hfuel (nth n gs []) _ Bg Cg) as (c' & Ec).
    eexists _, c'. split; [exact Ec|]. split; [now rewrite map_length|]. intros Hs i Hi.
    destruct (Gn i Hi) as (_ & _ & _ & Di). unfold partial_derivative.
    assert (F : fine (nodes m') x (nth f rs 0%nat)).
    { destruct (proj2 S) as [more Em]. pose proof (mo_nodes _ _ _ _ M') as W'. rewrite Em in W' |- *. apply (fine_app dim); [apply M|exact W'|apply (V f Hf)|].
      now apply (link_fine dim p D P NoD m rs E f x Hf). }
    specialize (Di x Lx F). replace (nth i (map (RV (nodes m') x) (nth n gs [])) 0) with (RV (nodes m') x (nth i (nth n gs []) 0%nat)).
    + eapply derivable_pt_lim_ext; [|exact Di]. intros t. cbn beta. destruct (r_mono dim m m' _ _ M S (V f Hf)) as [_ Vf]. apply Vf.
    + symmetry. rewrite <- (map_nth (RV (nodes m') x)). apply nth_indep. rewrite map_length, Lgn. exact Hi.
Qed.

(** C72.  A function computed with [unit_step] has no gradient: an exception. *)
Theorem C72_unit_step_throws dim p f k a :
  (0 < dim)%nat -> program_ok reals dim p -> ~ In IDefault p -> (f < length p)%nat ->
  needs reals p f k -> nth_error p k = Some (IFun unit_step a) ->
  let (m, rs) := recorded reals dim p in
  exists enough, forall fuel, (enough <= fuel)%nat -> gradient reals fuel m no_derivatives dim (nth f rs 0%nat) = Some Throws.
Proof.
  intros D P NoD Hf Hk Ek. destruct (recorded reals dim p) as [m rs] eqn:E. destruct (link_ok dim p D P NoD m rs E) as (M & L & V).
  pose proof (repeat_default_ok reals all dim dim m M D) as S0. destruct (proj2 S0) as [more E0]. destruct (V f Hf) as [B _].
  assert (Hf0 : (nth f rs 0 < length (nodes (repeat_default reals dim m)))%nat) by (rewrite E0, app_length; lia).
  destruct (gradient_from_ok dim (nth f rs 0%nat) dim 0 (repeat_default reals dim m) no_derivatives (le_n _) (proj1 S0) Hf0) as (b & [(_ & _ & T)|[[NS|D0] _]]).
  { intros i _ j d H. discriminate H. }
  - exists b. exact T.
  - exfalso. rewrite E0 in NS. apply (no_step_app dim) in NS; [|apply M|exact B]. exact (proj2 (link_no_step dim p D P m rs E f Hf) NS k a Hk Ek).
  - lia.
Qed.

(** *** An example *)
(** [f(x) = exp(x[0] * x[1]) / (x[0] + 2)] at [(1, 1)]. *)
Definition sample : list (instr reals) :=
  [IVar 0; IVar 1; IOp multiply 0 1; IFun Fncas_Model.exp 2; IConst (2 : num reals); IOp add 0 4; IOp divide 3 5].
Example sample_meets_the_hypotheses :
  program_ok reals 2 sample /\ ~ In IDefault sample /\
  (forall k a, needs reals sample 6 k -> nth_error sample k <> Some (IFun unit_step a)) /\
  forall k, needs reals sample 6 k -> smooth sample [1; 1] k.
Proof.
  split; [|split; [|split]].
  - intros k i H. do 7 (destruct k as [|k]; [injection H as <-; cbn; auto with arith; lia|]). destruct k; discriminate.
  - cbn. intuition discriminate.
  - intros k a _. do 7 (destruct k as [|k]; [discriminate|]). destruct k; discriminate.
  - intros k _. do 7 (destruct k as [|k]; [cbn; try exact I|]). 2: now destruct k. unfold native. cbn. lra.
Qed.
(** ... and so its gradient there is what calculus says. *)
Example sample_gradient : forall m rs, recorded reals 2 sample = (m, rs) ->
  exists m' df g fuel d0 d1 c', gradient reals fuel m no_derivatives 2 (nth 6 rs 0%nat) = Some (Ok (m', df, g)) /\
    call_gradient reals fuel m' g [1; 1] (empty_cache reals) = Some (Ok ([d0; d1], c')) /\
    d0 = (2 / 9) * Rtrigo_def.exp 1 /\ d1 = (1 / 3) * Rtrigo_def.exp 1.
Proof.
  intros m rs E. destruct sample_meets_the_hypotheses as (P & N & S & Sm).
  pose proof (C72_gradient 2 sample [6%nat] ltac:(lia) P N) as H. rewrite E in H.
  destruct H as (b & m' & df & gs & G & Lg & H); [intros f [<-|[]]; split; [cbn; lia|exact S]|].
  destruct gs as [|g [|? ?]]; try discriminate Lg. set (fuel := (b + (1 + 3 * length (nodes m')))%nat).
  destruct (H fuel [1; 1] (empty_cache reals) eq_refl ltac:(lia)) as [_ H2]. destruct (H2 0%nat 6%nat eq_refl) as (ds & c' & Ec & Ld & Hd). specialize (Hd Sm).
  destruct ds as [|d0 [|d1 [|? ?]]]; try discriminate Ld.
  assert (G1 : gradient reals fuel m no_derivatives 2 (nth 6 rs 0%nat) = Some (Ok (m', df, g))).
  { specialize (G fuel ltac:(lia)). cbn [map gradients] in G. destruct (gradient reals fuel m no_derivatives 2 (nth 6 rs 0%nat)) as [[[[m1 df1] g1]| |]|]; congruence. }
  exists m', df, g, fuel, d0, d1, c'. split; [exact G1|]. split; [exact Ec|].
  pose proof (Hd 0%nat ltac:(lia)) as H0. pose proof (Hd 1%nat ltac:(lia)) as H1. unfold partial_derivative in H0, H1. cbn [nth] in H0, H1.
  split.
  - eapply uniqueness_limite; [exact H0|].
    eapply derivable_pt_lim_ext with (f := fun t => Rtrigo_def.exp (t * 1) / (t + 2)).
    { intros t. reflexivity. }
    replace (2 / 9 * Rtrigo_def.exp 1) with ((Rtrigo_def.exp (1 * 1) * 1 * (1 + 2) - 1 * Rtrigo_def.exp (1 * 1)) / Rsqr (1 + 2)).
    2:{ rewrite !Rmult_1_l, !Rmult_1_r. unfold Rsqr. field. }
    apply (derivable_pt_lim_div (fun t => Rtrigo_def.exp (t * 1)) (fun t => t + 2)).
    + apply (derivable_pt_lim_comp (fun t => t * 1) Rtrigo_def.exp).
      * eapply derivable_pt_lim_ext with (f := id); [intros t; unfold id; lra|apply derivable_pt_lim_id].
      * rewrite Rmult_1_r. apply derivable_pt_lim_exp.
    + replace 1 with (1 + 0) at 2 by lra. apply (derivable_pt_lim_plus id (fct_cte 2)); [apply derivable_pt_lim_id|apply derivable_pt_lim_const].
    + lra.
  - eapply uniqueness_limite; [exact H1|].
    eapply derivable_pt_lim_ext with (f := fun t => Rtrigo_def.exp (1 * t) * / (1 + 2)).
    { intros t. reflexivity. }
    replace (1 / 3 * Rtrigo_def.exp 1) with ((Rtrigo_def.exp (1 * 1) * 1) * / (1 + 2) + Rtrigo_def.exp (1 * 1) * 0).
    2:{ rewrite !Rmult_1_l. field. }
    apply (derivable_pt_lim_mult (fun t => Rtrigo_def.exp (1 * t)) (fct_cte (/ (1 + 2)))); [|apply derivable_pt_lim_const].
    apply (derivable_pt_lim_comp (fun t => 1 * t) Rtrigo_def.exp).
    + eapply derivable_pt_lim_ext with (f := id); [intros t; unfold id; lra|apply derivable_pt_lim_id].
    + rewrite Rmult_1_l. apply derivable_pt_lim_exp.
Qed.

(** *** The time it takes *)
(** [f = x[0]; f = f + f; ... f = f + f;], [n] times. *)
Definition doubling (n : nat) : list (instr reals) := IVar 0 :: map (fun k => IOp add k k) (seq 0 n).
(** Node [i] is the sum of a node with itself, [n] times down to a variable. *)
Fixpoint tower (ns : list (node reals)) (n i : nat) : Prop :=
  match n with
  | O => exists v, nth_error ns i = Some (NVar v)
  | S n' => exists j, nth_error ns i = Some (NOp add j j) /\ tower ns n' j
  end.
Lemma tower_app ns more n : forall i, tower ns n i -> tower (ns ++ more) n i.
Proof.
  induction n as [|n IH]; intros i; cbn.
  - intros (v & H). exists v. rewrite nth_error_app1; [exact H|]. apply nth_error_Some. congruence.
  - intros (j & H & T). exists j. split; [|now apply IH]. rewrite nth_error_app1; [exact H|]. apply nth_error_Some. congruence.
Qed.
Lemma tower_turns zero one var dim : forall n i stack m df, ok dim m -> tower (nodes m) n i ->
  (zero < length (nodes m))%nat -> (one < length (nodes m))%nat -> (forall j d, df j = Some d -> (d < length (nodes m))%nat) ->
  exists k m' df', (2 ^ n <= k)%nat /\ rsub dim m m' /\ (forall j d, df' j = Some d -> (d < length (nodes m'))%nat) /\ (exists d, df' i = Some d) /\
    (forall fuel, diff_loop reals (k + fuel) zero one var (Enter i :: stack) m df = diff_loop reals fuel zero one var stack m' df') /\
    (forall fuel, (fuel < k)%nat -> diff_loop reals fuel zero one var (Enter i :: stack) m df = None).
Proof.
  induction n as [|n IH]; intros i stack m df M T Hz Ho Hdf; cbn in T.
  - destruct T as (v & N). exists 1%nat, m, (set_derivative df i (if Nat.eqb v var then one else zero)).
    split; [cbn; lia|]. split; [now apply sub_refl|]. split.
    { intros j d. unfold set_derivative. destruct (Nat.eqb j i); [|apply Hdf]. intros [= <-]. now destruct (Nat.eqb v var). }
    split; [exists (if Nat.eqb v var then one else zero); unfold set_derivative; now rewrite Nat.eqb_refl|]. split.
    + intros fuel. cbn. now rewrite N.
    + intros [|fuel] Hf; [reflexivity|lia].
  - destruct T as (j & N & T).
    assert (Grow : forall m', rsub dim m m' -> (length (nodes m) <= length (nodes m'))%nat).
    { intros m' [_ [more E]]. rewrite E, app_length. lia. }
    destruct (IH j (Enter j :: Leave i :: stack) m df M T Hz Ho Hdf) as (k1 & m1 & df1 & K1 & S1 & B1 & [d1 E1] & R1 & L1).
    pose proof (Grow m1 S1). assert (T1 : tower (nodes m1) n j) by (destruct (proj2 S1) as [more ->]; now apply tower_app).
    destruct (IH j (Leave i :: stack) m1 df1 (proj1 S1) T1 ltac:(lia) ltac:(lia) B1) as (k2 & m2 & df2 & K2 & S2 & B2 & [d2 E2] & R2 & L2).
    assert (N2 : nth_error (nodes m2) i = Some (NOp add j j)) by (eapply sub_nth; [exact S2|]; eapply sub_nth; eassumption).
    assert (Lj : (j < length (nodes m2))%nat).
    { pose proof (mo_nodes _ _ _ _ (proj1 S2)) as W. pose proof (W _ _ N2) as X. cbn in X.
      assert (i < length (nodes m2))%nat by (apply nth_error_Some; congruence). lia. }
    pose proof (b_d_op dim m2 add j j d2 d2 _ _ _ _ (proj1 S2) (has_self m2 j Lj) (has_self m2 j Lj) (has_self m2 d2 (B2 _ _ E2)) (has_self m2 d2 (B2 _ _ E2))) as [S3 [H3 _]].
    destruct (d_op reals m2 add j j d2 d2) as [m3 d] eqn:E3. cbn [fst snd] in S3, H3.
    assert (G3 : (length (nodes m2) <= length (nodes m3))%nat) by (destruct (proj2 S3) as [more E]; rewrite E, app_length; lia).
    exists (S (k1 + (k2 + 1))), m3, (set_derivative df2 i d). split; [cbn [Nat.pow]; lia|].
    split; [eapply sub_trans; [exact S1|]; eapply sub_trans; eassumption|]. split.
    { intros j' d'. unfold set_derivative. destruct (Nat.eqb j' i); [intros [= <-]; exact H3|]. intros X. apply B2 in X. lia. }
    split; [exists d; unfold set_derivative; now rewrite Nat.eqb_refl|]. split.
    + intros fuel. cbn [Nat.add diff_loop diff_step]. rewrite N. replace (k1 + (k2 + 1) + fuel)%nat with (k1 + (k2 + S fuel))%nat by lia.
      rewrite R1, R2. cbn [diff_loop diff_step]. rewrite N2, E2, E3. reflexivity.
    + intros [|fuel] Hf; [reflexivity|]. cbn [diff_loop diff_step]. rewrite N.
      destruct (Nat.lt_ge_cases fuel k1) as [?|?]; [now apply L1|]. replace fuel with (k1 + (fuel - k1))%nat by lia. rewrite R1.
      destruct (Nat.lt_ge_cases (fuel - k1) k2) as [?|?]; [now apply L2|]. replace (fuel - k1)%nat with (k2 + 0)%nat by lia. rewrite R2. reflexivity.
Qed.
Lemma doubling_ok n : program_ok reals 1 (doubling n) /\ ~ In IDefault (doubling n) /\ length (doubling n) = S n /\
  forall k, (k < n)%nat -> nth_error (doubling n) (S k) = Some (IOp add k k).
Proof.
  assert (N : forall k i, nth_error (map (fun k => IOp (A := reals) add k k) (seq 0 n)) k = Some i -> i = IOp add k k /\ (k < n)%nat).
  { intros k i H. assert (k < n)%nat as Hk. { assert (X : (k < length (map (fun k => IOp (A := reals) add k k) (seq 0 n)))%nat) by (apply nth_error_Some; congruence). rewrite map_length, seq_length in X. exact X. }
    split; [|exact Hk]. rewrite nth_error_map in H. rewrite (nth_error_nth' _ 0%nat) in H by now rewrite seq_length. rewrite seq_nth in H by exact Hk. cbn in H. congruence. }
  split; [|split; [|split]].
  - intros [|k] i H; cbn in H; [injection H as <-; cbn; lia|]. apply N in H as [-> Hk]. cbn. lia.
  - intros [H|H]; [discriminate|]. apply In_nth_error in H as [k H]. apply N in H as [H _]. discriminate.
  - cbn. now rewrite map_length, seq_length.
  - intros k Hk. cbn. rewrite nth_error_map, (nth_error_nth' _ 0%nat) by now rewrite seq_length. rewrite seq_nth by exact Hk. reflexivity.
Qed.
Lemma doubling_slow n fuel : (fuel < 2 ^ n)%nat ->
  let (m, rs) := recorded reals 1 (doubling n) in gradient reals fuel m no_derivatives 1 (nth n rs 0%nat) = None.
Proof.
  intros Hf. destruct (doubling_ok n) as (P & N & L & S). destruct (recorded reals 1 (doubling n)) as [m rs] eqn:E.
  assert (D : (0 < 1)%nat) by lia. destruct (link_ok 1 (doubling n) D P N m rs E) as (M & Lr & V).
  assert (T : forall k, (k <= n)%nat -> tower (nodes m) k (nth k rs 0%nat)).
  { induction k as [|k IH]; intros Hk; cbn.
    - exists 0%nat. exact (link_shape 1 (doubling n) D P m rs E 0 (IVar 0) eq_refl).
    - exists (nth k rs 0%nat). split; [exact (link_shape 1 (doubling n) D P m rs E (Datatypes.S k) _ (S k ltac:(lia)))|apply IH; lia]. }
  unfold gradient. pose proof (repeat_default_ok reals all 1 1 m M D) as S0. set (m0 := repeat_default reals 1 m) in *. cbn [gradient_from].
  unfold differentiate_node, no_derivatives at 1.
  destruct (value_node reals m0 (c0 reals)) as [m1 zero] eqn:E1. destruct (r_val 1 m0 _ (proj1 S0) _ _ E1) as [Sub1 [Hz _]]. pose proof (proj1 Sub1) as M1.
  destruct (value_node reals m1 (c1 reals)) as [m2 one] eqn:E2. destruct (r_val 1 m1 _ M1 _ _ E2) as [Sub2 [Ho _]]. pose proof (proj1 Sub2) as M2.
  assert (S2 : rsub 1 m m2) by (eapply sub_trans; [exact S0|]; eapply sub_trans; eassumption).
  destruct (tower_turns zero one 0 1 n (nth n rs 0%nat) [] m2 (no_derivatives 0) M2) as (k & m3 & df3 & Hk & _ & _ & _ & _ & X).
  - destruct (proj2 S2) as [more ->]. apply tower_app. now apply T.
  - destruct (proj2 Sub2) as [more E3]. rewrite E3, app_length. lia.
  - exact Ho.
  - intros j d H. discriminate H.
  - unfold no_derivatives in X. rewrite X by lia. reflexivity.
Qed.
Lemma polynomial_lt_exponential k : exists n, ((S n) ^ k + k < 2 ^ n)%nat.
Proof.
  assert (A : forall k, (k * k + k + 1 <= 2 ^ (2 * k))%nat).
  { intros j. induction j as [|j IH]; [cbn; lia|]. replace (2 * S j)%nat with (2 + 2 * j)%nat by lia. rewrite Nat.pow_add_r. cbn [Nat.pow Nat.mul] in *. nia. }
  assert (B : forall n, (n < 2 ^ n)%nat) by (intros n; apply Nat.pow_gt_lin_r; lia).
  set (j := (2 * k + 4)%nat). exists (2 ^ j)%nat.
  assert (J : (k * (j + 1) + 1 <= 2 ^ j)%nat). { unfold j. rewrite Nat.pow_add_r. pose proof (A k) as X. set (y := (2 ^ (2 * k))%nat) in *. change (2 ^ 4)%nat with 16%nat. nia. }
  assert (C : ((S (2 ^ j)) ^ k <= 2 ^ ((j + 1) * k))%nat).
  { rewrite Nat.pow_mul_r. apply Nat.pow_le_mono_l. rewrite Nat.pow_add_r, Nat.pow_1_r. pose proof (B j). lia. }
  assert (Dk : (k < 2 ^ ((j + 1) * k))%nat).
  { eapply Nat.lt_le_trans; [apply (B k)|]. apply Nat.pow_le_mono_r; nia. }
  eapply Nat.lt_le_trans with (2 ^ ((j + 1) * k) + 2 ^ ((j + 1) * k))%nat; [lia|].
  replace (2 ^ ((j + 1) * k) + 2 ^ ((j + 1) * k))%nat with (2 ^ ((j + 1) * k + 1))%nat by (rewrite Nat.pow_add_r, Nat.pow_1_r; lia).
  apply Nat.pow_le_mono_r; nia.
Qed.
(** Differentiation does not run in polynomial time: a derivative already found on the way is not looked up, so
    that shared subexpressions are differentiated once per path.  [f = f + f], repeated [n] times, takes at least [2 ^ n] turns of the loop. *)
Theorem C72_polynomial_time_refuted :
  ~ (exists k, forall dim p f, (0 < dim)%nat -> program_ok reals dim p -> ~ In IDefault p -> (f < length p)%nat ->
       let (m, rs) := recorded reals dim p in
       gradient reals (length p ^ k + k) m no_derivatives dim (nth f rs 0%nat) <> None).
Proof.
  intros (k & H). destruct (polynomial_lt_exponential k) as [n Hn]. destruct (doubling_ok n) as (P & N & L & _).
  specialize (H 1%nat (doubling n) n ltac:(lia) P N ltac:(lia)). rewrite L in H. pose proof (doubling_slow n _ Hn) as X.
  destruct (recorded reals 1 (doubling n)) as [m rs]. contradiction.
Qed.

Print Assumptions C72_gradient.
Print Assumptions C72_unit_step_throws.
Print Assumptions C72_polynomial_time_refuted.
