(** The rules of differentiation. *)
From Coq Require Import List Arith Bool Lia Reals Lra.
Import ListNotations.
From Verif Require Import Fncas_Model Fncas_Spec Fncas_Proofs FncasReal_Spec FncasReal_Proofs.
Open Scope R_scope.

Lemma op_rule o u v t du dv : derivable_pt_lim u t du -> derivable_pt_lim v t dv -> (o = divide -> v t <> 0) ->
  derivable_pt_lim (fun s => apply_operation reals o (u s) (v s)) t (op_derivative o (u t) (v t) du dv).
Proof.
  intros Hu Hv Hd. destruct o; cbn.
  - exact (derivable_pt_lim_plus u v t du dv Hu Hv).
  - exact (derivable_pt_lim_minus u v t du dv Hu Hv).
  - replace (u t * dv + v t * du) with (du * v t + u t * dv) by ring. exact (derivable_pt_lim_mult u v t du dv Hu Hv).
  - specialize (Hd eq_refl). replace ((v t * du - u t * dv) / (v t * v t)) with ((du * v t - dv * u t) / Rsqr (v t)).
    + exact (derivable_pt_lim_div u v t du dv Hu Hv Hd).
    + unfold Rsqr. field. exact Hd.
Qed.

Lemma chain u t du (g : R -> R) dg r : derivable_pt_lim u t du -> derivable_pt_lim g (u t) dg -> r = dg * du ->
  derivable_pt_lim (fun s => g (u s)) t r.
Proof. intros Hu Hg ->. exact (derivable_pt_lim_comp u g t du dg Hu Hg). Qed.

Lemma ramp_rule y : y <> 0 -> derivable_pt_lim (fun s => if Rlt_dec 0 s then s else 0) y (if Rle_dec 0 y then 1 else 0).
Proof.
  intros Hy. destruct (Rle_dec 0 y) as [H|H].
  - assert (0 < y) by lra. eapply derivable_pt_lim_locally_ext with (a := 0) (b := y + 1) (f := id); [lra| |apply derivable_pt_lim_id].
    intros z Hz. unfold id. destruct (Rlt_dec 0 z); lra.
  - assert (y < 0) by lra. eapply derivable_pt_lim_locally_ext with (a := y - 1) (b := 0) (f := fct_cte 0); [lra| |apply derivable_pt_lim_const].
    intros z Hz. unfold fct_cte. destruct (Rlt_dec 0 z); lra.
Qed.
Lemma half_angle y : Rtrigo_def.cos (y + y) + 1 = 2 * (Rtrigo_def.cos y * Rtrigo_def.cos y).
Proof. pose proof (cos_2a_cos y) as H. replace (2 * y) with (y + y) in H by ring. rewrite H. ring. Qed.

Lemma fun_rule f u t du : derivable_pt_lim u t du -> differentiable f (u t) ->
  derivable_pt_lim (fun s => apply_function reals f (u s)) t (fun_derivative f (apply_function reals f (u t)) (u t) du).
Proof.
  intros Hu Hd. destruct f; cbn in Hd |- *.
  - replace (2 * (u t * du)) with (du * u t + u t * du) by ring. exact (derivable_pt_lim_mult u u t du du Hu Hu).
  - eapply chain; [exact Hu|exact (derivable_pt_lim_sqrt _ Hd)|]. pose proof (sqrt_lt_R0 _ Hd). field. lra.
  - eapply chain; [exact Hu|apply derivable_pt_lim_exp|]. reflexivity.
  - eapply chain; [exact Hu|exact (derivable_pt_lim_ln _ Hd)|]. field. lra.
  - eapply chain; [exact Hu|apply derivable_pt_lim_sin|]. ring.
  - eapply chain; [exact Hu|apply derivable_pt_lim_cos|]. ring.
  - eapply (chain u t du Rtrigo1.tan); [exact Hu| |].
    + apply (derivable_pt_lim_div Rtrigo_def.sin Rtrigo_def.cos (u t)); [apply derivable_pt_lim_sin|apply derivable_pt_lim_cos|exact Hd].
    + rewrite half_angle. unfold Rsqr. pose proof (sin2_cos2 (u t)) as P. unfold Rsqr in P.
      set (c := Rtrigo_def.cos (u t)) in *. set (s := Rtrigo_def.sin (u t)) in *.
      replace (c * c - - s * s) with 1 by lra. field. exact Hd.
  - eapply chain; [exact Hu|exact (derive_pt_eq_1 _ _ _ _ (derive_pt_asin _ Hd))|]. unfold Rsqr.
    assert (0 < 1 - u t * u t) by nra. pose proof (sqrt_lt_R0 _ H). field. lra.
  - eapply chain; [exact Hu|exact (derive_pt_eq_1 _ _ _ _ (derive_pt_acos _ Hd))|]. unfold Rsqr.
    assert (0 < 1 - u t * u t) by nra. pose proof (sqrt_lt_R0 _ H). field. lra.
  - eapply chain; [exact Hu|apply derivable_pt_lim_atan|]. assert (0 <= u t * u t) by nra. field. nra.
  - destruct Hd.
  - eapply (chain u t du (fun s => if (if Rlt_dec 0 s then true else false) then s else 0)); [exact Hu| |reflexivity].
    eapply derivable_pt_lim_ext; [|exact (ramp_rule _ Hd)]. intros z. cbn. destruct (Rlt_dec 0 z); reflexivity.
Qed.

(** *** Points *)
Lemma moved_length x i t : length (moved x i t) = length x.
Proof. revert i. induction x as [|y x IH]; intros [|i]; cbn; auto. Qed.
Lemma nth_moved x : forall i t v, (i < length x)%nat -> nth v (moved x i t) 0 = if Nat.eqb v i then t else nth v x 0.
Proof. induction x as [|y x IH]; intros [|i] t [|v] H; cbn in *; try lia; try reflexivity. apply IH. lia. Qed.
Lemma moved_same x : forall i, moved x i (nth i x 0) = x.
Proof. induction x as [|y x IH]; intros [|i]; cbn; try reflexivity. now rewrite IH. Qed.

(** *** Which nodes matter *)
Inductive reaches (ns : list (node reals)) (i : nat) : nat -> Prop :=
| r_here : reaches ns i i
| r_left j o l r : reaches ns i j -> nth_error ns j = Some (NOp o l r) -> reaches ns i l
| r_right j o l r : reaches ns i j -> nth_error ns j = Some (NOp o l r) -> reaches ns i r
| r_arg j f a : reaches ns i j -> nth_error ns j = Some (NFun f a) -> reaches ns i a.
Lemma reaches_trans ns i j k : reaches ns i j -> reaches ns j k -> reaches ns i k.
Proof. intros H. induction 1; [exact H|eapply r_left; eassumption|eapply r_right; eassumption|eapply r_arg; eassumption]. Qed.
Lemma reaches_le dim ns i j : nodes_ok reals dim ns -> reaches ns i j -> (j <= i)%nat.
Proof.
  intros W. induction 1; [lia| | |]; match goal with H : nth_error _ _ = Some _ |- _ => apply W in H; cbn in H end; lia.
Qed.
Lemma reaches_app dim ns more i j : nodes_ok reals dim ns -> (i < length ns)%nat ->
  reaches (ns ++ more) i j <-> reaches ns i j.
Proof.
  intros W Hi. split.
  - intros H. assert (X : reaches ns i j /\ (j < length ns)%nat).
    { induction H as [|j o l r H [IH Hj] E|j o l r H [IH Hj] E|j f a H [IH Hj] E]; [split; [constructor|exact Hi]| | |];
      rewrite nth_error_app1 in E by exact Hj; pose proof (W _ _ E) as X; cbn in X;
      (split; [|lia]); [eapply r_left|eapply r_right|eapply r_arg]; eassumption. }
    apply X.
  - induction 1 as [|j o l r H IH E|j o l r H IH E|j f a H IH E]; [constructor| | |];
    [eapply r_left|eapply r_right|eapply r_arg]; try exact IH; rewrite nth_error_app1 by (apply nth_error_Some; congruence); eassumption.
Qed.
Definition fine_node (ns : list (node reals)) (x : list R) (j : nat) : Prop :=
  match nth_error ns j with
  | Some (NOp divide _ r) => RV ns x r <> 0
  | Some (NFun f a) => differentiable f (RV ns x a)
  | _ => True
  end.
Definition fine (ns : list (node reals)) (x : list R) (i : nat) : Prop := forall j, reaches ns i j -> fine_node ns x j.
Definition no_step (ns : list (node reals)) (i : nat) : Prop :=
  forall j a, reaches ns i j -> nth_error ns j <> Some (NFun unit_step a).

Lemma fine_app dim ns more x i : nodes_ok reals dim ns -> nodes_ok reals dim (ns ++ more) -> (i < length ns)%nat ->
  fine (ns ++ more) x i <-> fine ns x i.
Proof.
  intros W W' Hi. unfold fine. split; intros F j Hj.
  - pose proof (reaches_le _ _ _ _ W Hj) as Le. specialize (F j (proj2 (reaches_app dim ns more i j W Hi) Hj)). unfold fine_node in *.
    rewrite nth_error_app1 in F by lia. destruct (nth_error ns j) as [[v|c|o l r|f a]|] eqn:E; try exact I; pose proof (W _ _ E) as X; cbn in X.
    + destruct o; try exact I. rewrite (value_at_app reals dim) in F by (assumption || lia). exact F.
    + rewrite (value_at_app reals dim) in F by (assumption || lia). exact F.
  - apply (reaches_app dim ns more i j W Hi) in Hj. pose proof (reaches_le _ _ _ _ W Hj) as Le. specialize (F j Hj). unfold fine_node in *.
    rewrite nth_error_app1 by lia. destruct (nth_error ns j) as [[v|c|o l r|f a]|] eqn:E; try exact I; pose proof (W _ _ E) as X; cbn in X.
    + destruct o; try exact I. rewrite (value_at_app reals dim) by (assumption || lia). exact F.
    + rewrite (value_at_app reals dim) by (assumption || lia). exact F.
Qed.
Lemma no_step_app dim ns more i : nodes_ok reals dim ns -> (i < length ns)%nat -> no_step (ns ++ more) i <-> no_step ns i.
Proof.
  intros W Hi. unfold no_step. split; intros F j a Hj.
  - pose proof (reaches_le _ _ _ _ W Hj). specialize (F j a (proj2 (reaches_app dim ns more i j W Hi) Hj)). now rewrite nth_error_app1 in F by lia.
  - apply (reaches_app dim ns more i j W Hi) in Hj. pose proof (reaches_le _ _ _ _ W Hj). rewrite nth_error_app1 by lia. now apply F.
Qed.

(** *** A correct derivative *)
Definition diff_ok (dim k : nat) (m : memory reals) (i d : nat) : Prop :=
  (i < length (nodes m))%nat /\ (d < length (nodes m))%nat /\ no_step (nodes m) i /\
  forall x, length x = dim -> fine (nodes m) x i ->
    derivable_pt_lim (fun t => RV (nodes m) (moved x k t) i) (nth k x 0) (RV (nodes m) x d).
Lemma diff_ok_sub dim k m m' i d : ok dim m -> rsub dim m m' -> diff_ok dim k m i d -> diff_ok dim k m' i d.
Proof.
  intros M [M' [more E]] (Hi & Hd & Hn & H). unfold diff_ok. rewrite E. pose proof (mo_nodes _ _ _ _ M) as W. pose proof (mo_nodes _ _ _ _ M') as W'. rewrite E in W'.
  rewrite app_length. split; [lia|]. split; [lia|]. split; [now apply (no_step_app dim)|].
  intros x Lx F. apply (fine_app dim) in F; [|assumption..]. specialize (H x Lx F).
  rewrite (value_at_app reals dim) by assumption. eapply derivable_pt_lim_ext; [|exact H]. intros t. cbn beta. now rewrite (value_at_app reals dim) by assumption.
Qed.
Lemma has_self (m : memory reals) i : (i < length (nodes m))%nat -> rhas m i (fun x => RV (nodes m) x i).
Proof. intros H. now split. Qed.

Lemma diff_var dim k m i v z one zero : ok dim m -> (k < dim)%nat -> nth_error (nodes m) i = Some (NVar v) ->
  rhas m zero (fun _ => 0) -> rhas m one (fun _ => 1) -> z = (if Nat.eqb v k then one else zero) -> diff_ok dim k m i z.
Proof.
  intros M Hk N [Hz Vz] [Ho Vo] ->. split; [apply nth_error_Some; congruence|]. split; [destruct (Nat.eqb v k); assumption|]. split.
  - intros j a Hj E. assert (j = i) as ->. { inversion Hj; [reflexivity| | |]; exfalso; clear -N H H0.
      all: assert (X : forall j', reaches (nodes m) i j' -> j' = i) by (induction 1; [reflexivity| | |]; subst; congruence).
      all: apply X in H; subst; congruence. }
    congruence.
  - intros x Lx _. eapply derivable_pt_lim_ext with (f := if Nat.eqb v k then id else fct_cte (nth v x 0)).
    + intros t. rewrite (value_at_eq reals dim _ _ (mo_nodes _ _ _ _ M)), N. cbn. rewrite nth_moved by lia. destruct (Nat.eqb_spec v k); reflexivity.
    + destruct (Nat.eqb v k); [rewrite Vo; apply derivable_pt_lim_id|rewrite Vz; apply derivable_pt_lim_const].
Qed.
Lemma diff_val dim k m i c zero : ok dim m -> nth_error (nodes m) i = Some (NVal c) -> rhas m zero (fun _ => 0) -> diff_ok dim k m i zero.
Proof.
  intros M N [Hz Vz]. split; [apply nth_error_Some; congruence|]. split; [assumption|]. split.
  - intros j a Hj E. assert (X : forall j', reaches (nodes m) i j' -> j' = i) by (induction 1; [reflexivity| | |]; subst; congruence).
    apply X in Hj. subst. congruence.
  - intros x Lx _. eapply derivable_pt_lim_ext with (f := fct_cte c).
    + intros t. rewrite (value_at_eq reals dim _ _ (mo_nodes _ _ _ _ M)), N. reflexivity.
    + rewrite Vz. apply derivable_pt_lim_const.
Qed.
Lemma reaches_inv ns i j : reaches ns i j ->
  j = i \/ match nth_error ns i with
           | Some (NOp _ l r) => reaches ns l j \/ reaches ns r j
           | Some (NFun _ a) => reaches ns a j
           | _ => False
           end.
Proof.
  induction 1 as [|j o l r H IH E|j o l r H IH E|j f a H IH E]; [now left| | |]; right.
  - destruct IH as [->|IH]; [rewrite E; left; constructor|]. destruct (nth_error ns i) as [[]|]; try contradiction.
    + destruct IH; [left|right]; eapply r_left; eassumption.
    + eapply r_left; eassumption.
  - destruct IH as [->|IH]; [rewrite E; right; constructor|]. destruct (nth_error ns i) as [[]|]; try contradiction.
    + destruct IH; [left|right]; eapply r_right; eassumption.
    + eapply r_right; eassumption.
  - destruct IH as [->|IH]; [rewrite E; constructor|]. destruct (nth_error ns i) as [[]|]; try contradiction.
    + destruct IH; [left|right]; eapply r_arg; eassumption.
    + eapply r_arg; eassumption.
Qed.

Lemma diff_op dim k m i o a b da db : ok dim m -> nth_error (nodes m) i = Some (NOp o a b) ->
  diff_ok dim k m a da -> diff_ok dim k m b db ->
  let r := d_op reals m o a b da db in rsub dim m (fst r) /\ diff_ok dim k (fst r) i (snd r).
Proof.
  intros M N Ha Hb r. pose proof Ha as (La & Lda & NSa & Da). pose proof Hb as (Lb & Ldb & NSb & Db).
  pose proof (b_d_op dim m o a b da db _ _ _ _ M (has_self m a La) (has_self m b Lb) (has_self m da Lda) (has_self m db Ldb)) as [S1 [Hd Vd]].
  fold r in S1, Hd, Vd. split; [exact S1|].
  pose proof (mo_nodes _ _ _ _ M) as W. pose proof (mo_nodes _ _ _ _ (proj1 S1)) as W'. destruct (proj2 S1) as [more E].
  assert (Li : (i < length (nodes m))%nat) by (apply nth_error_Some; congruence).
  unfold diff_ok. rewrite E in W' |- *. rewrite <- E at 2. split; [rewrite app_length; lia|]. split; [exact Hd|]. split.
  - apply (no_step_app dim); [assumption..|]. intros j c Hj Ej. apply reaches_inv in Hj as [->|Hj]; [congruence|]. rewrite N in Hj.
    destruct Hj as [Hj|Hj]; [exact (NSa _ _ Hj Ej)|exact (NSb _ _ Hj Ej)].
  - intros x Lx F. apply (fine_app dim) in F; [|assumption..]. rewrite <- E, Vd.
    assert (Fa : fine (nodes m) x a) by (intros j Hj; apply F; eapply reaches_trans; [eapply r_left; [constructor|exact N]|exact Hj]).
    assert (Fb : fine (nodes m) x b) by (intros j Hj; apply F; eapply reaches_trans; [eapply r_right; [constructor|exact N]|exact Hj]).
    specialize (Da x Lx Fa). specialize (Db x Lx Fb). rewrite E.
    eapply derivable_pt_lim_ext with (f := fun t => apply_operation reals o (RV (nodes m) (moved x k t) a) (RV (nodes m) (moved x k t) b)).
    { intros t. rewrite (value_at_app reals dim) by assumption. rewrite (value_at_eq reals dim _ _ W i), N. reflexivity. }
    pose proof (op_rule o (fun t => RV (nodes m) (moved x k t) a) (fun t => RV (nodes m) (moved x k t) b) (nth k x 0) _ _ Da Db) as R.
    cbv beta in R. rewrite moved_same in R. apply R. intros ->. specialize (F i (r_here _ _)). unfold fine_node in F. rewrite N in F. exact F.
Qed.
Lemma diff_fun dim k m i f a da : ok dim m -> nth_error (nodes m) i = Some (NFun f a) -> f <> unit_step ->
  diff_ok dim k m a da ->
  exists m' d, d_f reals m f i a da = Some (m', d) /\ rsub dim m m' /\ diff_ok dim k m' i d.
Proof.
  intros M N Hf Ha. pose proof Ha as (La & Lda & NSa & Da).
  assert (Li : (i < length (nodes m))%nat) by (apply nth_error_Some; congruence).
  pose proof (b_d_f dim m f i a da _ _ _ M N (has_self m i Li) (has_self m a La) (has_self m da Lda) Hf) as B.
  destruct (d_f reals m f i a da) as [[m' d]|]; [|destruct B]. destruct B as [S1 [Hd Vd]]. cbn [fst snd] in *.
  exists m', d. split; [reflexivity|]. split; [exact S1|].
  pose proof (mo_nodes _ _ _ _ M) as W. pose proof (mo_nodes _ _ _ _ (proj1 S1)) as W'. destruct (proj2 S1) as [more E].
  unfold diff_ok. rewrite E in W' |- *. rewrite <- E at 2. split; [rewrite app_length; lia|]. split; [exact Hd|]. split.
  - apply (no_step_app dim); [assumption..|]. intros j c Hj Ej. apply reaches_inv in Hj as [->|Hj]; [congruence|]. rewrite N in Hj.
    exact (NSa _ _ Hj Ej).
  - intros x Lx F. apply (fine_app dim) in F; [|assumption..]. rewrite <- E, Vd.
    assert (Fa : fine (nodes m) x a) by (intros j Hj; apply F; eapply reaches_trans; [eapply r_arg; [constructor|exact N]|exact Hj]).
    specialize (Da x Lx Fa). rewrite E.
    eapply derivable_pt_lim_ext with (f := fun t => apply_function reals f (RV (nodes m) (moved x k t) a)).
    { intros t. rewrite (value_at_app reals dim) by assumption. rewrite (value_at_eq reals dim _ _ W i), N. reflexivity. }
    pose proof (fun_rule f (fun t => RV (nodes m) (moved x k t) a) (nth k x 0) _ Da) as R.
    cbv beta in R. rewrite moved_same in R. rewrite (value_at_eq reals dim _ x W i), N. apply R.
    specialize (F i (r_here _ _)). unfold fine_node in F. rewrite N in F. exact F.
Qed.

(** *** The loop *)
Definition df_ok (dim k : nat) (m : memory reals) (df : nat -> option nat) : Prop := forall i d, df i = Some d -> diff_ok dim k m i d.
Lemma df_ok_sub dim k m m' df : ok dim m -> rsub dim m m' -> df_ok dim k m df -> df_ok dim k m' df.
Proof. intros M S H i d E. eapply diff_ok_sub; eauto. Qed.
Lemma df_ok_set dim k m df i d : df_ok dim k m df -> diff_ok dim k m i d -> df_ok dim k m (set_derivative df i d).
Proof. intros H Hd j e. unfold set_derivative. destruct (Nat.eqb_spec j i) as [->|]; [intros [= <-]; exact Hd|apply H]. Qed.

(** Entering a node ends with its derivative known, or with an exception. *)
Lemma diff_enter dim k zero one : (k < dim)%nat -> forall i stack m df,
  ok dim m -> (i < length (nodes m))%nat -> df_ok dim k m df -> rhas m zero (fun _ => 0) -> rhas m one (fun _ => 1) ->
  exists n, 
    ((forall fuel, diff_loop reals (n + fuel) zero one k (Enter i :: stack) m df = Some Throws) /\ ~ no_step (nodes m) i) \/
    (exists m' df', (forall fuel, diff_loop reals (n + fuel) zero one k (Enter i :: stack) m df = diff_loop reals fuel zero one k stack m' df') /\
       rsub dim m m' /\ df_ok dim k m' df' /\ (exists d, df' i = Some d) /\ (forall j, df j <> None -> df' j <> None)).
Proof.
  intros Hk i. induction i as [i IH] using (well_founded_induction lt_wf). intros stack m df M Hi D Hz Ho.
  destruct (nth_error (nodes m) i) as [nd|] eqn:N; [|apply nth_error_None in N; lia].
  pose proof (mo_nodes _ _ _ _ M _ _ N) as W.
  assert (Keep : forall (df2 : nat -> option nat) d j, df2 j <> None -> set_derivative df2 i d j <> None).
  { intros df2 d j H. unfold set_derivative. now destruct (Nat.eqb j i). }
  assert (Set_ : forall (df2 : nat -> option nat) d, exists e, set_derivative df2 i d i = Some e).
  { intros df2 d. exists d. unfold set_derivative. now rewrite Nat.eqb_refl. }
  destruct nd as [v|c|o l r|f a]; cbn in W.
  - exists 1%nat. right. do 2 eexists. split; [intros fuel; cbn; rewrite N; reflexivity|]. split; [now apply sub_refl|].
    split; [apply df_ok_set; [exact D|eapply diff_var; eauto]|]. split; [apply Set_|apply Keep].
  - exists 1%nat. right. do 2 eexists. split; [intros fuel; cbn; rewrite N; reflexivity|]. split; [now apply sub_refl|].
    split; [apply df_ok_set; [exact D|eapply diff_val; eauto]|]. split; [apply Set_|apply Keep].
  - destruct W as [Wl Wr].
    destruct (IH r Wr (Enter l :: Leave i :: stack) m df M ltac:(lia) D Hz Ho) as (n1 & [[T1 NS]|(m1 & df1 & S1 & Sub1 & D1 & [dr Er] & K1)]).
    { exists (S n1). left. split; [intros fuel; cbn; rewrite N; apply T1|]. intros H. apply NS. intros j a Hj. apply H.
      eapply reaches_trans; [eapply r_right; [constructor|exact N]|exact Hj]. }
    pose proof (sub_nth reals all dim m m1 i _ Sub1 N) as N1. pose proof (proj1 Sub1) as M1.
    destruct (IH l Wl (Leave i :: stack) m1 df1 M1) as (n2 & [[T2 NS]|(m2 & df2 & S2 & Sub2 & D2 & [dl El] & K2)]); try assumption.
    { destruct (proj2 Sub1) as [more E]. rewrite E, app_length. lia. }
    { now apply (r_mono dim m m1). } { now apply (r_mono dim m m1). }
    { exists (S (n1 + n2)). left. split.
      - intros fuel. cbn. rewrite N. replace (n1 + n2 + fuel)%nat with (n1 + (n2 + fuel))%nat by lia. rewrite S1. apply T2.
      - intros H. apply NS. destruct (proj2 Sub1) as [more E]. rewrite E. apply (no_step_app dim); [apply M|lia|]. intros j a Hj. apply H.
        eapply reaches_trans; [eapply r_left; [constructor|exact N]|exact Hj]. }
    pose proof (sub_nth reals all dim m1 m2 i _ Sub2 N1) as N2. pose proof (proj1 Sub2) as M2.
    destruct (df2 r) as [dr2|] eqn:Er2; [|exfalso; apply (K2 r); [congruence|exact Er2]].
    pose proof (diff_op dim k m2 i o l r dl dr2 M2 N2 (D2 _ _ El) (D2 _ _ Er2)) as R. cbv zeta in R.
    destruct (d_op reals m2 o l r dl dr2) as [m3 d] eqn:E3. cbn [fst snd] in R. destruct R as [Sub3 Hd].
    exists (S (n1 + (n2 + 1))). right. exists m3, (set_derivative df2 i d). split.
    { intros fuel. cbn [Nat.add diff_loop diff_step]. rewrite N. replace (n1 + (n2 + 1) + fuel)%nat with (n1 + (n2 + S fuel))%nat by lia.
      rewrite S1, S2. cbn [diff_loop diff_step]. rewrite N2, El, Er2, E3. reflexivity. }
    split; [eapply sub_trans; [exact Sub1|]; eapply sub_trans; eassumption|].
    split; [apply df_ok_set; [eapply df_ok_sub; [exact M2|exact Sub3|exact D2]|exact Hd]|]. split; [apply Set_|].
    intros j Hj. apply Keep, K2, K1, Hj.
  - destruct (IH a W (Leave i :: stack) m df M ltac:(lia) D Hz Ho) as (n1 & [[T1 NS]|(m1 & df1 & S1 & Sub1 & D1 & [da Ea] & K1)]).
    { exists (S n1). left. split; [intros fuel; cbn; rewrite N; apply T1|]. intros H. apply NS. intros j b Hj. apply H.
      eapply reaches_trans; [eapply r_arg; [constructor|exact N]|exact Hj]. }
    pose proof (sub_nth reals all dim m m1 i _ Sub1 N) as N1. pose proof (proj1 Sub1) as M1.
    assert (Dec : {f = unit_step} + {f <> unit_step}) by decide equality. destruct Dec as [->|Hf].
    { exists (S (n1 + 1)). left. split.
      - intros fuel. cbn [Nat.add diff_loop diff_step]. rewrite N. replace (n1 + 1 + fuel)%nat with (n1 + S fuel)%nat by lia.
        rewrite S1. cbn [diff_loop diff_step]. rewrite N1, Ea. reflexivity.
      - intros H. exact (H i a (r_here _ _) N). }
    destruct (diff_fun dim k m1 i f a da M1 N1 Hf (D1 _ _ Ea)) as (m3 & d & E3 & Sub3 & Hd).
    exists (S (n1 + 1)). right. exists m3, (set_derivative df1 i d). split.
    { intros fuel. cbn [Nat.add diff_loop diff_step]. rewrite N. replace (n1 + 1 + fuel)%nat with (n1 + S fuel)%nat by lia.
      rewrite S1. cbn [diff_loop diff_step]. rewrite N1, Ea, E3. reflexivity. }
    split; [eapply sub_trans; eassumption|].
    split; [apply df_ok_set; [eapply df_ok_sub; [exact M1|exact Sub3|exact D1]|exact Hd]|]. split; [apply Set_|].
    intros j Hj. apply Keep, K1, Hj.
Qed.

Lemma differentiate_ok dim k m df i : (k < dim)%nat -> ok dim m -> (i < length (nodes m))%nat -> df_ok dim k m df ->
  exists n,
    (~ no_step (nodes m) i /\ forall fuel, (n <= fuel)%nat -> differentiate_node reals fuel m df i k = Some Throws) \/
    (no_step (nodes m) i /\ exists m' df' d, (forall fuel, (n <= fuel)%nat -> differentiate_node reals fuel m df i k = Some (Ok (m', df', d))) /\
       rsub dim m m' /\ df_ok dim k m' df' /\ diff_ok dim k m' i d).
Proof.
  intros Hk M Hi D. unfold differentiate_node. destruct (df i) as [d|] eqn:Ei.
  { exists 0%nat. right. split; [apply (D _ _ Ei)|]. exists m, df, d. split; [reflexivity|]. split; [now apply sub_refl|]. split; [exact D|now apply D]. }
  destruct (value_node reals m (c0 reals)) as [m1 zero] eqn:E1. destruct (r_val dim m _ M _ _ E1) as [Sub1 Hz]. pose proof (proj1 Sub1) as M1.
  destruct (value_node reals m1 (c1 reals)) as [m2 one] eqn:E2. destruct (r_val dim m1 _ M1 _ _ E2) as [Sub2 Ho]. pose proof (proj1 Sub2) as M2.
  assert (Sub : rsub dim m m2) by (eapply sub_trans; eassumption).
  assert (Hi2 : (i < length (nodes m2))%nat) by (destruct (proj2 Sub) as [more E]; rewrite E, app_length; lia).
  assert (NSe : no_step (nodes m2) i <-> no_step (nodes m) i).
  { destruct (proj2 Sub) as [more E]. rewrite E. apply (no_step_app dim); [apply M|exact Hi]. }
  destruct (diff_enter dim k zero one Hk i [] m2 df M2 Hi2 (df_ok_sub _ _ _ _ _ M Sub D) (r_mono _ _ _ _ _ M1 Sub2 Hz) Ho)
    as (n & [[T NS]|(m' & df' & S1 & Sub3 & D3 & [d Ed] & _)]).
  - exists n. left. split; [rewrite <- NSe; exact NS|]. intros fuel Hf. replace fuel with (n + (fuel - n))%nat by lia. now rewrite T.
  - exists n. right. pose proof (D3 _ _ Ed) as Hd. split.
    { apply NSe. destruct (proj2 Sub3) as [more E]. destruct Hd as (_ & _ & NS & _). rewrite E in NS. now apply (no_step_app dim) in NS; [|apply M2|exact Hi2]. }
    exists m', df', d. split; [|split; [eapply sub_trans; eassumption|split; assumption]].
    intros fuel Hf. replace fuel with (n + (fuel - n))%nat by lia. rewrite S1. destruct (fuel - n)%nat; cbn; now rewrite Ed.
Qed.

Lemma gradient_from_ok dim f : forall n i m df, (i + n <= dim)%nat -> ok dim m -> (f < length (nodes m))%nat -> (forall k, (k < dim)%nat -> df_ok dim k m (df k)) ->
  exists b,
    (~ no_step (nodes m) f /\ (0 < n)%nat /\ forall fuel, (b <= fuel)%nat -> gradient_from reals fuel m df f i n = Some Throws) \/
    ((no_step (nodes m) f \/ n = 0%nat) /\ exists m' df' g, (forall fuel, (b <= fuel)%nat -> gradient_from reals fuel m df f i n = Some (Ok (m', df', g))) /\
       rsub dim m m' /\ length g = n /\ (forall k, (k < dim)%nat -> df_ok dim k m' (df' k)) /\
       forall j, (j < n)%nat -> diff_ok dim (i + j) m' f (nth j g 0%nat)).
Proof.
  induction n as [|n IH]; intros i m df Hn M Hf D.
  { exists 0%nat. right. split; [now right|]. exists m, df, []. split; [reflexivity|]. split; [now apply sub_refl|]. split; [reflexivity|]. split; [exact D|]. cbn. lia. }
  destruct (differentiate_ok dim i m (df i) f ltac:(lia) M Hf (D i ltac:(lia))) as (b1 & [[NS T]|[NS (m1 & dfi & d & T & Sub1 & D1 & Hd)]]).
  { exists b1. left. split; [exact NS|]. split; [lia|]. intros fuel Hb. cbn. now rewrite T. }
  pose proof (proj1 Sub1) as M1. destruct (proj2 Sub1) as [more E].
  assert (Hf1 : (f < length (nodes m1))%nat) by (rewrite E, app_length; lia).
  destruct (IH (S i) m1 (fun j => if Nat.eqb j i then dfi else df j) ltac:(lia) M1 Hf1) as (b2 & [[NS2 _]|[NS2 (m2 & df2 & g & T2 & Sub2 & L2 & D2 & H2)]]).
  - intros k Hk. destruct (Nat.eqb_spec k i) as [->|]; [exact D1|]. eapply df_ok_sub; [exact M|exact Sub1|now apply D].
  - exfalso. apply NS2. rewrite E. apply (no_step_app dim); [apply M|exact Hf|exact NS].
  - exists (Nat.max b1 b2). right. split; [now left|]. exists m2, df2, (d :: g). split.
    { intros fuel Hb. cbn. rewrite T by lia. rewrite T2 by lia. reflexivity. }
    split; [eapply sub_trans; eassumption|]. split; [cbn; lia|]. split; [exact D2|].
    intros [|j] Hj; cbn [nth].
    + rewrite Nat.add_0_r. eapply diff_ok_sub; [exact M1|exact Sub2|exact Hd].
    + replace (i + S j)%nat with (S i + j)%nat by lia. apply H2. lia.
Qed.
