(** Derivatives recorded by fncas, over the real numbers. *)
From Coq Require Import List Arith Bool Lia Reals Lra.
Import ListNotations.
From Verif Require Import Fncas_Model Fncas_Spec Fncas_Proofs FncasReal_Spec.
Open Scope R_scope.

Notation RV := (value_at reals).
Definition all (_ : R) : Prop := True.
Lemma all_consistent : forall c d : Fncas_Model.num reals, all c -> all d -> a_eqb reals c d = true -> c = d.
Proof. intros c d _ _. cbn. destruct (Req_EM_T c d); congruence. Qed.
Notation ok := (memory_ok reals all).
Notation rsub := (sub reals all).
Notation rhas := (has reals).

Lemma r_op dim m o l r u v : ok dim m -> rhas m l u -> rhas m r v -> forall m' i, op_node reals m o l r = (m', i) ->
  rsub dim m m' /\ rhas m' i (fun x => apply_operation reals o (u x) (v x)).
Proof. apply op_has. Qed.
Lemma r_fun dim m f a u : ok dim m -> rhas m a u -> forall m' i, fun_node reals m f a = (m', i) ->
  rsub dim m m' /\ rhas m' i (fun x => apply_function reals f (u x)).
Proof. apply fun_has. Qed.
Lemma r_val dim m c : ok dim m -> forall m' i, value_node reals m c = (m', i) -> rsub dim m m' /\ rhas m' i (fun _ => c).
Proof. intros M. apply value_has; [exact all_consistent|exact M|exact I]. Qed.
Lemma r_neg dim m a u : ok dim m -> rhas m a u -> forall m' i, neg_node reals m a = (m', i) ->
  rsub dim m m' /\ rhas m' i (fun x => 0 - u x).
Proof. intros M. apply neg_has; [exact all_consistent|exact M|exact I]. Qed.
Lemma r_mono dim m m' i u : ok dim m -> rsub dim m m' -> rhas m i u -> rhas m' i u.
Proof. apply sub_has. Qed.

Lemma is_value_has dim m i c u : ok dim m -> is_value reals m i = Some c -> rhas m i u -> forall x, u x = c.
Proof.
  intros M. unfold is_value. destruct (nth_error (nodes m) i) as [[]|] eqn:E; try discriminate. intros [= <-] [_ H] x.
  rewrite <- H. rewrite (value_at_eq reals dim _ _ (mo_nodes _ _ _ _ M)). now rewrite E.
Qed.
Lemma equals_to_has dim m i c u : ok dim m -> equals_to reals m i c = true -> rhas m i u -> forall x, u x = c.
Proof.
  intros M. unfold equals_to. destruct (is_value reals m i) as [v|] eqn:E; [|discriminate]. intros H Hu x.
  rewrite (is_value_has dim m i v u M E Hu x). cbn in H. now destruct (Req_EM_T v c).
Qed.

(** The expressions built. *)
Definition builds (dim : nat) (m : memory reals) (r : memory reals * nat) (v : list R -> R) : Prop :=
  rsub dim m (fst r) /\ rhas (fst r) (snd r) v.
Lemma builds_ext dim m r v w : builds dim m r v -> (forall x, v x = w x) -> builds dim m r w.
Proof. intros [S H] E. split; [exact S|]. eapply has_ext; eassumption. Qed.
Lemma builds_here dim m i v w : ok dim m -> rhas m i v -> (forall x, v x = w x) -> builds dim m (m, i) w.
Proof. intros M H E. split; [now apply sub_refl|]. eapply has_ext; eassumption. Qed.
Lemma builds_sub dim m m' r v : rsub dim m m' -> builds dim m' r v -> builds dim m r v.
Proof. intros S [S' H]. split; [eapply sub_trans; eassumption|exact H]. Qed.
Lemma b_op dim m o l r u v : ok dim m -> rhas m l u -> rhas m r v -> builds dim m (op_node reals m o l r) (fun x => apply_operation reals o (u x) (v x)).
Proof. intros M Hl Hr. destruct (op_node reals m o l r) as [m' i] eqn:E. exact (r_op dim m o l r u v M Hl Hr _ _ E). Qed.
Lemma b_val dim m c : ok dim m -> builds dim m (value_node reals m c) (fun _ => c).
Proof. intros M. destruct (value_node reals m c) as [m' i] eqn:E. exact (r_val dim m c M _ _ E). Qed.
Lemma b_neg dim m a u : ok dim m -> rhas m a u -> builds dim m (neg_node reals m a) (fun x => 0 - u x).
Proof. intros M H. destruct (neg_node reals m a) as [m' i] eqn:E. exact (r_neg dim m a u M H _ _ E). Qed.
Lemma b_fun dim m f a u : ok dim m -> rhas m a u -> builds dim m (fun_node reals m f a) (fun x => apply_function reals f (u x)).
Proof. intros M H. destruct (fun_node reals m f a) as [m' i] eqn:E. exact (r_fun dim m f a u M H _ _ E). Qed.

Ltac known :=
  repeat match goal with
  | M : ok ?dim ?m, E : is_value reals ?m ?i = Some ?c, H : rhas ?m ?i ?u |- _ =>
      lazymatch goal with _ : forall x, u x = c |- _ => fail | _ => pose proof (is_value_has dim m i c u M E H) end
  | M : ok ?dim ?m, E : equals_to reals ?m ?i ?c = true, H : rhas ?m ?i ?u |- _ =>
      lazymatch goal with _ : forall x, u x = c |- _ => fail | _ => pose proof (equals_to_has dim m i c u M E H) end
  end.
Ltac finish := intros; cbn; repeat match goal with H : forall x, _ = _ |- _ => rewrite ?H in *; clear H end; cbn; try lra.

Lemma b_mul dim m a b u v : ok dim m -> rhas m a u -> rhas m b v ->
  builds dim m (simplified_mul reals m a b) (fun x => u x * v x).
Proof.
  intros M Ha Hb. unfold simplified_mul.
  destruct (equals_to reals m a (c0 reals)) eqn:Ea; cbn [orb].
  { eapply builds_ext; [now apply b_val|]. known. finish. }
  destruct (equals_to reals m b (c0 reals)) eqn:Eb.
  { eapply builds_ext; [now apply b_val|]. known. finish. }
  assert (Rest : builds dim m (if equals_to reals m b (c1 reals) then (m, a) else if equals_to reals m a (c1 reals) then (m, b) else op_node reals m multiply a b) (fun x => u x * v x)).
  { destruct (equals_to reals m b (c1 reals)) eqn:E1.
    { eapply builds_here; [exact M|exact Ha|]. known. finish. }
    destruct (equals_to reals m a (c1 reals)) eqn:E2.
    { eapply builds_here; [exact M|exact Hb|]. known. finish. }
    exact (b_op dim m multiply a b u v M Ha Hb). }
  destruct (is_value reals m a) eqn:Va; [|exact Rest]. destruct (is_value reals m b) eqn:Vb; [|exact Rest].
  eapply builds_ext; [now apply b_val|]. known. finish.
Qed.
Lemma b_d_add dim m a b u v : ok dim m -> rhas m a u -> rhas m b v -> builds dim m (d_add reals m a b) (fun x => u x + v x).
Proof.
  intros M Ha Hb. unfold d_add.
  assert (Rest : builds dim m (if equals_to reals m b (c0 reals) then (m, a) else if equals_to reals m a (c0 reals) then (m, b) else op_node reals m add a b) (fun x => u x + v x)).
  { destruct (equals_to reals m b (c0 reals)) eqn:E1.
    { eapply builds_here; [exact M|exact Ha|]. known. finish. }
    destruct (equals_to reals m a (c0 reals)) eqn:E2.
    { eapply builds_here; [exact M|exact Hb|]. known. finish. }
    exact (b_op dim m add a b u v M Ha Hb). }
  destruct (is_value reals m a) eqn:Va; [|exact Rest]. destruct (is_value reals m b) eqn:Vb; [|exact Rest].
  eapply builds_ext; [now apply b_val|]. known. finish.
Qed.
Lemma b_d_sub dim m a b u v : ok dim m -> rhas m a u -> rhas m b v -> builds dim m (d_sub reals m a b) (fun x => u x - v x).
Proof.
  intros M Ha Hb. unfold d_sub.
  assert (Rest : builds dim m (if equals_to reals m b (c0 reals) then (m, a) else if equals_to reals m a (c0 reals) then neg_node reals m b else op_node reals m subtract a b) (fun x => u x - v x)).
  { destruct (equals_to reals m b (c0 reals)) eqn:E1.
    { eapply builds_here; [exact M|exact Ha|]. known. finish. }
    destruct (equals_to reals m a (c0 reals)) eqn:E2.
    { eapply builds_ext; [exact (b_neg dim m b v M Hb)|]. known. finish. }
    exact (b_op dim m subtract a b u v M Ha Hb). }
  destruct (is_value reals m a) eqn:Va; [|exact Rest]. destruct (is_value reals m b) eqn:Vb; [|exact Rest].
  eapply builds_ext; [now apply b_val|]. known. finish.
Qed.

(** One more node built: name it, and carry everything known over to the new memory. *)
Lemma next dim m r v (k : memory reals -> nat -> memory reals * nat) w : builds dim m r v ->
  (forall m1 i, rsub dim m m1 -> rhas m1 i v -> builds dim m1 (k m1 i) w) ->
  builds dim m (let (m1, i) := r in k m1 i) w.
Proof. intros [S H] N. destruct r as [m1 i]. cbn [fst snd] in *. eapply builds_sub; [exact S|]. now apply N. Qed.
Ltac carry S :=
  match type of S with
  | rsub ?dim ?m ?m1 =>
      match goal with M : ok dim m |- _ =>
        repeat match goal with H : rhas m ?i ?u |- _ => apply (r_mono dim m m1 i u M S) in H end;
        clear M
      end;
      let M1 := fresh "M" in pose proof (proj1 S) as M1; clear S
  end.
Ltac step :=
  match goal with
  | |- builds ?dim ?m (let (_, _) := simplified_mul _ _ _ _ in _) _ => eapply next; [eapply b_mul; eassumption|]
  | |- builds ?dim ?m (let (_, _) := op_node _ _ _ _ _ in _) _ => eapply next; [eapply b_op; eassumption|]
  | |- builds ?dim ?m (let (_, _) := fun_node _ _ _ _ in _) _ => eapply next; [eapply b_fun; eassumption|]
  | |- builds ?dim ?m (let (_, _) := value_node _ _ _ in _) _ => eapply next; [eapply b_val; eassumption|]
  end;
  let m1 := fresh "m" in let i := fresh "i" in let S := fresh "S" in let H := fresh "H" in
  intros m1 i S H; carry S; cbn beta in *.
Ltac last_step :=
  match goal with
  | |- builds _ _ (simplified_mul _ _ _ _) _ => eapply builds_ext; [eapply b_mul; eassumption|]
  | |- builds _ _ (op_node _ _ _ _ _) _ => eapply builds_ext; [eapply b_op; eassumption|]
  | |- builds _ _ (fun_node _ _ _ _) _ => eapply builds_ext; [eapply b_fun; eassumption|]
  end.

Lemma b_d_mul dim m a b da db u v du dv : ok dim m -> rhas m a u -> rhas m b v -> rhas m da du -> rhas m db dv ->
  builds dim m (d_mul reals m a b da db) (fun x => u x * dv x + v x * du x).
Proof.
  intros M Ha Hb Hda Hdb. unfold d_mul.
  assert (LZ : equals_to reals m a (c0 reals) || equals_to reals m db (c0 reals) = true -> forall x, u x * dv x = 0).
  { intros E x. apply orb_true_iff in E as [E|E]; known; finish. }
  assert (RZ : equals_to reals m b (c0 reals) || equals_to reals m da (c0 reals) = true -> forall x, v x * du x = 0).
  { intros E x. apply orb_true_iff in E as [E|E]; known; finish. }
  destruct (equals_to reals m a (c0 reals) || equals_to reals m db (c0 reals)); [specialize (LZ eq_refl)|clear LZ];
  (destruct (equals_to reals m b (c0 reals) || equals_to reals m da (c0 reals)); [specialize (RZ eq_refl)|clear RZ]); cbn [andb].
  - eapply builds_ext; [now apply b_val|]. intros x. cbn. rewrite LZ, RZ. lra.
  - eapply builds_ext; [exact (b_mul dim m b da _ _ M Hb Hda)|]. intros x. cbn. rewrite LZ. lra.
  - eapply builds_ext; [exact (b_mul dim m a db _ _ M Ha Hdb)|]. intros x. cbn. rewrite RZ. lra.
  - step. step. last_step. reflexivity.
Qed.
Lemma b_d_div dim m a b da db u v du dv : ok dim m -> rhas m a u -> rhas m b v -> rhas m da du -> rhas m db dv ->
  builds dim m (d_div reals m a b da db) (fun x => (v x * du x - u x * dv x) / (v x * v x)).
Proof. intros M Ha Hb Hda Hdb. unfold d_div. step. step. step. step. last_step. reflexivity. Qed.
Definition op_derivative (o : mop) (u v du dv : R) : R :=
  match o with
  | add => du + dv
  | subtract => du - dv
  | multiply => u * dv + v * du
  | divide => (v * du - u * dv) / (v * v)
  end.
Lemma b_d_op dim m o a b da db u v du dv : ok dim m -> rhas m a u -> rhas m b v -> rhas m da du -> rhas m db dv ->
  builds dim m (d_op reals m o a b da db) (fun x => op_derivative o (u x) (v x) (du x) (dv x)).
Proof.
  intros M Ha Hb Hda Hdb. destruct o; cbn [d_op op_derivative].
  - now apply b_d_add.
  - now apply b_d_sub.
  - now apply b_d_mul.
  - now apply b_d_div.
Qed.

(** [y] is the argument, [z] the value of the function there. *)
Definition fun_derivative (f : mfun) (z y dy : R) : R :=
  match f with
  | sqr => 2 * (y * dy)
  | sqrt => dy / (z + z)
  | exp => z * dy
  | log => dy / y
  | sin => dy * Rtrigo_def.cos y
  | cos => -1 * (dy * Rtrigo_def.sin y)
  | tan => 4 * (dy * (Rtrigo_def.cos y * Rtrigo_def.cos y)) / ((Rtrigo_def.cos (y + y) + 1) * (Rtrigo_def.cos (y + y) + 1))
  | asin => dy / R_sqrt.sqrt (1 - y * y)
  | acos => -1 * dy / R_sqrt.sqrt (1 - y * y)
  | atan => dy / (y * y + 1)
  | unit_step => 0
  | ramp => (if Rle_dec 0 y then 1 else 0) * dy
  end.
Lemma b_sqrt_1 dim m a u : ok dim m -> rhas m a u -> builds dim m (sqrt_1_minus_sqr reals m a) (fun x => R_sqrt.sqrt (1 - u x * u x)).
Proof. intros M Ha. unfold sqrt_1_minus_sqr. step. step. step. last_step. reflexivity. Qed.
Lemma not_value dim m n i : ok dim m -> nth_error (nodes m) i = Some n -> (forall c, n <> NVal c) -> is_value reals m i = None.
Proof. intros M E H. unfold is_value. rewrite E. destruct n; try reflexivity. now destruct (H c). Qed.

Definition obuilds (dim : nat) (m : memory reals) (r : option (memory reals * nat)) (v : list R -> R) : Prop :=
  match r with Some r => builds dim m r v | None => False end.
Lemma onext dim m r v (k : memory reals -> nat -> option (memory reals * nat)) w : builds dim m r v ->
  (forall m1 i, rsub dim m m1 -> rhas m1 i v -> obuilds dim m1 (k m1 i) w) ->
  obuilds dim m (let (m1, i) := r in k m1 i) w.
Proof.
  intros [S H] N. destruct r as [m1 i]. cbn [fst snd] in *. specialize (N m1 i S H).
  destruct (k m1 i) as [r|]; [|exact N]. eapply builds_sub; [exact S|exact N].
Qed.
Lemma onext_eq dim m r v (k : memory reals -> nat -> option (memory reals * nat)) w : builds dim m r v ->
  (forall m1 i, r = (m1, i) -> rsub dim m m1 -> rhas m1 i v -> obuilds dim m1 (k m1 i) w) ->
  obuilds dim m (let (m1, i) := r in k m1 i) w.
Proof.
  intros [S H] N. destruct r as [m1 i]. cbn [fst snd] in *. specialize (N m1 i eq_refl S H).
  destruct (k m1 i) as [r|]; [|exact N]. eapply builds_sub; [exact S|exact N].
Qed.
Lemma builds_atan dim m a u : ok dim m -> rhas m a u ->
  builds dim m (let (m, xx) := op_node reals m multiply a a in
                let (m, one) := value_node reals m (c1 reals) in
                op_node reals m add xx one) (fun x => u x * u x + 1).
Proof. intros M Ha. step. step. last_step. reflexivity. Qed.
Ltac ostep :=
  match goal with
  | |- obuilds ?dim ?m (let (_, _) := simplified_mul _ _ _ _ in _) _ => eapply onext; [eapply b_mul; eassumption|]
  | |- obuilds ?dim ?m (let (_, _) := op_node _ _ _ _ _ in _) _ => eapply onext; [eapply b_op; eassumption|]
  | |- obuilds ?dim ?m (let (_, _) := fun_node _ _ _ _ in _) _ => eapply onext; [eapply b_fun; eassumption|]
  | |- obuilds ?dim ?m (let (_, _) := value_node _ _ _ in _) _ => eapply onext; [eapply b_val; eassumption|]
  end;
  let m1 := fresh "m" in let i := fresh "i" in let S := fresh "S" in let H := fresh "H" in
  intros m1 i S H; carry S; cbn beta in *.
Ltac sqstep :=
  match goal with
  | |- builds ?dim ?m (let (_, _) := sqrt_1_minus_sqr _ _ _ in _) _ => eapply next; [eapply b_sqrt_1; eassumption|]
  end;
  let m1 := fresh "m" in let i := fresh "i" in let S := fresh "S" in let H := fresh "H" in
  intros m1 i S H; carry S; cbn beta in *.
Lemma value_of_sum dim m o l r : ok dim m -> is_value reals (fst (op_node reals m o l r)) (snd (op_node reals m o l r)) = None.
Proof. intros M. unfold is_value. cbn. rewrite nth_error_app2, Nat.sub_diag by lia. reflexivity. Qed.

Lemma b_d_f dim m f o a da z u du : ok dim m -> nth_error (nodes m) o = Some (NFun f a) -> rhas m o z -> rhas m a u -> rhas m da du -> f <> unit_step ->
  obuilds dim m (d_f reals m f o a da) (fun x => fun_derivative f (z x) (u x) (du x)).
Proof.
  intros M N Ho Ha Hda Hf. pose proof (not_value dim m _ o M N ltac:(discriminate)) as No.
  assert (Va : forall c x, is_value reals m a = Some c -> u x = c) by (intros; eapply is_value_has; eassumption).
  destruct f; cbn [d_f fun_derivative]; try congruence.
  - ostep. ostep. cbn [obuilds]. last_step. reflexivity.
  - rewrite No. cbn [obuilds]. step. last_step. reflexivity.
  - cbn [obuilds]. last_step. reflexivity.
  - cbn [obuilds]. destruct (is_value reals m a) as [c|]; [|last_step; reflexivity].
    step. step. step. last_step. intros x. cbn. rewrite (Va c x eq_refl). unfold Rdiv. ring.
  - ostep. cbn [obuilds]. last_step. reflexivity.
  - ostep. ostep. ostep. cbn [obuilds]. last_step. reflexivity.
  - do 9 ostep. eapply onext_eq; [eapply b_op; eassumption|].
    match goal with |- forall m1 i, op_node _ ?mm _ _ _ = _ -> _ => match goal with M' : ok dim mm |- _ => intros m9 i8 E9 S9 H9; pose proof (value_of_sum dim mm add i6 i7 M') as No' end end.
    rewrite E9 in No'. cbn [fst snd] in No'. carry S9. rewrite No'. cbn [obuilds]. step. last_step. reflexivity.
  - cbn [obuilds]. destruct (is_value reals m a) as [c|].
    + step. sqstep. step. last_step. intros x. cbn. unfold Rdiv. ring.
    + sqstep. last_step. reflexivity.
  - cbn [obuilds]. destruct (is_value reals m a) as [c|].
    + step. sqstep. step. last_step. intros x. cbn. unfold Rdiv. ring.
    + step. step. sqstep. last_step. reflexivity.
  - cbn [obuilds]. destruct (is_value reals m a) as [c|].
    + step. eapply next; [eapply (builds_atan dim); eassumption|]. intros m1 i1 S1 H1. carry S1. step. last_step. intros x. cbn. unfold Rdiv. ring.
    + eapply next; [eapply (builds_atan dim); eassumption|]. intros m1 i1 S1 H1. carry S1. last_step. reflexivity.
  - ostep. cbn [obuilds]. last_step. intros x. cbn. destruct (Rle_dec 0 (u x)); reflexivity.
Qed.
