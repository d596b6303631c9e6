(** Property C71: a function recorded by fncas evaluates to what its code computes natively. *)
From Coq Require Import List Arith Bool Lia ZArith.
From Coq Require Import Floats.SpecFloat.
Import ListNotations.
From Verif Require Import Fncas_Model Fncas_Spec Fncas_Proofs.

(** The numbers the program turns into nodes: its literals, and the zero of unary minus (node.h 587). *)
Definition constant_of (A : arith) (p : list (instr A)) (c : num A) : Prop :=
  In (IConst c) p \/ c = c0 A /\ exists a, In (INeg a) p.

(** C71.  For any arithmetic (doubles included), any straight-line code [p] of [dim] variables and any of
    its results [k]: the recorded function, called at [x], ends, with no exception and no undefined behaviour,
    after at most [1 + 3 * nodes] turns of its loop, and returns exactly what the code computes on numbers;
    whatever was evaluated before (any cache [c]).
    Hypotheses: constants that compare equal are the same; where unary minus is used, it is [0 - y];
    no default-constructed terms (see the [_refuted] theorems for all three). *)
Theorem C71_recorded_is_native (A : arith) dim (p : list (instr A)) k x c fuel :
  0 < dim -> program_ok A dim p -> length x = dim -> k < length p ->
  (forall u v, constant_of A p u -> constant_of A p v -> a_eqb A u v = true -> u = v) ->
  (forall a y, In (INeg a) p -> a_sub A (c0 A) y = a_opp A y) ->
  ~ In IDefault p ->
  let (m, rs) := recorded A dim p in
  1 + 3 * length (nodes m) <= fuel ->
  exists c', call A fuel m (nth k rs 0) x c = Some (Ok (native A x p k, c')).
Proof.
  intros D P Lx Hk Eq Neg NoD.
  assert (F : Forall (faithful A (constant_of A p)) p).
  { apply Forall_forall. intros i Hi. destruct i as [u|v|o a b|f a|a|]; cbn; auto.
    - now left.
    - split; [right; split; [reflexivity|now exists a]|]. intros y. now apply (Neg a). }
  pose proof (recorded_ok A (constant_of A p) Eq dim p D P F) as R. destruct (recorded A dim p) as [m rs]. destruct R as (M & L & H).
  intros Hf. destruct (H k Hk) as [B V].
  destruct (eval_node_ok A dim (nodes m) x (nth k rs 0) (invalidate A c) fuel (mo_nodes _ _ _ _ M) Lx B (invalidate_ok A _ _ _) Hf) as (c' & E & _).
  exists c'. unfold call. rewrite E, V. reflexivity.
Qed.

(** *** Examples *)
Definition ints : arith :=
  Arith Z Z.add Z.sub Z.mul Z.div Z.opp (fun _ y => y) Z.eqb Z.leb Z.ltb 0%Z 1%Z 2%Z 4%Z 0%Z (-1)%Z.
(** [f(x) = ramp(x[0] - 3) * (2 - -x[1]) + sqr(2)], with every kind of instruction. *)
Definition sample : list (instr ints) :=
  [IVar 0; IConst (3%Z : num ints); IOp subtract 0 1; IFun ramp 2; IConst (2%Z : num ints); IVar 1; INeg 5; IOp subtract 4 6; IOp multiply 3 7;
   IConst (2%Z : num ints); IFun sqr 9; IOp add 8 10].
Example sample_meets_the_hypotheses :
  program_ok ints 2 sample /\
  (forall u v, constant_of ints sample u -> constant_of ints sample v -> a_eqb ints u v = true -> u = v) /\
  (forall a y, In (INeg a) sample -> a_sub ints (c0 ints) y = a_opp ints y) /\ ~ In IDefault sample.
Proof.
  split; [|split; [|split]].
  - intros k i H. do 12 (destruct k as [|k]; [injection H as <-; cbn; auto with arith; lia|]). destruct k; discriminate.
  - intros u v _ _. apply Z.eqb_eq.
  - intros a y _. cbn. lia.
  - cbn. intuition discriminate.
Qed.
Example sample_value : native ints [5; 7]%Z sample 11 = 22%Z.
Proof. reflexivity. Qed.
Example sample_recorded :
  let (m, rs) := recorded ints 2 sample in
  length (nodes m) = 14 /\
  match call ints 43 m (nth 11 rs 0) [5; 7]%Z (empty_cache ints) with Some (Ok (v, _)) => v = 22%Z | _ => False end.
Proof. vm_compute. auto. Qed.

(** The number of turns allowed does not matter, if it is enough. *)
Lemma eval_loop_more A ns x : forall fuel stack c r, eval_loop A fuel ns x stack c = Some r -> forall n, eval_loop A (fuel + n) ns x stack c = Some r.
Proof.
  induction fuel as [|fuel IH]; intros [|fr stack] c r; cbn; try discriminate.
  - intros H [|n]; exact H.
  - auto.
  - destruct (eval_step A ns x fr stack c) as [[s' c']| |]; intros H n; [|exact H|exact H]. now apply IH.
Qed.
Lemma call_more A fuel m i x c r : call A fuel m i x c = Some r -> forall n, call A (fuel + n) m i x c = Some r.
Proof.
  unfold call, eval_node. destruct (eval_loop A fuel (nodes m) x [Enter i] (invalidate A c)) as [o|] eqn:E; [|discriminate].
  intros H n. now rewrite (eval_loop_more _ _ _ _ _ _ _ E).
Qed.
Definition called (A : arith) (o : option (outcome (num A * cache A))) : option (num A) :=
  match o with Some (Ok (v, _)) => Some v | _ => None end.
Lemma call_one_value A fuel fuel' m i x c v w c' : called A (call A fuel m i x c) = Some v -> call A fuel' m i x c = Some (Ok (w, c')) -> v = w.
Proof.
  intros H E. destruct (call A fuel m i x c) as [[[u c1]| |]|] eqn:E1; try discriminate H. cbn in H.
  pose proof (call_more _ _ _ _ _ _ _ E1 fuel') as X. pose proof (call_more _ _ _ _ _ _ _ E fuel) as Y. rewrite Nat.add_comm in Y. congruence.
Qed.

(** A default-constructed term, such as an element of a [term_vector_t(n)], is not the
    zero it is natively: it is the variable [x[0]]. *)
Theorem C71_default_terms_refuted :
  ~ (forall (A : arith) dim (p : list (instr A)) k x c,
       0 < dim -> program_ok A dim p -> length x = dim -> k < length p ->
       (forall u v, constant_of A p u -> constant_of A p v -> a_eqb A u v = true -> u = v) ->
       (forall a y, In (INeg a) p -> a_sub A (c0 A) y = a_opp A y) ->
       let (m, rs) := recorded A dim p in
       exists fuel c', call A fuel m (nth k rs 0) x c = Some (Ok (native A x p k, c'))).
Proof.
  intros H. specialize (H ints 1 [IDefault] 0 [5%Z] (empty_cache ints)).
  destruct H as (fuel & c' & E); [lia| |reflexivity|cbn; lia| | |].
  - intros [|[|k]] i Hk; [injection Hk as <-; exact I|discriminate..].
  - intros u v _ _. apply Z.eqb_eq.
  - intros a y [Ha|[]]. discriminate.
  - apply (call_one_value ints 10 _ _ _ _ _ 5%Z) in E; [discriminate E|reflexivity].
Qed.

(** *** IEEE doubles *)
(** SIMPL: the functions of <cmath> other than the square root are left out (not used below). *)
Definition double_math (f : mfun) (x : spec_float) : spec_float := match f with Fncas_Model.sqrt => SFsqrt 53 1024 x | _ => S754_nan end.
Definition of_Z (z : Z) : spec_float := binary_normalize 53 1024 z 0 false.
Definition doubles : arith :=
  Arith spec_float (SFadd 53 1024) (SFsub 53 1024) (SFmul 53 1024) (SFdiv 53 1024) SFopp double_math
    SFeqb SFleb SFltb (S754_zero false) (of_Z 1) (of_Z 2) (of_Z 4) (SFdiv 53 1024 (of_Z 1) (of_Z 2)) (of_Z (-1)).

(** With doubles, constants that compare equal need not be the same: recording the literal [-0.0] turns
    the [0.0] recorded before into [-0.0] (one node is shared, and overwritten), and [1 / 0.0], which is [+inf] natively, into [-inf]. *)
Theorem C71_negative_zero_literal_refuted :
  ~ (forall dim (p : list (instr doubles)) k x c,
       0 < dim -> program_ok doubles dim p -> length x = dim -> k < length p -> ~ In IDefault p -> (forall a, ~ In (INeg a) p) ->
       let (m, rs) := recorded doubles dim p in
       exists fuel c', call doubles fuel m (nth k rs 0) x c = Some (Ok (native doubles x p k, c'))).
Proof.
  intros H. specialize (H 1 [IConst (of_Z 1 : num doubles); IConst (S754_zero false : num doubles); IOp divide 0 1; IConst (S754_zero true : num doubles)] 2 [of_Z 0] (empty_cache doubles)).
  destruct H as (fuel & c' & E); [lia| |reflexivity|cbn; lia| | |].
  - intros k i Hk. do 4 (destruct k as [|k]; [injection Hk as <-; cbn; auto with arith; lia|]). destruct k; discriminate.
  - cbn. intuition discriminate.
  - cbn. intros a. intuition discriminate.
  - apply (call_one_value doubles 30 _ _ _ _ _ (S754_infinity true)) in E; [vm_compute in E; discriminate E|vm_compute; reflexivity].
Qed.
(** With doubles, unary minus, recorded as [0.0 - x], is not the native one: at [x = 0] it is [0] and not [-0],
    so that [1 / -x] is [+inf] and not [-inf]. *)
Theorem C71_unary_minus_refuted :
  ~ (forall dim (p : list (instr doubles)) k x c,
       0 < dim -> program_ok doubles dim p -> length x = dim -> k < length p -> ~ In IDefault p ->
       (forall u v, constant_of doubles p u -> constant_of doubles p v -> a_eqb doubles u v = true -> u = v) ->
       let (m, rs) := recorded doubles dim p in
       exists fuel c', call doubles fuel m (nth k rs 0) x c = Some (Ok (native doubles x p k, c'))).
Proof.
  intros H. specialize (H 1 [IVar 0; INeg 0; IConst (of_Z 1 : num doubles); IOp divide 2 1] 3 [of_Z 0] (empty_cache doubles)).
  destruct H as (fuel & c' & E); [lia| |reflexivity|cbn; lia| | |].
  - intros k i Hk. do 4 (destruct k as [|k]; [injection Hk as <-; cbn; auto with arith; lia|]). destruct k; discriminate.
  - cbn. intuition discriminate.
  - intros u v Hu Hv. assert (X : forall w, constant_of doubles [IVar 0; INeg 0; IConst (of_Z 1 : num doubles); IOp divide 2 1] w -> w = of_Z 1 \/ w = S754_zero false).
    { intros w [Hw|[-> _]]; [|now right]. cbn in Hw. repeat destruct Hw as [Hw|Hw]; try discriminate; [|destruct Hw]. injection Hw as <-. now left. }
    destruct (X u Hu) as [-> | ->], (X v Hv) as [-> | ->]; vm_compute; congruence.
  - apply (call_one_value doubles 30 _ _ _ _ _ (S754_infinity false)) in E; [vm_compute in E; discriminate E|vm_compute; reflexivity].
Qed.

Print Assumptions C71_recorded_is_native.
Print Assumptions C71_default_terms_refuted.
Print Assumptions C71_negative_zero_literal_refuted.
Print Assumptions C71_unary_minus_refuted.
