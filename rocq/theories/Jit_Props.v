(** Property C80: what the x64 compiler of fncas generates computes the function it was given. *)
From Flocq Require Import IEEE754.Binary IEEE754.Bits.
From Coq Require Import List ZArith Bool Lia.
Import ListNotations.
From Verif Require Import Fncas_Model Fncas_Spec Fncas_Proofs Fncas_Props FncasMemory_Proofs X64_Spec Jit_Model Jit_Spec Jit_Proofs Jit_Process.
Open Scope Z_scope.

(** C80.  For any arithmetic, any code [p] of [dim] variables and any of its results: the compiler ends, without undefined
    behaviour, and the code it generates, called at any point by the calling convention, in any process (any addresses that do not
    overlap, any contents of its heap, whatever the functions it calls leave in registers and stack), runs to its return without
    a fault, preserves what it has to, writes nothing but its heap and its stack, and returns exactly what the interpreter of
    fncas returns.  Up to [2 ^ 28 - 16] nodes. *)
Theorem C80_function (A : arith) (M : machine) (W : words A M) dim (p : list (instr A)) k fuel :
  (0 < dim)%nat -> program_ok A dim p -> (k < length p)%nat ->
  let (m, rs) := recorded A dim p in
  let f := nth k rs 0%nat in
  8 * (Z.of_nat (length (nodes m)) + 16) <= 2 ^ 31 -> (1 + 3 * length (nodes m) <= fuel)%nat ->
  exists prog, compile_f A (bits W) fuel m f = Some (Ok prog) /\
    forall x P s c, length x = dim -> called_with W prog x P s ->
    exists n s' c', steps M n s = Some s' /\ returned (M := M) prog P s s' /\
      call A fuel m f x c = Some (Ok (value W (xmm s' 0%nat), c')).
Proof.
  intros D Pk Hk. pose proof (recorded_shape A dim p D Pk) as R. pose proof (recorded_length A dim p) as Ld. destruct (recorded A dim p) as [m rs].
  destruct R as ([NS _] & _ & B). cbn in Ld. specialize (B k Hk). cbv zeta. intros Sz Hf.
  destruct (compile_f_ok W dim m (nth k rs 0%nat) fuel NS B Hf) as (prog & E & Hh & Run). exists prog. split; [exact E|].
  intros x P s c Lx CW. destruct (Run x P s CW Lx) as (n & s' & St & Re & V).
  - unfold fits, byte_offset. lia.
  - unfold fits, byte_offset. lia.
  - destruct (eval_node_ok A dim (nodes m) x (nth k rs 0%nat) (invalidate A c) fuel NS Lx B (invalidate_ok A _ _ _) Hf) as (c' & Ec & _).
    exists n, s', c'. split; [exact St|split; [exact Re|]]. unfold call. rewrite Ec, V. reflexivity.
Qed.

(** Together with C71: it returns exactly what the code [p] computes when run on numbers. *)
Theorem C80_function_is_native (A : arith) (M : machine) (W : words A M) dim (p : list (instr A)) k fuel :
  (0 < dim)%nat -> program_ok A dim p -> (k < length p)%nat ->
  (forall u v, constant_of A p u -> constant_of A p v -> a_eqb A u v = true -> u = v) ->
  (forall a y, In (INeg a) p -> a_sub A (c0 A) y = a_opp A y) ->
  ~ In IDefault p ->
  let (m, rs) := recorded A dim p in
  let f := nth k rs 0%nat in
  8 * (Z.of_nat (length (nodes m)) + 16) <= 2 ^ 31 -> (1 + 3 * length (nodes m) <= fuel)%nat ->
  exists prog, compile_f A (bits W) fuel m f = Some (Ok prog) /\
    forall x P s, length x = dim -> called_with W prog x P s ->
    exists n s', steps M n s = Some s' /\ returned (M := M) prog P s s' /\ value W (xmm s' 0%nat) = native A x p k.
Proof.
  intros D Pk Hk Eq Ng NoD. pose proof (C80_function A M W dim p k fuel D Pk Hk) as T.
  assert (N : forall x c, length x = dim -> let (m, rs) := recorded A dim p in (1 + 3 * length (nodes m) <= fuel)%nat ->
                exists c', call A fuel m (nth k rs 0%nat) x c = Some (Ok (native A x p k, c'))) by (intros x c Lx; now apply C71_recorded_is_native).
  destruct (recorded A dim p) as [m rs]. cbv zeta in *. intros Sz Hf. destruct (T Sz Hf) as (prog & E & Run). exists prog. split; [exact E|].
  intros x P s Lx CW. destruct (Run x P s (empty_cache A) Lx CW) as (n & s' & c' & St & Re & V). exists n, s'. split; [exact St|split; [exact Re|]].
  destruct (N x (empty_cache A) Lx Hf) as (c2 & E2). congruence.
Qed.

(** C80, gradients.  The compiled gradient writes to the first [dim] doubles of its heap exactly what the interpreter of fncas
    computes for the gradient, for any result [k] of any code: the gradient [gs] is the one that differentiation made, with its nodes in [m']. *)
Theorem C80_gradient (A : arith) (M : machine) (W : words A M) dim (p : list (instr A)) k fuel dfuel :
  (0 < dim)%nat -> program_ok A dim p -> (k < length p)%nat ->
  let (m, rs) := recorded A dim p in
  forall m' df gs, gradient A dfuel m (fun _ _ => None) dim (nth k rs 0%nat) = Some (Ok (m', df, gs)) ->
  8 * (Z.of_nat (dim + length (nodes m')) + 16) < 2 ^ 31 -> (1 + 3 * length (nodes m') <= fuel)%nat ->
  exists prog, compile_g A (bits W) fuel m' gs = Some (Ok prog) /\
    forall x P s c, length x = dim -> called_with W prog x P s ->
    exists n s' c', steps M n s = Some s' /\ returned (M := M) prog P s s' /\
      call_gradient A fuel m' gs x c =
        Some (Ok (map (fun t => value W (load64 (mem s') (p_heap P + 8 * Z.of_nat t))) (seq 0 dim), c')).
Proof.
  intros D Pk Hk. pose proof (recorded_shape A dim p D Pk) as R. pose proof (recorded_length A dim p) as Ld. destruct (recorded A dim p) as [m rs].
  destruct R as (Sh & _ & B). cbn in Ld. specialize (B k Hk). intros m' df gs G Sz Hf.
  apply (gradient_shape A dim) in G as ([NS _] & _ & L & Lg & Fg); [|exact D|exact Sh|intros j i d Hd; discriminate].
  destruct (compile_g_ok W dim m' gs fuel NS Fg Hf) as (prog & E & Hh & Run). exists prog. split; [exact E|].
  assert (Fm : (fold_left Nat.max gs 0 < length (nodes m'))%nat).
  { pose proof (fold_max_le gs (length (nodes m') - 1) 0%nat ltac:(lia)) as Q. specialize (Q ltac:(eapply Forall_impl; [|exact Fg]; cbn; lia)). lia. }
  intros x P s c Lx CW. destruct (Run x P s CW Lx) as (n & s' & St & Re & V).
  - unfold fits, byte_offset. lia.
  - unfold fits, byte_offset. lia.
  - destruct gs as [|v gs']; [cbn in Lg; lia|]. set (gs := v :: gs') in *.
    destruct (eval_all_ok A dim (nodes m') x fuel NS Lx Hf gs (invalidate A c)) as (c' & Ec).
    + intros d Hd. rewrite Forall_forall in Fg. now apply Fg.
    + apply invalidate_ok.
    + exists n, s', c'. split; [exact St|split; [exact Re|]]. unfold call_gradient. cbv iota beta. fold gs.
      change (match gs with [] => c | _ :: _ => invalidate A c end) with (invalidate A c). rewrite Ec. do 3 f_equal.
      apply nth_ext with (d := value_at A (nodes m') x 0%nat) (d' := value W (load64 (mem s') (p_heap P + 8 * Z.of_nat 0))).
      * rewrite !map_length, seq_length. exact Lg.
      * intros t Ht. rewrite map_length in Ht. rewrite map_nth.
        rewrite (map_nth (fun t => value W (load64 (mem s') (p_heap P + 8 * Z.of_nat t)))), seq_nth by lia. cbn [Nat.add].
        symmetry. apply V. apply nth_error_nth'. exact Ht.
Qed.

(** *** Examples *)
(** [f(x) = ramp(x[0] - 3) * (2 - -x[1]) + sqrt(16)] on IEEE doubles. *)
Definition sample64 : list (instr ieee) :=
  let num (z : Z) : Fncas_Model.num ieee := of_integer z in
  [IVar 0; IConst (num 3); IOp subtract 0 1; IFun ramp 2; IConst (num 2); IVar 1; INeg 5; IOp subtract 4 6; IOp multiply 3 7;
   IConst (num 16); IFun Fncas_Model.sqrt 9; IOp add 8 10].
Definition point64 : list binary64 := [of_integer 5; of_integer 7].
Definition compiled64 (r : option (outcome compiled)) : compiled := match r with Some (Ok p) => p | _ => Compiled [] 0 end.
Definition prog64 : compiled := compiled64 (let (m, rs) := recorded ieee 2 sample64 in compile_f ieee bits_of_b64 100 m (nth 11 rs 0%nat)).
Example sample64_code : firstn 24 (bytes prog64) =
  [0x53; 0x48; 0x89; 0xf3;                                     (* push rbx; mov rbx, rsi *)
   0x48; 0xb8; 0; 0; 0; 0; 0; 0; 0x30; 0x40;                   (* mov rax, 16.0 *)
   0x48; 0x89; 0x83; 0xe0; 0; 0; 0;                            (* mov [rbx + 0xe0], rax *)
   0xf2; 0x0f; 0x10] /\ length (bytes prog64) = 280%nat /\ heap_size prog64 = 15%nat.
Proof. vm_compute. auto. Qed.
(** The hypotheses are met, at any point, whatever the functions leave behind. *)
Example sample64_hypotheses g :
  program_ok ieee 2 sample64 /\
  8 * (Z.of_nat (length (nodes (fst (recorded ieee 2 sample64)))) + 16) <= 2 ^ 31 /\
  called_with (ieee_words (Z.of_nat (length (bytes prog64))) (Z.of_nat (length point64)) (Z.of_nat (heap_size prog64)) g)
    prog64 point64 standard_places (start (bytes prog64) point64).
Proof.
  split; [|split].
  - intros k i H. do 12 (destruct k as [|k]; [injection H as <-; cbn; auto with arith; lia|]). destruct k; discriminate.
  - vm_compute. congruence.
  - apply start_ok; vm_compute; congruence.
Qed.
(** And it runs: 46 instructions with two calls, then it is back at its caller with 22.0 = (5 - 3) * (2 + 7) + 4. *)
Example sample64_runs :
  match steps (process 280 2 15 12345) 46 (start (bytes prog64) point64) with
  | Some s => (rip s =? return_address) && (xmm s 0%nat =? bits_of_b64 (of_integer 22)) && Nat.eqb (calls s) 2 && (gpr s rbx =? 77) && negb (gpr s rdi =? 12345)
  | None => false
  end = true.
Proof. vm_compute. reflexivity. Qed.

(** The gradient of the same function is compiled, and runs: (9, 2). *)
Definition gradient64 : memory ieee * list nat :=
  let (m, rs) := recorded ieee 2 sample64 in
  match gradient ieee 100 m (fun _ _ => None) 2 (nth 11 rs 0%nat) with Some (Ok (m', _, gs)) => (m', gs) | _ => (m, []) end.
Definition gprog64 : compiled := compiled64 (compile_g ieee bits_of_b64 1000 (fst gradient64) (snd gradient64)).
Example gradient64_runs :
  length (snd gradient64) = 2%nat /\
  match steps (process (Z.of_nat (length (bytes gprog64))) 2 (Z.of_nat (heap_size gprog64)) 12345) 92 (start (bytes gprog64) point64) with
  | Some s => (rip s =? return_address) && (load64 (mem s) at_heap =? bits_of_b64 (of_integer 9)) && (load64 (mem s) (at_heap + 8) =? bits_of_b64 (of_integer 2))
  | None => false
  end = true.
Proof. vm_compute. auto. Qed.

(** *** Beyond 2 ^ 28 - 16 nodes *)
Lemma repeat_nodes (A : arith) xs f k : forall m results r, (0 < length results)%nat -> nth 0 results 0%nat = r ->
  exists rs, record_from A m xs (repeat (IFun f 0) k) results = (Memory (nodes m ++ repeat (NFun f r) k) (allocated_values m), results ++ rs) /\ length rs = k.
Proof.
  induction k as [|k IH]; intros m results r L E; cbn [repeat record_from].
  - exists []. rewrite !app_nil_r. now destruct m.
  - cbn [record_step fun_node new_node]. rewrite E.
    destruct (IH (Memory (nodes m ++ [NFun f r]) (allocated_values m)) (results ++ [length (nodes m)]) r) as (rs & Er & Lr).
    + rewrite app_length. lia.
    + now rewrite app_nth1.
    + exists (length (nodes m) :: rs). unfold fun_node, new_node. rewrite Er. cbn. rewrite <- !app_assoc. auto.
Qed.
Lemma record_from_app (A : arith) xs p q : forall m results,
  record_from A m xs (p ++ q) results = (let (m', r') := record_from A m xs p results in record_from A m' xs q r').
Proof. induction p as [|i p IH]; intros m results; [reflexivity|]. cbn. destruct (record_step A m xs results i). apply IH. Qed.
(** [x[0]], then its square [k] times, then a constant. *)
Definition long (k : nat) : list (instr ieee) := IVar 0 :: repeat (IFun sqr 0) k ++ [IConst (of_integer 1 : Fncas_Model.num ieee)].
Lemma long_ok k : program_ok ieee 1 (long k).
Proof.
  intros [|j] i H; [injection H as <-; cbn; lia|]. cbn in H. destruct (Nat.lt_ge_cases j k) as [L|L].
  - rewrite nth_error_app1 in H by now rewrite repeat_length. apply nth_error_In, repeat_spec in H. subst i. cbn. lia.
  - rewrite nth_error_app2 in H by now rewrite repeat_length. rewrite repeat_length in H. destruct (j - k)%nat as [|[|]]; try discriminate. injection H as <-. exact I.
Qed.
Lemma long_recorded k : exists ns rs, recorded ieee 1 (long k) = (Memory (ns ++ [@NVal ieee (of_integer 1)]) [((of_integer 1 : Fncas_Model.num ieee), (k + 2)%nat)], rs ++ [(k + 2)%nat]) /\
  length ns = (k + 2)%nat /\ length rs = (k + 1)%nat.
Proof.
  unfold recorded, long. cbn [new_x variable_nodes repeat_default default_node new_node fst nodes allocated_values app length record_from record_step nth].
  rewrite record_from_app. destruct (repeat_nodes ieee [1%nat] sqr k (Memory [NVar 0; NVar 0] []) [1%nat] 1%nat) as (rs & E & L); [cbn; lia|reflexivity|].
  rewrite E. cbn [record_from record_step value_node find_value allocated_values nodes].
  exists (NVar 0 :: NVar 0 :: repeat (NFun sqr 1) k), (1%nat :: rs). unfold value_node. cbn [find_value allocated_values nodes app length].
  rewrite repeat_length. replace (S (S k)) with (k + 2)%nat by lia. split; [reflexivity|]. split; [reflexivity|]. cbn. lia.
Qed.
Lemma None_more M : forall a s b, steps M a s = None -> steps M (a + b) s = None.
Proof. intros a. induction a as [|a IHa]; intros s b Ha; cbn in *; [discriminate|]. destruct (step M s); [now apply IHa|reflexivity]. Qed.
Definition long_code : list Z :=
  push_rbx ++ mov_rsi_rbx ++ load_immediate_to_memory_by_rbx_offset (2 ^ 28 - 16) (bits_of_b64 (of_integer 1)) ++
  load_from_memory_by_rbx_offset_to_xmm0 (2 ^ 28 - 16) ++ pop_rbx ++ ret.

(** The bound on the number of nodes is needed, and nothing checks it (the assertion of x64_native_jit.h is empty in every build): the node number
    [2 ^ 28 - 16] is compiled into an access 2 GiB below the heap; here it faults, instead of returning its value. *)
Theorem C80_many_nodes_refuted :
  ~ (forall (A : arith) (M : machine) (W : words A M) dim (p : list (instr A)) k fuel,
       (0 < dim)%nat -> program_ok A dim p -> (k < length p)%nat ->
       let (m, rs) := recorded A dim p in
       let f := nth k rs 0%nat in
       (1 + 3 * length (nodes m) <= fuel)%nat ->
       exists prog, compile_f A (bits W) fuel m f = Some (Ok prog) /\
         forall x P s c, length x = dim -> called_with W prog x P s ->
         exists n s' c', steps M n s = Some s' /\ returned (M := M) prog P s s' /\
           call A fuel m f x c = Some (Ok (value W (xmm s' 0%nat), c'))).
Proof.
  intros T. assert (exists N, Z.of_nat N = 2 ^ 28 - 16) as [N EN] by (exists (Z.to_nat (2 ^ 28 - 16)); rewrite Z2Nat.id; lia).
  destruct N as [|[|k]]; [lia|lia|].
  destruct (long_recorded k) as (ns & rs & R & Ln & Lr).
  specialize (T ieee (process (Z.of_nat (length long_code)) 1 (2 ^ 28 - 15) 0) (ieee_words (Z.of_nat (length long_code)) 1 (2 ^ 28 - 15) 0) 1%nat (long k) (k + 1)%nat
                (1 + 3 * (k + 3))%nat ltac:(lia) (long_ok k)).
  rewrite R in T. cbv zeta in T. destruct T as (prog & E & T).
  - unfold long. cbn. rewrite app_length, repeat_length. cbn. lia.
  - cbn [nodes]. rewrite app_length. cbn [length]. lia.
  - rewrite app_nth2, Lr, Nat.sub_diag in E by lia. cbn [nth] in E.
    assert (Ep : prog = Compiled long_code (k + 3)).
    { unfold compile_f, jit_compile_node in E. cbn [nodes] in E. replace (1 + 3 * (k + 3))%nat with (S (S (3 * (k + 3) - 1))) in E by lia.
      cbn [compile_loop compile_step seen begin_code code max_dim] in E.
      assert (X : nth_error (ns ++ [@NVal ieee (of_integer 1)]) (k + 2) = Some (@NVal ieee (of_integer 1))) by (rewrite nth_error_app2, Ln, Nat.sub_diag by lia; reflexivity).
      rewrite X in E. cbn [emit code seen max_dim] in E. injection E as <-. f_equal; [|lia].
      unfold end_code. cbn [code emit]. rewrite Nat.add_0_r. replace (Z.of_nat (k + 2)) with (2 ^ 28 - 16) by lia. reflexivity. }
    assert (Hh : Z.of_nat (heap_size prog) = 2 ^ 28 - 15) by (rewrite Ep; cbn [heap_size]; lia).
    assert (Hb : bytes prog = long_code) by (now rewrite Ep).
    pose proof (start_ok prog [of_integer 0] 0) as CW. rewrite Hh, Hb in CW. change (Z.of_nat (length [of_integer 0])) with 1 in CW.
    specialize (CW ltac:(vm_compute; congruence) ltac:(vm_compute; congruence) ltac:(vm_compute; congruence)).
    destruct (T [of_integer 0] standard_places (start long_code [of_integer 0]) (empty_cache ieee) eq_refl CW) as (n & s' & c' & St & Re & _).
    pose proof (re_rip _ _ _ _ Re) as Rr.
    assert (Ra : load64 (mem (start long_code [of_integer 0])) (p_stack standard_places) = return_address) by (vm_compute; reflexivity).
    rewrite Ra in Rr.
    assert (F4 : steps (process (Z.of_nat (length long_code)) 1 (2 ^ 28 - 15) 0) 4 (start long_code [of_integer 0]) = None) by (vm_compute; reflexivity).
    assert (Fr : forall n, (n < 4)%nat -> match steps (process (Z.of_nat (length long_code)) 1 (2 ^ 28 - 15) 0) n (start long_code [of_integer 0]) with
                                        | Some s => (rip s =? return_address) = false | None => True end).
    { intros [|[|[|[|q]]]] Hq; try lia; vm_compute; reflexivity. }
    destruct (Nat.lt_ge_cases n 4) as [L|L].
    + specialize (Fr n L). rewrite St in Fr. apply Z.eqb_neq in Fr. contradiction.
    + replace n with (4 + (n - 4))%nat in St by lia.
      rewrite None_more in St by exact F4. discriminate.
Qed.

Print Assumptions C80_function.
Print Assumptions C80_function_is_native.
Print Assumptions C80_gradient.
Print Assumptions C80_many_nodes_refuted.
