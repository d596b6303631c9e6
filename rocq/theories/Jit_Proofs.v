(** Proofs about the code the x64 compiler generates. *)
From Coq Require Import List ZArith Bool Lia.
Import ListNotations.
From Verif Require Import Fncas_Model Fncas_Spec Fncas_Proofs X64_Spec Jit_Model Jit_Spec.
Open Scope Z_scope.

(** *** Memory *)
Lemma little_ext n : forall b b' k k', (forall i, 0 <= i < Z.of_nat n -> b (k + i) = b' (k' + i)) -> little n b k = little n b' k'.
Proof.
  induction n as [|n IH]; intros b b' k k' H; [reflexivity|]. cbn [little].
  rewrite (IH b b' (k + 1) (k' + 1)).
  - specialize (H 0 ltac:(lia)). rewrite !Z.add_0_r in H. now rewrite H.
  - intros i Hi. specialize (H (1 + i) ltac:(lia)). now rewrite !Z.add_assoc in H.
Qed.
Lemma little_shift n : forall b v k, (forall i, 0 <= i < Z.of_nat n -> b (k + i) = (v / 2 ^ (8 * i)) mod 256) -> little n b k = v mod 256 ^ Z.of_nat n.
Proof.
  induction n as [|n IH]; intros b v k H.
  - change (256 ^ Z.of_nat 0) with 1. now rewrite Z.mod_1_r.
  - cbn [little]. rewrite (IH b (v / 256) (k + 1)).
    + pose proof (H 0 ltac:(lia)) as H0. rewrite Z.add_0_r in H0. rewrite H0, Z.mul_0_r. change (2 ^ 0) with 1. rewrite Z.div_1_r.
      rewrite Z.mod_mod by lia. rewrite Nat2Z.inj_succ, Z.pow_succ_r by lia.
      symmetry. apply Z.rem_mul_r; [lia|]. apply Z.pow_pos_nonneg; lia.
    + intros i Hi. rewrite <- Z.add_assoc, H by lia. f_equal.
      rewrite Z.mul_add_distr_l. change (8 * 1) with 8. rewrite Z.pow_add_r by lia. change (2 ^ 8) with 256.
      rewrite Z.div_div; [reflexivity|lia|]. apply Z.pow_pos_nonneg; lia.
Qed.
Lemma load_store_same m a v : 0 <= v < 2 ^ 64 -> load64 (store64 m a v) a = v.
Proof.
  intros H. unfold load64. rewrite (little_shift 8 _ v a).
  - change (256 ^ Z.of_nat 8) with (2 ^ 64). now apply Z.mod_small.
  - intros i Hi. unfold store64. replace ((a <=? a + i) && (a + i <? a + 8)) with true
      by (symmetry; apply andb_true_iff; split; [apply Z.leb_le|apply Z.ltb_lt]; lia).
    now rewrite Z.add_simpl_l.
Qed.
Lemma store_other m a v b : ~ (a <= b < a + 8) -> store64 m a v b = m b.
Proof.
  intros H. unfold store64. destruct ((a <=? b) && (b <? a + 8)) eqn:E; [|reflexivity].
  apply andb_true_iff in E as [E1 E2]. apply Z.leb_le in E1. apply Z.ltb_lt in E2. lia.
Qed.
Lemma load_ext m m' a : (forall b, a <= b < a + 8 -> m b = m' b) -> load64 m a = load64 m' a.
Proof. intros H. apply little_ext. intros i Hi. apply H. lia. Qed.
Lemma load_store_other m a v b : b + 8 <= a \/ a + 8 <= b -> load64 (store64 m a v) b = load64 m b.
Proof. intros H. apply load_ext. intros c Hc. apply store_other. lia. Qed.
Lemma little_range n : forall b k, 0 <= little n b k < 256 ^ Z.of_nat n.
Proof.
  induction n as [|n IH]; intros b k; [cbn; lia|]. cbn [little]. rewrite Nat2Z.inj_succ, Z.pow_succ_r by lia.
  specialize (IH b (k + 1)). pose proof (Z.mod_pos_bound (b k) 256 ltac:(lia)). lia.
Qed.
Lemma load_range m a : 0 <= load64 m a < 2 ^ 64.
Proof. apply (little_range 8). Qed.
Lemma eight_true p a : (forall b, a <= b < a + 8 -> p b = true) -> eight p a = true.
Proof. intros H. apply forallb_forall. intros k Hk. apply in_seq in Hk. apply H. lia. Qed.

(** *** Bytes *)
Lemma le_bytes_length n : forall o, length (le_bytes n o) = n.
Proof. induction n as [|n IH]; intros o; cbn; [reflexivity|now rewrite IH]. Qed.
Lemma le_bytes_nth n : forall o i, (i < n)%nat -> nth i (le_bytes n o) 0 = (o / 2 ^ (8 * Z.of_nat i)) mod 256.
Proof.
  induction n as [|n IH]; intros o i Hi; [lia|]. destruct i as [|i]; cbn [le_bytes nth].
  - change (2 ^ (8 * Z.of_nat 0)) with 1. now rewrite Z.div_1_r.
  - rewrite IH by lia. f_equal. rewrite Nat2Z.inj_succ. replace (8 * Z.succ (Z.of_nat i)) with (8 + 8 * Z.of_nat i) by lia.
    rewrite Z.pow_add_r by lia. change (2 ^ 8) with 256. rewrite Z.div_div; [reflexivity|lia|apply Z.pow_pos_nonneg; lia].
Qed.

(** The bytes [bs] start at [k]. *)
Definition starts (b : Z -> Z) (k : Z) (bs : list Z) : Prop := forall i, (i < length bs)%nat -> b (k + Z.of_nat i) = nth i bs 0.
Lemma starts_cons b k a bs : starts b k (a :: bs) -> b k = a /\ starts b (k + 1) bs.
Proof.
  intros H. split.
  - specialize (H 0%nat ltac:(cbn; lia)). now rewrite Z.add_0_r in H.
  - intros i Hi. specialize (H (S i) ltac:(cbn; lia)). cbn [nth] in H. rewrite <- H. f_equal. lia.
Qed.
Lemma starts_app b k l1 l2 : starts b k (l1 ++ l2) -> starts b k l1 /\ starts b (k + Z.of_nat (length l1)) l2.
Proof.
  revert k. induction l1 as [|a l1 IH]; intros k H.
  - split; [intros i Hi; cbn in Hi; lia|]. cbn. now rewrite Z.add_0_r.
  - cbn [app] in H. apply starts_cons in H as [H0 H]. apply IH in H as [H1 H2]. split.
    + intros i Hi. destruct i as [|i]; [cbn [nth]; now rewrite Z.add_0_r|]. cbn in Hi. cbn [nth]. rewrite <- H1 by lia. f_equal. lia.
    + cbn [length]. rewrite Nat2Z.inj_succ. replace (k + Z.succ (Z.of_nat (length l1))) with (k + 1 + Z.of_nat (length l1)) by lia. exact H2.
Qed.
Lemma starts_little b k n v : starts b k (le_bytes n v) -> little n b k = v mod 256 ^ Z.of_nat n.
Proof.
  intros H. apply little_shift. intros i Hi. specialize (H (Z.to_nat i)). rewrite le_bytes_length in H. specialize (H ltac:(lia)).
  rewrite Z2Nat.id in H by lia. rewrite H, le_bytes_nth by lia. now rewrite Z2Nat.id by lia.
Qed.
Lemma signed32_small z : 0 <= z < 2 ^ 31 -> signed 32 z = z.
Proof. intros H. unfold signed. change (32 - 1) with 31. destruct (Z.ltb_spec z (2 ^ 31)); lia. Qed.

(** The offsets an instruction can have. *)
Definition fits (offset : Z) : Prop := 0 <= offset /\ byte_offset offset < 2 ^ 31.
Lemma offset_little b k offset : fits offset -> starts b k (le_bytes 4 (byte_offset offset)) -> signed 32 (little 4 b k) = byte_offset offset.
Proof.
  intros [H1 H2] H. unfold byte_offset in *. rewrite (starts_little _ _ _ _ H). change (256 ^ Z.of_nat 4) with (2 ^ 32).
  rewrite Z.mod_small by lia. apply signed32_small. lia.
Qed.

Ltac first_bytes H :=
  repeat (let E := fresh "B" in apply starts_cons in H as [E H]; cbn [Z.add Pos.add] in E, H).

Local Opaque little signed.
Lemma decode_load b reg base offset : fits offset ->
  (reg = 0x87 /\ base = rdi \/ reg = 0x83 /\ base = rbx) ->
  starts b 0 (internal_load reg offset) -> decode b = Some (MOVSD_load 0 base (byte_offset offset), 8).
Proof.
  intros F R H. apply starts_app in H as [H1 H2]. change (0 + Z.of_nat (length [242; 15; 16; reg])) with 4 in H2. first_bytes H1.
  pose proof (offset_little _ _ _ F H2) as L.
  unfold decode. destruct R as [[-> ->] | [-> ->]]; rewrite B, B0, B1, B2; cbn; rewrite L; reflexivity.
Qed.
Lemma decode_store b offset : fits offset ->
  starts b 0 (store_xmm0_to_memory_by_rbx_offset offset) -> decode b = Some (MOVSD_store rbx (byte_offset offset) 0, 8).
Proof.
  intros F H. apply starts_app in H as [H1 H2]. change (0 + Z.of_nat (length _)) with 4 in H2. first_bytes H1.
  pose proof (offset_little _ _ _ F H2) as L.
  unfold decode. rewrite B, B0, B1, B2; cbn; rewrite L; reflexivity.
Qed.
Definition sse_of (o : mop) : sse_op := match o with add => ADDSD | subtract => SUBSD | multiply => MULSD | divide => DIVSD end.
Lemma decode_op b o offset : fits offset ->
  starts b 0 (op_code o offset) -> decode b = Some (SSE (sse_of o) 0 rbx (byte_offset offset), 8).
Proof.
  intros F H. destruct o; apply starts_app in H as [H1 H2]; change (0 + Z.of_nat (length _)) with 4 in H2; first_bytes H1;
  pose proof (offset_little _ _ _ F H2) as L;
  unfold decode; rewrite B, B0, B1, B2; cbn; rewrite L; reflexivity.
Qed.
Lemma decode_imm b v rest : 0 <= v < 2 ^ 64 -> starts b 0 ([0x48; 0xb8] ++ le_bytes 8 v ++ rest) -> decode b = Some (MOV_reg_imm rax v, 10).
Proof.
  intros R H. apply starts_app in H as [H1 H2]. change (0 + Z.of_nat (length _)) with 2 in H2. first_bytes H1.
  apply starts_app in H2 as [H2 _]. apply starts_little in H2. change (256 ^ Z.of_nat 8) with (2 ^ 64) in H2. rewrite Z.mod_small in H2 by lia.
  unfold decode. rewrite B, B0; cbn; rewrite H2; reflexivity.
Qed.
Lemma decode_mov_mem b offset : fits offset ->
  starts b 0 ([0x48; 0x89; 0x83] ++ le_bytes 4 (byte_offset offset)) -> decode b = Some (MOV_mem_reg rbx (byte_offset offset) rax, 7).
Proof.
  intros F H. apply starts_app in H as [H1 H2]. change (0 + Z.of_nat (length _)) with 3 in H2. first_bytes H1.
  pose proof (offset_little _ _ _ F H2) as L.
  unfold decode. rewrite B, B0, B1; cbn; rewrite L; reflexivity.
Qed.
Lemma decode_call b f : starts b 0 (call_function_from_rdx_pointers_array_by_index (function_index f)) ->
  decode b = Some (CALL_mem rdx (8 * (function_index f + 1)), 3).
Proof.
  intros H. unfold call_function_from_rdx_pointers_array_by_index in H. first_bytes H.
  unfold decode. rewrite B, B0, B1. destruct f; reflexivity.
Qed.
Lemma decode_one b k bs i n : starts b 0 (k :: bs) -> bs = [] -> decode (fun _ => k) = Some (i, n) -> n = 1 ->
  (80 <= k < 96 \/ k = 0xc3) -> decode b = Some (i, n).
Proof.
  intros H -> D -> K. first_bytes H. unfold decode in *. rewrite B.
  destruct K as [K | ->]; [|exact D].
  destruct ((80 <=? k) && (k <? 88)) eqn:E; [exact D|].
  destruct ((88 <=? k) && (k <? 96)) eqn:E2; [exact D|].
  exfalso. apply andb_false_iff in E, E2. rewrite !Z.leb_gt, !Z.ltb_ge in *. lia.
Qed.
Lemma decode_mov_rbx b : starts b 0 mov_rsi_rbx -> decode b = Some (MOV_reg_reg rbx rsi, 3).
Proof. intros H. first_bytes H. unfold decode. rewrite B, B0, B1. reflexivity. Qed.

Lemma steps_app (M : machine) n : forall m s s', steps M n s = Some s' -> steps M (n + m) s = steps M m s'.
Proof.
  induction n as [|n IH]; intros m s s' H; cbn in *; [congruence|]. destruct (step M s) as [t|]; [|discriminate]. now apply IH.
Qed.
Lemma w64_add a b : w64 (w64 a + b) = w64 (a + b).
Proof. unfold w64. now rewrite Zplus_mod_idemp_l. Qed.
Lemma w64_small a : 0 <= a < 2 ^ 64 -> w64 a = a.
Proof. intros H. now apply Z.mod_small. Qed.
Lemma w64_range a : 0 <= w64 a < 2 ^ 64.
Proof. apply Z.mod_pos_bound. lia. Qed.

Local Opaque load64 store64 eight w64.

Section Run.
Context {A : arith} {M : machine} (W : words A M) (prog : compiled) (x : list (num A)) (P : places) (s0 : state).
Context (CW : called_with W prog x P s0).
Notation C := (p_code P). Notation X := (p_x P). Notation O := (p_heap P). Notation F := (p_functions P). Notation SP := (p_stack P).
Notation H := (heap_size prog).

Definition reaches (s : state) (Q : state -> Prop) : Prop := exists n s', steps M n s = Some s' /\ Q s'.
Lemma reaches_now s (Q : state -> Prop) : Q s -> reaches s Q.
Proof. exists 0%nat, s. auto. Qed.
Lemma reaches_step s s' Q : step M s = Some s' -> reaches s' Q -> reaches s Q.
Proof. intros E (n & t & En & Hq). exists (S n), t. cbn. rewrite E. auto. Qed.
Lemma reaches_trans s Q R : reaches s Q -> (forall t, Q t -> reaches t R) -> reaches s R.
Proof.
  intros (n & t & E & Hq) K. destruct (K t Hq) as (m & u & E' & Hr). exists (n + m)%nat, u. split; [|exact Hr].
  now rewrite (steps_app _ _ _ _ _ E).
Qed.

Definition agree (s : state) : Prop :=
  forall a, ~ inside O (8 * Z.of_nat H) a -> ~ stack_lo M <= a < SP -> mem s a = mem s0 a.
Definition at_pc (pc : Z) (bs : list Z) : Prop := exists pre post, bytes prog = pre ++ bs ++ post /\ pc = Z.of_nat (length pre).
Lemma at_pc_app pc b1 b2 : at_pc pc (b1 ++ b2) -> at_pc pc b1 /\ at_pc (pc + Z.of_nat (length b1)) b2.
Proof.
  intros (pre & post & E & ->). split.
  - exists pre, (b2 ++ post). now rewrite E, <- app_assoc.
  - exists (pre ++ b1), post. rewrite E, <- !app_assoc. split; [reflexivity|]. rewrite app_length. lia.
Qed.

Ltac ranges := pose proof (cw_ranges _ _ _ _ _ CW) as (? & ? & ? & ? & ? & ? & ? & ? & ? & ?);
  pose proof (cw_stack_size _ _ _ _ _ CW); pose proof (cw_rsp _ _ _ _ _ CW).

Lemma step_at s pc bs i : agree s -> rip s = C + pc -> at_pc pc bs ->
  (forall b, starts b 0 bs -> decode b = Some (i, Z.of_nat (length bs))) ->
  step M s = exec M s i (C + (pc + Z.of_nat (length bs))).
Proof.
  intros G R (pre & post & E & ->) D. unfold step.
  assert (L : (length pre + length bs <= length (bytes prog))%nat) by (rewrite E, !app_length; lia).
  assert (K : forall k, (k < length bs)%nat -> nth_error (bytes prog) (length pre + k) = Some (nth k bs 0)).
  { intros k Hk. rewrite E, nth_error_app2 by lia. rewrite nth_error_app1 by lia. rewrite (nth_error_nth' _ 0) by lia. do 2 f_equal. lia. }
  assert (K2 : forall k, (k < length bs)%nat -> mem s (rip s + Z.of_nat k) = nth k bs 0 /\ executable M (rip s + Z.of_nat k) = true).
  { intros k Hk. destruct (cw_code _ _ _ _ _ CW _ _ (K k Hk)) as [K1 K2]. rewrite R.
    replace (C + Z.of_nat (length pre) + Z.of_nat k) with (C + Z.of_nat (length pre + k)) by lia. split; [|exact K2].
    rewrite G; [exact K1| |].
    - intros Hh. destruct (cw_apart _ _ _ _ _ CW (C + Z.of_nat (length pre + k))) as (_ & Q & _). apply Q. split; [exact Hh|left]. unfold inside. lia.
    - intros Hs. destruct (cw_apart _ _ _ _ _ CW (C + Z.of_nat (length pre + k))) as (_ & _ & Q). apply Q. split; [lia|left]. unfold inside. lia. }
  rewrite (D (fun k => mem s (rip s + k))).
  - rewrite Nat2Z.id. replace (forallb _ _) with true.
    + f_equal. lia.
    + symmetry. apply forallb_forall. intros k Hk. apply in_seq in Hk. apply K2. lia.
  - intros k Hk. cbn. now apply K2.
Qed.

(** Permissions and contents. *)
Lemma heap_permissions k : (k < H)%nat -> eight (readable M) (O + 8 * Z.of_nat k) = true /\ eight (writable M) (O + 8 * Z.of_nat k) = true.
Proof.
  intros Hk. split; apply eight_true; intros b Hb; apply (cw_heap _ _ _ _ _ CW); unfold inside; lia.
Qed.
Lemma stack_permissions a : stack_lo M <= a -> a <= SP -> eight (readable M) a = true /\ eight (writable M) a = true.
Proof. intros H1 H2. split; apply eight_true; intros b Hb; apply (cw_stack _ _ _ _ _ CW); lia. Qed.
Lemma heap_address s k : gpr s rbx = w64 (O - 128) -> (k < H)%nat -> w64 (gpr s rbx + byte_offset (Z.of_nat k)) = O + 8 * Z.of_nat k.
Proof. intros -> Hk. ranges. rewrite w64_add. unfold byte_offset. rewrite w64_small; lia. Qed.
Lemma x_content s v y : agree s -> nth_error x v = Some y -> value W (load64 (mem s) (X + 8 * Z.of_nat v)) = y.
Proof.
  intros G E. pose proof (nth_error_Some x v) as L. rewrite E in L. assert (v < length x)%nat by (apply L; discriminate).
  destruct (cw_x _ _ _ _ _ CW _ _ E) as [E1 _]. rewrite <- E1. f_equal. apply load_ext. intros b Hb. apply G.
  - intros Hh. destruct (cw_apart _ _ _ _ _ CW b) as (_ & Q & _). apply Q. split; [exact Hh|right; left]. unfold inside. lia.
  - intros Hs. destruct (cw_apart _ _ _ _ _ CW b) as (_ & _ & Q). apply Q. split; [lia|right; left]. unfold inside. lia.
Qed.
Lemma function_content s f : agree s -> external M (load64 (mem s) (F + 8 * function_index f)) = Some (function_words W f).
Proof.
  intros G. destruct (cw_functions _ _ _ _ _ CW f) as [E1 _]. rewrite <- E1. f_equal. apply load_ext. intros b Hb.
  assert (0 <= function_index f < 12) by (destruct f; cbn; lia). apply G.
  - intros Hh. destruct (cw_apart _ _ _ _ _ CW b) as (_ & Q & _). apply Q. split; [exact Hh|right; right]. unfold inside. lia.
  - intros Hs. destruct (cw_apart _ _ _ _ _ CW b) as (_ & _ & Q). apply Q. split; [lia|right; right]. unfold inside. lia.
Qed.
(** The heap and the stack do not overlap. *)
Lemma heap_not_stack k a : (k < H)%nat -> O + 8 * Z.of_nat k <= a < O + 8 * Z.of_nat k + 8 -> ~ (stack_lo M <= a < SP + 8).
Proof. intros Hk Ha Hs. destruct (cw_apart _ _ _ _ _ CW a) as (Q & _). apply Q. split; [unfold inside; lia|exact Hs]. Qed.

Record inv (pc : Z) (s : state) : Prop := {
  i_rip : rip s = C + pc;
  i_rbx : gpr s rbx = w64 (O - 128);
  i_rdi : gpr s rdi = w64 (X - 128);
  i_rdx : gpr s rdx = w64 (F - 8);
  i_rsp : gpr s rsp = SP - 8;
  i_rbp : gpr s rbp = gpr s0 rbp;
  i_saved : load64 (mem s) (SP - 8) = gpr s0 rbx;
  i_agree : agree s
}.
Definition slot (s : state) (k : nat) : num A := value W (load64 (mem s) (O + 8 * Z.of_nat k)).
(** Only the slot [k] has changed, and it is [v] now. *)
Definition wrote (s s' : state) (k : nat) (v : num A) : Prop := slot s' k = v /\ forall j, (j < H)%nat -> j <> k -> slot s' j = slot s j.

Lemma inv_xmm pc pc' s v : inv pc s -> inv pc' (State (C + pc') (gpr s) (set (xmm s) 0 v) (mem s) (calls s)).
Proof. intros []. constructor; auto. Qed.

Lemma run_load_heap s pc k : inv pc s -> (k < H)%nat -> fits (Z.of_nat k) -> at_pc pc (load_from_memory_by_rbx_offset_to_xmm0 (Z.of_nat k)) ->
  step M s = Some (State (C + (pc + 8)) (gpr s) (set (xmm s) 0 (load64 (mem s) (O + 8 * Z.of_nat k))) (mem s) (calls s)).
Proof.
  intros I Hk Ft At. rewrite (step_at s pc _ (MOVSD_load 0 rbx (byte_offset (Z.of_nat k))) (i_agree _ _ I) (i_rip _ _ I) At).
  - cbn [exec]. rewrite (heap_address s k (i_rbx _ _ I) Hk). unfold read. rewrite (proj1 (heap_permissions k Hk)). reflexivity.
  - intros b Hb. apply (decode_load b 0x83 rbx); auto.
Qed.
Lemma run_load_x s pc v : inv pc s -> (v < length x)%nat -> fits (Z.of_nat v) -> at_pc pc (load_from_memory_by_rdi_offset_to_xmm0 (Z.of_nat v)) ->
  step M s = Some (State (C + (pc + 8)) (gpr s) (set (xmm s) 0 (load64 (mem s) (X + 8 * Z.of_nat v))) (mem s) (calls s)).
Proof.
  intros I Hv Ft At. ranges. rewrite (step_at s pc _ (MOVSD_load 0 rdi (byte_offset (Z.of_nat v))) (i_agree _ _ I) (i_rip _ _ I) At).
  - cbn [exec]. rewrite (i_rdi _ _ I), w64_add. unfold byte_offset. rewrite w64_small by lia.
    replace (X - 128 + (Z.of_nat v + 16) * 8) with (X + 8 * Z.of_nat v) by lia. unfold read.
    destruct (nth_error x v) as [y|] eqn:E; [|apply nth_error_None in E; lia].
    rewrite (proj2 (cw_x _ _ _ _ _ CW _ _ E)). reflexivity.
  - intros b Hb. apply (decode_load b 0x87 rdi); auto.
Qed.
Lemma run_op s pc o k : inv pc s -> (k < H)%nat -> fits (Z.of_nat k) -> at_pc pc (op_code o (Z.of_nat k)) ->
  step M s = Some (State (C + (pc + 8)) (gpr s) (set (xmm s) 0 (sse M (sse_of o) (xmm s 0%nat) (load64 (mem s) (O + 8 * Z.of_nat k)))) (mem s) (calls s)).
Proof.
  intros I Hk Ft At. assert (Ln : length (op_code o (Z.of_nat k)) = 8%nat) by (destruct o; reflexivity).
  rewrite (step_at s pc _ (SSE (sse_of o) 0 rbx (byte_offset (Z.of_nat k))) (i_agree _ _ I) (i_rip _ _ I) At).
  - cbn [exec]. rewrite (heap_address s k (i_rbx _ _ I) Hk). unfold read. rewrite (proj1 (heap_permissions k Hk)), Ln. reflexivity.
  - intros b Hb. rewrite Ln. now apply decode_op.
Qed.
Lemma inv_store pc pc' s k v : inv pc s -> (k < H)%nat ->
  inv pc' (State (C + pc') (gpr s) (xmm s) (store64 (mem s) (O + 8 * Z.of_nat k) v) (calls s)).
Proof.
  intros I Hk. pose proof I as []. ranges. constructor; auto; cbn [mem].
  - rewrite load_store_other; [exact i_saved0|].
    destruct (Z_lt_le_dec (SP - 8) (O + 8 * Z.of_nat k)) as [L|L].
    + destruct (Z_le_gt_dec (SP - 8 + 8) (O + 8 * Z.of_nat k)) as [L2|L2]; [now left|].
      exfalso. apply (heap_not_stack k (O + 8 * Z.of_nat k) Hk); lia.
    + destruct (Z_le_gt_dec (O + 8 * Z.of_nat k + 8) (SP - 8)) as [L2|L2]; [now right|].
      exfalso. apply (heap_not_stack k (SP - 8) Hk); lia.
  - intros a Q1 Q2. cbn [mem]. rewrite store_other; [now apply i_agree0|]. intros Ha. apply Q1. unfold inside. lia.
Qed.
Lemma store_wrote pc s k v : 0 <= v < 2 ^ 64 -> (k < H)%nat ->
  wrote s (State (C + pc) (gpr s) (xmm s) (store64 (mem s) (O + 8 * Z.of_nat k) v) (calls s)) k (value W v).
Proof.
  intros R Hk. unfold wrote, slot. cbn [mem]. split; [now rewrite load_store_same|]. intros j Hj N. rewrite load_store_other; [reflexivity|lia].
Qed.
Lemma run_store s pc k : inv pc s -> (k < H)%nat -> fits (Z.of_nat k) -> at_pc pc (store_xmm0_to_memory_by_rbx_offset (Z.of_nat k)) ->
  step M s = Some (State (C + (pc + 8)) (gpr s) (xmm s) (store64 (mem s) (O + 8 * Z.of_nat k) (xmm s 0%nat)) (calls s)).
Proof.
  intros I Hk Ft At. rewrite (step_at s pc _ (MOVSD_store rbx (byte_offset (Z.of_nat k)) 0) (i_agree _ _ I) (i_rip _ _ I) At).
  - cbn [exec]. rewrite (heap_address s k (i_rbx _ _ I) Hk). unfold write. rewrite (proj2 (heap_permissions k Hk)). reflexivity.
  - intros b Hb. now apply decode_store.
Qed.

(** *** The pieces of the code *)
Lemma piece_var s pc v k y : inv pc s -> nth_error x v = Some y -> (k < H)%nat -> fits (Z.of_nat v) -> fits (Z.of_nat k) ->
  at_pc pc (load_from_memory_by_rdi_offset_to_xmm0 (Z.of_nat v) ++ store_xmm0_to_memory_by_rbx_offset (Z.of_nat k)) ->
  reaches s (fun s' => inv (pc + 16) s' /\ wrote s s' k y).
Proof.
  intros I E Hk F1 F2 At. apply at_pc_app in At as [At1 At2]. change (Z.of_nat (length _)) with 8 in At2.
  pose proof (nth_error_Some x v) as L. rewrite E in L. assert (v < length x)%nat by (apply L; discriminate).
  eapply reaches_step; [apply (run_load_x s pc v); auto|]. set (s1 := State _ _ _ _ _). assert (I1 : inv (pc + 8) s1) by now apply (inv_xmm pc).
  eapply reaches_step; [apply (run_store s1 (pc + 8) k); auto|]. apply reaches_now.
  replace (pc + 8 + 8) with (pc + 16) by lia. split; [now apply (inv_store (pc + 8))|].
  rewrite <- (x_content s v y (i_agree _ _ I) E). unfold s1, wrote, slot. cbn [mem xmm set Nat.eqb].
  split; [rewrite load_store_same by apply load_range; reflexivity|]. intros j Hj N. now rewrite load_store_other by lia.
Qed.
Lemma piece_val s pc c k : inv pc s -> (k < H)%nat -> fits (Z.of_nat k) ->
  at_pc pc (load_immediate_to_memory_by_rbx_offset (Z.of_nat k) (bits W c)) ->
  reaches s (fun s' => inv (pc + 17) s' /\ wrote s s' k c).
Proof.
  intros I Hk Ft At. pose proof (bits_range _ _ W c) as R.
  assert (At' : at_pc pc (([0x48; 0xb8] ++ le_bytes 8 (bits W c)) ++ ([0x48; 0x89; 0x83] ++ le_bytes 4 (byte_offset (Z.of_nat k))))).
  { now rewrite <- app_assoc. } clear At. apply at_pc_app in At' as [At1 At2]. change (Z.of_nat (length ([0x48; 0xb8] ++ _))) with 10 in At2.
  eapply reaches_step.
  { rewrite (step_at s pc _ (MOV_reg_imm rax (bits W c)) (i_agree _ _ I) (i_rip _ _ I) At1); [reflexivity|].
    intros b Hb. apply (decode_imm b _ []); [exact R|]. now rewrite app_nil_r. }
  change (Z.of_nat (length ([0x48; 0xb8] ++ le_bytes 8 (bits W c)))) with 10. cbn [exec]. set (s1 := State _ _ _ _ _).
  assert (I1 : inv (pc + 10) s1) by (destruct I; constructor; auto).
  eapply reaches_step.
  { rewrite (step_at s1 (pc + 10) _ (MOV_mem_reg rbx (byte_offset (Z.of_nat k)) rax) (i_agree _ _ I1) (i_rip _ _ I1) At2).
    - cbn [exec]. rewrite (heap_address s1 k (i_rbx _ _ I1) Hk). unfold write. rewrite (proj2 (heap_permissions k Hk)). reflexivity.
    - intros b Hb. now apply decode_mov_mem. }
  apply reaches_now. change (Z.of_nat (length ([72; 137; 131] ++ _))) with 7. replace (pc + 10 + 7) with (pc + 17) by lia.
  split; [now apply (inv_store (pc + 10))|].
  change (gpr s1 rax) with (bits W c). rewrite <- (value_bits _ _ W c) at 2. exact (store_wrote (pc + 17) s1 k _ R Hk).
Qed.
Lemma value_sse o u v : value W (sse M (sse_of o) u v) = apply_operation A o (value W u) (value W v).
Proof. destruct o; cbn; [apply value_add|apply value_sub|apply value_mul|apply value_div]. Qed.
Lemma piece_op s pc o l r k : inv pc s -> (l < H)%nat -> (r < H)%nat -> (k < H)%nat -> fits (Z.of_nat l) -> fits (Z.of_nat r) -> fits (Z.of_nat k) ->
  at_pc pc (load_from_memory_by_rbx_offset_to_xmm0 (Z.of_nat l) ++ op_code o (Z.of_nat r) ++ store_xmm0_to_memory_by_rbx_offset (Z.of_nat k)) ->
  reaches s (fun s' => inv (pc + 24) s' /\ wrote s s' k (apply_operation A o (slot s l) (slot s r))).
Proof.
  intros I Hl Hr Hk F1 F2 F3 At. apply at_pc_app in At as [At1 At2]. change (Z.of_nat (length _)) with 8 in At2.
  apply at_pc_app in At2 as [At2 At3]. replace (Z.of_nat (length _)) with 8 in At3 by (destruct o; reflexivity).
  eapply reaches_step; [apply (run_load_heap s pc l); auto|]. set (s1 := State _ _ _ _ _). assert (I1 : inv (pc + 8) s1) by now apply (inv_xmm pc).
  eapply reaches_step; [apply (run_op s1 (pc + 8) o r); auto|]. set (s2 := State _ _ _ _ _). assert (I2 : inv (pc + 8 + 8) s2) by now apply (inv_xmm (pc + 8)).
  eapply reaches_step; [apply (run_store s2 (pc + 8 + 8) k); auto|]. apply reaches_now.
  replace (pc + 8 + 8 + 8) with (pc + 24) by lia. split; [now apply (inv_store (pc + 8 + 8))|].
  unfold slot at 1 2. rewrite <- value_sse. exact (store_wrote (pc + 24) s2 k _ (sse_range _ _ W _ _ _) Hk).
Qed.

Lemma decode_byte b k i : starts b 0 [k] -> (80 <= k < 96 \/ k = 0xc3) -> decode (fun _ => k) = Some (i, 1) -> decode b = Some (i, 1).
Proof. intros S K D. eapply decode_one; eauto. Qed.
Lemma agree_store s rip' g xm a v n : agree s -> stack_lo M <= a -> a + 8 <= SP -> agree (State rip' g xm (store64 (mem s) a v) n).
Proof. intros G L1 L2 b Q1 Q2. cbn [mem]. rewrite store_other by lia. now apply G. Qed.

Lemma piece_call s pc f a k : inv pc s -> (a < H)%nat -> (k < H)%nat -> fits (Z.of_nat a) -> fits (Z.of_nat k) ->
  at_pc pc (load_from_memory_by_rbx_offset_to_xmm0 (Z.of_nat a) ++ push_rdi ++ push_rdx ++
            call_function_from_rdx_pointers_array_by_index (function_index f) ++ pop_rdx ++ pop_rdi ++
            store_xmm0_to_memory_by_rbx_offset (Z.of_nat k)) ->
  reaches s (fun s' => inv (pc + 23) s' /\ wrote s s' k (apply_function A f (slot s a))).
Proof.
  intros I Ha Hk F1 F2 At. ranges. pose proof (cw_aligned _ _ _ _ _ CW) as Al.
  apply at_pc_app in At as [At1 At]. change (Z.of_nat (length _)) with 8 in At.
  apply at_pc_app in At as [At2 At]. change (Z.of_nat (length _)) with 1 in At.
  apply at_pc_app in At as [At3 At]. change (Z.of_nat (length _)) with 1 in At.
  apply at_pc_app in At as [At4 At]. change (Z.of_nat (length _)) with 3 in At.
  apply at_pc_app in At as [At5 At]. change (Z.of_nat (length _)) with 1 in At.
  apply at_pc_app in At as [At6 At7]. change (Z.of_nat (length _)) with 1 in At7.
  eapply reaches_step; [apply (run_load_heap s pc a); auto|]. set (s1 := State _ _ _ _ _). assert (I1 : inv (pc + 8) s1) by now apply (inv_xmm pc).
  (* push rdi *)
  eapply reaches_step.
  { rewrite (step_at s1 _ _ (PUSH rdi) (i_agree _ _ I1) (i_rip _ _ I1) At2).
    - cbn [exec]. unfold write. rewrite (i_rsp _ _ I1), w64_small by lia. rewrite (proj2 (stack_permissions (SP - 8 - 8) ltac:(lia) ltac:(lia))). reflexivity.
    - intros b Hb. apply (decode_byte _ _ _ Hb); [lia|reflexivity]. }
  set (s2 := State _ _ _ _ _). assert (G2 : agree s2) by (apply agree_store; [exact (i_agree _ _ I1)|lia|lia]).
  (* push rdx *)
  eapply reaches_step.
  { rewrite (step_at s2 _ _ (PUSH rdx) G2 eq_refl At3).
    - cbn [exec]. unfold write. change (gpr s2 rsp) with (SP - 8 - 8). rewrite w64_small by lia. rewrite (proj2 (stack_permissions (SP - 8 - 8 - 8) ltac:(lia) ltac:(lia))). reflexivity.
    - intros b Hb. apply (decode_byte _ _ _ Hb); [lia|reflexivity]. }
  set (s3 := State _ _ _ _ _). assert (G3 : agree s3) by (apply agree_store; [exact G2|lia|lia]).
  (* call *)
  eapply reaches_step.
  { rewrite (step_at s3 _ _ (CALL_mem rdx (8 * (function_index f + 1))) G3 eq_refl At4 (fun b Hb => decode_call b f Hb)).
    cbn [exec]. assert (Ad : w64 (gpr s3 rdx + 8 * (function_index f + 1)) = F + 8 * function_index f).
    { change (gpr s3 rdx) with (gpr s rdx). rewrite (i_rdx _ _ I), w64_add. assert (0 <= function_index f < 12) by (destruct f; cbn; lia).
      rewrite w64_small; lia. }
    rewrite Ad. unfold read, write. rewrite (proj2 (cw_functions _ _ _ _ _ CW f)), (function_content s3 f G3).
    change (gpr s3 rsp) with (SP - 8 - 8 - 8). rewrite w64_small by lia.
    rewrite (proj2 (stack_permissions (SP - 8 - 8 - 8 - 8) ltac:(lia) ltac:(lia))).
    replace ((SP - 8 - 8 - 8) mod 16 =? 0) with true; [reflexivity|]. symmetry. apply Z.eqb_eq.
    replace (SP - 8 - 8 - 8) with (SP + (-24)) by lia. rewrite Z.add_mod, Al by lia. reflexivity. }
  set (s4 := State _ _ _ _ _).
  assert (G4 : agree s4).
  { intros b Q1 Q2. cbn [s4 mem]. destruct ((stack_lo M <=? b) && (b <? SP - 8 - 8 - 8)) eqn:E.
    - exfalso. apply andb_true_iff in E as [E1 E2]. apply Z.leb_le in E1. apply Z.ltb_lt in E2.  lia.
    - rewrite store_other by lia. now apply G3. }
  assert (M4 : forall b, SP - 8 - 8 - 8 <= b -> mem s4 b = mem s3 b).
  { intros b Hb. cbn [s4 mem]. destruct ((stack_lo M <=? b) && (b <? SP - 8 - 8 - 8)) eqn:E.
    - exfalso. apply andb_true_iff in E as [E1 E2]. apply Z.ltb_lt in E2.  lia.
    - rewrite store_other by lia. reflexivity. }
  assert (V1 : load64 (mem s4) (SP - 8 - 8 - 8) = gpr s rdx).
  { rewrite (load_ext _ (mem s3)) by (intros b Hb; apply M4; lia). cbn [s3 mem]. rewrite load_store_same; [reflexivity|].
    change (gpr s2 rdx) with (gpr s rdx). rewrite (i_rdx _ _ I). apply w64_range. }
  assert (V2 : load64 (mem s4) (SP - 8 - 8) = gpr s rdi).
  { rewrite (load_ext _ (mem s3)) by (intros b Hb; apply M4; lia). cbn [s3 mem]. rewrite load_store_other by lia. cbn [s2 mem].
    rewrite load_store_same; [reflexivity|]. change (gpr s1 rdi) with (gpr s rdi). rewrite (i_rdi _ _ I). apply w64_range. }
  assert (V3 : forall b, SP - 8 <= b -> mem s4 b = mem s b).
  { intros b Hb. rewrite M4 by lia. cbn [s3 mem]. rewrite store_other by lia. cbn [s2 mem]. rewrite store_other by lia. reflexivity. }
  assert (V4 : forall b, ~ (stack_lo M <= b < SP) -> mem s4 b = mem s b).
  { intros b Hb. cbn [s4 mem]. destruct ((stack_lo M <=? b) && (b <? SP - 8 - 8 - 8)) eqn:E.
    - exfalso. apply andb_true_iff in E as [E1 E2]. apply Z.leb_le in E1. apply Z.ltb_lt in E2.  lia.
    - rewrite store_other by lia. cbn [s3 mem]. rewrite store_other by lia.
      cbn [s2 mem]. rewrite store_other by lia. reflexivity. }
  (* pop rdx *)
  eapply reaches_step.
  { rewrite (step_at s4 _ _ (POP rdx) G4 eq_refl At5).
    - cbn [exec]. unfold read. change (gpr s4 rsp) with (SP - 8 - 8 - 8). rewrite (proj1 (stack_permissions (SP - 8 - 8 - 8) ltac:(lia) ltac:(lia))).
      rewrite V1, w64_small by lia. reflexivity.
    - intros b Hb. apply (decode_byte _ _ _ Hb); [lia|reflexivity]. }
  set (s5 := State _ _ _ _ _).
  (* pop rdi *)
  eapply reaches_step.
  { rewrite (step_at s5 _ _ (POP rdi) G4 eq_refl At6).
    - cbn [exec]. unfold read. change (gpr s5 rsp) with (SP - 8 - 8 - 8 + 8). replace (SP - 8 - 8 - 8 + 8) with (SP - 8 - 8) by lia.
      rewrite (proj1 (stack_permissions (SP - 8 - 8) ltac:(lia) ltac:(lia))). change (mem s5) with (mem s4).
      rewrite V2, w64_small by lia. reflexivity.
    - intros b Hb. apply (decode_byte _ _ _ Hb); [lia|reflexivity]. }
  set (s6 := State _ _ _ _ _).
  assert (I6 : inv (pc + 8 + 1 + 1 + 3 + 1 + 1) s6).
  { constructor; try (destruct I; assumption).
    - reflexivity.
    - change (gpr s6 rsp) with (SP - 8 - 8 + 8). lia.
    - change (mem s6) with (mem s4). rewrite (load_ext _ (mem s)) by (intros b Hb; apply V3; lia). exact (i_saved _ _ I). }
  eapply reaches_step; [apply (run_store s6 _ k I6); auto|]. apply reaches_now.
  replace (pc + 8 + 1 + 1 + 3 + 1 + 1 + 8) with (pc + 23) by lia. split; [now apply (inv_store _ _ s6 _ _ I6)|].
  change (xmm s6 0%nat) with (function_words W f (load64 (mem s) (O + 8 * Z.of_nat a))).
  destruct (store_wrote (pc + 23) s6 k _ (function_range _ _ W f (load64 (mem s) (O + 8 * Z.of_nat a))) Hk) as [K1 K2].
  split.
  - rewrite K1. apply value_function.
  - intros j Hj N. rewrite K2 by assumption. unfold slot. change (mem s6) with (mem s4). f_equal. apply load_ext. intros b Hb. apply V4.
    intros Hs. apply (heap_not_stack j b Hj); lia.
Qed.

(** The beginning and the end. *)
Lemma piece_begin : at_pc 0 (push_rbx ++ mov_rsi_rbx) -> reaches s0 (fun s => inv 4 s).
Proof.
  intros At. ranges. apply at_pc_app in At as [At1 At2]. change (0 + Z.of_nat (length _)) with 1 in At2.
  pose proof (cw_arguments _ _ _ _ _ CW) as Ar. cbn in Ar. injection Ar as Ar1 Ar2 Ar3.
  eapply reaches_step.
  { rewrite (step_at s0 0 push_rbx (PUSH rbx) (fun a _ _ => eq_refl)); [|rewrite (cw_rip _ _ _ _ _ CW); lia|exact At1|].
    - cbn [exec]. unfold write. rewrite (cw_rsp _ _ _ _ _ CW), w64_small by lia. rewrite (proj2 (stack_permissions (SP - 8) ltac:(lia) ltac:(lia))). reflexivity.
    - intros b Hb. apply (decode_byte _ _ _ Hb); [lia|reflexivity]. }
  set (s1 := State _ _ _ _ _). assert (G1 : agree s1) by (apply agree_store; [intros a _ _; reflexivity|lia|lia]).
  eapply reaches_step.
  { rewrite (step_at s1 _ _ (MOV_reg_reg rbx rsi) G1 eq_refl At2 (fun b Hb => decode_mov_rbx b Hb)). reflexivity. }
  apply reaches_now. constructor.
  - reflexivity.
  - exact Ar2.
  - exact Ar1.
  - exact Ar3.
  - reflexivity.
  - reflexivity.
  - cbn [mem s1]. apply load_store_same. apply (cw_registers _ _ _ _ _ CW).
  - exact G1.
Qed.
Lemma piece_end s pc : inv pc s -> at_pc pc (pop_rbx ++ ret) ->
  reaches s (fun s' => returned (M := M) prog P s0 s' /\ xmm s' = xmm s /\ mem s' = mem s).
Proof.
  intros I At. ranges. apply at_pc_app in At as [At1 At2]. change (Z.of_nat (length _)) with 1 in At2.
  eapply reaches_step.
  { rewrite (step_at s _ _ (POP rbx) (i_agree _ _ I) (i_rip _ _ I) At1).
    - cbn [exec]. unfold read. rewrite (i_rsp _ _ I). rewrite (proj1 (stack_permissions (SP - 8) ltac:(lia) ltac:(lia))).
      rewrite (i_saved _ _ I), w64_small by lia. reflexivity.
    - intros b Hb. apply (decode_byte _ _ _ Hb); [lia|reflexivity]. }
  set (s1 := State _ _ _ _ _). assert (G1 : agree s1) by exact (i_agree _ _ I).
  assert (Ra : load64 (mem s1) SP = load64 (mem s0) SP).
  { apply load_ext. intros b Hb. apply G1; [|lia]. intros Hh. destruct (cw_apart _ _ _ _ _ CW b) as (Q & _). apply Q. split; [exact Hh|lia]. }
  eapply reaches_step.
  { rewrite (step_at s1 _ _ RET G1 eq_refl At2).
    - cbn [exec]. unfold read. change (gpr s1 rsp) with (SP - 8 + 8). replace (SP - 8 + 8) with SP by lia.
      rewrite (proj1 (stack_permissions SP ltac:(lia) ltac:(lia))), Ra, w64_small by lia. reflexivity.
    - intros b Hb. apply (decode_byte _ _ _ Hb); [lia|reflexivity]. }
  apply reaches_now. split; [|split; reflexivity]. constructor.
  - reflexivity.
  - reflexivity.
  - reflexivity.
  - exact (i_rbp _ _ I).
  - exact (i_agree _ _ I).
Qed.
End Run.

(** *** The generator *)
Section Generated.
Context {A : arith} {M : machine} (W : words A M) (ns : list (node A)) (dimx dim : nat).
Context (NS : nodes_ok A dimx ns).
Definition cnt (f : nat -> bool) : nat := length (filter f (seq 0 (length ns))).

(** What a piece of code for the nodes up to [i] does, if the slots of the nodes in [D] are right before it. *)
Definition does (i : nat) (bs : list Z) (D D' : nat -> Prop) : Prop :=
  forall prog x P s0 (CW : called_with W prog x P s0), length x = dimx ->
  (i + dim < heap_size prog)%nat -> fits (Z.of_nat (i + dim)) -> fits (Z.of_nat dimx) ->
  (forall j, D j -> (j + dim < heap_size prog)%nat) ->
  forall pc s, inv (M := M) prog P s0 pc s -> at_pc prog pc bs -> (forall j, D j -> slot W P s (j + dim) = value_at A ns x j) ->
  reaches (M := M) s (fun s' => inv (M := M) prog P s0 (pc + Z.of_nat (length bs)) s' /\
    (forall j, D' j -> slot W P s' (j + dim) = value_at A ns x j) /\
    (forall j, (j < dim)%nat -> slot W P s' j = slot W P s j)).

Lemma fits_le a b : fits (Z.of_nat b) -> (a <= b)%nat -> fits (Z.of_nat a).
Proof. unfold fits, byte_offset. lia. Qed.
Lemma does_nothing i (D : nat -> Prop) : does i [] D D.
Proof. intros prog x P s0 CW Lx Hi F1 F2 HD pc s I At V. apply reaches_now. cbn. rewrite Z.add_0_r. auto. Qed.
Lemma does_app i i1 i2 b1 b2 (D D1 D2 : nat -> Prop) : (i1 <= i)%nat -> (i2 <= i)%nat -> (forall j, D1 j -> D j \/ (j <= i1)%nat) ->
  does i1 b1 D D1 -> does i2 b2 D1 D2 -> does i (b1 ++ b2) D D2.
Proof.
  intros L1 L2 HD1 S1 S2 prog x P s0 CW Lx Hi F1 F2 HD pc s I At V. apply at_pc_app in At as [At1 At2].
  eapply reaches_trans; [apply (S1 prog x P s0 CW); eauto; [lia|eapply fits_le; [exact F1|lia]]|].
  intros s1 (I1 & V1 & O1).
  eapply reaches_trans; [apply (S2 prog x P s0 CW Lx) with (pc := pc + Z.of_nat (length b1)); eauto|].
  - lia.
  - eapply fits_le; [exact F1|lia].
  - intros j Hj. destruct (HD1 j Hj) as [Q|Q]; [now apply HD|lia].
  - intros s2 (I2 & V2 & O2). apply reaches_now. rewrite app_length, Nat2Z.inj_add, Z.add_assoc. split; [exact I2|split; [exact V2|]].
    intros j Hj. now rewrite O2, O1.
Qed.
(** A piece which writes the right value of the node [i]. *)
Lemma does_node i bs (D : nat -> Prop) :
  (forall prog x P s0 (CW : called_with W prog x P s0), length x = dimx ->
     (i + dim < heap_size prog)%nat -> fits (Z.of_nat (i + dim)) -> fits (Z.of_nat dimx) ->
     (forall j, D j -> (j + dim < heap_size prog)%nat) ->
     forall pc s, inv (M := M) prog P s0 pc s -> at_pc prog pc bs -> (forall j, D j -> slot W P s (j + dim) = value_at A ns x j) ->
     reaches (M := M) s (fun s' => inv (M := M) prog P s0 (pc + Z.of_nat (length bs)) s' /\ wrote W prog P s s' (i + dim) (value_at A ns x i))) ->
  does i bs D (fun j => D j \/ j = i).
Proof.
  intros K prog x P s0 CW Lx Hi F1 F2 HD pc s I At V.
  eapply reaches_trans; [apply (K prog x P s0 CW); eauto|]. intros s' (I' & W1 & W2). apply reaches_now. split; [exact I'|split].
  - intros j [Hj | ->]; [|exact W1]. destruct (Nat.eq_dec j i) as [-> |N]; [exact W1|]. rewrite W2; [now apply V| |lia]. now apply HD.
  - intros j Hj. apply W2; lia.
Qed.

Definition marked (g : generator) (i : nat) : generator :=
  Generator (code g) (fun j => if Nat.eqb j i then true else seen g j) (Nat.max (max_dim g) i).
Lemma cnt_marked g i : (i < length ns)%nat -> seen g i = false -> (cnt (seen g) < cnt (seen (marked g i)))%nat.
Proof.
  intros Hi E. eapply filter_lt with (a := i).
  - intros a Ha. cbn. now destruct (Nat.eqb a i).
  - apply in_seq. lia.
  - exact E.
  - cbn. now rewrite Nat.eqb_refl.
Qed.

Lemma compile_enter : forall i, (i < length ns)%nat -> forall stack g (D : nat -> Prop),
  (forall j, seen g j = true -> D j \/ (i < j)%nat) ->
  exists n g' bs (D' : nat -> Prop),
    (forall fuel, compile_loop A (bits W) (n + fuel) ns dim (Enter i :: stack) g = compile_loop A (bits W) fuel ns dim stack g') /\
    code g' = code g ++ bs /\ max_dim g' = Nat.max (max_dim g) i /\ does i bs D D' /\
    D' i /\ (forall j, D j -> D' j) /\ (forall j, D' j -> D j \/ (j <= i)%nat) /\
    (forall j, seen g' j = true -> D' j \/ seen g j = true) /\ (forall j, seen g j = true -> seen g' j = true) /\
    (n + 3 * cnt (seen g) <= 1 + 3 * cnt (seen g'))%nat.
Proof.
  intros i. induction i as [i IH] using (well_founded_induction lt_wf). intros Hi stack g D HD.
  destruct (seen g i) eqn:E.
  { exists 1%nat, (Generator (code g) (seen g) (Nat.max (max_dim g) i)), [], D. split; [intros fuel; cbn; now rewrite E|]. cbn.
    split; [now rewrite app_nil_r|]. split; [reflexivity|]. split; [apply does_nothing|].
    split; [destruct (HD i E); [assumption|lia]|]. split; [auto|]. split; [auto|]. split; [auto|]. split; [auto|lia]. }
  destruct (nth_error ns i) as [nd|] eqn:En; [|apply nth_error_None in En; lia].
  pose proof (NS _ _ En) as Wi. pose proof (cnt_marked g i Hi E) as Cm. fold (marked g i) in Cm.
  assert (Hs : forall j, seen (marked g i) j = true -> j = i \/ seen g j = true).
  { intros j. cbn. destruct (Nat.eqb_spec j i); auto. }
  assert (Hs' : forall j, seen g j = true -> seen (marked g i) j = true).
  { intros j Hj. cbn. now destruct (Nat.eqb j i). }
  assert (Leaf : forall bs, (forall fuel, compile_loop A (bits W) (1 + fuel) ns dim (Enter i :: stack) g =
                               compile_loop A (bits W) fuel ns dim stack (emit (marked g i) bs)) ->
                 does i bs D (fun j => D j \/ j = i) ->
    exists n g' bs (D' : nat -> Prop),
    (forall fuel, compile_loop A (bits W) (n + fuel) ns dim (Enter i :: stack) g = compile_loop A (bits W) fuel ns dim stack g') /\
    code g' = code g ++ bs /\ max_dim g' = Nat.max (max_dim g) i /\ does i bs D D' /\
    D' i /\ (forall j, D j -> D' j) /\ (forall j, D' j -> D j \/ (j <= i)%nat) /\
    (forall j, seen g' j = true -> D' j \/ seen g j = true) /\ (forall j, seen g j = true -> seen g' j = true) /\
    (n + 3 * cnt (seen g) <= 1 + 3 * cnt (seen g'))%nat).
  { intros bs Eq Do. exists 1%nat, (emit (marked g i) bs), bs, (fun j => D j \/ j = i). split; [exact Eq|]. split; [reflexivity|]. split; [reflexivity|].
    split; [exact Do|]. split; [now right|]. split; [auto|]. split; [intros j [Hj|Hj]; [now left|right; lia]|].
    split; [|split; [exact Hs'|cbn [seen emit] in *; lia]]. intros j Hj. destruct (Hs j Hj); auto. }
  destruct nd as [v|c|o l r|f a]; cbn in Wi.
  - eapply Leaf; [intros fuel; cbn; rewrite E, En; reflexivity|]. apply does_node.
    intros prog x P s0 CW Lx Hh F1 F2 HDh pc s I At V. cbv beta.
    destruct (nth_error x v) as [y|] eqn:Ex; [|apply nth_error_None in Ex; lia].
    replace (value_at A ns x i) with y.
    + apply (piece_var W prog x P s0 CW s pc v (i + dim) y I Ex Hh); [eapply fits_le; [exact F2|lia]|exact F1|exact At].
    + rewrite (value_at_eq A dimx ns x NS i), En. symmetry. now apply nth_error_nth.
  - eapply Leaf; [intros fuel; cbn; rewrite E, En; reflexivity|]. apply does_node.
    intros prog x P s0 CW Lx Hh F1 F2 HDh pc s I At V.
    replace (value_at A ns x i) with c by (now rewrite (value_at_eq A dimx ns x NS i), En).
    apply (piece_val W prog x P s0 CW s pc c (i + dim) I Hh F1 At).
  - destruct Wi as [Wl Wr].
    destruct (IH r Wr ltac:(lia) (Enter l :: Leave i :: stack) (marked g i) D) as (n1 & g1 & b1 & D1 & S1 & C1 & X1 & Do1 & R1 & G1 & B1 & Q1 & T1 & N1).
    { intros j Hj. destruct (Hs j Hj) as [-> |K]; [now right|]. destruct (HD j K); [now left|right; lia]. }
    destruct (IH l Wl ltac:(lia) (Leave i :: stack) g1 D1) as (n2 & g2 & b2 & D2 & S2 & C2 & X2 & Do2 & R2 & G2 & B2 & Q2 & T2 & N2).
    { intros j Hj. destruct (Q1 j Hj) as [K|K]; [now left|]. destruct (Hs j K) as [-> |K2]; [now right|]. destruct (HD j K2); [left; auto|right; lia]. }
    set (b3 := load_from_memory_by_rbx_offset_to_xmm0 (Z.of_nat (l + dim)) ++ op_code o (Z.of_nat (r + dim)) ++ store_xmm0_to_memory_by_rbx_offset (Z.of_nat (i + dim))).
    exists (1 + (n1 + (n2 + 1)))%nat, (emit g2 b3), (b1 ++ b2 ++ b3), (fun j => D2 j \/ j = i).
    split; [|split; [|split; [|split; [|split; [|split; [|split; [|split; [|split]]]]]]]].
    + intros fuel. replace (1 + (n1 + (n2 + 1)) + fuel)%nat with (S (n1 + (n2 + (1 + fuel)))) by lia.
      cbn [compile_loop compile_step seen]. rewrite E, En. fold (marked g i). cbn [code max_dim seen]. fold (marked g i). rewrite S1, S2. cbn. rewrite En. reflexivity.
    + cbn. rewrite C2, C1. cbn. now rewrite <- !app_assoc.
    + cbn. rewrite X2, X1. cbn. lia.
    + apply (does_app i r i b1 (b2 ++ b3) D D1); [lia|lia|exact B1|exact Do1|].
      apply (does_app i l i b2 b3 D1 D2); [lia|lia|exact B2|exact Do2|]. apply does_node.
      intros prog x P s0 CW Lx Hh F1 F2 HDh pc s I At V.
      replace (value_at A ns x i) with (apply_operation A o (slot W P s (l + dim)) (slot W P s (r + dim))).
      * replace (Z.of_nat (length b3)) with 24 by (unfold b3; destruct o; reflexivity).
        apply (piece_op W prog x P s0 CW s pc o (l + dim) (r + dim) (i + dim) I); [lia|lia|lia| | | |exact At]; (eapply fits_le; [exact F1|lia]).
      * rewrite (value_at_eq A dimx ns x NS i), En, !V by auto. reflexivity.
    + now right.
    + intros j Hj. left. auto.
    + intros j [Hj|Hj]; [|right; lia]. destruct (B2 j Hj) as [K|K]; [|right; lia]. destruct (B1 j K); [now left|right; lia].
    + cbn. intros j Hj. destruct (Q2 j Hj) as [K|K]; [auto|]. destruct (Q1 j K) as [K2|K2]; [auto|]. destruct (Hs j K2); auto.
    + cbn. auto.
    + cbn [seen emit]. lia.
  - destruct (IH a Wi ltac:(lia) (Leave i :: stack) (marked g i) D) as (n1 & g1 & b1 & D1 & S1 & C1 & X1 & Do1 & R1 & G1 & B1 & Q1 & T1 & N1).
    { intros j Hj. destruct (Hs j Hj) as [-> |K]; [now right|]. destruct (HD j K); [now left|right; lia]. }
    set (b3 := load_from_memory_by_rbx_offset_to_xmm0 (Z.of_nat (a + dim)) ++ push_rdi ++ push_rdx ++
               call_function_from_rdx_pointers_array_by_index (function_index f) ++ pop_rdx ++ pop_rdi ++ store_xmm0_to_memory_by_rbx_offset (Z.of_nat (i + dim))).
    exists (1 + (n1 + 1))%nat, (emit g1 b3), (b1 ++ b3), (fun j => D1 j \/ j = i).
    split; [|split; [|split; [|split; [|split; [|split; [|split; [|split; [|split]]]]]]]].
    + intros fuel. replace (1 + (n1 + 1) + fuel)%nat with (S (n1 + (1 + fuel))) by lia.
      cbn [compile_loop compile_step seen]. rewrite E, En. cbn [code max_dim seen]. fold (marked g i). rewrite S1. cbn. rewrite En. reflexivity.
    + cbn. rewrite C1. cbn. now rewrite <- !app_assoc.
    + cbn. rewrite X1. cbn. lia.
    + apply (does_app i a i b1 b3 D D1); [lia|lia|exact B1|exact Do1|]. apply does_node.
      intros prog x P s0 CW Lx Hh F1 F2 HDh pc s I At V.
      replace (value_at A ns x i) with (apply_function A f (slot W P s (a + dim))).
      * apply (piece_call W prog x P s0 CW s pc f (a + dim) (i + dim) I); [lia|lia| | |exact At]; (eapply fits_le; [exact F1|lia]).
      * rewrite (value_at_eq A dimx ns x NS i), En, !V by auto. reflexivity.
    + now right.
    + intros j Hj. left. auto.
    + intros j [Hj|Hj]; [|right; lia]. destruct (B1 j Hj); [now left|right; lia].
    + cbn. intros j Hj. destruct (Q1 j Hj) as [K2|K2]; [auto|]. destruct (Hs j K2); auto.
    + cbn. auto.
    + cbn [seen emit]. lia.
Qed.

Lemma cnt_le f : (cnt f <= length ns)%nat.
Proof.
  unfold cnt. rewrite <- (seq_length (length ns) 0) at 2. generalize (seq 0 (length ns)). intros l.
  induction l as [|a l IH]; cbn; [lia|]. destruct (f a); cbn; lia.
Qed.

Lemma compile_node_ok i g (D : nat -> Prop) fuel : (i < length ns)%nat -> (forall j, seen g j = true -> D j) -> (1 + 3 * length ns <= fuel)%nat ->
  exists g' bs (D' : nat -> Prop),
    jit_compile_node A (bits W) fuel ns dim i g = Some (Ok g') /\
    code g' = code g ++ bs /\ max_dim g' = Nat.max (max_dim g) i /\ does i bs D D' /\
    D' i /\ (forall j, D' j -> D j \/ (j <= i)%nat) /\ (forall j, seen g' j = true -> D' j).
Proof.
  intros Hi HD Hf.
  destruct (compile_enter i Hi [] g D) as (n & g' & bs & D' & S & C & X & Do & R & G & B & Q & T & N); [auto|].
  exists g', bs, D'. split; [|split; [exact C|split; [exact X|split; [exact Do|split; [exact R|split; [exact B|]]]]]].
  - unfold jit_compile_node. pose proof (cnt_le (seen g')). replace fuel with (n + (fuel - n))%nat by lia. rewrite S. now destruct (fuel - n)%nat.
  - intros j Hj. destruct (Q j Hj); auto.
Qed.

(** The components of the gradient. *)
Definition outputs (N k : nat) (gs : list nat) (bs : list Z) (D D' : nat -> Prop) : Prop :=
  forall prog x P s0 (CW : called_with W prog x P s0), length x = dimx ->
  (N + dim < heap_size prog)%nat -> fits (Z.of_nat (N + dim)) -> fits (Z.of_nat dimx) ->
  (forall j, D j -> (j + dim < heap_size prog)%nat) ->
  forall pc s, inv (M := M) prog P s0 pc s -> at_pc prog pc bs -> (forall j, D j -> slot W P s (j + dim) = value_at A ns x j) ->
  reaches (M := M) s (fun s' => inv (M := M) prog P s0 (pc + Z.of_nat (length bs)) s' /\
    (forall j, D' j -> slot W P s' (j + dim) = value_at A ns x j) /\
    (forall t v, nth_error gs t = Some v -> slot W P s' (k + t) = value_at A ns x v) /\
    (forall j, (j < k)%nat -> slot W P s' j = slot W P s j)).
Lemma compile_components_ok fuel : (1 + 3 * length ns <= fuel)%nat ->
  forall gs k g (D : nat -> Prop), Forall (fun i => (i < length ns)%nat) gs -> (k + length gs <= dim)%nat -> (forall j, seen g j = true -> D j) ->
  exists g' bs (D' : nat -> Prop),
    compile_components A (bits W) fuel ns dim k gs g = Some (Ok g') /\
    code g' = code g ++ bs /\ max_dim g' = fold_left Nat.max gs (max_dim g) /\
    (forall N, Forall (fun i => (i <= N)%nat) gs -> outputs N k gs bs D D').
Proof.
  intros Hf gs. induction gs as [|v gs IH]; intros k g D Hgs Hk HD.
  - exists g, [], D. cbn. split; [reflexivity|]. split; [now rewrite app_nil_r|]. split; [reflexivity|].
    intros N _ prog x P s0 CW Lx Hi F1 F2 HDh pc s I At V. apply reaches_now. rewrite Z.add_0_r. split; [exact I|]. split; [exact V|].
    split; [|auto]. intros t w Ht. destruct t; discriminate.
  - apply Forall_cons_iff in Hgs as [Hv Hgs]. cbn [length] in Hk.
    destruct (compile_node_ok v g D fuel Hv HD Hf) as (g1 & b1 & D1 & E1 & C1 & X1 & Do1 & R1 & B1 & Q1).
    set (b2 := load_from_memory_by_rbx_offset_to_xmm0 (Z.of_nat (v + dim)) ++ store_xmm0_to_memory_by_rbx_offset (Z.of_nat k)).
    destruct (IH (S k) (emit g1 b2) D1 Hgs ltac:(lia) Q1) as (g2 & b3 & D2 & E2 & C2 & X2 & O2).
    exists g2, (b1 ++ b2 ++ b3), D2. cbn [compile_components]. rewrite E1. split; [exact E2|].
    split; [rewrite C2; cbn; rewrite C1, <- !app_assoc; reflexivity|]. split; [rewrite X2; cbn; now rewrite X1|].
    intros N HN. apply Forall_cons_iff in HN as [HvN HN]. specialize (O2 N HN).
    intros prog x P s0 CW Lx Hi F1 F2 HDh pc s I At V. apply at_pc_app in At as [At1 At]. apply at_pc_app in At as [At2 At3].
    change (Z.of_nat (length b2)) with 16 in At3.
    assert (HD1 : forall j, D1 j -> (j + dim < heap_size prog)%nat).
    { intros j Hj. destruct (B1 j Hj) as [K|K]; [now apply HDh|lia]. }
    eapply reaches_trans; [apply (Do1 prog x P s0 CW Lx) with (pc := pc); eauto; eapply fits_le; [exact F1|lia]|].
    intros s1 (I1 & V1 & P1). apply at_pc_app in At2 as [At2 At2']. change (Z.of_nat (length (load_from_memory_by_rbx_offset_to_xmm0 _))) with 8 in At2'.
    eapply reaches_step.
    { apply (run_load_heap W prog x P s0 CW s1 _ (v + dim) I1); [lia|eapply fits_le; [exact F1|lia]|exact At2]. }
    set (s2 := State _ _ _ _ _). assert (I2 : inv (M := M) prog P s0 (pc + Z.of_nat (length b1) + 8) s2) by now apply (inv_xmm prog P s0 (pc + Z.of_nat (length b1))).
    eapply reaches_step.
    { apply (run_store W prog x P s0 CW s2 _ k I2); [lia|eapply fits_le; [exact F1|lia]|exact At2']. }
    set (s3 := State _ _ _ _ _).
    assert (I3 : inv (M := M) prog P s0 (pc + Z.of_nat (length b1) + 8 + 8) s3) by (apply (inv_store W prog x P s0 CW _ _ s2 k _ I2); lia).
    destruct (store_wrote W prog P (pc + Z.of_nat (length b1) + 8 + 8) s2 k (load64 (mem s1) (p_heap P + 8 * Z.of_nat (v + dim))) (load_range _ _) ltac:(lia)) as [W1 W2].
    fold s3 in W1, W2. change (State _ _ _ _ _) with s3 in W1, W2.
    eapply reaches_trans; [apply (O2 prog x P s0 CW Lx) with (pc := pc + Z.of_nat (length b1) + 8 + 8); eauto|].
    + replace (pc + Z.of_nat (length b1) + 8 + 8) with (pc + Z.of_nat (length b1) + 16) by lia. exact At3.
    + intros j Hj. rewrite W2; [exact (V1 j Hj)|now apply HD1|lia].
    + intros s4 (I4 & V4 & T4 & P4). apply reaches_now.
      split; [|split; [exact V4|split]].
      * rewrite !app_length, !Nat2Z.inj_add. change (Z.of_nat (length b2)) with 16.
        replace (pc + (Z.of_nat (length b1) + (16 + Z.of_nat (length b3)))) with (pc + Z.of_nat (length b1) + 8 + 8 + Z.of_nat (length b3)) by lia. exact I4.
      * intros t w Ht. destruct t as [|t]; cbn in Ht.
        -- injection Ht as <-. rewrite Nat.add_0_r, P4 by lia. rewrite W1. exact (V1 v R1).
        -- replace (k + S t)%nat with (S k + t)%nat by lia. now apply T4.
      * intros j Hj. rewrite P4, W2 by lia. apply P1. lia.
Qed.
End Generated.

Lemma begin_at prog rest : bytes prog = (push_rbx ++ mov_rsi_rbx) ++ rest -> at_pc prog 0 (push_rbx ++ mov_rsi_rbx).
Proof. intros E. exists [], rest. auto. Qed.

Lemma compile_f_ok {A M} (W : words A M) dimx (m : memory A) f fuel :
  nodes_ok A dimx (nodes m) -> (f < length (nodes m))%nat -> (1 + 3 * length (nodes m) <= fuel)%nat ->
  exists prog, compile_f A (bits W) fuel m f = Some (Ok prog) /\ heap_size prog = S f /\
    forall x P s, called_with W prog x P s -> length x = dimx -> fits (Z.of_nat f) -> fits (Z.of_nat dimx) ->
    reaches (M := M) s (fun s' => returned (M := M) prog P s s' /\ value W (xmm s' 0%nat) = value_at A (nodes m) x f).
Proof.
  intros NS Hf Hfuel.
  destruct (compile_node_ok W (nodes m) dimx 0 NS f begin_code (fun _ => False) fuel Hf) as (g & bs & D & E & C & X & Do & R & B & Q); [discriminate|exact Hfuel|].
  unfold compile_f. rewrite E. eexists. split; [reflexivity|]. split; [cbn; rewrite X; cbn; lia|].
  set (prog := Compiled _ _). intros x P s CW Lx F1 F2.
  assert (Hh : heap_size prog = S f) by (cbn; rewrite X; cbn; lia).
  set (b1 := push_rbx ++ mov_rsi_rbx). set (b3 := load_from_memory_by_rbx_offset_to_xmm0 (Z.of_nat f)).
  assert (Eb : bytes prog = b1 ++ bs ++ b3 ++ pop_rbx ++ ret).
  { unfold prog, end_code, emit. cbn [bytes code]. rewrite C. cbn [code begin_code]. fold b1 b3. now rewrite <- !app_assoc. }
  assert (At : forall pre mid post, bytes prog = pre ++ mid ++ post -> at_pc prog (Z.of_nat (length pre)) mid) by (intros pre mid post Ep; now exists pre, post).
  eapply reaches_trans; [apply (piece_begin W prog x P s CW (begin_at _ _ Eb))|]. intros s1 I1.
  eapply reaches_trans.
  { apply (Do prog x P s CW Lx) with (pc := 4) (s := s1); eauto.
    - lia.
    - now rewrite Nat.add_0_r.
    - intros j [].
    - exact (At b1 bs (b3 ++ pop_rbx ++ ret) Eb).
    - intros j []. }
  intros s2 (I2 & V2 & _).
  eapply reaches_step.
  { apply (run_load_heap W prog x P s CW s2 _ f I2); [lia|exact F1|].
    assert (A3 : at_pc prog (Z.of_nat (length (b1 ++ bs))) b3) by (eapply At; rewrite Eb, <- app_assoc; reflexivity).
    rewrite app_length, Nat2Z.inj_add in A3. exact A3. }
  set (s3 := State _ _ _ _ _). assert (I3 : inv (M := M) prog P s (4 + Z.of_nat (length bs) + 8) s3) by now apply (inv_xmm prog P s (4 + Z.of_nat (length bs))).
  eapply reaches_trans.
  { apply (piece_end W prog x P s CW s3 _ I3).
    assert (A4 : at_pc prog (Z.of_nat (length (b1 ++ bs ++ b3))) (pop_rbx ++ ret)) by (apply (At _ _ []); rewrite Eb, app_nil_r, <- !app_assoc; reflexivity).
    rewrite !app_length, !Nat2Z.inj_add in A4. change (Z.of_nat (length b1)) with 4 in A4. change (Z.of_nat (length b3)) with 8 in A4.
    replace (4 + Z.of_nat (length bs) + 8) with (4 + (Z.of_nat (length bs) + 8)) by lia. exact A4. }
  intros s4 (Re & Ex & _). apply reaches_now. split; [exact Re|]. rewrite Ex. cbn [s3 xmm set Nat.eqb].
  rewrite <- (V2 f R), Nat.add_0_r. reflexivity.
Qed.

Lemma fold_max gs : forall z, (z <= fold_left Nat.max gs z)%nat /\ Forall (fun i => (i <= fold_left Nat.max gs z)%nat) gs.
Proof.
  induction gs as [|v gs IH]; intros z; cbn; [auto|]. destruct (IH (Nat.max z v)) as [H1 H2]. split; [lia|]. constructor; [lia|exact H2].
Qed.
Lemma fold_max_le gs n : forall z, (z <= n)%nat -> Forall (fun i => (i <= n)%nat) gs -> (fold_left Nat.max gs z <= n)%nat.
Proof. induction gs as [|v gs IH]; intros z Hz Hg; cbn; [exact Hz|]. apply Forall_cons_iff in Hg as [Hv Hg]. apply IH; [lia|exact Hg]. Qed.

Lemma compile_g_ok {A M} (W : words A M) dimx (m : memory A) gs fuel :
  nodes_ok A dimx (nodes m) -> Forall (fun i => (i < length (nodes m))%nat) gs -> (1 + 3 * length (nodes m) <= fuel)%nat ->
  exists prog, compile_g A (bits W) fuel m gs = Some (Ok prog) /\ heap_size prog = (length gs + fold_left Nat.max gs 0 + 1)%nat /\
    forall x P s, called_with W prog x P s -> length x = dimx -> fits (Z.of_nat (heap_size prog)) -> fits (Z.of_nat dimx) ->
    reaches (M := M) s (fun s' => returned (M := M) prog P s s' /\
      forall t v, nth_error gs t = Some v -> value W (load64 (mem s') (p_heap P + 8 * Z.of_nat t)) = value_at A (nodes m) x v).
Proof.
  intros NS Hgs Hfuel.
  destruct (compile_components_ok W (nodes m) dimx (length gs) NS fuel Hfuel gs 0 begin_code (fun _ => False) Hgs ltac:(lia)) as (g & bs & D & E & C & X & Do); [discriminate|].
  unfold compile_g. rewrite E. eexists. split; [reflexivity|]. split; [cbn; now rewrite X|].
  set (prog := Compiled _ _). intros x P s CW Lx F1 F2.
  assert (Hh : heap_size prog = (length gs + fold_left Nat.max gs 0 + 1)%nat) by (cbn; rewrite X; cbn; lia).
  set (b1 := push_rbx ++ mov_rsi_rbx).
  assert (Eb : bytes prog = b1 ++ bs ++ pop_rbx ++ ret).
  { unfold prog, end_code. cbn [bytes code]. rewrite C. cbn [code begin_code]. fold b1. now rewrite <- !app_assoc. }
  assert (At : forall pre mid post, bytes prog = pre ++ mid ++ post -> at_pc prog (Z.of_nat (length pre)) mid) by (intros pre mid post Ep; now exists pre, post).
  eapply reaches_trans; [apply (piece_begin W prog x P s CW (begin_at _ _ Eb))|]. intros s1 I1.
  eapply reaches_trans.
  { apply (Do (fold_left Nat.max gs 0%nat) (proj2 (fold_max gs 0%nat)) prog x P s CW Lx) with (pc := 4) (s := s1); eauto.
    - lia.
    - eapply fits_le; [exact F1|lia].
    - intros j [].
    - exact (At b1 bs (pop_rbx ++ ret) Eb).
    - intros j []. }
  intros s2 (I2 & _ & T2 & _).
  eapply reaches_trans.
  { apply (piece_end W prog x P s CW s2 _ I2).
    assert (A4 : at_pc prog (Z.of_nat (length (b1 ++ bs))) (pop_rbx ++ ret)) by (apply (At _ _ []); rewrite Eb, app_nil_r, <- !app_assoc; reflexivity).
    rewrite !app_length, !Nat2Z.inj_add in A4. change (Z.of_nat (length b1)) with 4 in A4. exact A4. }
  intros s4 (Re & _ & Em). apply reaches_now. split; [exact Re|]. intros t v Ht. rewrite Em. exact (T2 t v Ht).
Qed.
