(** Recording and evaluation, for any arithmetic. *)
From Coq Require Import List Arith Bool Lia.
Import ListNotations.
From Verif Require Import Fncas_Model Fncas_Spec.

Section Generic.
Context (A : arith).
Notation T := (num A).
Notation node := (node A).
Notation memory := (memory A).

(** *** Well-formed nodes and what they stand for *)
Definition node_ok (dim i : nat) (n : node) : Prop :=
  match n with
  | NVar v => v < dim
  | NVal _ => True
  | NOp _ l r => l < i /\ r < i
  | NFun _ a => a < i
  end.
Definition nodes_ok (dim : nat) (ns : list node) : Prop := forall i n, nth_error ns i = Some n -> node_ok dim i n.

Fixpoint den (fuel : nat) (ns : list node) (x : list T) (i : nat) : T :=
  match fuel with
  | O => c0 A
  | S f =>
      match nth_error ns i with
      | Some (NVar v) => nth v x (c0 A)
      | Some (NVal c) => c
      | Some (NOp o l r) => apply_operation A o (den f ns x l) (den f ns x r)
      | Some (NFun g a) => apply_function A g (den f ns x a)
      | None => c0 A
      end
  end.
Definition value_at (ns : list node) (x : list T) (i : nat) : T := den (S i) ns x i.

Lemma den_fuel dim ns x : nodes_ok dim ns -> forall i f, i < f -> den f ns x i = value_at ns x i.
Proof.
  intros W. assert (H : forall n i, i < n -> forall f, i < f -> den f ns x i = den (S i) ns x i).
  { induction n as [|n IH]; [lia|]. intros i Hi f Hf. destruct f as [|f]; [lia|]. cbn [den].
    destruct (nth_error ns i) as [[v|c|o l r|g a]|] eqn:E; try reflexivity; specialize (W _ _ E); cbn in W.
    - destruct W. rewrite (IH l ltac:(lia) f ltac:(lia)), (IH r ltac:(lia) f ltac:(lia)), (IH l ltac:(lia) i ltac:(lia)), (IH r ltac:(lia) i ltac:(lia)). reflexivity.
    - rewrite (IH a ltac:(lia) f ltac:(lia)), (IH a ltac:(lia) i ltac:(lia)). reflexivity. }
  intros i f Hf. exact (H (S i) i (Nat.lt_succ_diag_r i) f Hf).
Qed.
Lemma value_at_eq dim ns x : nodes_ok dim ns -> forall i,
  value_at ns x i = match nth_error ns i with
                    | Some (NVar v) => nth v x (c0 A)
                    | Some (NVal c) => c
                    | Some (NOp o l r) => apply_operation A o (value_at ns x l) (value_at ns x r)
                    | Some (NFun g a) => apply_function A g (value_at ns x a)
                    | None => c0 A
                    end.
Proof.
  intros W i. unfold value_at at 1. cbn [den]. destruct (nth_error ns i) as [[v|c|o l r|g a]|] eqn:E; try reflexivity; specialize (W _ _ E) as H; cbn in H.
  - now rewrite !(den_fuel dim) by (assumption || lia).
  - now rewrite !(den_fuel dim) by (assumption || lia).
Qed.
Lemma value_at_app dim ns more x : nodes_ok dim ns -> nodes_ok dim (ns ++ more) -> forall i, i < length ns ->
  value_at (ns ++ more) x i = value_at ns x i.
Proof.
  intros W W' i. induction i as [i IH] using (well_founded_induction lt_wf). intros Hi.
  rewrite (value_at_eq dim _ _ W'), (value_at_eq dim _ _ W), nth_error_app1 by assumption.
  destruct (nth_error ns i) as [[v|c|o l r|g a]|] eqn:E; try reflexivity; specialize (W _ _ E) as H; cbn in H.
  - rewrite !IH by lia. reflexivity.
  - rewrite !IH by lia. reflexivity.
Qed.

(** *** Evaluation *)
Definition cache_ok (ns : list node) (x : list T) (c : cache A) : Prop :=
  forall j, computed A c j = true -> j < length ns /\ values A c j = Some (value_at ns x j).
Definition count (ns : list node) (c : cache A) : nat := length (filter (computed A c) (seq 0 (length ns))).
Definition grows (c c' : cache A) : Prop := forall j, computed A c j = true -> computed A c' j = true.

Lemma filter_le {X} (f g : X -> bool) l : (forall a, f a = true -> g a = true) -> length (filter f l) <= length (filter g l).
Proof.
  intros H. induction l as [|a l IH]; [cbn; lia|]. cbn. specialize (H a). destruct (f a), (g a); cbn; try lia.
Qed.
Lemma count_grows ns c c' : grows c c' -> count ns c <= count ns c'.
Proof. intros G. now apply filter_le. Qed.
Lemma filter_lt {X} (f g : X -> bool) l a : (forall a, f a = true -> g a = true) -> In a l -> f a = false -> g a = true ->
  length (filter f l) < length (filter g l).
Proof.
  intros H. induction l as [|b l IH]; [intros []|]. intros [->|Hin] Hf Hg.
  - cbn. rewrite Hf, Hg. cbn. pose proof (filter_le f g l H). lia.
  - specialize (IH Hin Hf Hg). cbn. specialize (H b). destruct (f b), (g b); cbn; try lia.
Qed.
Lemma count_le ns c : count ns c <= length ns.
Proof.
  unfold count. rewrite <- (seq_length (length ns) 0) at 2. generalize (seq 0 (length ns)). intros l.
  induction l as [|a l IH]; cbn; [lia|]. destruct (computed A c a); cbn; lia.
Qed.

Lemma store_facts ns x c i v : cache_ok ns x c -> i < length ns -> v = value_at ns x i ->
  cache_ok ns x (store A c i v) /\ grows c (store A c i v) /\ computed A (store A c i v) i = true /\
  (computed A c i = false -> count ns c < count ns (store A c i v)).
Proof.
  intros C Hi ->. assert (G : grows c (store A c i (value_at ns x i))).
  { intros j H. cbn. now destruct (Nat.eqb j i). }
  split; [|split; [exact G|split; cbn]].
  - intros j H. unfold store in *. cbn [computed values] in *. destruct (Nat.eqb j i) eqn:Ej; [apply Nat.eqb_eq in Ej; subst j; auto|]. now apply C.
  - now rewrite Nat.eqb_refl.
  - intros H. eapply filter_lt with (a := i); [exact G|apply in_seq; lia|exact H|]. cbn. now rewrite Nat.eqb_refl.
Qed.

Lemma eval_enter dim ns x : nodes_ok dim ns -> length x = dim ->
  forall i, i < length ns -> forall stack c, cache_ok ns x c ->
  exists n c', (forall fuel, eval_loop A (n + fuel) ns x (Enter i :: stack) c = eval_loop A fuel ns x stack c') /\
    cache_ok ns x c' /\ grows c c' /\ computed A c' i = true /\ n + 3 * count ns c <= 1 + 3 * count ns c' /\
    (forall j, computed A c' j = true -> computed A c j = true \/ j <= i).
Proof.
  intros W Lx i. induction i as [i IH] using (well_founded_induction lt_wf). intros Hi stack c C.
  destruct (computed A c i) eqn:Ec.
  { exists 1, c. split; [intros fuel; cbn; now rewrite Ec|]. repeat split; try (now apply C); [now intros ? ?|exact Ec|lia|now left]. }
  destruct (nth_error ns i) as [nd|] eqn:E; [|apply nth_error_None in E; lia].
  pose proof (W _ _ E) as Wi. pose proof (value_at_eq dim ns x W i) as V. rewrite E in V.
  assert (L : forall c2 v j, computed A (store A c2 i v) j = true -> computed A c2 j = true \/ j = i).
  { intros c2 v j. cbn. destruct (Nat.eqb_spec j i); auto. }
  destruct nd as [v|k|o l r|g a]; cbn in Wi.
  - destruct (store_facts ns x c i (nth v x (c0 A)) C Hi (eq_sym V)) as (C' & G & Hc & Ct). specialize (Ct Ec).
    exists 1, (store A c i (nth v x (c0 A))). split; [|split; [exact C'|split; [exact G|split; [exact Hc|split; [lia|]]]]].
    + intros fuel. cbn. rewrite Ec, E.
      assert (Hv : nth_error x v = Some (nth v x (c0 A))) by (apply nth_error_nth'; lia). now rewrite Hv.
    + intros j Hj. destruct (L _ _ _ Hj); [now left|right; lia].
  - destruct (store_facts ns x c i k C Hi (eq_sym V)) as (C' & G & Hc & Ct). specialize (Ct Ec).
    exists 1, (store A c i k). split; [|split; [exact C'|split; [exact G|split; [exact Hc|split; [lia|]]]]].
    + intros fuel. cbn. now rewrite Ec, E.
    + intros j Hj. destruct (L _ _ _ Hj); [now left|right; lia].
  - destruct Wi as [Wl Wr].
    destruct (IH r Wr ltac:(lia) (Enter l :: Leave i :: stack) c C) as (n1 & c1 & S1 & C1 & G1 & H1 & N1 & B1).
    destruct (IH l Wl ltac:(lia) (Leave i :: stack) c1 C1) as (n2 & c2 & S2 & C2 & G2 & H2 & N2 & B2).
    destruct (C2 _ H2) as [_ Vl]. destruct (C2 _ (G2 _ H1)) as [_ Vr].
    assert (Hn : computed A c2 i = false).
    { destruct (computed A c2 i) eqn:X; [|reflexivity]. destruct (B2 _ X) as [Y|]; [|lia]. destruct (B1 _ Y); [congruence|lia]. }
    destruct (store_facts ns x c2 i _ C2 Hi (eq_sym V)) as (C' & G & Hc & Ct). specialize (Ct Hn).
    eexists (1 + n1 + n2 + 1), (store A c2 i _). split; [|split; [exact C'|split; [|split; [exact Hc|split; [lia|]]]]].
    + intros fuel. replace (1 + n1 + n2 + 1 + fuel) with (S (n1 + (n2 + S fuel))) by lia.
      cbn [eval_loop eval_step]. rewrite Ec, E, S1, S2. cbn [eval_loop eval_step]. now rewrite E, Vl, Vr.
    + intros j H. now apply G, G2, G1.
    + intros j Hj. destruct (L _ _ _ Hj) as [X|]; [|lia]. destruct (B2 _ X) as [Y|]; [|lia]. destruct (B1 _ Y); [now left|lia].
  - destruct (IH a Wi ltac:(lia) (Leave i :: stack) c C) as (n1 & c1 & S1 & C1 & G1 & H1 & N1 & B1).
    destruct (C1 _ H1) as [_ Va].
    assert (Hn : computed A c1 i = false).
    { destruct (computed A c1 i) eqn:X; [|reflexivity]. destruct (B1 _ X); [congruence|lia]. }
    destruct (store_facts ns x c1 i _ C1 Hi (eq_sym V)) as (C' & G & Hc & Ct). specialize (Ct Hn).
    eexists (1 + n1 + 1), (store A c1 i _). split; [|split; [exact C'|split; [|split; [exact Hc|split; [lia|]]]]].
    + intros fuel. replace (1 + n1 + 1 + fuel) with (S (n1 + S fuel)) by lia.
      cbn [eval_loop eval_step]. rewrite Ec, E, S1. cbn [eval_loop eval_step]. now rewrite E, Va.
    + intros j H. now apply G, G1.
    + intros j Hj. destruct (L _ _ _ Hj) as [X|]; [|lia]. destruct (B1 _ X) as [Y|]; [now left|lia].
Qed.

Lemma eval_node_ok dim ns x i c fuel : nodes_ok dim ns -> length x = dim -> i < length ns -> cache_ok ns x c -> 1 + 3 * length ns <= fuel ->
  exists c', eval_node A fuel ns i x c = Some (Ok (value_at ns x i, c')) /\ cache_ok ns x c'.
Proof.
  intros W Lx Hi C Hf. destruct (eval_enter dim ns x W Lx i Hi [] c C) as (n & c' & S1 & C' & _ & H & N & _).
  pose proof (count_le ns c'). replace fuel with (n + (fuel - n)) by lia. exists c'. split; [|exact C'].
  unfold eval_node. rewrite S1. destruct (C' _ H) as [_ V]. destruct (fuel - n); cbn; now rewrite V.
Qed.
Lemma invalidate_ok ns x c : cache_ok ns x (invalidate A c).
Proof. intros j H. discriminate H. Qed.
Lemma eval_all_ok dim ns x fuel : nodes_ok dim ns -> length x = dim -> 1 + 3 * length ns <= fuel ->
  forall g c, (forall d, In d g -> d < length ns) -> cache_ok ns x c ->
  exists c', eval_all A fuel ns g x c = Some (Ok (map (value_at ns x) g, c')).
Proof.
  intros W Lx Hf g. induction g as [|d g IH]; intros c B C; [eexists; reflexivity|].
  cbn. destruct (eval_node_ok dim ns x d c fuel W Lx (B d (or_introl eq_refl)) C Hf) as (c1 & -> & C1).
  destruct (IH c1 (fun d' H => B d' (or_intror H)) C1) as (c2 & ->). eexists. reflexivity.
Qed.

(** *** The memory while recording *)
Context (K : T -> Prop) (consistent : forall c d, K c -> K d -> a_eqb A c d = true -> c = d).
Record memory_ok (dim : nat) (m : memory) : Prop := {
  mo_nodes : nodes_ok dim (nodes m);
  mo_values : forall c i, In (c, i) (allocated_values m) -> K c /\ nth_error (nodes m) i = Some (NVal c)
}.
(** [m'] has all the nodes of [m], then some. *)
Definition sub (dim : nat) (m m' : memory) : Prop := memory_ok dim m' /\ exists more, nodes m' = nodes m ++ more.
Definition has (m : memory) (i : nat) (v : list T -> T) : Prop :=
  i < length (nodes m) /\ forall x, value_at (nodes m) x i = v x.

Lemma sub_refl dim m : memory_ok dim m -> sub dim m m.
Proof. intros H. split; [exact H|]. exists []. now rewrite app_nil_r. Qed.
Lemma sub_trans dim m1 m2 m3 : sub dim m1 m2 -> sub dim m2 m3 -> sub dim m1 m3.
Proof. intros [_ [a Ha]] [H [b Hb]]. split; [exact H|]. exists (a ++ b). now rewrite Hb, Ha, app_assoc. Qed.
Lemma sub_has dim m m' i v : memory_ok dim m -> sub dim m m' -> has m i v -> has m' i v.
Proof.
  intros M [M' [more E]] [Hi V]. split; [rewrite E, app_length; lia|]. intros x. rewrite E.
  rewrite (value_at_app dim); [apply V|apply M| |exact Hi]. rewrite <- E. apply M'.
Qed.
Lemma sub_nth dim m m' i n : sub dim m m' -> nth_error (nodes m) i = Some n -> nth_error (nodes m') i = Some n.
Proof. intros [_ [more E]] H. rewrite E, nth_error_app1; [exact H|]. apply nth_error_Some. congruence. Qed.

Lemma nodes_ok_snoc dim ns n : nodes_ok dim ns -> node_ok dim (length ns) n -> nodes_ok dim (ns ++ [n]).
Proof.
  intros W Hn i k H. destruct (Nat.lt_ge_cases i (length ns)) as [L|L].
  - rewrite nth_error_app1 in H by exact L. now apply W.
  - rewrite nth_error_app2 in H by exact L. destruct (i - length ns) as [|d] eqn:D; cbn in H; [|destruct d; discriminate].
    injection H as <-. now replace i with (length ns) by lia.
Qed.
Lemma new_node_ok dim m n : memory_ok dim m -> node_ok dim (length (nodes m)) n ->
  let r := new_node A m n in
  sub dim m (fst r) /\ snd r < length (nodes (fst r)) /\ nth_error (nodes (fst r)) (snd r) = Some n.
Proof.
  intros M Hn. cbn. repeat split.
  - now apply nodes_ok_snoc; [apply M|].
  - cbn in H. now apply (mo_values _ _ M) in H.
  - cbn in *. apply (mo_values _ _ M) in H as [_ H]. rewrite nth_error_app1; [exact H|]. apply nth_error_Some. congruence.
  - eexists. reflexivity.
  - rewrite app_length. cbn. lia.
  - rewrite nth_error_app2, Nat.sub_diag by lia. reflexivity.
Qed.
Lemma find_value_in c l i : find_value A c l = Some i -> exists d, In (d, i) l /\ a_eqb A c d = true.
Proof.
  induction l as [|[d j] l IH]; cbn; [discriminate|]. destruct (a_eqb A c d) eqn:E.
  - intros [= ->]. exists d. auto.
  - intros H. destruct (IH H) as (e & ? & ?). exists e. auto.
Qed.
Lemma replace_nth_same {X} (l : list X) i y : nth_error l i = Some y -> replace_nth l i y = l.
Proof. revert i. induction l as [|z l IH]; intros [|i]; cbn; try congruence. intros H. now rewrite IH. Qed.
Lemma value_node_ok dim m c : memory_ok dim m -> K c ->
  let r := value_node A m c in
  sub dim m (fst r) /\ snd r < length (nodes (fst r)) /\ nth_error (nodes (fst r)) (snd r) = Some (NVal c).
Proof.
  intros M Hc. unfold value_node. destruct (find_value A c (allocated_values m)) as [i|] eqn:F.
  - destruct (find_value_in _ _ _ F) as (d & Hin & Heq). destruct (mo_values _ _ M _ _ Hin) as [Kd Hd].
    pose proof (consistent _ _ Hc Kd Heq) as <-. cbn. rewrite replace_nth_same by exact Hd. destruct m as [ns av]. cbn in *.
    split; [now apply sub_refl|]. split; [apply nth_error_Some; congruence|exact Hd].
  - cbn. pose proof (nodes_ok_snoc dim (nodes m) (NVal c) (mo_nodes _ _ M) I) as W.
    assert (L : nth_error (nodes m ++ [NVal c]) (length (nodes m)) = Some (NVal c)) by (rewrite nth_error_app2, Nat.sub_diag by lia; reflexivity).
    split; [|split; [rewrite app_length; cbn; lia|exact L]]. split; [|eexists; reflexivity]. constructor; [exact W|].
    cbn. intros c' i [[= <- <-]|H]; [split; assumption|]. apply (mo_values _ _ M) in H as [? H]. split; [assumption|].
    rewrite nth_error_app1; [exact H|]. apply nth_error_Some. congruence.
Qed.
Lemma has_node dim m i n : memory_ok dim m -> nth_error (nodes m) i = Some n ->
  has m i (fun x => match n with
                    | NVar v => nth v x (c0 A)
                    | NVal c => c
                    | NOp o l r => apply_operation A o (value_at (nodes m) x l) (value_at (nodes m) x r)
                    | NFun g a => apply_function A g (value_at (nodes m) x a)
                    end).
Proof.
  intros M H. split; [apply nth_error_Some; congruence|]. intros x. rewrite (value_at_eq dim _ _ (mo_nodes _ _ M)). now rewrite H.
Qed.
Lemma has_ext m i v w : has m i v -> (forall x, v x = w x) -> has m i w.
Proof. intros [H V] E. split; [exact H|]. intros x. now rewrite V. Qed.

Lemma op_has dim m o l r u v : memory_ok dim m -> has m l u -> has m r v ->
  forall m' i, op_node A m o l r = (m', i) -> sub dim m m' /\ has m' i (fun x => apply_operation A o (u x) (v x)).
Proof.
  intros M [Hl Vl] [Hr Vr] m' i E. pose proof (new_node_ok dim m (NOp o l r) M (conj Hl Hr)) as H. unfold op_node in E. rewrite E in H. cbn [fst snd] in H.
  destruct H as (S1 & Hi & N1). split; [exact S1|]. eapply has_ext; [apply (has_node dim); [apply S1|exact N1]|].
  intros x. cbn beta iota. pose proof (sub_has dim m m' l u M S1 (conj Hl Vl)) as [_ Ul]. pose proof (sub_has dim m m' r v M S1 (conj Hr Vr)) as [_ Ur].
  now rewrite Ul, Ur.
Qed.
Lemma fun_has dim m f a u : memory_ok dim m -> has m a u ->
  forall m' i, fun_node A m f a = (m', i) -> sub dim m m' /\ has m' i (fun x => apply_function A f (u x)).
Proof.
  intros M [Ha Va] m' i E. pose proof (new_node_ok dim m (NFun f a) M Ha) as H. unfold fun_node in E. rewrite E in H. cbn [fst snd] in H.
  destruct H as (S1 & Hi & N1). split; [exact S1|]. eapply has_ext; [apply (has_node dim); [apply S1|exact N1]|].
  intros x. cbn beta iota. pose proof (sub_has dim m m' a u M S1 (conj Ha Va)) as [_ Ua]. now rewrite Ua.
Qed.
Lemma value_has dim m c : memory_ok dim m -> K c ->
  forall m' i, value_node A m c = (m', i) -> sub dim m m' /\ has m' i (fun _ => c).
Proof.
  intros M Hc m' i E. pose proof (value_node_ok dim m c M Hc) as H. rewrite E in H. cbn [fst snd] in H. destruct H as (S1 & Hi & N1).
  split; [exact S1|]. eapply has_ext; [apply (has_node dim); [apply S1|exact N1]|]. reflexivity.
Qed.
Lemma neg_has dim m a u : memory_ok dim m -> K (c0 A) -> has m a u ->
  forall m' i, neg_node A m a = (m', i) -> sub dim m m' /\ has m' i (fun x => a_sub A (c0 A) (u x)).
Proof.
  intros M K0 Ha m' i. unfold neg_node. destruct (value_node A m (c0 A)) as [m1 z] eqn:Z. intros E.
  destruct (value_has dim m _ M K0 _ _ Z) as [S1 Hz]. destruct (op_has dim m1 subtract z a _ _ (proj1 S1) Hz (sub_has dim m m1 a u M S1 Ha) _ _ E) as [S2 Hi].
  split; [eapply sub_trans; eassumption|exact Hi].
Qed.
Lemma default_has dim m : memory_ok dim m -> 0 < dim ->
  forall m' i, default_node A m = (m', i) -> sub dim m m' /\ has m' i (fun x => nth 0 x (c0 A)).
Proof.
  intros M D m' i E. pose proof (new_node_ok dim m (NVar 0) M D) as H. unfold default_node in E. rewrite E in H. cbn [fst snd] in H.
  destruct H as (S1 & Hi & N1). split; [exact S1|]. eapply has_ext; [apply (has_node dim); [apply S1|exact N1]|]. reflexivity.
Qed.
Lemma repeat_default_ok dim n m : memory_ok dim m -> 0 < dim -> sub dim m (repeat_default A n m).
Proof.
  intros M D. revert m M. induction n as [|n IH]; intros m M; [now apply sub_refl|]. cbn [repeat_default].
  destruct (default_node A m) as [m1 i] eqn:E. destruct (default_has dim m M D _ _ E) as [S1 _]. cbn [fst].
  eapply sub_trans; [exact S1|]. apply IH, S1.
Qed.
Lemma variable_nodes_ok dim : forall n i m, memory_ok dim m -> i + n <= dim ->
  sub dim m (fst (variable_nodes A i n m)) /\ length (snd (variable_nodes A i n m)) = n /\
  forall v, v < n -> has (fst (variable_nodes A i n m)) (nth v (snd (variable_nodes A i n m)) 0) (fun x => nth (i + v) x (c0 A)).
Proof.
  induction n as [|n IH]; intros i m M D; [cbn; split; [now apply sub_refl|split; [reflexivity|lia]]|].
  cbn [variable_nodes]. destruct (new_node A m (NVar i)) as [m1 k] eqn:E.
  pose proof (new_node_ok dim m (NVar i) M) as H. cbn [node_ok] in H. rewrite E in H. cbn [fst snd] in H. destruct (H ltac:(lia)) as (S1 & _ & N1). clear H.
  destruct (IH (S i) m1 (proj1 S1) ltac:(lia)) as (S2 & L2 & V2). destruct (variable_nodes A (S i) n m1) as [m2 ks]. cbn [fst snd] in *.
  split; [eapply sub_trans; eassumption|]. split; [cbn; lia|]. intros [|v] Hv; cbn [nth].
  - apply (sub_has dim m1 m2 _ _ (proj1 S1) S2). rewrite Nat.add_0_r. eapply has_ext; [apply (has_node dim m1 k _ (proj1 S1) N1)|]. reflexivity.
  - replace (i + S v) with (S i + v) by lia. apply V2. lia.
Qed.
Lemma empty_ok dim : memory_ok dim (Memory [] []).
Proof. constructor; cbn; [intros [|i] n H; discriminate H|intros ? ? []]. Qed.
Lemma new_x_ok dim : 0 < dim -> memory_ok dim (fst (new_x A dim)) /\
  forall v, v < dim -> has (fst (new_x A dim)) (nth v (snd (new_x A dim)) 0) (fun x => nth v x (c0 A)).
Proof.
  intros D. unfold new_x. pose proof (repeat_default_ok dim dim _ (empty_ok dim) D) as S1.
  destruct (variable_nodes_ok dim dim 0 _ (proj1 S1) (le_n _)) as (S2 & _ & V). split; [apply S2|exact V].
Qed.

(** *** Recording *)
Definition plain (i : instr A) : Prop := match i with INeg _ | IDefault => False | _ => True end.
Definition constant_ok (i : instr A) : Prop := match i with IConst c => K c | _ => True end.
(** Where a recorded function may differ from the native one. *)
Definition faithful (i : instr A) : Prop :=
  match i with
  | IConst c => K c
  | INeg _ => K (c0 A) /\ forall y, a_sub A (c0 A) y = a_opp A y
  | IDefault => False
  | _ => True
  end.

Lemma native_from_app x p : forall results, exists more, native_from A x p results = results ++ more /\ length more = length p.
Proof.
  induction p as [|i p IH]; intros results; cbn; [exists []; now rewrite app_nil_r|].
  destruct (IH (results ++ [native_step A x results i])) as (more & -> & L). eexists (_ :: more). rewrite <- app_assoc. split; [reflexivity|]. cbn. now rewrite L.
Qed.
Lemma record_ok dim xs p : forall m results (vals : list T -> list T),
  memory_ok dim m -> (forall v, v < dim -> has m (nth v xs 0) (fun x => nth v x (c0 A))) ->
  (forall x, length (vals x) = length results) ->
  (forall k, k < length results -> has m (nth k results 0) (fun x => nth k (vals x) (c0 A))) ->
  (forall k i, nth_error p k = Some i -> instr_ok A dim (length results + k) i) -> Forall faithful p ->
  let r := record_from A m xs p results in
  sub dim m (fst r) /\ length (snd r) = length results + length p /\
  forall k, k < length results + length p -> has (fst r) (nth k (snd r) 0) (fun x => nth k (native_from A x p (vals x)) (c0 A)).
Proof.
  induction p as [|i p IH]; intros m results vals M X Lv R P F; cbn [record_from native_from fst snd].
  { split; [now apply sub_refl|]. cbn. rewrite Nat.add_0_r. auto. }
  inversion F as [|? ? Fi Fp]; subst. pose proof (P 0 i eq_refl) as Pi. rewrite Nat.add_0_r in Pi.
  destruct (record_step A m xs results i) as [m1 r] eqn:E.
  assert (H : sub dim m m1 /\ has m1 r (fun x => native_step A x (vals x) i)).
  { destruct i as [c|v|o a b|f a|a|]; cbn in E, Pi, Fi |- *.
    - exact (value_has dim m c M Fi _ _ E).
    - injection E as <- <-. split; [now apply sub_refl|now apply X].
    - destruct Pi. exact (op_has dim m o _ _ _ _ M (R a ltac:(assumption)) (R b ltac:(assumption)) _ _ E).
    - exact (fun_has dim m f _ _ M (R a Pi) _ _ E).
    - destruct Fi as [K0 Fi]. destruct (neg_has dim m _ _ M K0 (R a Pi) _ _ E) as [S1 H1]. split; [exact S1|].
      eapply has_ext; [exact H1|]. intros x. apply Fi.
    - destruct Fi. }
  destruct H as [S1 Hr].
  specialize (IH m1 (results ++ [r]) (fun x => vals x ++ [native_step A x (vals x) i])). cbv zeta in IH.
  destruct (IH (proj1 S1)) as (S2 & L2 & V2).
  - intros v Hv. apply (sub_has dim m m1 _ _ M S1). now apply X.
  - intros x. rewrite !app_length, Lv. reflexivity.
  - intros k Hk. rewrite app_length in Hk. cbn in Hk. destruct (Nat.eq_dec k (length results)) as [->|Hn].
    + rewrite app_nth2, Nat.sub_diag by lia. cbn [nth]. eapply has_ext; [exact Hr|]. intros x. cbn beta.
      rewrite app_nth2 by (rewrite Lv; lia). rewrite Lv, Nat.sub_diag. reflexivity.
    + rewrite app_nth1 by lia. eapply has_ext; [apply (sub_has dim m m1 _ _ M S1), R; lia|]. intros x. cbn beta.
      rewrite app_nth1; [reflexivity|]. rewrite Lv. lia.
  - intros k i' Hk. rewrite app_length. cbn. replace (length results + 1 + k) with (length results + S k) by lia. now apply P.
  - exact Fp.
  - rewrite app_length in *. cbn [length] in *. split; [eapply sub_trans; eassumption|]. split; [lia|].
    intros k Hk. apply V2. lia.
Qed.
Lemma recorded_ok dim p : 0 < dim -> program_ok A dim p -> Forall faithful p ->
  let (m, rs) := recorded A dim p in
  memory_ok dim m /\ length rs = length p /\ forall k, k < length p -> has m (nth k rs 0) (fun x => native A x p k).
Proof.
  intros D P F. unfold recorded. destruct (new_x_ok dim D) as [M X]. destruct (new_x A dim) as [m xs]. cbn [fst snd] in *.
  pose proof (record_ok dim xs p m [] (fun _ => []) M X (fun _ => eq_refl) ltac:(cbn; lia) P F) as H.
  cbv zeta in H. destruct (record_from A m xs p []) as [m' rs]. cbn [fst snd length Nat.add] in H. destruct H as ([M' _] & L & V). auto.
Qed.
End Generic.
