(** * Progress lines and threads *)
From Coq Require Import ZArith Lia.
From stdpp Require Import list.
From Verif Require Import Progress_Model Progress_Spec Progress_Props.
Local Open Scope Z_scope.

Definition pending (total : Z) (rs : list (option (Z * status))) (ps : list (option status)) : Prop :=
  ∀ i : nat, rs !! i = (λ p, (λ s, (total - (Z.of_nat i + 1), s)) <$> p) <$> ps !! i.
Lemma pending_length total rs ps : pending total rs ps → length rs = length ps.
Proof.
  intros H. destruct (lt_eq_lt_dec (length rs) (length ps)) as [[L|L]|L]; [|done|]; exfalso.
  - specialize (H (length rs)). rewrite (lookup_ge_None_2 rs) in H by lia. destruct (lookup_lt_is_Some_2 ps (length rs) L) as (x & E). by rewrite E in H.
  - specialize (H (length ps)). rewrite (lookup_ge_None_2 ps) in H by lia. destruct (lookup_lt_is_Some_2 rs (length ps) L) as (x & E). by rewrite E in H.
Qed.
Lemma pending_insert total rs ps i p : pending total rs ps → pending total (<[i := (λ s, (total - (Z.of_nat i + 1), s)) <$> p]> rs) (<[i := p]> ps).
Proof.
  intros H j. pose proof (pending_length total rs ps H) as L. destruct (decide (i = j)) as [<-|N]; [|by rewrite !list_lookup_insert_ne].
  destruct (decide (i < length ps)%nat) as [I|I]; [by rewrite !list_lookup_insert by lia|]. by rewrite !list_insert_ge by lia.
Qed.
Lemma fires_good H t0 es : (∀ e, e ∈ es → e ≠ ECount ∧ e ≠ ENewline) → ∀ th ps ss t o th',
  good H t0 ss t → Forall2 line_ok (lines (shared th)) ss → total_ (shared th) = Z.of_nat (length ss) → Z.of_nat (length ss) < H →
  pending (total_ (shared th)) (reading th) ps →
  fires th es = Some (o, th') → good H t0 (foldl printed1 (ps, ss) es).2 (prints H t o).
Proof.
  induction es as [|e es IH]; intros C th ps ss t o th' G L T B P F; [by injection F as <- <-|]. cbn [fires] in F.
  destruct (fire th e) as [[o1 th1]|] eqn:E; [|done]. destruct (fires th1 es) as [[o2 th2]|] eqn:F2; [|done]. injection F as <- <-. rewrite prints_app. simpl foldl.
  assert (C' : ∀ e, e ∈ es → e ≠ ECount ∧ e ≠ ENewline) by (intros e' I; apply C; by right). destruct (C e) as [N1 N2]; [by left|].
  destruct e as [| |i s|i]; try done; simpl in E; simpl printed1.
  - destruct (reading th !! i) as [[?|]|] eqn:R; try done. injection E as <- <-. simpl. eapply (IH C' _ _ ss t o2 th2 G); [| | | |exact F2]; try done.
    exact (pending_insert _ _ _ i (Some s) P).
  - destruct (reading th !! i) as [[[n s]|]|] eqn:R; try done. destruct (lines (shared th) !! i) as [l|] eqn:LI; [|done].
    destruct (do_update (Some n) l s) as [o3 l3] eqn:DU. injection E as <- <-. pose proof (P i) as PI. rewrite R in PI.
    destruct (ps !! i) as [[s'|]|] eqn:PS; simpl in PI; try done. injection PI as -> ->.
    destruct (Forall2_lookup_l _ _ _ _ _ L LI) as (s0 & SI & OK).
    pose proof (good_update H t0 ss t i l s0 s' G B SI OK) as G'. rewrite <- T, DU in G'.
    eapply (IH C' _ _ (<[i:=s']> ss) _ o2 th2 G'); [| | | |exact F2]; simpl.
    + apply Forall2_insert; [done|]. pose proof (do_update_ok (Some (total_ (shared th) - (Z.of_nat i + 1))) l s0 s' OK) as O. by rewrite DU in O.
    + by rewrite insert_length.
    + by rewrite insert_length.
    + exact (pending_insert _ _ _ i None P).
Qed.
(** Once the lines have been created, their threads can update them at the same time, each its own: however they interleave, each line shows what was printed for it last. *)
Theorem C99_threads_can_update_their_lines H t0 os es o th : ready H t0 → Z.of_nat (length (latest os)) < H →
  (∀ e, e ∈ es → e ≠ ECount ∧ e ≠ ENewline) →
  fires (Threads (run no_lines os).2 (replicate (length (latest os)) None)) es = Some (o, th) →
  displays t0 (printed (latest os) es) (prints H t0 ((run no_lines os).1 ++ o)).
Proof.
  intros R B C F. rewrite prints_app.
  destruct (run_good H t0 os no_lines [] t0 (ready_good H t0 R) ltac:(by constructor) eq_refl B) as (G & L & T).
  eapply (fires_good H t0 es C (Threads (run no_lines os).2 (replicate (length (latest os)) None)) (replicate (length (latest os)) None) (latest os) _ o th G L T B); [|exact F].
  intros i. simpl. destruct (decide (i < length (latest os))%nat) as [I|I]; [by rewrite !lookup_replicate_2 by done|].
  rewrite !(lookup_ge_None_2 (replicate _ _)) by (rewrite replicate_length; lia). done.
Qed.

Definition ex_terminal : terminal := Terminal (λ r _, if decide (r < 5) then (36, []) else blank) 5 0 [] 0.
Lemma ex_ready H : 6 <= H → ready H ex_terminal.
Proof. intros B. unfold ready. simpl. split_and!; try done; try lia. intros r k G. rewrite decide_False by lia. done. Qed.
Definition s_a : status := [Text [97; 97]; Style 31; Text [98]].
(** [a], then two lines, and the first one shorter, in color *)
Example ex_multi : ready 24 ex_terminal ∧ latest [Create; Update 0 s_a; Create; Update 1 [Text [99]]; Update 0 [Style 1; Text [100]]] = [[Style 1; Text [100]]; [Text [99]]] ∧
  (run no_lines [Create; Update 0 s_a; Create; Update 1 [Text [99]]; Update 0 [Style 1; Text [100]]]).1 =
    [Newline; Up 1; Char 97; Char 97; Sgr 31; Char 98; Sgr 0; Newline; Newline; Up 1; Char 99; Sgr 0; Newline; Up 2; Sgr 1; Char 100; Sgr 0; Char 32; Char 32; Newline; Down 1] ∧
  shows s_a 2 = (98, [31]) ∧ shows s_a 3 = blank.
Proof. split_and!; [by apply ex_ready|vm_compute; reflexivity..]. Qed.
Example ex_single : (run_line new_line [s_a; s_a; [Text [99]]]).1 = [Char 97; Char 97; Sgr 31; Char 98; Sgr 0; Back; Back; Back; Char 32; Char 32; Char 32; Back; Back; Back; Char 99; Sgr 0] ∧
  destroy (run_line new_line [s_a; s_a; [Text [99]]]).2 = [Back; Char 32; Back].
Proof. split; vm_compute; reflexivity. Qed.
(** Two threads update two lines at the same time. *)
Example ex_threads : ∃ o th, fires (Threads (run no_lines [Create; Create]).2 [None; None]) [ERead 0 s_a; ERead 1 [Text [99]]; EPrint 1; EPrint 0] = Some (o, th) ∧
  printed [[]; []] [ERead 0 s_a; ERead 1 [Text [99]]; EPrint 1; EPrint 0] = [s_a; [Text [99]]].
Proof. eexists _, _. split; vm_compute; reflexivity. Qed.

(** A line that is updated while another thread creates the next one can be shown in the wrong row: how far up it is gets read before the mutex is taken (progress.h
    153-154). The status of the first line is then on the second. *)
Theorem C99_lines_can_be_created_by_other_threads_refuted :
  ¬ (∀ H t0 es o th, ready H t0 → row t0 + Z.of_nat (length es) < H → fires (Threads no_lines []) es = Some (o, th) → displays t0 (printed [] es) (prints H t0 o)).
Proof.
  intros A. destruct (A 24 ex_terminal [ECount; ENewline; ERead 0 s_a; ECount; ENewline; EPrint 0] _ _ (ex_ready 24 ltac:(lia)) ltac:(by vm_compute) eq_refl) as (_ & _ & _ & _ & B & _).
  specialize (B 0%nat s_a 0%nat eq_refl). vm_compute in B. discriminate.
Qed.
(** What was on the terminal before can be overwritten as well: between ++total_ (172, 178) and the end of line the constructor prints (71), other lines take themselves
    to be one row higher than they are. *)
Theorem C99_what_is_above_stays_refuted :
  ¬ (∀ H t0 es o th r k, ready H t0 → row t0 + Z.of_nat (length es) < H → fires (Threads no_lines []) es = Some (o, th) → r < row t0 → screen (prints H t0 o) r k = screen t0 r k).
Proof.
  intros A. pose proof (A 24 ex_terminal [ECount; ENewline; ECount; ERead 0 s_a; EPrint 0] _ _ 4 0%nat (ex_ready 24 ltac:(lia)) ltac:(by vm_compute) eq_refl ltac:(by vm_compute)) as B.
  vm_compute in B. discriminate.
Qed.
(** With more lines than there are rows, the lines that have left the screen are shown on its first row, over the line that is there: the cursor goes up no further. *)
Theorem C99_each_line_shows_its_status_refuted : ¬ (∀ H t0 os, ready H t0 → displays t0 (latest os) (prints H t0 (run no_lines os).1)).
Proof.
  intros A. destruct (A 6 ex_terminal [Create; Create; Create; Create; Create; Create; Update 0 s_a] (ex_ready 6 ltac:(lia))) as (_ & _ & _ & _ & B & _).
  specialize (B 1%nat [] 0%nat eq_refl). vm_compute in B. discriminate.
Qed.

Print Assumptions C99_threads_can_update_their_lines.
Print Assumptions C99_lines_can_be_created_by_other_threads_refuted.
Print Assumptions C99_what_is_above_stays_refuted.
Print Assumptions C99_each_line_shows_its_status_refuted.
