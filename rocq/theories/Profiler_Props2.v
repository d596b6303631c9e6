(** * The profiler: what always goes through, what is false, and examples *)
From stdpp Require Import gmap list.
From Verif Require Import Profiler_Model Profiler_Spec Profiler_Props.
Open Scope Z_scope.

(** A scope can be left exactly when it is the innermost one the thread is in; anything else can be done at any time. *)
Theorem C96_the_innermost_scope_can_be_left tr t s th k w c : 0 <= t → run tr (init t) = Some s →
  (is_Some (step (Leave th k w c) s) ↔ ∃ h p, (happened tr t).1 !! th = Some h ∧ inside h = k :: p) ∧
  is_Some (step (Enter th k w c) s) ∧ (∀ r, is_Some (step (Report th w c r) s)).
Proof.
  intros T E. destruct (reached tr t s T E) as (hs & -> & (_ & I)). simpl. unfold guarded. specialize (I th). split_and!.
  - destruct (threads s !! th) as [pt|], (hs !! th) as [h|]; try done; simpl.
    + pose proof I as []. unfold leave. destruct (stack pt) as [|k' p] eqn:S.
      * split; [by intros []|]. intros (h' & p & [= <-] & Q). by rewrite <- i_stack in Q.
      * destruct (decide (k = k')) as [<-|N].
        -- destruct (i_active (k :: p)) as (n & M); [unfold active; rewrite S; apply within_refl|]. rewrite M. simpl. split; [|eauto]. intros _. exists h, p. by rewrite <- i_stack.
        -- split; [by intros []|]. intros (h' & q & [= <-] & Q). rewrite <- i_stack in Q. congruence.
    + split; [by intros []|]. by intros (h & p & ? & _).
  - destruct (threads s !! th); simpl; eauto.
  - intros r. destruct (threads s !! th); simpl; eauto.
Qed.

(** Nobody's time goes down, or changes by more than the time that goes by, while nothing happens. *)
Theorem C96_reports_move_with_time tr t s now now' th l l' p us us' n n' : 0 <= t → run tr (init t) = Some s → time s <= now <= now' →
  report now s !! th = Some l → report now' s !! th = Some l' → l !! p = Some (us, n) → l' !! p = Some (us', n') →
  ∃ h, (happened tr t).1 !! th = Some h ∧ n' = n ∧ us' = us + (if decide (within p (inside h)) then now' - now else 0).
Proof.
  intros T E L R R' P P'. destruct (C96_time_is_accounted_for tr t s now th l p us n T E ltac:(lia) R P) as (h & H & -> & -> & _).
  destruct (C96_time_is_accounted_for tr t s now' th l' p us' n' T E ltac:(lia) R' P') as (h' & H' & -> & -> & _).
  rewrite H in H'. injection H' as <-. exists h. split_and!; [done..|]. unfold spent. rewrite !time_in_app, !time_in_one. repeat case_decide; lia.
Qed.

(** What one thread does leaves what is reported for another as it is. *)
Theorem C96_threads_do_not_disturb_each_other a s s' now th :
  step a s = Some s' → (match a with Enter th' _ _ _ | Leave th' _ _ _ | Report th' _ _ _ => th ≠ th' | Reset _ _ _ _ _ => False end) → report now s' !! th = report now s !! th.
Proof.
  intros E N. unfold report. rewrite !lookup_fmap. f_equal. destruct a as [th' k w c|th' k w c|th' w c r|]; [..|done]; simpl in E; unfold guarded in E.
  - destruct (threads s !! th'); injection E as <-; simpl; by rewrite lookup_insert_ne.
  - destruct (threads s !! th'); destruct (leave _ _ _); [|done| |done]; injection E as <-; simpl; by rewrite lookup_insert_ne.
  - destruct (threads s !! th'); injection E as <-; simpl; by rewrite lookup_insert_ne.
Qed.

(** A thread's first EnterScope counts the scope from before the thread's own entry is made (profiler.h 236-238, 114-118): the scope is reported to have taken
    longer than the thread it is in, its share of it is more than one or, if no time has gone by for the thread, one; the assertion that the parts take no longer
    than the whole (174) fails, which is printed. *)
Theorem C96_the_parts_of_a_thread_take_no_longer_than_the_thread_refuted :
  ¬ (∀ tr t s now th l p us n ks (parts_us : nat → Z), 0 <= t → run tr (init t) = Some s → time s <= now →
    report now s !! th = Some l → l !! p = Some (us, n) → NoDup ks → (∀ k, k ∈ ks → ∃ m, l !! (k :: p) = Some (parts_us k, m)) → sum parts_us ks <= us).
Proof.
  intros H.
  assert (E : ∃ s l, run [Enter 0 7 1 1] (init 0) = Some s ∧ time s = 2 ∧ report 10 s !! 0%nat = Some l ∧ l !! ([] : list nat) = Some (8, 1%nat) ∧ l !! [7%nat] = Some (9, 1%nat)).
  { do 2 eexists. split; [reflexivity|]. split; [reflexivity|]. split; [reflexivity|]. split; reflexivity. }
  destruct E as (s & l & R & T & L & P & Q). pose proof (H _ 0 s 10 0%nat l [] 8 1%nat [7%nat] (λ _, 9) ltac:(lia) R ltac:(lia) L P ltac:(apply NoDup_singleton)) as K.
  simpl in K. assert (9 + 0 <= 8); [|lia]. apply K. intros k ->%elem_of_list_singleton. eauto.
Qed.

(** After a reset, a scope that the thread is not in and has not entered since is reported to have been entered once (profiler.h 106, 128-130), and one entered
    since, once too often. *)
Theorem C96_entries_are_those_since_the_reset_refuted :
  ¬ (∀ tr t s now th l p us n h, 0 <= t → run tr (init t) = Some s → time s <= now → report now s !! th = Some l → l !! p = Some (us, n) → p ≠ [] →
    (happened tr t).1 !! th = Some h → n = (times p (entered h) + (if decide (within p (inside h) ∧ p ∈ known h) then 1 else 0))%nat).
Proof.
  intros H. set (tr := [Enter 0 7 1 1; Leave 0 7 1 1; Reset 0 1 1 (λ _, 5) 1]).
  assert (E : ∃ s l h, run tr (init 0) = Some s ∧ time s = 5 ∧ report 10 s !! 0%nat = Some l ∧ l !! [7%nat] = Some (0, 1%nat) ∧
    (happened tr 0).1 !! 0%nat = Some h ∧ entered h = [] ∧ inside h = []).
  { do 3 eexists. split; [vm_compute; reflexivity|]. split; [reflexivity|]. split; [reflexivity|]. split; [reflexivity|]. split; [reflexivity|]. split; reflexivity. }
  destruct E as (s & l & h & R & T & L & P & HH & EN & IN). pose proof (H tr 0 s 10 0%nat l [7%nat] 0 1%nat h ltac:(lia) R ltac:(lia) L P ltac:(done) HH) as K.
  rewrite EN, IN in K. case_decide as D; [|done]. destruct D as ((l' & X) & _). symmetry in X. by apply app_eq_nil in X as [_ ?].
Qed.

(** Two threads, nested scopes, one left and entered again, a report, a reset while inside, and more. *)
Definition ex_before : list action :=
  [Enter 0 7 2 1; Enter 0 8 10 1; Enter 1 7 1 1; Leave 0 8 20 1; Enter 0 8 5 1; Report 2 1 1 3; Leave 0 8 1 1].
Definition ex_trace : list action := ex_before ++ [Reset 1 4 1 (λ th, 51 + Z.of_nat th) 10; Enter 0 8 3 1; Leave 1 7 4 1].
Definition reported (tr : list action) (now : Z) : option (list (nat * list (list nat * (Z * nat)))) :=
  s ← run tr (init 0); Some (prod_map id map_to_list <$> map_to_list (report now s)).
Example ex_reported_before : reported ex_before 50 =
  Some [(0%nat, [([], (47, 1%nat)); ([7%nat], (48, 1%nat)); ([8%nat; 7%nat], (28, 2%nat))]); (1%nat, [([], (35, 1%nat)); ([7%nat], (36, 1%nat))]); (2%nat, [([], (8, 1%nat))])].
Proof. vm_compute. reflexivity. Qed.
Example ex_reported : reported ex_trace 80 =
  Some [(0%nat, [([], (29, 1%nat)); ([7%nat], (29, 1%nat)); ([8%nat; 7%nat], (17, 2%nat))]); (1%nat, [([], (28, 1%nat)); ([7%nat], (15, 1%nat))]); (2%nat, [([], (27, 1%nat))])].
Proof. vm_compute. reflexivity. Qed.
(** ... so the theorems apply: the times of thread 0 before the reset *)
Example ex_accounted : ∃ h, (happened ex_before 0).1 !! 0%nat = Some h ∧ 48 = spent h [7%nat] 50 ∧ 28 = spent h [8%nat; 7%nat] 50 ∧ late h = 1 ∧ 47 = spent h [] 50 - late h.
Proof. vm_compute. eexists. split; [reflexivity|]. repeat split; reflexivity. Qed.
Example ex_leave : (∃ s, run ex_before (init 0) = Some s ∧ is_Some (step (Leave 0 7 1 1) s) ∧ step (Leave 0 8 1 1) s = None ∧ step (Leave 2 7 1 1) s = None).
Proof. eexists. split; [vm_compute; reflexivity|]. split; [vm_compute; eauto|]. split; vm_compute; reflexivity. Qed.

Print Assumptions C96_time_is_accounted_for.
Print Assumptions C96_what_is_reported.
Print Assumptions C96_parts_take_no_longer.
Print Assumptions C96_parts_take_no_longer_after_a_reset.
Print Assumptions C96_the_innermost_scope_can_be_left.
Print Assumptions C96_reports_move_with_time.
Print Assumptions C96_threads_do_not_disturb_each_other.
Print Assumptions C96_the_parts_of_a_thread_take_no_longer_than_the_thread_refuted.
Print Assumptions C96_entries_are_those_since_the_reset_refuted.
