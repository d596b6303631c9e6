(** Property C19: publisher exclusivity. *)
From stdpp Require Import list.
From Verif Require Import Owned_Model Owned_Proofs Publisher_Model.
From Verif Require Owned_Spec.
Notation refers := Owned_Spec.refers.

(** ** What the users' own actions can do *)
Lemma external_frame s (o o' : owned) a : inv o → external_ok s a → exec o a = Some o' →
  handles o' 0 = handles o 0 ∧ handles o' 1 = handles o 1 ∧ next o' = next o ∧ (∀ h, container (handles o' h) = container (handles o h)) ∧
  (∀ h j, 2 ≤ h → refers o' h j → ∃ g, 2 ≤ g ∧ refers o g j).
Proof.
  intros I Hok H. unfold refers. destruct a as [h|h g|h g cb|h g cb|h g cb|h|h|h|i|i]; cbn [external_ok] in Hok; try done; cbn [exec] in H.
  - destruct Hok as [Hh Hg]. destruct (p_actual_instance (handles o g)) as [i|] eqn:Eg; [|done]. destruct (is_null (handles o h)) eqn:En; [|done]. apply is_null_spec in En as (N1 & N2 & N3).
    cbv zeta in H. injection H as <-. cbn [handles next]. rewrite !(upd_ne (handles o)) by lia. split_and!; try done.
    + intros h'. unfold upd. case_decide; [subst; done|done].
    + intros h' j Hh'. unfold upd. case_decide; cbn; [intros [= <-]; by exists g|intros E; by exists h'].
  - destruct Hok as (Hh & Hg & _). destruct (p_actual_instance (handles o g)) as [i|] eqn:Eg; [|done]. destruct (is_null (handles o h)) eqn:En; [|done]. apply is_null_spec in En as (N1 & N2 & N3).
    injection H as <-. cbn [handles next move_from]. rewrite !upd_ne by lia. split_and!; try done.
    + intros h'. unfold upd. repeat case_decide; subst; done.
    + intros h' j Hh'. unfold upd. repeat case_decide; subst; cbn; try done; [intros [= <-]; by exists g|intros E; by exists h'].
  - destruct Hok as (Hh & Hg & _). destruct (p_actual_instance (handles o g)) as [i|] eqn:Eg; [|done]. destruct (container (handles o h)) eqn:E1; [done|]. destruct (releasing (handles o h)) eqn:E2; [done|].
    injection H as <-. cbn [handles next move_from]. rewrite !upd_ne by lia. split_and!; try done.
    + intros h'. unfold upd. repeat case_decide; subst; done.
    + intros h' j Hh'. unfold upd. repeat case_decide; subst; cbn; try done; [intros [= <-]; by exists g|intros E; by exists h'].
  - destruct Hok as (Hh & _). destruct (p_actual_instance (handles o h)) as [i|] eqn:Eg; [|done]. destruct (container (handles o h)) eqn:E1; [done|]. cbv zeta in H.
    destruct (decide _); injection H as <-; cbn [handles next]; rewrite !(upd_ne (handles o)) by lia; (split_and!; try done);
      (intros h'; unfold upd; case_decide; [subst; cbn; done|]); try done; intros j Hh' E; by exists h'.
  - destruct (releasing (handles o h)) as [[i b]|] eqn:Er; [|done]. injection H as <-. cbn [handles next]. rewrite !(upd_ne (handles o)) by lia. destruct (i_releasing o I h i b Er) as (_ & R2 & R3). split_and!; try done;
      (intros h'; unfold upd; case_decide; [subst; cbn; done|]); try done; intros j Hh' E; by exists h'.
Qed.
Lemma external_kept s (o o' : owned) a h i : inv o → external_ok s a → exec o a = Some o' → 2 ≤ h → in_use s h → refers o h i → refers o' h i.
Proof.
  intros I Hok H Hh Hu R. unfold refers in *. destruct a as [h'|h' g|h' g cb|h' g cb|h' g cb|h'|h'|h'|j|j]; cbn [external_ok] in Hok; try done; cbn [exec] in H.
  - destruct (p_actual_instance (handles o g)) as [n|] eqn:Eg; [|done]. destruct (is_null (handles o h')) eqn:En; [|done]. apply is_null_spec in En as (N1 & N2 & N3).
    cbv zeta in H. injection H as <-. cbn [handles]. rewrite upd_ne; [done|]. intros ->. congruence.
  - destruct Hok as (_ & _ & U1 & U2). destruct (p_actual_instance (handles o g)) as [n|] eqn:Eg; [|done]. destruct (is_null (handles o h')) eqn:En; [|done].
    injection H as <-. cbn [handles move_from]. rewrite !upd_ne; [done| |]; by intros ->.
  - destruct Hok as (_ & _ & U1 & U2). destruct (p_actual_instance (handles o g)) as [n|] eqn:Eg; [|done]. destruct (container (handles o h')) eqn:E1; [done|]. destruct (releasing (handles o h')) eqn:E2; [done|].
    injection H as <-. cbn [handles move_from]. rewrite !upd_ne; [done| |]; by intros ->.
  - destruct Hok as (_ & U1). destruct (p_actual_instance (handles o h')) as [n|] eqn:Eg; [|done]. destruct (container (handles o h')) eqn:E1; [done|]. cbv zeta in H.
    destruct (decide _); injection H as <-; cbn [handles]; (rewrite upd_ne; [done|]); by intros ->.
  - destruct (releasing (handles o h')) as [[n b]|] eqn:Er; [|done]. injection H as <-. cbn [handles]. rewrite upd_ne; [done|]. intros ->. destruct (i_releasing o I h' n b Er) as (_ & _ & E). congruence.
Qed.

(** ** The invariant *)
Definition current (s : st) : Prop :=
  container (handles (pubs s) 0) = Some (changes s) ∧ p_actual_instance (handles (pubs s) 0) = Some (changes s) ∧ next (pubs s) = S (changes s) ∧ ∀ h j, refers (pubs s) h j → j = changes s.
Definition phase_inv (s : st) : Prop :=
  match publishing_mutex s with
  | Free => current s ∧ (is_master s = true ↔ p_actual_instance (handles (pubs s) 1) ≠ None) ∧ releasing (handles (pubs s) 1) = None
  | HeldByChange _ DropBorrowable => current s ∧ releasing (handles (pubs s) 1) = None
  | HeldByChange _ DropBorrowableNotify => current s ∧ p_actual_instance (handles (pubs s) 1) = None
  | HeldByChange _ DropOwned => current s ∧ is_null (handles (pubs s) 1) = true
  | HeldByChange _ WaitForBorrowers => is_null (handles (pubs s) 0) = true ∧ is_null (handles (pubs s) 1) = true ∧ next (pubs s) = S (changes s) ∧ ∀ h j, refers (pubs s) h j → j = changes s
  | HeldByChange _ MakeNew => is_null (handles (pubs s) 0) = true ∧ is_null (handles (pubs s) 1) = true ∧ next (pubs s) = S (changes s) ∧ ∀ h j, ¬ refers (pubs s) h j
  | HeldByChange _ GiveOut => handles (pubs s) 0 = Handle (Some (S (changes s))) (Some (S (changes s))) 0 None ∧ is_null (handles (pubs s) 1) = true ∧ next (pubs s) = S (S (changes s)) ∧
      ∀ h j, refers (pubs s) h j → h = 0
  end.
Record sinv (s : st) : Prop := SInv {
  s_own : inv (pubs s);
  s_containers : ∀ h, container (handles (pubs s) h) ≠ None → h = 0;
  s_phase : phase_inv s;
  s_follower : ∀ h pc, publishing_mutex s = HeldByChange (ToFollower h) pc → 2 ≤ h;
  s_calls : ∀ t h, calls s t = Some h → 2 ≤ h ∧ ∃ i, refers (pubs s) h i }.

Lemma null_is_null (x : handle) : container x = None → p_actual_instance x = None → releasing x = None → is_null x = true.
Proof. intros. by apply bool_decide_eq_true. Qed.

Lemma sinv_initial s : new_stream = Some s → sinv s.
Proof.
  unfold new_stream. destruct (exec initial (MakeOwned 0)) as [o|] eqn:E1; [|done]. destruct (exec o (Borrow 1 0 ())) as [o'|] eqn:E2; [|done]. intros [= <-].
  assert (inv o') as I. { eapply inv_step; [|exact E2]. eapply inv_step; [|exact E1]. apply inv_initial. }
  cbn in E1. injection E1 as <-. cbn in E2. injection E2 as <-.
  constructor; try done.
  - intros h. cbn. unfold upd. repeat case_decide; subst; done.
  - unfold phase_inv. cbn [publishing_mutex]. split_and!; [unfold current|done|done].
    split_and!; [done|done|done|]. intros h j. unfold refers. cbn. unfold upd. repeat case_decide; subst; cbn; try done; by intros [= <-].
Qed.

Lemma sinv_step s a r s' : sinv s → step s a r s' → sinv s'.
Proof.
  intros [I Hc P F K] H. destruct H as [s h o Hm Hh E|s h Hm E|s Hm|s a o Hok E|s t h i Hn Hh E|s t h i Hn Hm E|s r Hm Hr|s r pc s' Hm E|s r o Hm E].
  - (* BorrowPublisher *)
    assert (inv o) as I' by (by eapply inv_step). unfold phase_inv in P. rewrite Hm in P. destruct P as ((P1 & P2 & P3 & P4) & P5 & P6).
    cbn [exec] in E. destruct (p_actual_instance (handles (pubs s) 1)) as [i|] eqn:E1; [|done]. destruct (is_null (handles (pubs s) h)) eqn:En; [|done]. apply is_null_spec in En as (N1 & N2 & N3). cbv zeta in E. injection E as <-.
    assert (i = changes s) as -> by (by apply (P4 1)).
    constructor; cbn [pubs with_pubs handles insts next calls publishing_mutex]; try done.
    + intros h'. unfold upd. case_decide; [done|apply Hc].
    + unfold phase_inv. cbn [publishing_mutex with_pubs]. rewrite Hm. unfold current. cbn. rewrite !(upd_ne (handles (pubs s))) by lia. rewrite E1. split_and!; try done.
      intros h' j. unfold refers. cbn. unfold upd. case_decide; [by intros [= <-]|apply P4].
    + intros t h' Hc'. destruct (K t h' Hc') as (? & i & Hi). split; [done|]. unfold refers in *. cbn. unfold upd. case_decide; [by eexists|by exists i].
  - by constructor.
  - by constructor.
  - (* External *)
    assert (inv o) as I' by (by eapply inv_step). destruct (external_frame s (pubs s) o a I Hok E) as (E0 & E1 & E2 & E3 & E4).
    assert (∀ h j, refers o h j → (h = 0 ∧ refers (pubs s) 0 j) ∨ (h = 1 ∧ refers (pubs s) 1 j) ∨ ∃ g, 2 ≤ g ∧ refers (pubs s) g j) as E5.
    { intros h j. destruct h as [|[|h]]; [unfold refers; rewrite E0; auto|unfold refers; rewrite E1; auto|]. intros R. right. right. eapply E4; [|exact R]. lia. }
    assert (∀ h j, refers o h j → ∃ g, refers (pubs s) g j) as E6. { intros h j R. destruct (E5 h j R) as [[_ ?]|[[_ ?]|(g & _ & ?)]]; eauto. }
    constructor; cbn [pubs with_pubs calls publishing_mutex]; try done.
    + intros h. rewrite E3. apply Hc.
    + unfold phase_inv in *. cbn [publishing_mutex with_pubs]. unfold current in *. cbn [pubs with_pubs changes]. destruct (publishing_mutex s) as [|r [| | | | |]]; rewrite ?E0, ?E1, ?E2.
      * destruct P as ((P1 & P2 & P3 & P4) & P5 & P6). split_and!; try done. intros h j R. destruct (E6 h j R) as (g & Rg). by apply (P4 g).
      * destruct P as ((P1 & P2 & P3 & P4) & P6). split_and!; try done. intros h j R. destruct (E6 h j R) as (g & Rg). by apply (P4 g).
      * destruct P as ((P1 & P2 & P3 & P4) & P6). split_and!; try done. intros h j R. destruct (E6 h j R) as (g & Rg). by apply (P4 g).
      * destruct P as ((P1 & P2 & P3 & P4) & P6). split_and!; try done. intros h j R. destruct (E6 h j R) as (g & Rg). by apply (P4 g).
      * destruct P as (P1 & P2 & P3 & P4). split_and!; try done. intros h j R. destruct (E6 h j R) as (g & Rg). by apply (P4 g).
      * destruct P as (P1 & P2 & P3 & P4). split_and!; try done. intros h j R. destruct (E6 h j R) as (g & Rg). by apply (P4 g j).
      * destruct P as (P1 & P2 & P3 & P4). split_and!; try done. intros h j R. destruct (E5 h j R) as [[? _]|[[-> R1]|(g & Hg & Rg)]]; [done|by apply P4 in R1|apply P4 in Rg; lia].
    + intros t h Ht. destruct (K t h Ht) as (Hh & i & Hi). split; [done|]. exists i. exact (external_kept s _ _ a h i I Hok E Hh (ex_intro _ t Ht) Hi).
  - (* CallPublish *)
    constructor; cbn [pubs calls publishing_mutex]; try done. intros t' h'. unfold upd_call. case_decide; [intros [= <-]; split; [done|by exists i]|apply K].
  - (* DoPublish *)
    constructor; cbn [pubs calls publishing_mutex]; try done.
    + unfold phase_inv in *. by rewrite Hm in P.
    + intros t' h'. unfold upd_call. case_decide; [done|apply K].
  - (* StartChange *)
    constructor; cbn [pubs with_phase calls publishing_mutex]; try done.
    + unfold phase_inv in *. rewrite Hm in P. cbn. destruct P as (P1 & P2 & P3). split; done.
    + intros h pc. by intros [= -> <-].
  - (* ContinueChange *)
    destruct pc; cbn [change_step] in E; unfold phase_inv in P; rewrite Hm in P.
    + destruct P as ((P1 & P2 & P3 & P4) & P5). destruct (p_actual_instance (handles (pubs s) 1)) as [j|] eqn:E1.
      * destruct (exec (pubs s) (Release 1)) as [o|] eqn:Eo; [|done]. injection E as <-. assert (inv o) as I' by (by eapply inv_step).
        assert (j = changes s) as -> by (by apply (P4 1)).
        cbn [exec] in Eo. rewrite E1 in Eo. destruct (container (handles (pubs s) 1)) eqn:Ec; [done|]. cbv zeta in Eo.
        assert (∃ x, handles o = upd (handles (pubs s)) 1 x ∧ container x = None ∧ p_actual_instance x = None ∧ next o = next (pubs s)) as (x & X1 & X2 & X3 & X4).
        { destruct (decide _); injection Eo as <-; eexists; cbn; done. } clear Eo.
        constructor; cbn [pubs with_phase calls publishing_mutex]; try done.
        -- intros h. rewrite X1. destruct (decide (h = 1)) as [->|Nh]; [rewrite upd_eq, X2; done|rewrite upd_ne by done; apply Hc].
        -- unfold phase_inv. cbn. unfold current. cbn. rewrite X1, X4. rewrite !(upd_ne _ 1) by done. rewrite upd_eq. split_and!; try done.
           intros h j. unfold refers. rewrite X1. unfold upd. case_decide; [by rewrite X3|apply P4].
        -- intros h pc. intros [= -> _]. by eapply F.
        -- intros t h Ht. destruct (K t h Ht) as (? & i & Hi). split; [done|]. exists i. unfold refers in *. rewrite X1, upd_ne by lia. done.
      * injection E as <-. assert (is_null (handles (pubs s) 1) = true) as E1'.
        { apply null_is_null; try done. destruct (container (handles (pubs s) 1)) eqn:Ec; [assert (1 = 0) by (apply Hc; by rewrite Ec); done|done]. }
        constructor; cbn [pubs with_phase calls publishing_mutex]; try done; try (by split). intros h pc. intros [= -> _]. by eapply F.
    + destruct P as ((P1 & P2 & P3 & P4) & P5). destruct (exec (pubs s) (ReleaseNotify 1)) as [o|] eqn:Eo; [|done]. injection E as <-. assert (inv o) as I' by (by eapply inv_step).
      cbn [exec] in Eo. destruct (releasing (handles (pubs s) 1)) as [[j b]|] eqn:Er; [|done]. injection Eo as <-.
      constructor; cbn [pubs with_phase calls publishing_mutex handles]; try done.
      * intros h. unfold upd. case_decide; [done|apply Hc].
      * unfold phase_inv. cbn. unfold current. cbn. rewrite !(upd_ne _ 1) by done. rewrite upd_eq. split_and!; try done.
        intros h j'. unfold refers. cbn. unfold upd. case_decide; [done|apply P4].
      * intros h pc. intros [= -> _]. by eapply F.
      * intros t h Ht. destruct (K t h Ht) as (? & i & Hi). split; [done|]. exists i. unfold refers in *. cbn. rewrite upd_ne by lia. done.
    + destruct P as ((P1 & P2 & P3 & P4) & P5). destruct (exec (pubs s) (Destroy 0)) as [o|] eqn:Eo; [|done]. injection E as <-. assert (inv o) as I' by (by eapply inv_step).
      cbn [exec] in Eo. rewrite P1 in Eo. cbv zeta in Eo. injection Eo as <-.
      constructor; cbn [pubs with_phase calls publishing_mutex handles]; try done.
      * intros h. unfold upd. case_decide; [done|apply Hc].
      * unfold phase_inv. cbn. rewrite upd_eq. rewrite upd_ne by done. split_and!; try done.
        intros h j'. unfold refers. cbn. unfold upd. case_decide; [done|apply P4].
      * intros h pc. intros [= -> _]. by eapply F.
      * intros t h Ht. destruct (K t h Ht) as (? & i & Hi). split; [done|]. exists i. unfold refers in *. cbn. rewrite upd_ne by lia. done.
    + destruct P as (P1 & P2 & P3 & P4).
      assert (∀ o, exec (pubs s) (Continue (changes s)) = Some o → sinv (with_pubs s o)) as W.
      { intros o Eo. assert (inv o) as I' by (by eapply inv_step). cbn [exec] in Eo. cbv zeta in Eo.
        assert (handles o = handles (pubs s) ∧ next o = next (pubs s)) as [X1 X2]. { destruct (dtor (insts (pubs s) (changes s))) as [| |[|]| | |]; try done; by injection Eo as <-. }
        constructor; cbn [pubs with_pubs calls publishing_mutex]; unfold refers; rewrite ?X1; try done.
        unfold phase_inv. cbn [publishing_mutex with_pubs]. rewrite Hm. cbn. unfold refers. rewrite X1, X2. done. }
      destruct (dtor (insts (pubs s) (changes s))) eqn:Ed; try (destruct (exec (pubs s) (Continue (changes s))) as [o|]; [|done]; injection E as <-; by apply W).
      injection E as <-. constructor; cbn [pubs with_phase calls publishing_mutex]; try done.
      * unfold phase_inv. cbn. split_and!; try done. intros h j R. pose proof (P4 h j R) as ->. by apply (refers_not_destroyed (pubs s) h (changes s) I R).
      * intros h pc. intros [= -> _]. by eapply F.
    + destruct P as (P1 & P2 & P3 & P4). destruct (exec (pubs s) (MakeOwned 0)) as [o|] eqn:Eo; [|done]. injection E as <-. assert (inv o) as I' by (by eapply inv_step).
      cbn [exec] in Eo. rewrite P1 in Eo. injection Eo as <-.
      constructor; cbn [pubs with_phase calls publishing_mutex handles]; try done.
      * intros h. unfold upd. case_decide; [done|apply Hc].
      * unfold phase_inv. cbn. rewrite upd_eq. rewrite upd_ne by done. rewrite P3. split_and!; try done.
        intros h j'. unfold refers. cbn. unfold upd. case_decide; [done|]. intros R. by destruct (P4 h j').
      * intros h pc. intros [= -> _]. by eapply F.
      * intros t h Ht. destruct (K t h Ht) as (? & i & Hi). by destruct (P4 h i).
    + destruct P as (P1 & P2 & P3 & P4).
      assert (∀ g m o, 1 ≤ g → (m = true → g = 1) → (m = false → 2 ≤ g) → exec (pubs s) (Borrow g 0 ()) = Some o → sinv (St o Free (calls s) (log s) (S (changes s)) m)) as W.
      { intros g m o Hg Hg1 Hg2 Eo. assert (inv o) as I' by (by eapply inv_step). cbn [exec] in Eo. rewrite P1 in Eo. cbn [p_actual_instance] in Eo. destruct (is_null (handles (pubs s) g)) eqn:En; [|done]. apply is_null_spec in En as (N1 & N2 & N3).
        cbv zeta in Eo. injection Eo as <-. apply is_null_spec in P2 as (Q1 & Q2 & Q3).
        constructor; cbn [pubs calls publishing_mutex handles]; try done.
        - intros h. unfold upd. case_decide; [done|apply Hc].
        - unfold phase_inv. cbn. unfold current. cbn. rewrite (upd_ne (handles (pubs s)) g 0) by lia. rewrite P1. cbn. split_and!; try done.
          + intros h j'. unfold refers. cbn. unfold upd. case_decide; [by intros [= <-]|]. intros R. pose proof (P4 h j' R) as ->. unfold refers in R. rewrite P1 in R. by injection R as <-.
          + unfold upd. case_decide as Hd; cbn; [|rewrite Q2].
            * split; [done|]. intros _. destruct m; [done|]. specialize (Hg2 eq_refl). lia.
            * split; [|done]. intros ->. exfalso. apply Hd. symmetry. by apply Hg1.
          + unfold upd. case_decide; done.
        - intros t h Ht. destruct (K t h Ht) as (? & i & Hi). split; [done|]. exists i. unfold refers in *. cbn. rewrite upd_ne; [done|]. intros ->. congruence. }
      destruct r as [|g].
      * destruct (exec (pubs s) (Borrow 1 0 ())) as [o|] eqn:Eo; [|done]. injection E as <-. apply (W 1 true); try done; lia.
      * pose proof (F g _ Hm) as Hg. destruct (exec (pubs s) (Borrow g 0 ())) as [o|] eqn:Eo; [|done]. injection E as <-. apply (W g false); try done; lia.
  - (* SpuriousWakeInChange *)
    unfold phase_inv in P. rewrite Hm in P. assert (inv o) as I' by (by eapply inv_step). cbn [exec] in E. cbv zeta in E.
    assert (handles o = handles (pubs s) ∧ next o = next (pubs s)) as [X1 X2]. { destruct (dtor (insts (pubs s) (changes s))) as [| |[|]| | |]; try done; by injection E as <-. }
    constructor; cbn [pubs with_pubs calls publishing_mutex]; unfold refers; rewrite ?X1; try done.
    unfold phase_inv. cbn [publishing_mutex with_pubs]. rewrite Hm. cbn. unfold refers. rewrite X1, X2. done.
Qed.
Lemma reachable_sinv s : reachable s → sinv s.
Proof. intros (s0 & H0 & H). induction H; [by apply sinv_initial|]. by eapply sinv_step. Qed.

(** ** C19 *)
(** Except while a role is being changed, all the publishers in existence are of the generation created by the last role change:
    those obtained before it are gone. *)
Theorem C19_one_generation : ∀ s h i, reachable s → publishing_mutex s = Free → refers (pubs s) h i → i = changes s.
Proof. intros s h i H%reachable_sinv Hm R. pose proof (s_phase s H) as P. unfold phase_inv in P. rewrite Hm in P. destruct P as ((_ & _ & _ & P) & _). by eapply P. Qed.
(** The publisher of that generation exists and is valid. *)
Theorem C19_current_valid : ∀ s h i, reachable s → publishing_mutex s = Free → refers (pubs s) h i → is_valid (pubs s) h = true.
Proof.
  intros s h i H Hm R. pose proof (C19_one_generation s h i H Hm R) as ->. apply reachable_sinv in H as [I _ P _ _]. unfold phase_inv in P. rewrite Hm in P. destruct P as ((P1 & _) & _).
  destruct (i_owner _ I 0 _ P1) as (_ & Ha & _). unfold is_valid, refers in *. rewrite R. pose proof (i_flag _ I (changes s)) as Hf. destruct (destructing (insts (pubs s) (changes s))); [|done]. destruct Hf as [Hf _]. by specialize (Hf eq_refl).
Qed.
(** BorrowPublisher() throws exactly if the stream is a follower; IsMasterStream() tells. *)
Theorem C19_throws_iff_follower : ∀ s h r s', reachable s → step s (BorrowPublisher h) r s' → (r = Threw ↔ is_master s = false).
Proof.
  intros s h r s' [I _ P _ _]%reachable_sinv H. unfold phase_inv in P. inversion H as [s1 h1 o Hm Hh E|s1 h1 Hm E| | | | | | |]; subst; rewrite Hm in P; destruct P as (_ & P & _).
  - cbn [exec] in E. destruct (p_actual_instance (handles (pubs s) 1)) as [i|]; [|done]. split; [done|]. intros Hf. assert (is_master s = true) by (by apply P). congruence.
  - split; [|done]. intros _. destruct (is_master s') eqn:Em; [|done]. destruct P as [P _]. specialize (P eq_refl). done.
Qed.
Theorem C19_is_master : ∀ s r s', reachable s → step s IsMasterStream r s' → r = Answer (is_master s).
Proof.
  intros s r s' [I _ P _ _]%reachable_sinv H. unfold phase_inv in P. inversion H as [| |s1 Hm| | | | | |]; subst. rewrite Hm in P. destruct P as (_ & P & _). f_equal.
  destruct (is_master s'); case_bool_decide as Hb; try done; [destruct P as [P _]; by specialize (P eq_refl)|destruct P as [_ P]; by specialize (P Hb)].
Qed.
(** The role is that of the last change, and each change starts a new generation. *)
Theorem C19_role_after_change : ∀ s r pc x s', reachable s → publishing_mutex s = HeldByChange r pc → step s ContinueChange x s' → publishing_mutex s' = Free →
  changes s' = S (changes s) ∧ is_master s' = match r with ToMaster => true | ToFollower _ => false end ∧
  match r with ToFollower h => refers (pubs s') h (changes s') ∧ (∀ g, g ≠ 0 → g ≠ h → ¬ ∃ j, refers (pubs s') g j) | ToMaster => ∀ g, g ≠ 0 → g ≠ 1 → ¬ ∃ j, refers (pubs s') g j end.
Proof.
  intros s r pc x s' [I Hc P F K]%reachable_sinv Hm H Hf. inversion H as [| | | | | | |? r' pc' ? Hm' E|]; subst. rewrite Hm in Hm'. injection Hm' as <- <-.
  destruct pc; cbn [change_step] in E.
  - destruct (p_actual_instance _); [destruct (exec _ _); [|done]|]; by injection E as <-.
  - destruct (exec _ _); [|done]; by injection E as <-.
  - destruct (exec _ _); [|done]; by injection E as <-.
  - destruct (dtor _); try (destruct (exec _ _); [|done]; injection E as <-; cbn in Hf; congruence). by injection E as <-.
  - destruct (exec _ _); [|done]; by injection E as <-.
  - unfold phase_inv in P. rewrite Hm in P. destruct P as (P1 & P2 & P3 & P4).
    assert (∀ g o, exec (pubs s) (Borrow g 0 ()) = Some o → refers o g (S (changes s)) ∧ ∀ h, h ≠ 0 → h ≠ g → ¬ ∃ j, refers o h j) as W.
    { intros g o Eo. cbn [exec] in Eo. rewrite P1 in Eo. cbn [p_actual_instance] in Eo. destruct (is_null (handles (pubs s) g)); [|done]. injection Eo as <-. unfold refers. cbn. rewrite upd_eq. split; [done|]. intros h H0 Hg [j R]. rewrite upd_ne in R by done.
by apply H0, (P4 h j). }
    destruct r as [|g].
    + destruct (exec (pubs s) (Borrow 1 0 ())) as [o|] eqn:Eo; [|done]. injection E as <-. cbn. split_and!; try done. by apply W.
    + destruct (exec (pubs s) (Borrow g 0 ())) as [o|] eqn:Eo; [|done]. injection E as <-. cbn. destruct (W g o Eo). split_and!; done.
Qed.
(** Every entry is published through a publisher of the generation current at that moment. *)
Theorem C19_published_by_current : ∀ s t x s', reachable s → step s (DoPublish t) x s' → log s' = log s ++ [changes s].
Proof.
  intros s t x s' H E. inversion E as [| | | | |? ? h i Hc Hm Hp| | |]; subst. cbn. by rewrite (C19_one_generation s h i H Hm Hp).
Qed.

(** A role change waits, with the stream's mutex locked, for the publishers to be released; but a publisher inside Publish() waits for that mutex.
    So if a thread has called Publish() and has not locked the mutex yet when a role change begins, or calls it later with a publisher it holds, then neither
    call ever returns. *)
Definition stuck (s : st) (t h : nat) : Prop :=
  (∃ r pc, publishing_mutex s = HeldByChange r pc ∧ pc ≠ MakeNew ∧ pc ≠ GiveOut) ∧ calls s t = Some h ∧ 2 ≤ h ∧ refers (pubs s) h (changes s).
Lemma stuck_step s a x s' t h : sinv s → stuck s t h → step s a x s' → stuck s' t h.
Proof.
  intros [I Hc P F K] ((r & pc & Hm & N1 & N2) & Ht & Hh & R) H.
  destruct H as [s h' o Hm' Hh' E|s h' Hm' E|s Hm'|s a o Hok E|s t' h' i Hn Hh' E|s t' h' i Hn Hm' E|s r' Hm' Hr|s r' pc' s' Hm' E|s r' o Hm' E]; try congruence.
  - split_and!; try done; [by exists r, pc|]. cbn. eapply external_kept; try done. by exists t.
  - split_and!; try done; [by exists r, pc|]. cbn. unfold upd_call. case_decide; [congruence|done].
  - rewrite Hm in Hm'. injection Hm' as <- <-.
    assert (∀ a o, exec (pubs s) a = Some o → match a with Release 1 | ReleaseNotify 1 | Destroy 0 | Continue _ => True | _ => False end → refers o h (changes s)) as W.
    { intros a o Ea Ha. unfold refers in *. destruct a as [| | | | |[|[|]]|[|[|]]|[|]|j|]; try done; cbn [exec] in Ea.
      - destruct (p_actual_instance (handles (pubs s) 1)); [|done]. destruct (container (handles (pubs s) 1)); [done|]. cbv zeta in Ea. destruct (decide _); injection Ea as <-; cbn; by rewrite upd_ne by lia.
      - destruct (releasing (handles (pubs s) 1)) as [[j b]|]; [|done]. injection Ea as <-. cbn. by rewrite upd_ne by lia.
      - destruct (container (handles (pubs s) 0)); [|done]. injection Ea as <-. cbn. by rewrite upd_ne by lia.
      - cbv zeta in Ea. destruct (dtor (insts (pubs s) j)) as [| |[|]| | |]; try done; by injection Ea as <-. }
    destruct pc; try done; cbn [change_step] in E.
    + destruct (p_actual_instance (handles (pubs s) 1)).
      * destruct (exec (pubs s) (Release 1)) as [o|] eqn:Eo; [|done]. injection E as <-. split_and!; try done; [by exists r, DropBorrowableNotify|]. by eapply W.
      * injection E as <-. split_and!; try done. by exists r, DropOwned.
    + destruct (exec (pubs s) (ReleaseNotify 1)) as [o|] eqn:Eo; [|done]. injection E as <-. split_and!; try done; [by exists r, DropOwned|]. by eapply W.
    + destruct (exec (pubs s) (Destroy 0)) as [o|] eqn:Eo; [|done]. injection E as <-. split_and!; try done; [by exists r, WaitForBorrowers|]. by eapply W.
    + pose proof (refers_not_destroyed _ h _ I R) as Hd. destruct (dtor (insts (pubs s) (changes s))); try done;
        (destruct (exec (pubs s) (Continue (changes s))) as [o|] eqn:Eo; [|done]; injection E as <-; split_and!; try done; [by exists r, WaitForBorrowers|]; by eapply W).
  - rewrite Hm in Hm'. injection Hm' as <- ->. split_and!; try done; [by exists r, WaitForBorrowers|]. cbn [exec] in E. cbv zeta in E. unfold refers in *. destruct (dtor (insts (pubs s) (changes s))); try done; by injection E as <-.
Qed.
Theorem C19_publish_during_change_refuted : ∀ s s1 s2 t h r x, reachable s → calls s t = Some h → step s (StartChange r) x s1 → reachable_from s1 s2 →
  publishing_mutex s2 ≠ Free ∧ changes s2 = changes s ∧ calls s2 t = Some h.
Proof.
  intros s s1 s2 t h r x Hr Ht H1 H2. pose proof (reachable_sinv s Hr) as I. pose proof (sinv_step _ _ _ _ I H1) as I1.
  inversion H1 as [| | | | | |? ? Hm Hf| |]; subst.
  assert (stuck (with_phase s (pubs s) (HeldByChange r DropBorrowable)) t h) as S1.
  { destruct (s_calls s I t h Ht) as (Hh & i & R). pose proof (C19_one_generation s h i Hr Hm R) as ->. split_and!; try done. by exists r, DropBorrowable. }
  assert (sinv s2 ∧ stuck s2 t h ∧ changes s2 = changes s) as (_ & ((r' & pc & Hm2 & _) & Ht2 & _) & Hc).
  { clear H1. induction H2 as [|s3 a y s4 H2 (I3 & S3 & C3) Hs]; [done|]. pose proof (stuck_step _ _ _ _ _ _ I3 S3 Hs) as S4. split_and!; [by eapply sinv_step|done|].
    destruct S3 as ((r3 & pc3 & M3 & N3 & N3') & _). destruct S4 as ((r4 & pc4 & M4 & _) & _).
    destruct Hs as [s3 h' o Hm' Hh' E|s3 h' Hm' E|s3 Hm'|s3 a o Hok E|s3 t' h' i Hn Hh' E|s3 t' h' i Hn Hm' E|s3 r' Hm' Hr'|s3 r' pc' s' Hm' E|s3 r' o Hm' E]; try done.
    rewrite M3 in Hm'. injection Hm' as <- <-. destruct pc3; try done; cbn [change_step] in E.
    - destruct (p_actual_instance _); [destruct (exec _ _); [|done]|]; by injection E as <-.
    - destruct (exec _ _); [|done]; by injection E as <-.
    - destruct (exec _ _); [|done]; by injection E as <-.
    - destruct (dtor _); try (destruct (exec _ _); [|done]; by injection E as <-). by injection E as <-. }
  rewrite Hm2. done.
Qed.

(** ** Examples: master, a borrowed publisher, a publish; the publisher is released, the stream becomes a follower, and throws. *)
Inductive steps : st → list (act * result) → st → Prop :=
| steps_nil s : steps s [] s
| steps_cons s a r s' l s'' : step s a r s' → steps s' l s'' → steps s ((a, r) :: l) s''.
Definition C19_ex_actions : list (act * result) :=
  [(BorrowPublisher 2, Done); (CallPublish 0 2, Done); (DoPublish 0, Done); (StartChange (ToFollower 3), Done);
   (External (Release 2), Done); (External (ReleaseNotify 2), Done); (ContinueChange, Done); (ContinueChange, Done); (ContinueChange, Done); (ContinueChange, Done);
   (ContinueChange, Done); (ContinueChange, Done); (ContinueChange, Done); (ContinueChange, Done); (BorrowPublisher 2, Threw); (IsMasterStream, Answer false); (CallPublish 0 3, Done); (DoPublish 0, Done)].
Definition ok {A} (x : option A) : bool := match x with Some _ => true | None => false end.
Definition own (s : st) (a : action unit) : owned := match exec (pubs s) a with Some o => o | None => pubs s end.
Lemma own_ok s a : ok (exec (pubs s) a) = true → exec (pubs s) a = Some (own s a).
Proof. unfold own. by destruct (exec (pubs s) a). Qed.
Definition go (s : st) : st := match publishing_mutex s with HeldByChange r pc => match change_step s r pc with Some s' => s' | None => s end | Free => s end.
Lemma go_ok s r pc : publishing_mutex s = HeldByChange r pc → ok (change_step s r pc) = true → step s ContinueChange Done (go s).
Proof. intros E H. apply (s_continue s r pc); [done|]. unfold go. rewrite E. by destruct (change_step s r pc). Qed.
Definition ret (s : st) (t i : nat) : st := St (pubs s) Free (upd_call (calls s) t None) (log s ++ [i]) (changes s) (is_master s).
Definition ent (s : st) (t h : nat) : st := St (pubs s) (publishing_mutex s) (upd_call (calls s) t (Some h)) (log s) (changes s) (is_master s).
Definition e0 : st := match new_stream with Some s => s | None => St initial Free (λ _, None) [] 0 true end.
Definition e1 := with_pubs e0 (own e0 (Borrow 2 1 ())).
Definition e2 := ent e1 0 2.
Definition e3 := ret e2 0 0.
Definition e4 := with_phase e3 (pubs e3) (HeldByChange (ToFollower 3) DropBorrowable).
Definition e5 := with_pubs e4 (own e4 (Release 2)).
Definition e6 := with_pubs e5 (own e5 (ReleaseNotify 2)).
Definition e7 := go e6. Definition e8 := go e7. Definition e9 := go e8. Definition e10 := go e9. Definition e11 := go e10. Definition e12 := go e11. Definition e13' := go e12. Definition e13 := go e13'.
Definition e14 := ent e13 0 3.
Definition e15 := ret e14 0 1.
Example C19_ex : new_stream = Some e0 ∧ steps e0 C19_ex_actions e15 ∧ publishing_mutex e15 = Free ∧ changes e15 = 1 ∧ log e15 = [0; 1] ∧ is_master e15 = false.
Proof.
  split; [reflexivity|]. split; [|by vm_compute]. unfold C19_ex_actions.
  apply (steps_cons _ _ _ e1). { apply s_borrow; [by vm_compute|lia|apply own_ok; by vm_compute]. }
  apply (steps_cons _ _ _ e2). { apply (s_call e1 0 2 0); [by vm_compute|lia|by vm_compute]. }
  apply (steps_cons _ _ _ e3). { apply (s_publish e2 0 2 0); by vm_compute. }
  apply (steps_cons _ _ _ e4). { apply (s_start e3); [by vm_compute|lia]. }
  apply (steps_cons _ _ _ e5). { apply s_external; [|apply own_ok; by vm_compute]. split; [lia|]. intros [t E]. cbn in E. unfold upd_call in E. by repeat case_decide. }
  apply (steps_cons _ _ _ e6). { apply s_external; [|apply own_ok; by vm_compute]. cbn. lia. }
  apply (steps_cons _ _ _ e7). { by eapply (go_ok e6); vm_compute. }
  apply (steps_cons _ _ _ e8). { by eapply (go_ok e7); vm_compute. }
  apply (steps_cons _ _ _ e9). { by eapply (go_ok e8); vm_compute. }
  apply (steps_cons _ _ _ e10). { by eapply (go_ok e9); vm_compute. }
  apply (steps_cons _ _ _ e11). { by eapply (go_ok e10); vm_compute. }
  apply (steps_cons _ _ _ e12). { by eapply (go_ok e11); vm_compute. }
  apply (steps_cons _ _ _ e13'). { by eapply (go_ok e12); vm_compute. }
  apply (steps_cons _ _ _ e13). { by eapply (go_ok e13'); vm_compute. }
  apply (steps_cons _ _ _ e13). { apply s_borrow_throw; by vm_compute. }
  apply (steps_cons _ _ _ e13). { apply (s_is_master e13). by vm_compute. }
  apply (steps_cons _ _ _ e14). { apply (s_call e13 0 3 1); [by vm_compute|lia|by vm_compute]. }
  apply (steps_cons _ _ _ e15). { apply (s_publish e14 0 3 1); by vm_compute. }
  apply steps_nil.
Qed.

(** The deadlock's premises: thread 0 is in Publish(), and another thread makes the stream a follower. *)
Example C19_ex_deadlock : reachable e2 ∧ calls e2 0 = Some 2 ∧ ∃ s1, step e2 (StartChange (ToFollower 3)) Done s1.
Proof.
  split_and!; [|by vm_compute|eexists; apply s_start; [by vm_compute|lia]].
  exists e0. split; [done|]. apply (there e0 e1 (CallPublish 0 2) Done e2).
  - apply (there e0 e0 (BorrowPublisher 2) Done e1); [apply here|]. apply s_borrow; [by vm_compute|lia|apply own_ok; by vm_compute].
  - apply (s_call e1 0 2 0); [by vm_compute|lia|by vm_compute].
Qed.

Print Assumptions C19_one_generation.
Print Assumptions C19_current_valid.
Print Assumptions C19_throws_iff_follower.
Print Assumptions C19_is_master.
Print Assumptions C19_role_after_change.
Print Assumptions C19_published_by_current.
Print Assumptions C19_publish_during_change_refuted.
