(** * AccumulativeScopedDeleter: proofs *)
From stdpp Require Import gmap list.
From Verif Require Import Deleter_Model Deleter_Spec.

Definition get (m : gmap nat (bool * list nat)) (x : nat) : list nat := match m !! x with Some p => p.2 | None => [] end.
Lemma get_some m x b l : m !! x = Some (b, l) → get m x = l.
Proof. unfold get. by intros ->. Qed.
Lemma get_insert m x b l y : get (<[x := (b, l)]> m) y = if decide (x = y) then l else get m y.
Proof. unfold get. case_decide as E; [subst; by rewrite lookup_insert|by rewrite lookup_insert_ne]. Qed.
Lemma get_delete m x y : get (delete x m) y = if decide (x = y) then [] else get m y.
Proof. unfold get. case_decide as E; [subst; by rewrite lookup_delete|by rewrite lookup_delete_ne]. Qed.

Record inv (s : state) : Prop := Inv {
  i_nodup x : NoDup (get (objects s) x);
  i_below x c : c ∈ get (objects s) x → c < made s;
  i_called x c : c ∈ get (objects s) x → c ∉ called s;
  i_one x y c : c ∈ get (objects s) x → c ∈ get (objects s) y → x = y;
  i_once : NoDup (called s);
  i_cbelow c : c ∈ called s → c < made s }.

Ltac look :=
  repeat match goal with
  | H : context [match ?e with Some _ => None | None => _ end] |- _ => destruct e eqn:?; try done
  | H : context [match ?e with Some _ => _ | None => None end] |- _ => destruct e as [[? ?]|] eqn:?; try done
  | H : mbind _ ?e = Some _ |- _ => destruct e as [[? ?]|] eqn:?; [simpl in H|done]
  | H : Some _ = Some _ |- _ => injection H as <-
  end.

Lemma rev_reverse {A} (l : list A) : rev l = reverse l.
Proof. by rewrite rev_alt. Qed.
Lemma in_release b l k c : c ∈ release b l k ↔ c ∈ k ∨ b = true ∧ c ∈ l.
Proof. unfold release. destruct b; [rewrite elem_of_app, rev_reverse, elem_of_reverse|]; naive_solver. Qed.
Lemma nodup_release b l k : NoDup l → NoDup k → (∀ c, c ∈ l → c ∉ k) → NoDup (release b l k).
Proof.
  intros A B C. unfold release. destruct b; [|done]. apply NoDup_app. split_and!; [done| |].
  - intros c D E. apply (C c); [|done]. by rewrite rev_reverse, elem_of_reverse in E.
  - rewrite rev_reverse. by rewrite reverse_Permutation.
Qed.

(** Steps that only move callbacks around: the new lists are concatenations of old ones that are not used twice. *)
Lemma inv_make s x b : inv s → objects s !! x = None → inv (State (<[x := (b, [made s])]> (objects s)) (S (made s)) (called s)).
Proof.
  intros [A B C D E F] N. 
  split; simpl; intros *; rewrite ?get_insert; repeat case_decide; subst; auto.
  - by apply NoDup_singleton.
  - rewrite elem_of_list_singleton. lia.
  - intros K. specialize (B _ _ K). lia.
  - rewrite elem_of_list_singleton. intros -> K. specialize (F _ K). lia.
  - apply C.
  - rewrite elem_of_list_singleton. intros -> K2. specialize (B _ _ K2). lia.
  - rewrite elem_of_list_singleton. intros K2 ->. specialize (B _ _ K2). lia.
  - eauto.
  - intros K. specialize (F _ K). lia.
Qed.

(** What every other step does: there are a released list and new lists. *)
Lemma inv_release s m' b l x :
  inv s → get (objects s) x = l →
  (∀ y, NoDup (get m' y)) →
  (∀ y c, c ∈ get m' y → ∃ z, c ∈ get (objects s) z ∧ (b = true → z ≠ x)) →
  (∀ y z c, c ∈ get m' y → c ∈ get m' z → y = z) →
  inv (State m' (made s) (release b l (called s))).
Proof.
  intros [A B C D E F] G H I J. split; simpl; intros *; auto.
  - intros K. destruct (I _ _ K) as (z & K1 & K2). eauto.
  - intros K. destruct (I _ _ K) as (z & K1 & K2). rewrite in_release. intros [L|(L & M)]; [by eapply C|].
    apply (K2 L). subst l. by apply (D _ _ c).
  - eauto.
  - apply nodup_release; [by subst l|done|]. intros c K. subst l. eauto.
  - rewrite in_release. intros [K|(K & L)]; [auto|subst; eauto].
Qed.

Lemma step_inv o s s' : step o s = Some s' → inv s → inv s'.
Proof.
  intros S I. pose proof I as [A B C D E F]. destruct o; simpl in S.
  - (* Default *) look. apply (inv_release s _ false [] x); auto.
    + by unfold get; rewrite Heqo.
    + intros y. rewrite get_insert. case_decide; auto. constructor.
    + intros y c. rewrite get_insert. case_decide; [by intros ?%elem_of_nil|]. intros. by exists y.
    + intros y z c. rewrite !get_insert. repeat case_decide; subst; eauto; by intros ??%elem_of_nil || intros ?%elem_of_nil.
  - (* Make *) look. by apply inv_make.
  - (* MoveCtor *) destruct (objects s !! y) as [[c0 l]|] eqn:Hy; [simpl in S|done]. destruct (objects s !! x) eqn:N; [done|]. injection S as <-.
    assert (x ≠ y) by congruence. pose proof (get_some _ _ _ _ Hy) as G.
    apply (inv_release s _ false (get (objects s) x) x); auto.
    + intros z. rewrite !get_insert. repeat case_decide; subst; auto. constructor.
    + intros z c. rewrite !get_insert. repeat case_decide; subst; [|by intros ?%elem_of_nil|]; intros; eexists; eauto.
    + intros z w c. rewrite !get_insert. repeat case_decide; subst; auto; intros P Q; try (by apply elem_of_nil in P); try (by apply elem_of_nil in Q); eauto.
      * exfalso. apply H2. eauto.
      * exfalso. apply H1. eauto.
  - (* MoveAssign *) destruct (objects s !! x) as [[b l]|] eqn:Hx; [simpl in S|done]. 
    destruct (<[x:=(b, [])]> (objects s) !! y) as [[c k]|] eqn:Hy; [simpl in S|done]. injection S as <-.
    pose proof (get_some _ _ _ _ Hx) as G. pose proof (get_some _ _ _ _ Hy) as G2. rewrite get_insert in G2.
    apply (inv_release s _ b l x); auto.
    + intros z. rewrite !get_insert. repeat case_decide; subst; auto; constructor.
    + intros z d. rewrite !get_insert. repeat case_decide; subst; try (by intros ?%elem_of_nil); intros; eexists; eauto.
    + intros z w d. rewrite !get_insert. repeat case_decide; subst; auto; intros P Q; try (by apply elem_of_nil in P); try (by apply elem_of_nil in Q); eauto.
      * exfalso. eauto.
      * exfalso. eauto.
  - (* Reset *) destruct (objects s !! x) as [[b l]|] eqn:Hx; [simpl in S|done]. injection S as <-. pose proof (get_some _ _ _ _ Hx) as G.
    apply (inv_release s _ b l x); auto.
    + intros z. rewrite !get_insert. repeat case_decide; subst; auto; constructor.
    + intros z d. rewrite !get_insert. repeat case_decide; subst; try (by intros ?%elem_of_nil); intros; eexists; eauto.
    + intros z w d. rewrite !get_insert. repeat case_decide; subst; auto; intros P Q; try (by apply elem_of_nil in P); try (by apply elem_of_nil in Q); eauto.
  - (* Append *) destruct (objects s !! x) as [[b l]|] eqn:Hx; [simpl in S|done]. 
    destruct (objects s !! y) as [[c k]|] eqn:Hy; [simpl in S|done].
    destruct (decide (x = y)) as [->|N].
    { destruct l; [|done]. by injection S as <-. }
    injection S as <-. pose proof (get_some _ _ _ _ Hx) as G. pose proof (get_some _ _ _ _ Hy) as G2. 
    apply (inv_release s _ false l x); auto.
    + intros z. rewrite !get_insert. repeat case_decide; subst; auto; [constructor|].
      apply NoDup_app. split_and!; auto. intros d P Q. apply N. eauto.
    + intros z d. rewrite !get_insert. repeat case_decide; subst; try (by intros ?%elem_of_nil).
      * rewrite elem_of_app. intros [P|P]; eexists; eauto.
      * intros; eexists; eauto.
    + intros z w d. rewrite !get_insert. repeat case_decide; subst; auto; intros P Q; try (by apply elem_of_nil in P); try (by apply elem_of_nil in Q); eauto.
      * exfalso. apply elem_of_app in P as [P|P]; eauto.
      * exfalso. apply elem_of_app in Q as [Q|Q]; eauto.
  - (* Plus *) destruct (objects s !! x) as [[b l]|] eqn:Hx; [simpl in S|done]. 
    destruct (<[x:=(b, [])]> (objects s) !! y) as [[c k]|] eqn:Hy; [simpl in S|done]. destruct (objects s !! z) eqn:Hz; [done|]. injection S as <-.
    pose proof (get_some _ _ _ _ Hx) as G. pose proof (get_some _ _ _ _ Hy) as G2. rewrite get_insert in G2.
    assert (x ≠ z) by congruence.
    assert (y ≠ z) by (intros ->; rewrite lookup_insert_ne in Hy by done; congruence).
    apply (inv_release s _ false l x); auto.
    + intros w. rewrite !get_insert. repeat case_decide; subst; auto; try constructor.
      * rewrite app_nil_r. auto.
      * apply NoDup_app. split_and!; auto. intros d P Q. eauto.
    + intros w d. rewrite !get_insert. repeat case_decide; subst; try (by intros ?%elem_of_nil); rewrite ?elem_of_app.
      all: match goal with |- _ ∨ _ → _ => intros [P|P]; try (by apply elem_of_nil in P) | |- _ => intros P end; eexists; eauto.
    + intros w v d. rewrite !get_insert. repeat case_decide; subst; auto; rewrite ?app_nil_r, ?elem_of_app; intros P Q; try (by apply elem_of_nil in P); try (by apply elem_of_nil in Q); eauto;
      exfalso; repeat match goal with H : _ ∨ _ |- _ => destruct H end; eauto.
  - (* Destroy *) destruct (objects s !! x) as [[b l]|] eqn:Hx; [simpl in S|done]. injection S as <-. pose proof (get_some _ _ _ _ Hx) as G.
    apply (inv_release s _ b l x); auto.
    + intros z. rewrite !get_delete. repeat case_decide; subst; auto; constructor.
    + intros z d. rewrite !get_delete. repeat case_decide; subst; try (by intros ?%elem_of_nil); intros; eexists; eauto.
    + intros z w d. rewrite !get_delete. repeat case_decide; subst; auto; intros P Q; try (by apply elem_of_nil in P); try (by apply elem_of_nil in Q); eauto.
Qed.
