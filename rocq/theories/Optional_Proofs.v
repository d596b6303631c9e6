(** * Optional: the heap and what it means *)
From stdpp Require Import gmap.
From Verif Require Import Optional_Model Optional_Spec.

Definition holds (h : gmap nat Z) (c : contents) (o : opt) : Prop :=
  match c with
  | Nothing => o = Opt None None
  | Own v => ∃ a, o = Opt (Some a) (Some (Heap a)) ∧ h !! a = Some v
  | Refers e => o = Opt None (Some (Ext e))
  | Moved => owned o = None
  end.
Definition var_rel (h : gmap nat Z) (c : option contents) (o : option opt) : Prop :=
  match c, o with Some c, Some o => holds h c o | None, None => True | _, _ => False end.
Definition mine (o : option opt) : option nat := o ≫= owned.
Record rel (s : state) (w : world) : Prop := Rel {
  r_ext : ext s = objects w;
  r_var x : var_rel (heap s) (optionals w !! x) (vars s !! x);
  r_inj x y a : mine (vars s !! x) = Some a → mine (vars s !! y) = Some a → x = y;
  r_leak a : is_Some (heap s !! a) → ∃ x, mine (vars s !! x) = Some a;
  r_next a : is_Some (heap s !! a) → a < next s }.
Definition dels (o : option nat) (h : gmap nat Z) : gmap nat Z := match o with Some a => delete a h | None => h end.

Lemma rel_live s w x a : rel s w → mine (vars s !! x) = Some a → ∃ v, optionals w !! x = Some (Own v) ∧ vars s !! x = Some (Opt (Some a) (Some (Heap a))) ∧ heap s !! a = Some v.
Proof.
  intros R E. pose proof (r_var _ _ R x) as V. unfold var_rel in V. destruct (optionals w !! x) as [c|], (vars s !! x) as [o|]; try done.
  simpl in E. destruct c; simpl in V.
  - by subst.
  - destruct V as (b & -> & H). simpl in E. injection E as ->. eauto.
  - by subst.
  - congruence.
Qed.
Lemma holds_other h h' c o : holds h c o → (∀ a, owned o = Some a → h' !! a = h !! a) → holds h' c o.
Proof. destruct c; simpl; auto. intros (a & -> & H) E. exists a. split; [done|]. rewrite E; done. Qed.
Lemma lookup_dels a o h : dels o h !! a = if decide (o = Some a) then None else h !! a.
Proof. destruct o as [b|]; simpl; [|done]. case_decide as E; [injection E as ->; apply lookup_delete|]. apply lookup_delete_ne. congruence. Qed.

(** x gets a value of its own, newly made *)
Lemma rel_own s w x v : rel s w →
  rel (State (<[next s := v]> (dels (mine (vars s !! x)) (heap s))) (S (next s)) (ext s) (<[x := Opt (Some (next s)) (Some (Heap (next s)))]> (vars s))) (keep w x (Own v)).
Proof.
  intros R. pose proof R as [R1 R2 R3 R4 R5].
  assert (FR : ∀ y, mine (vars s !! y) ≠ Some (next s)).
  { intros y E. destruct (rel_live _ _ _ _ R E) as (u & _ & _ & H). assert (next s < next s) by (apply R5; by rewrite H). lia. }
  split; simpl; auto.
  - intros y. destruct (decide (x = y)) as [->|N].
    + rewrite !lookup_insert. simpl. exists (next s). by rewrite lookup_insert.
    + rewrite !lookup_insert_ne by done. specialize (R2 y). unfold var_rel in *. destruct (optionals w !! y) as [c|], (vars s !! y) as [o|] eqn:V; try done.
      eapply holds_other; [exact R2|]. intros a A. rewrite lookup_insert_ne; [|intros <-; apply (FR y); by rewrite V].
      rewrite lookup_dels, decide_False; [done|]. intros E. apply N. eapply R3; [exact E|]. by rewrite V.
  - intros y z a. destruct (decide (x = y)) as [<-|N], (decide (x = z)) as [<-|N']; rewrite ?lookup_insert, ?lookup_insert_ne by done; simpl; auto.
    + intros [= <-] E. by destruct (FR z).
    + intros E [= <-]. by destruct (FR y).
    + apply R3.
  - intros a. destruct (decide (next s = a)) as [<-|N]; [intros _; exists x; by rewrite lookup_insert|]. rewrite lookup_insert_ne by done. rewrite lookup_dels.
    case_decide as E; [by intros []|]. intros H. destruct (R4 a H) as (y & Y). exists y. rewrite lookup_insert_ne; [done|]. intros <-. done.
  - intros a. destruct (decide (next s = a)) as [<-|N]; [lia|]. rewrite lookup_insert_ne, lookup_dels by done. case_decide; [by intros []|]. intros B%R5. lia.
Qed.
(** x gets something that is not its own *)
Lemma rel_less s w x c o : rel s w → owned o = None → (∀ h, holds h c o) →
  rel (State (dels (mine (vars s !! x)) (heap s)) (next s) (ext s) (<[x := o]> (vars s))) (keep w x c).
Proof.
  intros R O H. pose proof R as [R1 R2 R3 R4 R5]. split; simpl; auto.
  - intros y. destruct (decide (x = y)) as [->|N]; [rewrite !lookup_insert; apply H|].
    rewrite !lookup_insert_ne by done. specialize (R2 y). unfold var_rel in *. destruct (optionals w !! y) as [d|], (vars s !! y) as [p|] eqn:V; try done.
    eapply holds_other; [exact R2|]. intros a A. rewrite lookup_dels, decide_False; [done|]. intros E. apply N. eapply R3; [exact E|]. by rewrite V.
  - intros y z a. destruct (decide (x = y)) as [<-|N], (decide (x = z)) as [<-|N']; rewrite ?lookup_insert, ?lookup_insert_ne by done; simpl; auto; try congruence. apply R3.
  - intros a. rewrite lookup_dels. case_decide as E; [by intros []|]. intros A. destruct (R4 a A) as (y & Y). exists y. rewrite lookup_insert_ne; [done|]. intros <-. done.
  - intros a. rewrite lookup_dels. case_decide; [by intros []|]. apply R5.
Qed.
(** y's value goes to x *)
Lemma rel_move s w x y a v c o : rel s w → x ≠ y → optionals w !! y = Some (Own v) → mine (vars s !! y) = Some a → owned o = None → (∀ h, holds h c o) →
  rel (State (dels (mine (vars s !! x)) (heap s)) (next s) (ext s) (<[x := Opt (Some a) (Some (Heap a))]> (<[y := o]> (vars s)))) (keep (keep w x (Own v)) y c).
Proof.
  intros R XY Y M O H. pose proof R as [R1 R2 R3 R4 R5].
  destruct (rel_live _ _ _ _ R M) as (v' & Y' & V & HA). assert (v' = v) as -> by congruence.
  assert (NX : mine (vars s !! x) ≠ Some a) by (intros E; apply XY; by eapply R3).
  assert (AT : ∀ z, mine (<[x := Opt (Some a) (Some (Heap a))]> (<[y := o]> (vars s)) !! z) = if decide (z = x) then Some a else if decide (z = y) then None else mine (vars s !! z)).
  { intros z. case_decide; [subst; by rewrite lookup_insert|]. rewrite lookup_insert_ne by done. case_decide; [subst; by rewrite lookup_insert|]. by rewrite lookup_insert_ne by done. }
  split; simpl; auto.
  - intros z. destruct (decide (z = x)) as [->|NZ]; [rewrite lookup_insert_ne, !lookup_insert by done; simpl; exists a; rewrite lookup_dels, decide_False; done|].
    rewrite (lookup_insert_ne _ x z) by done. destruct (decide (z = y)) as [->|NZ']; [rewrite !lookup_insert; apply H|].
    rewrite !(lookup_insert_ne _ y z), (lookup_insert_ne _ x z) by done. specialize (R2 z). unfold var_rel in *. destruct (optionals w !! z) as [d|], (vars s !! z) as [p|] eqn:VZ; try done.
    eapply holds_other; [exact R2|]. intros b A. rewrite lookup_dels, decide_False; [done|]. intros E. apply NZ. eapply R3; [|exact E]. by rewrite VZ.
  - intros z z' b. rewrite !AT. repeat case_decide; subst; try congruence; try apply R3.
    + intros [= <-] E. exfalso. assert (z' = y) by (eapply R3; eauto). done.
    + intros E [= <-]. exfalso. assert (z = y) by (eapply R3; eauto). done.
  - intros b. rewrite lookup_dels. case_decide as E; [by intros []|]. intros A. destruct (R4 b A) as (z & Z). destruct (decide (z = y)) as [->|NY].
    + exists x. rewrite AT, decide_True by done. congruence.
    + exists z. rewrite AT. rewrite (decide_False (P := z = y)) by done. rewrite decide_False; [done|]. intros ->. done.
  - intros b. rewrite lookup_dels. case_decide; [by intros []|]. apply R5.
Qed.
Lemma rel_write s w x a v u : rel s w → mine (vars s !! x) = Some a → optionals w !! x = Some (Own u) →
  rel (State (<[a := v]> (heap s)) (next s) (ext s) (vars s)) (keep w x (Own v)).
Proof.
  intros R M W. pose proof R as [R1 R2 R3 R4 R5].
  destruct (rel_live _ _ _ _ R M) as (u' & _ & V & HA). split; simpl; auto.
  - intros y. destruct (decide (x = y)) as [->|N].
    + rewrite lookup_insert, V. simpl. exists a. by rewrite lookup_insert.
    + rewrite lookup_insert_ne by done. specialize (R2 y). unfold var_rel in *. destruct (optionals w !! y) as [d|], (vars s !! y) as [p|] eqn:VY; try done.
      eapply holds_other; [exact R2|]. intros b B. rewrite lookup_insert_ne; [done|]. intros <-. apply N. eapply R3; [exact M|]. by rewrite VY.
  - intros b. destruct (decide (a = b)) as [<-|]; [by exists x|]. rewrite lookup_insert_ne by done. apply R4.
  - intros b. destruct (decide (a = b)) as [<-|]; [intros _; apply R5; by rewrite HA|]. rewrite lookup_insert_ne by done. apply R5.
Qed.
Lemma rel_drop s w x : rel s w → rel (State (dels (mine (vars s !! x)) (heap s)) (next s) (ext s) (delete x (vars s))) (World (objects w) (delete x (optionals w))).
Proof.
  intros R. pose proof R as [R1 R2 R3 R4 R5]. split; simpl; auto.
  - intros y. destruct (decide (x = y)) as [->|N]; [by rewrite !lookup_delete|].
    rewrite !lookup_delete_ne by done. specialize (R2 y). unfold var_rel in *. destruct (optionals w !! y) as [d|], (vars s !! y) as [p|] eqn:V; try done.
    eapply holds_other; [exact R2|]. intros a A. rewrite lookup_dels, decide_False; [done|]. intros E. apply N. eapply R3; [exact E|]. by rewrite V.
  - intros y z a. destruct (decide (x = y)) as [<-|N]; [by rewrite lookup_delete|]. destruct (decide (x = z)) as [<-|N']; [by rewrite lookup_delete|].
    rewrite !lookup_delete_ne by done. apply R3.
  - intros a. rewrite lookup_dels. case_decide as E; [by intros []|]. intros A. destruct (R4 a A) as (y & Y). exists y. rewrite lookup_delete_ne; [done|]. intros <-. done.
  - intros a. rewrite lookup_dels. case_decide; [by intros []|]. apply R5.
Qed.
Lemma rel_ext s w m : rel s w → rel (State (heap s) (next s) m (vars s)) (World m (optionals w)).
Proof. intros [R1 R2 R3 R4 R5]. by split. Qed.
