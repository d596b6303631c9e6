(** * C94: Optional *)
From stdpp Require Import gmap.
From Verif Require Import Optional_Model Optional_Spec Optional_Proofs.

Lemma bind_ok {A B} (m : M A) (f : A → M B) s a s1 : m s = Ok (a, s1) → (m ≫= f) s = f a s1.
Proof. intros E. unfold mbind, M_bind. by rewrite E. Qed.
Lemma ret_ok {A} (a : A) (s : state) : (mret a : M A) s = Ok (a, s). Proof. done. Qed.
Lemma var_ok s x o : vars s !! x = Some o → var x s = Ok (o, s). Proof. intros E. unfold var. by rewrite E. Qed.
Lemma exists_ok s x o : vars s !! x = Some o → exists_ x s = Ok (match ptr o with Some _ => true | None => false end, s).
Proof. intros E. unfold exists_. rewrite (bind_ok _ _ _ _ _ (var_ok _ _ _ E)). done. Qed.
Lemma value_ok s x o : vars s !! x = Some o → value x s = Ok (ptr o, s).
Proof. intros E. unfold value. rewrite (bind_ok _ _ _ _ _ (var_ok _ _ _ E)). done. Qed.
Definition live (s : state) (x : nat) : Prop := ∀ a, mine (vars s !! x) = Some a → is_Some (heap s !! a).
Lemma up_reset_ok s x p o : vars s !! x = Some o → live s x →
  up_reset x p s = Ok (tt, State (dels (mine (vars s !! x)) (heap s)) (next s) (ext s) (<[x := Opt p (ptr o)]> (vars s))).
Proof.
  intros E L. unfold up_reset. rewrite (bind_ok _ _ _ _ _ (var_ok _ _ _ E)). unfold live, mine in *. rewrite E in *. simpl in *.
  destruct (owned o) as [a|]; [|done]. destruct (L a eq_refl) as (v & V). unfold mbind, M_bind, set_var, free. simpl. by rewrite V.
Qed.
Lemma point_own_ok s x o : vars s !! x = Some o → point_own x s = Ok (tt, State (heap s) (next s) (ext s) (<[x := Opt (owned o) (Heap <$> owned o)]> (vars s))).
Proof. intros E. unfold point_own, point. rewrite (bind_ok _ _ _ _ _ (var_ok _ _ _ E)), (bind_ok _ _ _ _ _ (var_ok _ _ _ E)). done. Qed.
Lemma assign_null_ok s x o : vars s !! x = Some o → live s x →
  assign_null x s = Ok (tt, State (dels (mine (vars s !! x)) (heap s)) (next s) (ext s) (<[x := Opt None None]> (vars s))).
Proof.
  intros E L. unfold assign_null. rewrite (bind_ok _ _ _ _ _ (up_reset_ok _ _ _ _ E L)).
  unfold point. erewrite bind_ok; [|apply var_ok; simpl; apply lookup_insert]. unfold set_var. simpl. by rewrite insert_insert.
Qed.
Lemma rel_is_live s w x : rel s w → live s x.
Proof. intros R a A. destruct (rel_live _ _ _ _ R A) as (v & _ & _ & ->). eauto. Qed.
Lemma rel_get s w x c : rel s w → optionals w !! x = Some c → ∃ o, vars s !! x = Some o ∧ holds (heap s) c o.
Proof. intros R E. pose proof (r_var _ _ R x) as V. rewrite E in V. simpl in V. destruct (vars s !! x); [eauto|done]. Qed.
Lemma rel_none s w x : rel s w → optionals w !! x = None → vars s !! x = None.
Proof. intros R E. pose proof (r_var _ _ R x) as V. rewrite E in V. simpl in V. by destruct (vars s !! x). Qed.
Lemma rel_look s w y c v : rel s w → optionals w !! y = Some c → look w c = Some v → ∃ o, vars s !! y = Some o ∧
  match v with Some v => ∃ p, ptr o = Some p ∧ load p s = Ok (v, s) | None => c = Nothing ∧ o = Opt None None end.
Proof.
  intros R E L. destruct (rel_get _ _ _ _ R E) as (o & V & H). exists o. split; [done|]. destruct c; simpl in *.
  - injection L as <-. done.
  - destruct H as (a & -> & H). injection L as <-. exists (Heap a). split; [done|]. unfold load. by rewrite H.
  - subst. destruct (objects w !! e) as [u|] eqn:U; [|done]. injection L as <-. exists (Ext e). split; [done|]. unfold load. by rewrite (r_ext _ _ R), U.
  - done.
Qed.
Lemma fresh s w x : rel s w → mine (vars s !! x) ≠ Some (next s).
Proof. intros R E. destruct (rel_is_live _ _ x R _ E) as (v & V). assert (next s < next s) by (apply (r_next _ _ R); eauto). lia. Qed.
Lemma dels_insert (o : option nat) n v h : o ≠ Some n → dels o (<[n := v]> h) = <[n := v]> (dels o h).
Proof. intros N. destruct o; simpl; [|done]. apply delete_insert_ne. congruence. Qed.

(** [x] gets a new object. *)
Definition fill (x : nat) (v : Z) : M () := a ← alloc v; up_reset x (Some a);; point_own x.
Lemma fill_ok s w x v o : rel s w → vars s !! x = Some o → ∃ s', fill x v s = Ok (tt, s') ∧ rel s' (keep w x (Own v)).
Proof.
  intros R E. eexists. split; [|by apply (rel_own s w x v)].
  unfold fill. erewrite bind_ok; [|done]. erewrite bind_ok; [|eapply up_reset_ok; [exact E|]].
  - erewrite point_own_ok; [|simpl; apply lookup_insert]. simpl. rewrite insert_insert, dels_insert by (by eapply fresh). done.
  - intros a A. simpl in *. destruct (rel_is_live _ _ x R _ A) as (u & U). rewrite lookup_insert_ne; [eauto|]. intros <-. by eapply (fresh s w x).
Qed.
(** [x] loses what it has. *)
Definition empty_out (x : nat) : M () := up_reset x None;; point_own x.
Lemma empty_out_ok s w x o : rel s w → vars s !! x = Some o → ∃ s', empty_out x s = Ok (tt, s') ∧ rel s' (keep w x Nothing).
Proof.
  intros R E. eexists. split; [|by apply (rel_less s w x Nothing (Opt None None))].
  unfold empty_out. erewrite bind_ok; [|eapply up_reset_ok; [exact E|by eapply rel_is_live]]. erewrite point_own_ok; [|simpl; apply lookup_insert]. simpl. by rewrite insert_insert.
Qed.
Lemma new_ok s w x : rel s w → optionals w !! x = None → ∃ s', set_var x (Opt None None) s = Ok (tt, s') ∧ rel s' (keep w x Nothing) ∧ vars s' = <[x := Opt None None]> (vars s) ∧ heap s' = heap s.
Proof.
  intros R E. pose proof (rel_less s w x Nothing (Opt None None) R eq_refl ltac:(done)) as Q. rewrite (rel_none _ _ _ R E) in Q. simpl in Q. eexists. split; [done|]. done.
Qed.
Lemma keep_keep w x c d : keep (keep w x c) x d = keep w x d. Proof. unfold keep. simpl. by rewrite insert_insert. Qed.

Lemma assign_copy_ok s w x y c v o : rel s w → vars s !! x = Some o → optionals w !! y = Some c → look w c = Some v →
  ∃ s', assign_copy x y s = Ok (tt, s') ∧ rel s' (keep w x (own v)).
Proof.
  intros R E Y L. destruct (rel_look _ _ _ _ _ R Y L) as (q & V & H). unfold assign_copy. rewrite (bind_ok _ _ _ _ _ (exists_ok _ _ _ V)).
  destruct v as [v|].
  - destruct H as (p & P & LD). rewrite P. destruct (fill_ok s w x v o R E) as (s' & F & R'). exists s'. split; [|done]. rewrite <- F. unfold fill.
    unfold mbind, M_bind. rewrite (value_ok _ _ _ V), P, LD. done.
  - destruct H as (-> & ->). destruct (empty_out_ok s w x o R E) as (s' & F & R'). exists s'. split; [|done]. exact F.
Qed.
Lemma assign_move_ok s w x y c v o : rel s w → vars s !! x = Some o → optionals w !! y = Some c → look w c = Some v → (∀ e, c ≠ Refers e) →
  ∃ s', assign_move x y s = Ok (tt, s') ∧ rel s' (keep (keep w x (own v)) y Nothing).
Proof.
  intros R E Y L N. destruct (rel_look _ _ _ _ _ R Y L) as (q & V & H). unfold assign_move. rewrite (bind_ok _ _ _ _ _ (exists_ok _ _ _ V)).
  destruct c as [|u| |]; simpl in L; try done.
  - injection L as <-. destruct H as (_ & ->). simpl. destruct (empty_out_ok s w x o R E) as (s' & F & R'). exists s'. split; [exact F|].
    destruct (decide (x = y)) as [->|XY]; [by rewrite keep_keep|].
    assert (keep (keep w x Nothing) y Nothing = keep w x Nothing) as ->; [|done]. unfold keep. simpl. f_equal.
    rewrite insert_commute by done. rewrite (insert_id (optionals w)); done.
  - injection L as <-. destruct (rel_get _ _ _ _ R Y) as (q' & V' & a & -> & HA). assert (q = Opt (Some a) (Some (Heap a))) as -> by congruence. clear H V'. simpl.
    assert (M : mine (vars s !! y) = Some a) by (by rewrite V).
    assert (REL : up_release y s = Ok (Some a, State (heap s) (next s) (ext s) (<[y := Opt None (Some (Heap a))]> (vars s)))).
    { unfold up_release, mbind, M_bind, var. by rewrite V. }
    cbv beta iota delta [mbind M_bind]. rewrite REL.
    destruct (decide (x = y)) as [->|XY].
    + pose proof (rel_less s w y Nothing (Opt None None) R eq_refl ltac:(done)) as Q. eexists. split; [|rewrite keep_keep; exact Q].
      erewrite up_reset_ok; [|simpl; apply lookup_insert|]. 2: { intros b. simpl. rewrite lookup_insert. done. }
      simpl. rewrite lookup_insert. simpl. rewrite insert_insert.
      erewrite assign_null_ok; [|simpl; apply lookup_insert|]. 2: { intros b. simpl. rewrite lookup_insert. simpl. intros [= <-]. eauto. }
      simpl. rewrite lookup_insert, insert_insert. simpl. erewrite point_own_ok; [|simpl; apply lookup_insert]. simpl. rewrite insert_insert. by rewrite V.
    + pose proof (rel_move s w x y a u Nothing (Opt None None) R XY Y M eq_refl ltac:(done)) as Q. eexists. split; [|exact Q].
      erewrite up_reset_ok; [|simpl; rewrite lookup_insert_ne by done; exact E|]. 2: { intros b. simpl. rewrite lookup_insert_ne by done. apply (rel_is_live _ _ x R). }
      erewrite assign_null_ok; [|simpl; rewrite lookup_insert_ne by done; apply lookup_insert|].
      2: { intros b. simpl. rewrite lookup_insert_ne, lookup_insert by done. done. }
      simpl. rewrite !(lookup_insert_ne _ x y), lookup_insert by done. simpl.
      erewrite point_own_ok; [|simpl; rewrite lookup_insert_ne by done; apply lookup_insert]. simpl.
      rewrite (lookup_insert_ne _ y x) by done. simpl. do 3 f_equal.
      rewrite (insert_commute _ y x) by done. by rewrite !insert_insert.
  - by destruct (N e).
Qed.
Lemma get_new w x y c : optionals w !! x = None → optionals w !! y = Some c → x ≠ y ∧ optionals (keep w x Nothing) !! y = Some c.
Proof. intros X Y. assert (x ≠ y) by congruence. split; [done|]. simpl. by rewrite lookup_insert_ne. Qed.
Lemma copy_is_assign x y : construct_copy x y = (set_var x (Opt None None);; assign_copy x y). Proof. done. Qed.
Lemma move_is_assign x y : construct_move x y = (set_var x (Opt None None);; assign_move x y). Proof. done. Qed.
Lemma assign_value_ok s w x v c : rel s w → optionals w !! x = Some c → ∃ s', assign_value x v s = Ok (tt, s') ∧ rel s' (keep w x (Own v)).
Proof.
  intros R E. destruct (rel_get _ _ _ _ R E) as (o & V & H). destruct (owned o) as [a|] eqn:O.
  - assert (M : mine (vars s !! x) = Some a) by (by rewrite V). destruct (rel_live _ _ _ _ R M) as (u & U & V' & HA).
    eexists. split; [|by apply (rel_write s w x a v u)]. unfold assign_value. cbv beta iota delta [mbind M_bind]. rewrite (var_ok _ _ _ V), O. unfold store. rewrite HA.
    erewrite point_own_ok; [|exact V]. simpl. rewrite O. simpl. by rewrite (insert_id (vars s) x _ V').
  - destruct (fill_ok s w x v o R V) as (s' & F & R'). exists s'. split; [|done]. rewrite <- F. unfold assign_value, fill. cbv beta iota delta [mbind M_bind].
    rewrite (var_ok _ _ _ V), O. done.
Qed.

(** One operation. *)
Lemma exec_rel o s w a w' : rel s w → match o with Move _ y | SetMove _ y => ∀ e, optionals w !! y ≠ Some (Refers e) | _ => True end →
  does o w = Some (a, w') → ∃ s', exec o s = Ok (a, s') ∧ rel s' w'.
Proof.
  intros R N D. destruct o; simpl in D.
  - destruct (optionals w !! x) eqn:X; [done|]. injection D as <- <-. destruct (new_ok s w x R X) as (s' & F & R' & _). exists s'. split; [|done].
    simpl. cbv beta iota delta [mbind M_bind]. unfold construct_null. by rewrite F.
  - destruct (optionals w !! x) eqn:X; [done|]. injection D as <- <-. eexists. split; [|by apply (rel_own s w x v)].
    simpl. unfold construct_value. cbv beta iota delta [mbind M_bind]. simpl. by rewrite (rel_none _ _ _ R X).
  - destruct (optionals w !! x) eqn:X; [done|]. injection D as <- <-. eexists. split; [|by apply (rel_less s w x (Refers e) (Opt None (Some (Ext e))))].
    simpl. cbv beta iota delta [mbind M_bind]. simpl. by rewrite (rel_none _ _ _ R X).
  - destruct (optionals w !! y) as [c|] eqn:Y; [|done]. simpl in D. destruct (look w c) as [v|] eqn:L; [|done]. simpl in D.
    destruct (optionals w !! x) eqn:X; [done|]. injection D as <- <-. destruct (new_ok s w x R X) as (s1 & F & R1 & V1 & H1). destruct (get_new w x y c X Y) as (XY & Y1).
    destruct (assign_copy_ok s1 (keep w x Nothing) x y c v (Opt None None) R1 ltac:(by rewrite V1, lookup_insert) Y1) as (s' & G & R'); [by destruct c|].
    exists s'. rewrite keep_keep in R'. split; [|done]. simpl. rewrite copy_is_assign. cbv beta iota delta [mbind M_bind]. rewrite F, G. done.
  - destruct (optionals w !! y) as [c|] eqn:Y; [|done]. simpl in D. destruct (look w c) as [v|] eqn:L; [|done]. simpl in D.
    destruct (optionals w !! x) eqn:X; [done|]. simpl in D. injection D as <- <-. destruct (new_ok s w x R X) as (s1 & F & R1 & V1 & H1). destruct (get_new w x y c X Y) as (XY & Y1).
    destruct (assign_move_ok s1 (keep w x Nothing) x y c v (Opt None None) R1 ltac:(by rewrite V1, lookup_insert) Y1) as (s' & G & R'); [by destruct c|intros e ->; by apply (N e)|].
    exists s'. rewrite keep_keep in R'. split; [|done]. simpl. rewrite move_is_assign. cbv beta iota delta [mbind M_bind]. rewrite F, G. done.
  - destruct (optionals w !! y) as [c|] eqn:Y; [|done]. simpl in D.
    destruct (rel_get _ _ _ _ R Y) as (q & V & H).
    assert (REL : immutable_move x y s = Ok (tt, State (heap s) (next s) (ext s) (<[x := Opt (owned q) (ptr q)]> (<[y := Opt None (ptr q)]> (vars s))))).
    { unfold immutable_move, up_release, mbind, M_bind, var. rewrite V. simpl. rewrite lookup_insert. done. }
    destruct (optionals w !! x) eqn:X; [by destruct c|].
    assert (XY : x ≠ y) by congruence.
    simpl. cbv beta iota delta [mbind M_bind]. rewrite REL.
    assert (LESS : ∀ d o', owned o' = None → (∀ h, holds h d o') → owned q = None → q = o' →
      rel (State (heap s) (next s) (ext s) (<[x := Opt (owned q) (ptr q)]> (<[y := Opt None (ptr q)]> (vars s)))) (keep (keep w x d) y Moved)).
    { intros d o' O1 O2 O3 ->. pose proof (rel_less _ _ x d o' R O1 O2) as Q. pose proof (rel_less _ _ y Moved (Opt None (ptr o')) Q eq_refl ltac:(done)) as Q'.
      simpl in Q'. rewrite (rel_none _ _ _ R X), (lookup_insert_ne _ x y), V in Q' by done. simpl in Q'. rewrite O1 in Q'. simpl in Q'.
      rewrite insert_commute in Q' by done. destruct o'. exact Q'. }
    destruct c; simpl in D; try done; injection D as <- <-; (eexists; split; [done|]); simpl in H.
    + subst q. by apply (LESS _ (Opt None None)).
    + destruct H as (b & -> & HB). simpl. pose proof (rel_move s w x y b v Moved (Opt None (Some (Heap b))) R XY Y ltac:(by rewrite V) eq_refl ltac:(done)) as Q.
      rewrite (rel_none _ _ _ R X) in Q. exact Q.
    + subst q. by apply (LESS _ (Opt None (Some (Ext e)))).
  - destruct (optionals w !! x) as [c|] eqn:X; [|done]. injection D as <- <-. destruct (rel_get _ _ _ _ R X) as (q & V & H).
    eexists. split; [|by apply (rel_less s w x Nothing (Opt None None))].
    simpl. cbv beta iota delta [mbind M_bind]. by rewrite (assign_null_ok _ _ _ V (rel_is_live _ _ x R)).
  - destruct (optionals w !! x) as [c|] eqn:X; [|done]. injection D as <- <-. destruct (assign_value_ok s w x v c R X) as (s' & F & R'). exists s'. split; [|done].
    simpl. cbv beta iota delta [mbind M_bind]. by rewrite F.
  - destruct (optionals w !! y) as [c|] eqn:Y; [|done]. simpl in D. destruct (look w c) as [v|] eqn:L; [|done]. simpl in D.
    destruct (rel_look _ _ _ _ _ R Y L) as (q & V & H). simpl. cbv beta iota delta [mbind M_bind]. rewrite (value_ok _ _ _ V). destruct v as [v|].
    + destruct H as (p & -> & LD). rewrite LD. destruct (optionals w !! x) as [d|] eqn:X; [|done]. injection D as <- <-.
      destruct (assign_value_ok s w x v d R X) as (s' & F & R'). exists s'. by rewrite F.
    + destruct H as (_ & ->). simpl. destruct (optionals w !! x); [|done]. injection D as <- <-. eauto.
  - destruct (optionals w !! x) as [c|] eqn:X; [|done]. injection D as <- <-. destruct (rel_get _ _ _ _ R X) as (q & V & H). destruct (fill_ok s w x v q R V) as (s' & F & R').
    exists s'. split; [|done]. simpl. change (assign_unique x v) with (fill x v). cbv beta iota delta [mbind M_bind]. by rewrite F.
  - destruct (optionals w !! x) as [c|] eqn:X; [|done]. injection D as <- <-. destruct (rel_get _ _ _ _ R X) as (q & V & H).
    eexists. split; [|by apply (rel_less s w x (Refers e) (Opt None (Some (Ext e))))].
    simpl. unfold assign_bare, point. cbv beta iota delta [mbind M_bind]. rewrite (up_reset_ok _ _ _ _ V (rel_is_live _ _ x R)). unfold var. simpl. rewrite lookup_insert. unfold set_var. simpl. by rewrite insert_insert.
  - destruct (optionals w !! y) as [c|] eqn:Y; [|done]. simpl in D. destruct (look w c) as [v|] eqn:L; [|done]. simpl in D.
    destruct (optionals w !! x) as [d|] eqn:X; [|done]. injection D as <- <-. destruct (rel_get _ _ _ _ R X) as (q & V & H).
    destruct (assign_copy_ok s w x y c v q R V Y L) as (s' & F & R'). exists s'. split; [|done]. simpl. cbv beta iota delta [mbind M_bind]. by rewrite F.
  - destruct (optionals w !! y) as [c|] eqn:Y; [|done]. simpl in D. destruct (look w c) as [v|] eqn:L; [|done]. simpl in D.
    destruct (optionals w !! x) as [d|] eqn:X; [|done]. simpl in D. injection D as <- <-. destruct (rel_get _ _ _ _ R X) as (q & V & H).
    destruct (assign_move_ok s w x y c v q R V Y L) as (s' & F & R'); [intros e ->; by apply (N e)|].
    exists s'. split; [|done]. simpl. cbv beta iota delta [mbind M_bind]. by rewrite F.
  - destruct (optionals w !! x) as [c|] eqn:X; [|done]. simpl in D. destruct (rel_get _ _ _ _ R X) as (q & V & H).
    simpl. cbv beta iota delta [mbind M_bind]. rewrite (value_ok _ _ _ V). destruct c; simpl in H, D.
    + subst. simpl. injection D as <- <-. eauto.
    + destruct H as (b & -> & HB). injection D as <- <-. simpl. rewrite HB. eexists. split; [done|]. apply (rel_write s w x b v v0); [done|by rewrite V|done].
    + subst. simpl. rewrite (r_ext _ _ R). destruct (objects w !! e) eqn:OB; [|done]. injection D as <- <-. eexists. split; [done|]. by apply rel_ext.
    + done.
  - destruct (optionals w !! x) as [c|] eqn:X; [|done]. simpl in D. destruct (rel_get _ _ _ _ R X) as (q & V & H).
    simpl. cbv beta iota delta [mbind M_bind]. rewrite (exists_ok _ _ _ V). exists s. destruct c; simpl in H, D; try done; injection D as <- <-.
    + by subst.
    + by destruct H as (b & -> & _).
    + by subst.
  - destruct (optionals w !! x) as [c|] eqn:X; [|done]. simpl in D. destruct (look w c) as [v|] eqn:L; [|done]. simpl in D. injection D as <- <-.
    destruct (rel_look _ _ _ _ _ R X L) as (q & V & H). simpl. cbv beta iota delta [mbind M_bind]. rewrite (value_ok _ _ _ V). exists s. destruct v as [v|].
    + destruct H as (p & -> & LD). by rewrite LD.
    + by destruct H as (_ & ->).
  - destruct (optionals w !! x) as [c|] eqn:X; [|done]. injection D as <- <-. destruct (rel_get _ _ _ _ R X) as (q & V & H).
    eexists. split; [|by apply rel_drop]. simpl. unfold destroy. cbv beta iota delta [mbind M_bind]. rewrite (var_ok _ _ _ V). simpl.
    pose proof (rel_is_live _ _ x R) as LV. unfold live in LV. rewrite V in LV |- *. simpl in *. destruct (owned q) as [b|]; [|done]. unfold free. simpl. destruct (LV b eq_refl) as (u & ->). done.
  - injection D as <- <-. eexists. split; [done|]. rewrite (r_ext _ _ R). by apply rel_ext.
  - injection D as <- <-. eexists. split; [done|]. rewrite (r_ext _ _ R). by apply rel_ext.
Qed.
Lemma rel_init : rel init empty_world.
Proof. split; simpl; try done; intros; rewrite ?lookup_empty in *; simpl in *; try done; by destruct H. Qed.
Lemma exec_all_rel os : ∀ s w l w', rel s w → moves_own os w → does_all os w = Some (l, w') → ∃ s', exec_all os s = Ok (l, s') ∧ rel s' w'.
Proof.
  induction os as [|o os IH]; intros s w l w' R N D; simpl in *.
  - injection D as <- <-. eauto.
  - destruct N as (N1 & N2). destruct (does o w) as [[a w1]|] eqn:E; [|done]. simpl in D. destruct (does_all os w1) as [[l' w2]|] eqn:E'; [|done]. injection D as <- <-.
    destruct (exec_rel o s w a w1 R N1 E) as (s1 & X & R1). destruct (IH s1 w1 l' w2 R1 N2 E') as (s2 & X2 & R2). exists s2. split; [|done].
    cbv beta iota delta [mbind M_bind]. by rewrite X, X2.
Qed.

(** Whatever a program does with Optionals and ImmutableOptionals, they are values: nothing is used after its end, nothing is freed twice, what is
    seen in them is what was put or copied there, and what is on the heap are the values they own, one for each. *)
Theorem C94_optionals_are_values os l w : does_all os empty_world = Some (l, w) → moves_own os empty_world →
  ∃ s, exec_all os init = Ok (l, s) ∧
    (∀ x v, optionals w !! x = Some (Own v) → ∃ a, vars s !! x = Some (Opt (Some a) (Some (Heap a))) ∧ heap s !! a = Some v) ∧
    (∀ a, is_Some (heap s !! a) → ∃ x v p, optionals w !! x = Some (Own v) ∧ vars s !! x = Some (Opt (Some a) p)) ∧
    (∀ x y a p q, vars s !! x = Some (Opt (Some a) p) → vars s !! y = Some (Opt (Some a) q) → x = y) ∧
    (optionals w = ∅ → heap s = ∅).
Proof.
  intros D N. destruct (exec_all_rel os init empty_world l w rel_init N D) as (s & E & R). exists s. split; [done|]. split_and!.
  - intros x v X. destruct (rel_get _ _ _ _ R X) as (o & V & a & -> & H). eauto.
  - intros a A. destruct (r_leak _ _ R a A) as (x & M). destruct (rel_live _ _ _ _ R M) as (v & X & V & _). eauto.
  - intros x y a p q X Y. eapply (r_inj _ _ R); [by rewrite X|by rewrite Y].
  - intros W. apply map_empty. intros a. destruct (heap s !! a) eqn:A; [|done]. destruct (r_leak _ _ R a ltac:(by eexists)) as (x & M).
    destruct (rel_live _ _ _ _ R M) as (v & X & _). by rewrite W, lookup_empty in X.
Qed.
