(** Proofs about schemas. *)
From stdpp Require Import list strings numbers sets.
From Coq Require Import NArith Lia.
From Verif Require Import Reflection_Model Reflection_Spec Reflection_Proofs.
Local Open Scope nat_scope.
Local Opaque N.pow range base uninitialized.

Section schema.
Variables (P : program) (id : ctype → N) (U : list ctype).
Hypothesis HU : closed P U.
Hypothesis Hinj : ∀ t t', t ∈ U → t' ∈ U → id t = id t' → t = t'.
Hypothesis Harr : no_arrays U.
Hypothesis Henum : ∀ e, TEnum e ∈ U → id (TEnum e) = (base 901 + CRC32_Model.crc32_str (e_name (enums P e)))%N.

Lemma reflected_entry t : t ∈ U → reflected P id t = entry P id t.
Proof. destruct t; try done; intros Ht. - simpl. by rewrite Henum. - exfalso. by eapply Harr. Qed.
Lemma entry_id t : record_id (entry P id t) = id t.
Proof. by destruct t. Qed.
Lemma entry_parts t : parts (entry P id t) = map id (deps P t).
Proof.
  destruct t as [p|e|t n|t|k v|k v|t|t|k v|t|o l|s]; try done. cbn [parts entry deps]. cbv zeta. rewrite map_app, !map_map.
  f_equal. by destruct (s_super (structs P s)).
Qed.
Lemma entry_primitive t : is_primitive (entry P id t) = true ↔ primitive t.
Proof. by destruct t. Qed.
Lemma deps_refs t x : x ∈ deps P t → x ∈ refs P t.
Proof. destruct t; try done. simpl. set_solver. Qed.
Lemma primitive_deps t : primitive t → deps P t = [].
Proof. by destruct t. Qed.
Lemma deps_in t x : t ∈ U → x ∈ deps P t → x ∈ U.
Proof. intros Ht Hx. eapply HU; [exact Ht|by apply deps_refs]. Qed.
Lemma reaches_in t x : t ∈ U → reaches P t x → x ∈ U.
Proof. intros Ht H. induction H as [|t y x Hy H IH]; [done|]. apply IH. by eapply deps_in. Qed.
Lemma reaches_trans a b c : reaches P a b → reaches P b c → reaches P a c.
Proof. intros H. revert c. induction H as [|t x u Hx H IH]; intros c Hc; [done|]. econstructor; [exact Hx|by apply IH]. Qed.

(** ** The reflector *)
Definition unknown (m : reflector) : nat := length (filter (λ t, find (id t) m = None) U).
Lemma unknown_mono m m' : (∀ t, t ∈ U → find (id t) m ≠ None → find (id t) m' ≠ None) → unknown m' ≤ unknown m.
Proof.
  unfold unknown. generalize U as V. induction V as [|t V IH]; intros H; [done|]. rewrite !filter_cons.
  assert (length (filter (λ t, find (id t) m' = None) V) ≤ length (filter (λ t, find (id t) m = None) V)) by (apply IH; intros; apply H; [set_solver|done]).
  destruct (decide (find (id t) m = None)), (decide (find (id t) m' = None)); simpl; try lia. exfalso. apply (H t); [set_solver|done|done].
Qed.
Lemma unknown_less m t v : t ∈ U → find (id t) m = None → unknown ((id t, v) :: m) < unknown m.
Proof.
  unfold unknown. intros Hin Ht. revert Hin. generalize U as V. induction V as [|u V IH]; intros Hin; [inversion Hin|]. rewrite !filter_cons.
  assert (length (filter (λ u, find (id u) ((id t, v) :: m) = None) V) ≤ length (filter (λ u, find (id u) m = None) V)) as Hm.
  { clear. induction V as [|u V IH]; [done|]. rewrite !filter_cons. simpl find. repeat case_decide; simpl in *; try lia; done. }
  destruct (decide (id u = id t)) as [E|Hne].
  - rewrite E. rewrite decide_False by (by rewrite find_cons_eq). rewrite decide_True by done. cbn [length]. lia.
  - rewrite (find_cons_ne (id u) (id t)) by done. apply elem_of_cons in Hin as [->|Hin]; [done|]. specialize (IH Hin).
    destruct (decide (find (id u) m = None)); cbn [length]; lia.
Qed.
(** Filled in correctly, and closed. *)
Definition good (m : reflector) : Prop :=
  ∀ t r, t ∈ U → find (id t) m = Some (Some r) → r = entry P id t ∧ ∀ x, x ∈ refs P t → find (id x) m ≠ None.
(** [m'] has what [m] has; what is new is complete. *)
Definition extends (m m' : reflector) : Prop :=
  (∀ t v, t ∈ U → find (id t) m = Some v → find (id t) m' = Some v) ∧
  (∀ t, t ∈ U → find (id t) m = None → find (id t) m' ≠ Some None).
Lemma extends_refl m : extends m m. Proof. split; [done|]. intros t _ ->. done. Qed.
Lemma extends_trans m m' m'' : extends m m' → extends m' m'' → extends m m''.
Proof.
  intros [H1 H2] [H1' H2']. split; [eauto|]. intros t Ht E E''. destruct (find (id t) m') as [[r|]|] eqn:E'.
  - rewrite (H1' _ _ Ht E') in E''. done.
  - by apply (H2 t Ht E).
  - by apply (H2' t Ht E').
Qed.
Lemma reflect_list fuel l : (∀ t, t ∈ l → t ∈ U) →
  (∀ m t, t ∈ U → good m → unknown m < fuel → ∃ m', reflect P id fuel m t = Some m' ∧ good m' ∧ extends m m' ∧ find (id t) m' ≠ None) →
  ∀ m, good m → unknown m < fuel →
  ∃ m', foldl (λ m r, m ← m; reflect P id fuel m r) (Some m) l = Some m' ∧ good m' ∧ extends m m' ∧ ∀ t, t ∈ l → find (id t) m' ≠ None.
Proof.
  intros Hl IH. induction l as [|t l IHl]; intros m Hm Hf.
  - exists m. split; [done|]. split; [done|]. split; [apply extends_refl|]. intros t Ht. inversion Ht.
  - destruct (IH m t) as (m1 & E1 & G1 & X1 & F1); [apply Hl; set_solver|done|done|]. cbn [foldl mbind option_bind]. rewrite E1.
    destruct (IHl ltac:(intros; apply Hl; set_solver) m1 G1) as (m2 & E2 & G2 & X2 & F2).
    { eapply Nat.le_lt_trans; [apply unknown_mono|exact Hf]. intros x Hx Hn. destruct (find (id x) m) as [v|] eqn:Ex; [|done]. by rewrite (proj1 X1 _ _ Hx Ex). }
    exists m2. split; [done|]. split; [done|]. split; [by eapply extends_trans|]. intros x Hx. apply elem_of_cons in Hx as [->|Hx]; [|by apply F2].
    destruct (find (id t) m1) as [v|] eqn:Et; [|done]. rewrite (proj1 X2 t v); [done|apply Hl; set_solver|done].
Qed.
Lemma reflect_spec fuel : ∀ m t, t ∈ U → good m → unknown m < fuel → ∃ m', reflect P id fuel m t = Some m' ∧ good m' ∧ extends m m' ∧ find (id t) m' ≠ None.
Proof.
  induction fuel as [|fuel IH]; intros m t Ht Hm Hf; [lia|]. cbn [reflect]. destruct (find (id t) m) as [v|] eqn:E.
  - exists m. split; [done|]. split; [done|]. split; [apply extends_refl|]. by rewrite E.
  - set (m1 := (id t, None) :: m).
    assert (good m1) as G1.
    { intros x r Hx. unfold m1. simpl. case_decide; [done|]. intros Ex. destruct (Hm x r Hx Ex) as [H1 H2]. split; [done|].
      intros y Hy. case_decide; [done|]. by apply H2. }
    destruct (reflect_list fuel (refs P t)) with (m := m1) as (m2 & E2 & G2 & X2 & F2); [intros x Hx; by eapply HU|done|done| |].
    { pose proof (unknown_less m t None Ht E). unfold m1. lia. }
    match goal with |- context [foldl ?f ?a ?l] => replace (foldl f a l) with (Some m2) by (symmetry; exact E2) end. cbn [mbind option_bind].
    assert (find (id t) m1 = Some None) as E1 by apply find_cons_eq.
    exists ((id t, Some (reflected P id t)) :: m2). split; [done|].
    assert (∀ x, find (id x) m2 ≠ None → find (id x) ((id t, Some (reflected P id t)) :: m2) ≠ None) as Hkeep by (intros x; simpl; by case_decide).
    split; [|split; [|by rewrite find_cons_eq]].
    + intros x r Hx. destruct (decide (x = t)) as [->|Hne].
      * rewrite find_cons_eq. intros [= <-]. split; [by apply reflected_entry|]. intros y Hy. by apply Hkeep, F2.
      * rewrite find_cons_ne by (intros Ex; by apply Hne, Hinj). intros Ex. destruct (G2 x r Hx Ex) as [H1 H2]. split; [done|]. intros y Hy. by apply Hkeep, H2.
    + split.
      * intros x v Hx Ex. destruct (decide (x = t)) as [->|Hne]; [by rewrite E in Ex|].
        assert (id x ≠ id t) as Hn by (intros Ei; by apply Hne, Hinj). rewrite find_cons_ne by done. apply (proj1 X2 x v Hx). unfold m1. by rewrite find_cons_ne.
      * intros x Hx Ex. destruct (decide (x = t)) as [->|Hne]; [by rewrite find_cons_eq|].
        assert (id x ≠ id t) as Hn by (intros Ei; by apply Hne, Hinj). rewrite find_cons_ne by done. apply (proj2 X2 x Hx). unfold m1. by rewrite find_cons_ne.
Qed.
Definition complete (m : reflector) : Prop := good m ∧ ∀ t, t ∈ U → find (id t) m ≠ Some None.
Lemma complete_entry m t : complete m → t ∈ U → find (id t) m ≠ None → find (id t) m = Some (Some (entry P id t)).
Proof.
  intros [Hg Hc] Ht Hn. destruct (find (id t) m) as [[r|]|] eqn:E; [|by exfalso; eapply Hc|done]. by destruct (Hg t r Ht E) as [-> _].
Qed.
Lemma complete_closed m t x : complete m → t ∈ U → find (id t) m ≠ None → x ∈ refs P t → find (id x) m ≠ None.
Proof. intros Hc Ht Hn Hx. pose proof (complete_entry m t Hc Ht Hn) as E. by apply (proj1 Hc t _ Ht E). Qed.
Lemma extends_complete m m' : complete m → good m' → extends m m' → complete m'.
Proof.
  intros [_ Hc] Hg [H1 H2]. split; [done|]. intros t Ht E. destruct (find (id t) m) as [v|] eqn:Em.
  - rewrite (H1 t v Ht Em) in E. injection E as ->. by apply (Hc t Ht).
  - by apply (H2 t Ht Em).
Qed.

(** ** The traversal *)
Section traversal.
Variable m : reflector.
Hypothesis Hm : complete m.
Definition known (t : ctype) : Prop := t ∈ U ∧ find (id t) m ≠ None.
Lemma known_dep t x : known t → x ∈ deps P t → known x.
Proof. intros [Ht Hn] Hx. split; [by eapply deps_in|]. eapply complete_closed; eauto using deps_refs. Qed.

Definition seen (s : schema) (t : ctype) : Prop := id t ∈ map fst (types s).
Definition done_ (s : schema) (t : ctype) : Prop := seen s t ∧ (primitive t ∨ id t ∈ order s).
(** [grey]: the types being traversed. *)
Record inv (grey : ctype → Prop) (s : schema) : Prop := Inv {
  inv_types : ∀ i r, (i, r) ∈ types s → ∃ t, known t ∧ i = id t ∧ r = entry P id t;
  inv_nodup : NoDup (map fst (types s));
  inv_order : ∀ i, i ∈ order s → ∃ t, known t ∧ seen s t ∧ i = id t ∧ ¬ primitive t ∧ ¬ grey t;
  inv_order_nodup : NoDup (order s);
  inv_grey : ∀ t, grey t → seen s t;
  inv_seen : ∀ t, known t → seen s t → grey t ∨ done_ s t;
  inv_edges : ∀ t x, known t → seen s t → ¬ grey t → x ∈ deps P t → seen s x ∧ (primitive x ∨ before (id x) (id t) (order s) ∨ reaches P x t)
}.
Definition todo (s : schema) : nat := length (filter (λ t, id t ∉ map fst (types s)) U).
Lemma todo_mono s s' : (∀ i, i ∈ map fst (types s) → i ∈ map fst (types s')) → todo s' ≤ todo s.
Proof.
  intros H. unfold todo. generalize U as V. induction V as [|t V IH]; [done|]. rewrite !filter_cons. repeat case_decide; simpl; try lia. exfalso. auto.
Qed.
Lemma todo_less s t r : t ∈ U → ¬ seen s t → todo (Schema ((id t, r) :: types s) (order s)) < todo s.
Proof.
  unfold todo, seen. intros Hin Hn. revert Hin. generalize U as V. induction V as [|u V IH]; intros Hin; [inversion Hin|]. rewrite !filter_cons.
  pose proof (λ s s', todo_mono s s') as _. cbn [types map fst].
  assert (length (filter (λ u, id u ∉ id t :: map fst (types s)) V) ≤ length (filter (λ u, id u ∉ map fst (types s)) V)) as Hle.
  { clear. induction V as [|u V IH]; [done|]. rewrite !filter_cons. repeat case_decide; simpl; try lia. set_solver. }
  destruct (decide (id u = id t)) as [E|Hne].
  - rewrite decide_False by set_solver. rewrite decide_True by (by rewrite E). cbn [length]. lia.
  - apply elem_of_cons in Hin as [->|Hin]; [done|]. specialize (IH Hin). cbn [types map fst] in IH. repeat case_decide; cbn [length]; try lia; set_solver.
Qed.
Lemma before_app i j l l' : before i j l → before i j (l ++ l').
Proof. intros (l1 & l2 & -> & H). exists l1, (l2 ++ l'). rewrite <- app_assoc. split; [done|]. set_solver. Qed.
Lemma before_last i j l : i ∈ l → before i j (l ++ [j]).
Proof. intros H. apply elem_of_list_split in H as (l1 & l2 & ->). exists l1, (l2 ++ [j]). rewrite <- app_assoc. split; [done|]. set_solver. Qed.
(** Between two states: [t]s added, all reachable from [from]. *)
Record grows (from : ctype → Prop) (s s' : schema) : Prop := Grows {
  grow_types : ∀ e, e ∈ types s → e ∈ types s';
  grow_order : ∃ l, order s' = order s ++ l;
  grow_new : ∀ t, known t → seen s' t → ¬ seen s t → done_ s' t ∧ ∃ f, from f ∧ reaches P f t
}.
Lemma grows_seen from s s' t : grows from s s' → seen s t → seen s' t.
Proof. intros G H. unfold seen in *. apply elem_of_list_fmap in H as (e & -> & He). apply elem_of_list_fmap. exists e. split; [done|]. by apply G. Qed.
Lemma grows_done from s s' t : grows from s s' → done_ s t → done_ s' t.
Proof. intros G [H1 H2]. split; [by eapply grows_seen|]. destruct H2 as [?|H2]; [by left|right]. destruct (grow_order _ _ _ G) as [l ->]. set_solver. Qed.
Lemma grows_refl from s : grows from s s.
Proof. split; [done|by exists []; rewrite app_nil_r|done]. Qed.
Lemma grows_trans from s s' s'' : grows from s s' → grows from s' s'' → grows from s s''.
Proof.
  intros G G'. split.
  - intros e He. by apply G', G.
  - destruct (grow_order _ _ _ G) as [l E], (grow_order _ _ _ G') as [l' E']. exists (l ++ l'). by rewrite E', E, app_assoc.
  - intros t Ht Hs Hn. destruct (decide (id t ∈ map fst (types s'))) as [Hs'|Hs'].
    + destruct (grow_new _ _ _ G t Ht Hs' Hn) as [Hd Hf]. split; [|done]. by eapply grows_done.
    + by apply (grow_new _ _ _ G').
Qed.
Lemma grows_weaken (from from' : ctype → Prop) s s' : (∀ t, from t → ∃ f, from' f ∧ reaches P f t) → grows from s s' → grows from' s s'.
Proof.
  intros H G. split; [apply G|apply G|]. intros t Ht Hs Hn. destruct (grow_new _ _ _ G t Ht Hs Hn) as [Hd (f & Hf & Hr)]. split; [done|].
  destruct (H f Hf) as (f' & Hf' & Hr'). exists f'. split; [done|]. by eapply reaches_trans.
Qed.

Definition step (fuel : nat) (s : option schema) (i : N) : option schema :=
  s ← s; match find i m with Some (Some r') => traverse fuel m s r' | _ => None end.
Lemma traverse_list fuel (grey : ctype → Prop) l : (∀ t, t ∈ l → known t) → (∀ g t, grey g → t ∈ l → reaches P g t) →
  (∀ s t, known t → (∀ g, grey g → reaches P g t) → inv grey s → todo s < fuel →
     ∃ s', traverse fuel m s (entry P id t) = Some s' ∧ inv grey s' ∧ grows (eq t) s s' ∧ seen s' t) →
  ∀ s, inv grey s → todo s < fuel →
  ∃ s', foldl (step fuel) (Some s) (map id l) = Some s' ∧ inv grey s' ∧ grows (λ t, t ∈ l) s s' ∧ ∀ t, t ∈ l → seen s' t.
Proof.
  intros Hl Hg IH. induction l as [|t l IHl]; intros s Hs Hf.
  - exists s. split; [done|]. split; [done|]. split; [apply grows_refl|]. intros t Ht. inversion Ht.
  - destruct (IH s t) as (s1 & E1 & I1 & G1 & S1); [apply Hl; set_solver|intros g Hgg; apply Hg; [done|set_solver]|done|done|].
    cbn [map foldl]. replace (step fuel (Some s) (id t)) with (Some s1).
    2:{ unfold step. cbn [mbind option_bind]. rewrite (complete_entry m t Hm); [done|apply Hl; set_solver|apply Hl; set_solver]. }
    destruct (IHl ltac:(intros; apply Hl; set_solver) ltac:(intros; apply Hg; [done|set_solver]) s1 I1) as (s2 & E2 & I2 & G2 & S2).
    { eapply Nat.le_lt_trans; [apply todo_mono|exact Hf]. intros i Hi. apply elem_of_list_fmap in Hi as (e & -> & He). apply elem_of_list_fmap. exists e. split; [done|]. by apply G1. }
    exists s2. split; [done|]. split; [done|]. split.
    + eapply grows_trans; [eapply grows_weaken; [|exact G1]|eapply grows_weaken; [|exact G2]].
      * intros x <-. exists t. split; [set_solver|apply reaches_refl].
      * intros x Hx. exists x. split; [set_solver|apply reaches_refl].
    + intros x Hx. apply elem_of_cons in Hx as [->|Hx]; [by eapply grows_seen|by apply S2].
Qed.
Lemma traverse_spec fuel : ∀ (grey : ctype → Prop) s t, known t → (∀ g, grey g → reaches P g t) → (∀ g, grey g → known g) → inv grey s → todo s < fuel →
  ∃ s', traverse fuel m s (entry P id t) = Some s' ∧ inv grey s' ∧ grows (eq t) s s' ∧ seen s' t.
Proof.
  induction fuel as [|fuel IH]; intros grey s t Hk Hgrey Hgk Hs Hf; [lia|]. cbn [traverse]. rewrite entry_id.
  destruct (decide (id t ∈ map fst (types s))) as [Hseen|Hseen].
  - exists s. split; [done|]. split; [done|]. split; [apply grows_refl|done].
  - set (s1 := Schema ((id t, entry P id t) :: types s) (order s)).
    set (grey1 := λ x, grey x ∨ x = t).
    assert (∀ x, known x → seen s1 x ↔ seen s x ∨ x = t) as Hs1.
    { intros x Hx. unfold seen, s1. cbn [types map fst]. rewrite elem_of_cons. split; [|intros [?| ->]; [by right|by left]].
      intros [E|?]; [right|by left]. apply Hinj; [apply Hx|apply Hk|done]. }
    assert (¬ grey t) as Hngt by (intros Hg; by apply Hseen, (inv_grey _ _ Hs)).
    assert (inv grey1 s1) as I1.
    { split.
      - intros i r Hi. unfold s1 in Hi. cbn [types] in Hi. apply elem_of_cons in Hi as [[= -> ->]|Hi]; [by exists t|by eapply inv_types].
      - unfold s1. cbn [types map fst]. apply NoDup_cons. split; [done|apply Hs].
      - intros i Hi. destruct (inv_order _ _ Hs i Hi) as (x & Hx & Hsx & -> & Hp & Hg). exists x. split; [done|]. split; [apply Hs1; [done|by left]|].
        split; [done|]. split; [done|]. intros [?| ->]; [done|]. done.
      - apply Hs.
      - intros x [Hx| ->]; [|by apply Hs1; [|right]]. apply Hs1; [by apply Hgk|left]. by apply (inv_grey _ _ Hs).
      - intros x Hx Hsx. apply Hs1 in Hsx as [Hsx| ->]; [|by left; right|done]. destruct (inv_seen _ _ Hs x Hx Hsx) as [?|[_ Hd]]; [by left; left|].
        right. split; [apply Hs1; [done|by left]|done].
      - intros x y Hx Hsx Hnx Hy. apply Hs1 in Hsx as [Hsx| ->]; [|by exfalso; apply Hnx; right|done].
        destruct (inv_edges _ _ Hs x y Hx Hsx) as [H1 H2]; [intros ?; apply Hnx; by left|done|]. split; [|done]. apply Hs1; [by eapply known_dep|by left]. }
    destruct (traverse_list fuel grey1 (deps P t)) with (s := s1) as (s2 & E2 & I2 & G2 & S2).
    + intros x Hx. by eapply known_dep.
    + intros g x [Hg| ->] Hx; [eapply reaches_trans; [by apply Hgrey|]|]; (econstructor; [exact Hx|apply reaches_refl]).
    + intros s0 x Hx Hgx Hs0 Hf0. apply IH; try done. intros g [Hg| ->]; [by apply Hgk|done].
    + done.
    + pose proof (todo_less s t (entry P id t) (proj1 Hk) Hseen). unfold s1. lia.
    + rewrite entry_parts. change (foldl _ (Some s1) (map id (deps P t))) with (foldl (step fuel) (Some s1) (map id (deps P t))). fold s1. rewrite E2. simpl.
      assert (seen s2 t) as St by (eapply grows_seen; [exact G2|]; apply Hs1; [done|by right]).
      set (s3 := if is_primitive (entry P id t) then s2 else Schema (types s2) (order s2 ++ [id t])).
      assert (types s3 = types s2) as Ht3 by (unfold s3; by destruct (is_primitive _)).
      assert (∀ x, seen s3 x ↔ seen s2 x) as Hs3 by (intros x; unfold seen; by rewrite Ht3).
      assert (¬ primitive t → order s3 = order s2 ++ [id t]) as Ho3.
      { intros Hp. unfold s3. destruct (is_primitive (entry P id t)) eqn:Ep; [|done]. by apply entry_primitive in Ep. }
      assert (primitive t → s3 = s2) as Hp3 by (intros Hp; unfold s3; by rewrite (proj2 (entry_primitive t) Hp)).
      assert (∃ l, order s3 = order s2 ++ l) as [tail Ho].
      { unfold s3. destruct (is_primitive (entry P id t)); [by exists []; rewrite app_nil_r|by exists [id t]]. }
      assert (Decision (primitive t)) as Hdec by (destruct t; (left; exact I) || (right; intros [])).
      assert (done_ s3 t) as Hdone.
      { split; [by apply Hs3|]. destruct Hdec as [Hp|Hp]; [by left|right]. rewrite Ho3 by done. set_solver. }
      assert (∀ x, done_ s2 x → done_ s3 x) as Hd3.
      { intros x [H1 [H2|H2]]; (split; [by apply Hs3|]); [by left|right]. rewrite Ho. set_solver. }
      exists s3. split; [done|]. split; [|split; [|by apply Hs3]].
      * split.
        -- intros i r Hi. rewrite Ht3 in Hi. by eapply inv_types.
        -- rewrite Ht3. apply I2.
        -- intros i Hi. destruct Hdec as [Hp|Hp].
           ++ rewrite Hp3 in Hi by done. destruct (inv_order _ _ I2 i Hi) as (x & Hx & Hsx & -> & Hpx & Hg). exists x. split; [done|]. split; [by apply Hs3|].
              split; [done|]. split; [done|]. intros ?. apply Hg. by left.
           ++ rewrite Ho3 in Hi by done. apply elem_of_app in Hi as [Hi|Hi].
              ** destruct (inv_order _ _ I2 i Hi) as (x & Hx & Hsx & -> & Hpx & Hg). exists x. split; [done|]. split; [by apply Hs3|].
                 split; [done|]. split; [done|]. intros ?. apply Hg. by left.
              ** apply elem_of_list_singleton in Hi as ->. exists t. split; [done|]. split; [by apply Hs3|]. done.
        -- destruct Hdec as [Hp|Hp]; [rewrite Hp3 by done; apply I2|]. rewrite Ho3 by done. apply NoDup_app. split; [apply I2|]. split; [|apply NoDup_singleton].
           intros i Hi Hi'. apply elem_of_list_singleton in Hi' as ->. destruct (inv_order _ _ I2 _ Hi) as (x & Hx & _ & Ex & _ & Hg).
           apply Hg. right. apply Hinj; [apply Hx|apply Hk|done].
        -- intros x Hx. apply Hs3. apply (inv_grey _ _ I2). by left.
        -- intros x Hx Hsx. apply Hs3 in Hsx. destruct (inv_seen _ _ I2 x Hx Hsx) as [[Hg| ->]|Hd]; [by left|by right|right; by apply Hd3].
        -- intros x y Hx Hsx Hnx Hy. apply Hs3 in Hsx. destruct (decide (id x = id t)) as [E|Hne].
           ++ apply Hinj in E; [|apply Hx|apply Hk]. subst x. split; [by apply Hs3, S2|].
              destruct (inv_seen _ _ I2 y (known_dep _ _ Hk Hy) (S2 y Hy)) as [[Hg| ->]|[_ [Hp|Ho']]].
              ** right; right. by apply Hgrey.
              ** right; right. apply reaches_refl.
              ** by left.
              ** right; left. destruct Hdec as [Hp|Hp]; [by rewrite primitive_deps in Hy; [inversion Hy|]|]. rewrite Ho3 by done. by apply before_last.
           ++ destruct (inv_edges _ _ I2 x y Hx Hsx) as [H1 H2]; [intros [?| ->]; done|done|]. split; [by apply Hs3|].
              destruct H2 as [?|[H2|?]]; [by left|right; left; rewrite Ho; by apply before_app|by right; right].
      * split.
        -- intros e He. rewrite Ht3. apply G2. unfold s1. cbn [types]. set_solver.
        -- destruct (grow_order _ _ _ G2) as [l' El]. unfold s1 in El. cbn [order] in El. exists (l' ++ tail). by rewrite Ho, El, app_assoc.
        -- intros x Hx Hsx Hnx. apply Hs3 in Hsx. destruct (decide (id x = id t)) as [E|Hne].
           ++ apply Hinj in E; [|apply Hx|apply Hk]. subst x. split; [done|]. exists t. split; [done|apply reaches_refl].
           ++ assert (¬ seen s1 x) as Hn1 by (rewrite Hs1 by done; intros [?| ->]; done).
              destruct (grow_new _ _ _ G2 x Hx Hsx Hn1) as [Hd (f & Hf' & Hr)]. split; [by apply Hd3|]. exists t. split; [done|]. by econstructor.
Qed.
End traversal.

(** ** AddType *)
Definition none (t : ctype) : Prop := False.
Lemma inv_extends m m' s : extends m m' → inv m none s → inv m' none s.
Proof.
  intros [X _] I.
  assert (∀ t, known m t → known m' t) as Hk.
  { intros t [Ht Hn]. split; [done|]. destruct (find (id t) m) as [v|] eqn:E; [|done]. by rewrite (X t v Ht E). }
  assert (∀ t, known m' t → seen s t → known m t) as Hb.
  { intros t [Ht _] Hs. apply elem_of_list_fmap in Hs as ([i r] & E & Hi). destruct (inv_types _ _ _ I i r Hi) as (t' & Hk' & -> & _). simpl in E.
    apply Hinj in E as ->; [done|done|apply Hk']. }
  split; try apply I.
  - intros i r Hi. destruct (inv_types _ _ _ I i r Hi) as (t & Ht & H). exists t. split; [by apply Hk|done].
  - intros i Hi. destruct (inv_order _ _ _ I i Hi) as (t & Ht & H). exists t. split; [by apply Hk|done].
  - intros t Ht Hs. apply (inv_seen _ _ _ I); [by apply Hb|done].
  - intros t x Ht Hs. apply (inv_edges _ _ _ I); [by apply Hb|done].
Qed.
Lemma inv_reaches m s t x : complete m → inv m none s → known m t → seen s t → reaches P t x → known m x ∧ seen s x.
Proof.
  intros Hm I Hk Hs H. induction H as [t|t y x Hy H IH]; [done|]. apply IH; [by eapply known_dep|].
  apply (inv_edges _ _ _ I t y); [done|done|by intros []|done].
Qed.
Definition asked_for (a : ctype) : Prop := match a with TStruct _ | TVariant _ _ => True | _ => False end.
Definition state_ok (asked : list ctype) (ms : reflector * schema) : Prop :=
  complete ms.1 ∧ inv ms.1 none ms.2 ∧ ∀ t, t ∈ U → seen ms.2 t ↔ in_schema P asked t.
Lemma add_type_spec fuel asked ms t : t ∈ U → length U < fuel → state_ok asked ms → ∃ ms', add_type P id fuel ms t = Some ms' ∧ state_ok (asked ++ [t]) ms'.
Proof.
  destruct ms as [m s]. intros Ht Hf (Hm & I & Hs). cbn [fst snd] in *. unfold add_type. cbn [fst snd]. destruct (is_struct_or_variant t) eqn:Ek.
  - destruct (reflect_spec fuel m t Ht (proj1 Hm)) as (m' & E & G & X & F).
    { eapply Nat.le_lt_trans; [apply filter_length|done]. }
    rewrite E. cbn [mbind option_bind].
    pose proof (extends_complete m m' Hm G X) as Hm'. pose proof (inv_extends m m' s X I) as I'.
    rewrite (complete_entry m' t Hm' Ht F).
    destruct (traverse_spec m' Hm' fuel none s t) as (s' & Es & Is & Gs & Ss); [done|by intros ? []|by intros ? []|done| |].
    { eapply Nat.le_lt_trans; [apply filter_length|done]. }
    rewrite Es. cbn [mbind option_bind]. exists (m', s'). split; [done|]. split; [done|]. split; [done|]. cbn [fst snd].
    intros x Hx. split.
    + intros Hsx.
      assert (known m' x) as Hkx.
      { apply elem_of_list_fmap in Hsx as ([i r] & Ei & Hi). destruct (inv_types _ _ _ Is i r Hi) as (t' & Hk' & -> & _). simpl in Ei. apply Hinj in Ei as ->; [done|done|apply Hk']. }
      destruct (decide (id x ∈ map fst (types s))) as [Ho|Ho].
      * apply (Hs x Hx) in Ho as (a & Ha & Hka & Hr). exists a. split; [set_solver|done].
      * destruct (grow_new _ _ _ _ Gs x Hkx Hsx Ho) as [_ (f & <- & Hr)]. exists t. split; [set_solver|]. split; [by destruct t|done].
    + intros (a & Ha & Hka & Hr). apply elem_of_app in Ha as [Ha|Ha].
      * apply (grows_seen _ _ _ _ _ Gs), Hs; [done|]. by exists a.
      * apply elem_of_list_singleton in Ha as ->. by apply (inv_reaches m' s' t x Hm' Is (conj Ht F) Ss Hr).
  - exists (m, s). split; [done|]. split; [done|]. split; [done|]. cbn [fst snd]. intros x Hx. rewrite Hs by done. split.
    + intros (a & Ha & H). exists a. split; [set_solver|done].
    + intros (a & Ha & Hka & Hr). apply elem_of_app in Ha as [Ha|Ha]; [by exists a|]. apply elem_of_list_singleton in Ha as ->. by destruct t.
Qed.
Lemma add_types_spec fuel l : length U < fuel → (∀ t, t ∈ l → t ∈ U) → ∀ asked ms, state_ok asked ms →
  ∃ ms', foldl (λ ms t, ms ← ms; add_type P id fuel ms t) (Some ms) l = Some ms' ∧ state_ok (asked ++ l) ms'.
Proof.
  intros Hf. induction l as [|t l IH]; intros Hl asked ms Hms.
  - exists ms. split; [done|]. by rewrite app_nil_r.
  - destruct (add_type_spec fuel asked ms t) as (ms1 & E1 & H1); [apply Hl; set_solver|done|done|]. cbn [foldl mbind option_bind]. rewrite E1.
    destruct (IH ltac:(intros; apply Hl; set_solver) _ _ H1) as (ms2 & E2 & H2). exists ms2. split; [done|]. by rewrite <- app_assoc in H2.
Qed.
Lemma state_ok_start : state_ok [] ([], Schema [] []).
Proof.
  split; [|split].
  - split; [by intros t r _ H|by intros t _ H].
  - split; cbn; try (by constructor); try (by intros; set_solver); try (by intros ? ? Hx; inversion Hx); try (by intros ? Hx; inversion Hx).
  - intros t _. cbn. split; [by intros Hx; inversion Hx|]. intros (a & Ha & _). inversion Ha.
Qed.
Lemma in_schema_in asked t : (∀ t, t ∈ asked → t ∈ U) → in_schema P asked t → t ∈ U.
Proof. intros H (a & Ha & _ & Hr). eapply reaches_in; [by apply H|done]. Qed.
Lemma schema_spec fuel asked : length U < fuel → (∀ t, t ∈ asked → t ∈ U) →
  ∃ m s, foldl (λ ms t, ms ← ms; add_type P id fuel ms t) (Some ([], Schema [] [])) asked = Some (m, s) ∧
  (∀ i r, (i, r) ∈ types s ↔ ∃ t, in_schema P asked t ∧ i = id t ∧ r = entry P id t) ∧
  NoDup (map fst (types s)) ∧
  (∀ i, i ∈ order s ↔ ∃ t, in_schema P asked t ∧ ¬ primitive t ∧ i = id t) ∧
  NoDup (order s) ∧
  (∀ t x, in_schema P asked t → x ∈ deps P t → primitive x ∨ before (id x) (id t) (order s) ∨ reaches P x t).
Proof.
  intros Hf Ha. destruct (add_types_spec fuel asked Hf Ha [] _ state_ok_start) as ([m s] & E & Hm & I & Hs). cbn [fst snd app] in *.
  assert (∀ t, in_schema P asked t → known m t ∧ seen s t) as Hk.
  { intros t Ht. pose proof (in_schema_in asked t Ha Ht) as HtU. apply Hs in Ht as Hsn; [|done]. split; [|done].
    apply elem_of_list_fmap in Hsn as ([i r] & Ei & Hi). destruct (inv_types _ _ _ I i r Hi) as (t' & Hk' & -> & _). simpl in Ei. apply Hinj in Ei as ->; [done|done|apply Hk']. }
  exists m, s. split; [done|]. split; [|split; [apply I|split; [|split; [apply I|]]]].
  - intros i r. split.
    + intros Hi. destruct (inv_types _ _ _ I i r Hi) as (t & Hkt & -> & ->). exists t. split; [|done]. apply Hs; [apply Hkt|]. apply elem_of_list_fmap. by exists (id t, entry P id t).
    + intros (t & Ht & -> & ->). destruct (Hk t Ht) as [Hkt Hsn]. apply elem_of_list_fmap in Hsn as ([i r] & Ei & Hi).
      destruct (inv_types _ _ _ I i r Hi) as (t' & Hk' & -> & ->). simpl in Ei. apply Hinj in Ei as ->; [done|apply Hkt|apply Hk'].
  - intros i. split.
    + intros Hi. destruct (inv_order _ _ _ I i Hi) as (t & Hkt & Hst & -> & Hp & _). exists t. split; [by apply Hs; [apply Hkt|]|done].
    + intros (t & Ht & Hp & ->). destruct (Hk t Ht) as [Hkt Hst]. by destruct (inv_seen _ _ _ I t Hkt Hst) as [[]|[_ [?|?]]].
  - intros t x Ht Hx. destruct (Hk t Ht) as [Hkt Hst]. apply (inv_edges _ _ _ I t x); [done|done|by intros []|done].
Qed.
End schema.
