(** Proofs about TypeIDs: definedness, history, renaming, structure. *)
From stdpp Require Import list strings numbers sets.
From Coq Require Import NArith Lia.
From Verif Require Import Reflection_Model Reflection_Spec Reflection_Proofs.
From Verif Require CRC32_Model Dec.
Local Open Scope nat_scope.
Local Opaque N.pow CRC32_Model.crc32_str range base uninitialized.

Section ids.
Variables (rtl : bool) (P : program) (U : list ctype).
Hypothesis HU : closed P U.
Hypothesis Ha : arrays_below (2 ^ 50) U.

Lemma internal_id_spec fuel : ∀ c t, t ∈ U → valid c → missing U c < fuel →
  ∃ c' id, internal_id rtl P fuel c t = Some (c', id) ∧ valid c' ∧ (∀ x, find x c ≠ None → find x c' ≠ None) ∧ find t c' = Some id ∧ id ≠ uninitialized.
Proof.
  induction fuel as [|fuel IH]; intros c t Ht Hc Hf; [lia|]. cbn [internal_id]. cbv zeta.
  destruct (find t c) as [v|] eqn:E; simpl.
  - rewrite decide_False by (by eapply Hc). exists c, v. repeat split; eauto.
  - rewrite decide_True by done.
    set (ph := (base 999 + CRC32_Model.crc32_str (type_name P t) mod range)%N). set (c1 := (t, ph) :: c).
    destruct (visit_refs_spec rtl (internal_id rtl P fuel) (λ c', valid c' ∧ missing U c' < fuel)
      (λ c c', ∀ x, find x c ≠ None → find x c' ≠ None) (λ _ _ _, True) P t) with (s := c1) as (c' & ids & Ev & [Hv Hm] & Hle & _).
    + done.
    + intros s s' s'' H1 H2 x Hx. by apply H2, H1.
    + done.
    + intros s x [Hs Hm] Hx. destruct (IH s x) as (s' & r & E1 & H1 & H2 & H3 & H4); [by eapply HU|done|done|].
      exists s', r. split; [done|]. split; [split; [done|]|done]. eapply Nat.le_lt_trans; [|exact Hm]. by apply missing_mono.
    + split; [|pose proof (missing_less U c t ph Ht E); unfold c1; lia].
      intros x v Hx. unfold c1 in Hx. simpl in Hx. case_decide; [injection Hx as <-; apply placeholder_bound|by eapply Hc].
    + rewrite Ev. simpl. assert (calculate P t ids ≠ uninitialized) as Hn by (apply calculate_bound; intros e n ->; by eapply Ha).
      eexists _, _. split; [done|]. split; [|split; [|split; [|done]]].
      * intros x v Hx. simpl in Hx. case_decide; [by injection Hx as <-|by eapply Hv].
      * intros x Hx. simpl. case_decide; [done|]. apply Hle. unfold c1. simpl. by rewrite decide_False.
      * apply find_cons_eq.
Qed.
Lemma valid_nil : valid []. Proof. by intros ? ?. Qed.
Lemma missing_le c : missing U c ≤ length U. Proof. apply filter_length. Qed.

Lemma visit_mono {S A R} (f g : S → A → option (S * R)) l : (∀ s x r, f s x = Some r → g s x = Some r) → ∀ s r, visit f s l = Some r → visit g s l = Some r.
Proof.
  intros H. induction l as [|x l IH]; intros s r E; [done|]. simpl in *. destruct (f s x) as [[s' y]|] eqn:E1; [|done]. rewrite (H _ _ _ E1). simpl in *.
  destruct (visit f s' l) as [[s'' rs]|] eqn:E2; [|done]. rewrite (IH _ _ E2). done.
Qed.
Lemma internal_id_mono fuel : ∀ fuel' c t r, fuel ≤ fuel' → internal_id rtl P fuel c t = Some r → internal_id rtl P fuel' c t = Some r.
Proof.
  induction fuel as [|fuel IH]; intros fuel' c t r Hle E; [done|]. destruct fuel' as [|fuel']; [lia|]. cbn [internal_id] in *. cbv zeta in *.
  case_decide; [|done].
  assert (∀ c0 r0, visit_refs rtl (internal_id rtl P fuel) c0 P t = Some r0 → visit_refs rtl (internal_id rtl P fuel') c0 P t = Some r0) as Hv.
  { intros c0 r0. unfold visit_refs. destruct (rtl && by_arguments t).
    - destruct (visit (internal_id rtl P fuel) c0 (rev (refs P t))) as [[s rs]|] eqn:E0; [|done]. simpl. intros <-.
      erewrite visit_mono; [|intros; eapply IH; [|done]; lia|exact E0]. done.
    - intros E0. eapply visit_mono; [|exact E0]. intros. eapply IH; [|done]. lia. }
  destruct (visit_refs rtl (internal_id rtl P fuel) _ P t) as [[c' ids]|] eqn:E0; [|done]. by rewrite (Hv _ _ E0).
Qed.

Lemma type_id_defined fuel t : t ∈ U → length U < fuel → ∃ id, type_id rtl P fuel t = Some id ∧ id ≠ uninitialized.
Proof.
  intros Ht Hf. destruct (internal_id_spec fuel [] t Ht valid_nil) as (c & id & E & _ & _ & _ & Hn); [pose proof (missing_le []); lia|].
  unfold type_id. rewrite E. eauto.
Qed.
Lemma type_id_fuel fuel fuel' t : t ∈ U → length U < fuel → length U < fuel' → type_id rtl P fuel t = type_id rtl P fuel' t.
Proof.
  intros Ht Hf Hf'. unfold type_id.
  destruct (internal_id_spec (S (length U)) [] t Ht valid_nil) as (c & id & E & _); [pose proof (missing_le []); lia|].
  rewrite (internal_id_mono (S (length U)) fuel [] t _ ltac:(lia) E), (internal_id_mono (S (length U)) fuel' [] t _ ltac:(lia) E). done.
Qed.

(** History. *)
Definition consistent (fuel : nat) (s : thread_state) : Prop :=
  ∀ t c, find t s = Some c → ∃ id, type_id rtl P fuel t = Some id ∧ find t c = Some id ∧ id ≠ uninitialized.
Lemma history fuel ts : length U < fuel → (∀ t, t ∈ ts → t ∈ U) → ∀ s, consistent fuel s →
  ∃ s' ids, visit (current_type_id rtl P fuel) s ts = Some (s', ids) ∧ Forall2 (λ t id, type_id rtl P fuel t = Some id) ts ids ∧ consistent fuel s'.
Proof.
  intros Hf Hts s Hs.
  destruct (visit_spec (current_type_id rtl P fuel) (consistent fuel) (λ _ _, True) (λ t id _, type_id rtl P fuel t = Some id) ts) with (s := s)
    as (s' & ids & E & H1 & _ & H2); try done; [|eauto 6].
  intros s0 t Hs0 Ht. unfold current_type_id. destruct (find t s0) as [c|] eqn:E; simpl.
  - destruct (Hs0 t c E) as (id & E1 & E2 & Hn). destruct fuel as [|fuel]; [lia|]. cbn [internal_id]. cbv zeta. rewrite E2. simpl.
    rewrite decide_False by done. simpl. eexists _, id. split; [done|]. split; [|done].
    intros x cx Hx. simpl in Hx. case_decide; [injection Hx as <-; subst; eauto|by eapply Hs0].
  - destruct (internal_id_spec fuel [] t (Hts t Ht) valid_nil) as (c' & id & E1 & _ & _ & E2 & Hn); [pose proof (missing_le []); lia|].
    rewrite E1. simpl. assert (type_id rtl P fuel t = Some id) as E3 by (unfold type_id; by rewrite E1).
    eexists _, id. split; [done|]. split; [|done]. intros x cx Hx. simpl in Hx. case_decide; [injection Hx as <-; subst; eauto|by eapply Hs0].
Qed.
End ids.

(** ** Names and TypeIDs by labels *)
Definition name_from (l : label) (names : list (list N)) : list N :=
  let first := nth 0 names [] in
  let second := nth 1 names [] in
  match l with
  | LPrim p => prim_name p
  | LEnum n => n
  | LArray n => lit "std::array<" ++ first ++ lit ", " ++ Dec.dec n ++ lit ">"
  | LVector => lit "std::vector<" ++ first ++ lit ">"
  | LMap => lit "std::map<" ++ first ++ lit ", " ++ second ++ lit ">"
  | LUnorderedMap => lit "std::unordered_map<" ++ first ++ lit ", " ++ second ++ lit ">"
  | LSet => lit "std::set<" ++ first ++ lit ">"
  | LUnorderedSet => lit "std::unordered_set<" ++ first ++ lit ">"
  | LPair => lit "std::pair<" ++ first ++ lit ", " ++ second ++ lit ">"
  | LOptional => lit "Optional<" ++ first ++ lit ">"
  | LVariant (Some n) => n
  | LVariant None => lit "Variant_B_" ++ join_names names ++ lit "_E"
  | LStruct n _ _ _ => n
  end.
Definition structural (l : label) : bool := match l with LPrim _ | LEnum _ | LStruct _ _ _ _ => false | _ => true end.
Lemma name_from_eq P t : type_name P t = name_from (label_of P t) (map (type_name P) (refs P t)).
Proof. destruct t as [| | | | | | | | | |[|]|]; reflexivity. Qed.
Lemma name_from_leaf l ns ns' : structural l = false → name_from l ns = name_from l ns'.
Proof. by destruct l. Qed.
(** An induction along the names: all the types referred to, if the name depends on them. *)
Lemma name_ind P (Q : ctype → Prop) : (∀ t, (structural (label_of P t) = true → ∀ x, x ∈ refs P t → Q x) → Q t) → ∀ t, Q t.
Proof.
  intros H t. induction t as [p|e|t n IH|t IH|k v IHk IHv|k v IHk IHv|t IH|t IH|k v IHk IHv|t IH|o l IH|s] using ctype_ind'; apply H; intros Hs x Hx;
    simpl in Hx; try discriminate Hs; try (apply elem_of_list_singleton in Hx as ->; exact IH);
    try (apply elem_of_cons in Hx as [->|Hx]; [exact IHk|apply elem_of_list_singleton in Hx as ->; exact IHv]).
  rewrite Forall_forall in IH. by apply IH.
Qed.
Definition calculate_from (l : label) (name : list N) (ids : list N) : N :=
  let first := nth 0 ids uninitialized in
  let second := nth 1 ids uninitialized in
  match l with
  | LPrim p => base 900 + prim_index p
  | LEnum n => base 901 + CRC32_Model.crc32_str n
  | LArray n => m64 (base 930 + rol64 first 3 mod range + rol64 n 7)
  | LVector => base 931 + rol64 first 3 mod range
  | LPair => base 933 + N.lxor (rol64 first 5) (rol64 second 11) mod range
  | LMap => base 934 + N.lxor (rol64 first 5) (rol64 second 11) mod range
  | LUnorderedMap => base 936 + N.lxor (rol64 first 5) (rol64 second 11) mod range
  | LSet => base 932 + N.lxor (rol64 first 5) (rol64 first 11) mod range
  | LUnorderedSet => base 935 + N.lxor (rol64 first 5) (rol64 first 11) mod range
  | LOptional => base 921 + rol64 first 5 mod range
  | LVariant _ => base 922 + cases_hash ids (CRC32_Model.crc32_str name) mod range
  | LStruct sname derived template fields =>
      let '(super, ids) := match derived, ids with true, id :: ids' => (id, ids') | _, _ => (1, ids) end in
      let '(name, ids) := match template, ids with
                          | true, id :: ids' => (take (length sname - 2) sname ++ lit "_T" ++ Dec.dec id, ids')
                          | _, _ => (sname, ids)
                          end in
      base 920 + fields_hash (map (λ n, Field n (TPrim Bool) None) fields) ids (N.lxor (CRC32_Model.crc32_str name) (rol64 (N.lxor super 1) 7)) mod range
  end%N.
Lemma fields_hash_names fs : ∀ ids h, fields_hash fs ids h = fields_hash (map (λ n, Field n (TPrim Bool) None) (map f_name fs)) ids h.
Proof.
  unfold fields_hash. intros ids h. f_equal. generalize (h, 0%N). revert ids.
  induction fs as [|f fs IH]; intros [|i ids] [h' k]; try done. cbn [map zip zip_with fold_left f_name]. apply IH.
Qed.
Lemma calculate_from_eq P t ids : calculate P t ids = calculate_from (label_of P t) (type_name P t) ids.
Proof.
  destruct t as [| | | | | | | | | |[|]|s]; try reflexivity. cbn [calculate calculate_from label_of]. cbv zeta.
  destruct (s_super (structs P s)), (s_inner (structs P s)), ids as [|i1 [|i2 ids]]; cbv iota; by rewrite fields_hash_names.
Qed.
Lemma by_arguments_label P t P' t' : label_of P t = label_of P' t' → by_arguments t = by_arguments t'.
Proof. by destruct t as [| | | | | | | | | |[|]|], t' as [| | | | | | | | | |[|]|]. Qed.

(** ** Renaming *)
Section renaming.
Variables (rtl : bool) (P P' : program) (U : list ctype) (r : ctype → ctype).
Hypothesis HU : closed P U.
Hypothesis Hsame : same_definitions P P' U r.

Lemma type_name_same t : t ∈ U → type_name P' (r t) = type_name P t.
Proof.
  induction t as [t IH] using (name_ind P). intros Ht. destruct (proj1 Hsame _ Ht) as [Hl Hr].
  rewrite (name_from_eq P'), (name_from_eq P), Hl, Hr. destruct (structural (label_of P t)) eqn:Es; [|by apply name_from_leaf].
  f_equal. rewrite map_map. apply map_ext_in. intros x Hx. apply elem_of_list_In in Hx. apply IH; [done|done|by eapply HU].
Qed.
Definition rename (c : cache) : cache := map (λ '(t, v), (r t, v)) c.
Definition inside (c : cache) : Prop := ∀ t, find t c ≠ None → t ∈ U.
Lemma find_rename c t : inside c → t ∈ U → find (r t) (rename c) = find t c.
Proof.
  intros Hc Ht. induction c as [|[x v] c IH]; [done|]. cbn [rename map find].
  assert (x ∈ U) as Hx by (apply Hc; by rewrite find_cons_eq).
  assert (inside c) as Hc' by (intros y Hy; apply Hc; simpl; by case_decide).
  destruct (decide (t = x)) as [->|Hne]; [by rewrite decide_True|]. rewrite decide_False by (intros E; apply Hne; by apply (proj2 Hsame)). by apply IH.
Qed.
Lemma visit_rename (f g : cache → ctype → option (cache * N)) l :
  (∀ c x, x ∈ l → inside c → g (rename c) (r x) = (λ p, (rename p.1, p.2)) <$> f c x ∧ ∀ p, f c x = Some p → inside p.1) →
  ∀ c, inside c → visit g (rename c) (map r l) = (λ p, (rename p.1, p.2)) <$> visit f c l ∧ ∀ p, visit f c l = Some p → inside p.1.
Proof.
  induction l as [|x l IH]; intros H c Hc.
  - simpl. split; [done|]. by intros p [= <-].
  - destruct (H c x ltac:(set_solver) Hc) as [E Hi]. cbn [map visit]. rewrite E. destruct (f c x) as [[c1 v]|]; [|done]. cbn [fmap option_fmap option_map fst snd mbind option_bind].
    destruct (IH (λ c x Hx, H c x (elem_of_list_further _ _ _ Hx)) c1 (Hi _ eq_refl)) as [E' Hi']. rewrite E'.
    destruct (visit f c1 l) as [[c2 vs]|]; [|done]. cbn [fmap option_fmap option_map fst snd mbind option_bind]. split; [done|]. intros p [= <-]. exact (Hi' _ eq_refl).
Qed.
Lemma internal_id_rename fuel : ∀ c t, t ∈ U → inside c →
  internal_id rtl P' fuel (rename c) (r t) = (λ p, (rename p.1, p.2)) <$> internal_id rtl P fuel c t ∧ ∀ p, internal_id rtl P fuel c t = Some p → inside p.1.
Proof.
  induction fuel as [|fuel IH]; intros c t Ht Hc; [done|]. cbn [internal_id]. cbv zeta. rewrite find_rename by done.
  case_decide as Hd; [|split; [done|by intros p [= <-]]].
  destruct (proj1 Hsame _ Ht) as [Hl Hr]. rewrite type_name_same by done.
  set (v := (base 999 + CRC32_Model.crc32_str (type_name P t) mod range)%N).
  assert (inside ((t, v) :: c)) as Hc1 by (intros x Hx; simpl in Hx; case_decide; [by subst|by apply Hc]).
  change ((r t, v) :: rename c) with (rename ((t, v) :: c)).
  assert (visit_refs rtl (internal_id rtl P' fuel) (rename ((t, v) :: c)) P' (r t) = (λ p, (rename p.1, p.2)) <$> visit_refs rtl (internal_id rtl P fuel) ((t, v) :: c) P t
          ∧ ∀ p, visit_refs rtl (internal_id rtl P fuel) ((t, v) :: c) P t = Some p → inside p.1) as [E Hi].
  { unfold visit_refs. rewrite Hr, (by_arguments_label P' (r t) P t Hl). destruct (rtl && by_arguments t).
    - rewrite <- map_rev. destruct (visit_rename (internal_id rtl P fuel) (internal_id rtl P' fuel) (rev (refs P t))) with (c := (t, v) :: c) as [E Hi]; [|done|].
      { intros c0 x Hx Hc0. apply IH; [|done]. apply (HU t); [done|]. apply elem_of_list_In, in_rev, elem_of_list_In in Hx. done. }
      rewrite E. destruct (visit (internal_id rtl P fuel) ((t, v) :: c) (rev (refs P t))) as [[c2 vs]|]; [|done]. cbn [fmap option_fmap option_map fst snd mbind option_bind]. split; [done|].
      intros p [= <-]. exact (Hi _ eq_refl).
    - apply visit_rename; [|done]. intros c0 x Hx Hc0. apply IH; [|done]. by apply (HU t). }
  rewrite E. destruct (visit_refs rtl (internal_id rtl P fuel) ((t, v) :: c) P t) as [[c2 ids]|]; [|done]. cbn [fmap option_fmap option_map fst snd mbind option_bind].
  rewrite !calculate_from_eq, Hl, type_name_same by done. split; [done|]. intros p [= <-] x Hx. simpl in Hx. case_decide; [by subst|]. by apply (Hi _ eq_refl).
Qed.
Lemma type_id_rename fuel t : t ∈ U → type_id rtl P' fuel (r t) = type_id rtl P fuel t.
Proof.
  intros Ht. unfold type_id. destruct (internal_id_rename fuel [] t Ht) as [E _]; [by intros x|]. change (rename []) with (@nil (ctype * N)) in E. rewrite E.
  by destruct (internal_id rtl P fuel [] t) as [[c v]|].
Qed.
End renaming.

(** ** Types without recursion *)
Section acyclic.
Variables (rtl : bool) (P : program) (U : list ctype) (rank : ctype → nat).
Hypothesis HU : closed P U.
Hypothesis Ha : arrays_below (2 ^ 50) U.
Hypothesis Hrank : ∀ t x, t ∈ U → x ∈ refs P t → rank x < rank t.

Fixpoint sid (n : nat) (t : ctype) : N :=
  match n with 0 => 0%N | S n' => calculate P t (map (sid n') (refs P t)) end.
Lemma sid_fuel n : ∀ n' t, t ∈ U → rank t < n → rank t < n' → sid n t = sid n' t.
Proof.
  induction n as [|n IH]; intros [|n'] t Ht H H'; try lia. simpl. f_equal. apply map_ext_in. intros x Hx. apply elem_of_list_In in Hx.
  pose proof (Hrank t x Ht Hx). apply IH; [by eapply HU|lia|lia].
Qed.
Definition structural_id (t : ctype) : N := sid (S (rank t)) t.
Lemma structural_id_eq t : t ∈ U → structural_id t = calculate P t (map structural_id (refs P t)).
Proof.
  intros Ht. unfold structural_id at 1. cbn [sid]. f_equal. apply map_ext_in. intros x Hx. apply elem_of_list_In in Hx.
  pose proof (Hrank t x Ht Hx). apply sid_fuel; [by eapply HU|lia|lia].
Qed.
Lemma internal_id_acyclic fuel : ∀ c t, t ∈ U → valid c → missing U c < fuel →
  (∀ x v, find x c = Some v → v = structural_id x ∨ rank t < rank x) →
  ∃ c', internal_id rtl P fuel c t = Some (c', structural_id t) ∧ valid c' ∧ (∀ x, find x c ≠ None → find x c' ≠ None) ∧
    ∀ x v, find x c' = Some v → v = structural_id x ∨ find x c = Some v.
Proof.
  induction fuel as [|fuel IH]; intros c t Ht Hc Hf Hst; [lia|]. cbn [internal_id]. cbv zeta.
  destruct (find t c) as [v|] eqn:E; simpl.
  - rewrite decide_False by (by eapply Hc). destruct (Hst t v E) as [->|?]; [|lia]. exists c. repeat split; auto.
  - rewrite decide_True by done.
    set (ph := (base 999 + CRC32_Model.crc32_str (type_name P t) mod range)%N). set (c1 := (t, ph) :: c).
    destruct (visit_refs_spec rtl (internal_id rtl P fuel) (λ c', valid c' ∧ missing U c' < fuel ∧ ∀ x v, find x c' = Some v → v = structural_id x ∨ find x c1 = Some v)
      (λ c c', ∀ x, find x c ≠ None → find x c' ≠ None) (λ x id _, id = structural_id x) P t) with (s := c1) as (c' & ids & Ev & (Hv & Hm & Hs) & Hle & Hids).
    + done.
    + intros s s' s'' H1 H2 x Hx. by apply H2, H1.
    + done.
    + intros s x (Hs & Hm & Hsx) Hx. pose proof (Hrank t x Ht Hx). destruct (IH s x) as (s' & E1 & H1 & H2 & H3); [by eapply HU|done|done| |].
      { intros y v Hy. destruct (Hsx y v Hy) as [?|Hy']; [by left|]. unfold c1 in Hy'. simpl in Hy'. case_decide; [subst; by right|].
        destruct (Hst y v Hy'); [by left|right; lia]. }
      exists s', (structural_id x). split; [done|]. split; [split; [done|split]|done].
      * eapply Nat.le_lt_trans; [|exact Hm]. by apply missing_mono.
      * intros y v Hy. destruct (H3 y v Hy) as [?|Hy']; [by left|by apply Hsx].
    + split; [|split; [pose proof (missing_less U c t ph Ht E); unfold c1; lia|by right]].
      intros x v Hx. unfold c1 in Hx. simpl in Hx. case_decide; [injection Hx as <-; apply placeholder_bound|by eapply Hc].
    + rewrite Ev. simpl.
      assert (ids = map structural_id (refs P t)) as -> by (clear Ev; induction Hids; [done|]; cbn [map]; by f_equal).
      rewrite <- structural_id_eq by done.
      assert (structural_id t ≠ uninitialized) as Hn by (rewrite structural_id_eq by done; apply calculate_bound; intros e n ->; by eapply Ha).
      eexists. split; [done|]. split; [|split].
      * intros x v Hx. simpl in Hx. case_decide; [by injection Hx as <-|by eapply Hv].
      * intros x Hx. simpl. case_decide; [done|]. apply Hle. unfold c1. simpl. by rewrite decide_False.
      * intros x v Hx. simpl in Hx. case_decide; [injection Hx as <-; left; by subst|]. destruct (Hs x v Hx) as [?|Hx']; [by left|].
        unfold c1 in Hx'. rewrite find_cons_ne in Hx' by done. by right.
Qed.
Lemma type_id_acyclic fuel t : t ∈ U → length U < fuel → type_id rtl P fuel t = Some (structural_id t).
Proof.
  intros Ht Hf. unfold type_id. destruct (internal_id_acyclic fuel [] t Ht valid_nil) as (c' & E & _); [pose proof (missing_le U []); lia|done|]. by rewrite E.
Qed.
End acyclic.

Lemma alike_name P P' t : ∀ t', alike P P' t t' → type_name P t = type_name P' t'.
Proof.
  induction t as [t IH] using (name_ind P). intros t' H. inversion H as [? ? Hl Hr]; subst.
  rewrite (name_from_eq P), (name_from_eq P'), <- Hl. destruct (structural (label_of P t)) eqn:Es; [|by apply name_from_leaf]. f_equal. specialize (IH eq_refl).
  clear H Hl Es. induction Hr as [|x x' l l' Hx Hr IHr]; [done|]. cbn [map]. f_equal; [apply IH; [set_solver|done]|]. apply IHr. intros; apply IH; [set_solver|done].
Qed.
Lemma alike_id P P' U U' rank rank' : closed P U → closed P' U' →
  (∀ t x, t ∈ U → x ∈ refs P t → rank x < rank t) → (∀ t x, t ∈ U' → x ∈ refs P' t → rank' x < rank' t) →
  ∀ t t', t ∈ U → t' ∈ U' → alike P P' t t' → structural_id P rank t = structural_id P' rank' t'.
Proof.
  intros HU HU' Hr Hr' t. remember (rank t) as n eqn:En. revert t En. induction (lt_wf n) as [n _ IH]. intros t -> t' Ht Ht' H.
  pose proof (alike_name _ _ _ _ H) as Hname. inversion H as [? ? Hl Hrefs]; subst.
  rewrite (structural_id_eq P U rank HU Hr t Ht), (structural_id_eq P' U' rank' HU' Hr' t' Ht').
  rewrite !calculate_from_eq, <- Hl, <- Hname. f_equal. clear H Hl Hname.
  assert (∀ x, x ∈ refs P t → x ∈ U ∧ rank x < rank t) as H1 by (intros x Hx; split; [by eapply HU|by apply Hr]).
  assert (∀ x, x ∈ refs P' t' → x ∈ U') as H2 by (intros x Hx; by eapply HU'). revert H1 H2.
  induction Hrefs as [|x x' l l' Hx Hrefs IHr]; intros H1 H2; [done|]. cbn [map]. f_equal.
  - destruct (H1 x ltac:(set_solver)). eapply IH; [|done|done|apply H2; set_solver|done]. done.
  - apply IHr; intros; [apply H1|apply H2]; set_solver.
Qed.

(** ** Kinds *)
Local Transparent base.
Lemma div_range p x : (x < range → (base p + x) / range = p)%N.
Proof. intros H. unfold base. symmetry. by apply (N.div_unique _ _ _ x). Qed.
Lemma calculate_prefix P t ids : (∀ e n, t = TArray e n → (rol64 (nth 0 ids uninitialized) 3 mod range + n * 128 < range)%N ∧ (n < 2 ^ 50)%N) →
  (calculate P t ids / range = prefix t)%N.
Proof.
  intros Ha. destruct t as [p|e|t n|t|k v|k v|t|t|k v|t|o l|s]; cbn [calculate prefix]; cbv zeta; try (apply div_range, range_lt).
  - apply div_range. rewrite range_val. by destruct p.
  - apply div_range. eapply N.lt_le_trans; [apply crc_bound|]. rewrite range_val. done.
  - destruct (Ha t n eq_refl) as [H1 H2]. rewrite rol64_small by done. rewrite <- N.add_assoc. unfold m64. rewrite N.mod_small; [by apply div_range|].
    unfold base. rewrite range_val in *. change (2 ^ 64)%N with 18446744073709551616%N. lia.
  - destruct (match s_super (structs P s) with Some _ => _ | None => _ end) as [sup ids']. destruct (match s_inner (structs P s) with Some _ => _ | None => _ end) as [nm ids''].
    apply div_range, range_lt.
Qed.
Lemma type_id_calculated rtl P fuel t id : type_id rtl P fuel t = Some id → ∃ ids, id = calculate P t ids.
Proof.
  unfold type_id. destruct fuel as [|fuel]; [done|]. cbn [internal_id find]. rewrite decide_True by done.
  destruct (visit_refs _ _ _ _ _) as [[c ids]|]; [|done]. simpl. intros [= <-]. eauto.
Qed.
