(** Proofs about storage transactions. *)
From stdpp Require Import gmap strings.
From Coq Require Import ZArith Lia.
From Verif Require Import StorageContainers_Model StorageContainers_Spec StorageContainers_Proofs StorageTxn_Model StorageTxn_Spec.

(* ------------------------------------------------------------------ *)
(** * Dependent update *)
Section Supd.
  Context {I : Type} `{EqDecision I} {X : I -> Type}.
  Lemma supd_same i (x : X i) f : supd i x f i = x.
  Proof.
    unfold supd. destruct (decide (i = i)) as [E|]; [|done].
    by rewrite (proof_irrel E eq_refl).
  Qed.
  Lemma supd_other i j (x : X i) f : i ≠ j → supd i x f j = f j.
  Proof. unfold supd. by destruct (decide (i = j)). Qed.
End Supd.

(* ------------------------------------------------------------------ *)
(** * Laws of a field *)

Section Laws.
  Context (f : field).

  Section Chain.
    Context {A : Type} (aap : f_ev f -> A -> A) (valid : f_ev f -> A -> Prop)
            (pair : f_ev f -> f_rb f -> A -> Prop).
    Fixpoint fchain (a : A) (log : list (f_ev f * f_rb f)) (a' : A) : Prop :=
      match log with
      | [] => a = a'
      | (e, u) :: l => valid e a ∧ pair e u a ∧ fchain (aap e a) l a'
      end.
  End Chain.

  Record laws := Laws {
    l_A : Type;
    l_inv : f_st f -> Prop;
    l_abs : f_st f -> l_A;
    l_aap : f_ev f -> l_A -> l_A;
    l_valid : f_ev f -> l_A -> Prop;
    l_pair : f_ev f -> f_rb f -> l_A -> Prop;
    l_init : l_inv (f_init f);
    l_apply : ∀ e s, l_inv s → l_valid e (l_abs s) →
      l_inv (f_apply f e s) ∧ l_abs (f_apply f e s) = l_aap e (l_abs s);
    l_undo : ∀ e u s s0, l_inv s → l_inv s0 → l_valid e (l_abs s0) →
      l_pair e u (l_abs s0) → l_abs s = l_aap e (l_abs s0) →
      l_inv (f_undo f u s) ∧ l_abs (f_undo f u s) = l_abs s0;
    l_step : ∀ clk n op s, l_inv s →
      ∃ log s' n', f_step f clk n op s = Some (log, s', n') ∧ n ≤ n' ∧ l_inv s' ∧
        fchain l_aap l_valid l_pair (l_abs s) log (l_abs s');
    l_show : ∀ s s', l_inv s → l_inv s' → l_abs s = l_abs s' → f_show f s = f_show f s'
  }.
End Laws.


(** The four containers obey the laws. *)
Section Instances.
  Lemma dict_n {K T P} `{Countable K} (gk : T → K) (pw : P → T → T) clk n op s log s' n' :
    dict_step gk pw clk n op s = Some (log, s', n') → n ≤ n'.
  Proof.
    destruct op; simpl; unfold dict_add, dict_erase, dict_patch; intros E;
      repeat case_match; simplify_eq; lia.
  Qed.

  Lemma dict_laws {K T P} `{Countable K} (gk : T → K) (pw : P → T → T) :
    patches_keep_keys (FDictionary gk pw) → laws (to_field (FDictionary gk pw)).
  Proof.
    intros Hp. simple refine (Laws (to_field (FDictionary gk pw)) (atab K T) (dict_inv gk) dict_abs (aapply gk pw) dict_valid (apair gk)
                         _ _ _ _ _); simpl.
    - apply dict_init_inv.
    - intros e s I _. by apply dict_apply_ok.
    - intros e u s s0 I I0 _ Hpair E. apply (dict_undo_ok gk pw e); [done|done| |done|done].
      intros k o Hk. destruct I0 as [I1 I2]. simpl in Hk. eauto.
    - intros clk n op s I. destruct (dict_step_ok gk pw clk n op s Hp I) as (l & s' & n' & E & I' & Hc).
      exists l, s', n'. split_and!; [done|by eapply dict_n|done|revert Hc; generalize (dict_abs s); clear; induction l as [|[e u] l IH]; simpl; naive_solver].
    - intros s s' _ _ E. exact E.
  Defined.

  Section M.
    Context {R C T : Type} `{Countable R} `{Countable C} (get_row : T → R) (get_col : T → C).
    Notation key_of := (λ o : T, (get_row o, get_col o)).
    Notation pw0 := (λ (p : Empty_set) (o : T), o).

    Lemma o2o_n clk n op s log s' n' : o2o_inv get_row get_col s →
      o2o_step get_row get_col clk n op s = Some (log, s', n') → n ≤ n'.
    Proof.
      intros Is E. destruct op as [o|k|r|c]; simpl in E.
      - destruct (o2o_add_ok get_row get_col clk n o s Is) as (?&?&?&E1&_&_&?&_&_&_&Hn). rewrite E in E1. simplify_eq. lia.
      - destruct (o2o_erase_ok get_row get_col clk n k s Is) as (?&?&?&E1&_&_&Hn&_). rewrite E in E1. simplify_eq. lia.
      - destruct (o2o_erase_row_ok get_row get_col clk n r s Is) as (?&?&?&E1&_&_&Hn&_). rewrite E in E1. simplify_eq. lia.
      - destruct (o2o_erase_col_ok get_row get_col clk n c s Is) as (?&?&?&E1&_&_&Hn&_). rewrite E in E1. simplify_eq. lia.
    Qed.
    Lemma o2m_n clk n op s log s' n' : o2m_inv get_row get_col s →
      o2m_step get_row get_col clk n op s = Some (log, s', n') → n ≤ n'.
    Proof.
      intros Is E. destruct op as [o|k|c]; simpl in E.
      - destruct (o2m_add_ok get_row get_col clk n o s Is) as (?&?&?&E1&_&_&?&_&_&_&Hn). rewrite E in E1. simplify_eq. lia.
      - destruct (o2m_erase_ok get_row get_col clk n k s Is) as (?&?&?&E1&_&_&Hn&_). rewrite E in E1. simplify_eq. lia.
      - destruct (o2m_erase_col_ok get_row get_col clk n c s Is) as (?&?&?&E1&_&_&Hn&_). rewrite E in E1. simplify_eq. lia.
    Qed.
    Lemma m2m_n clk n op s log s' n' : m2m_inv get_row get_col s →
      m2m_step get_row get_col clk n op s = Some (log, s', n') → n ≤ n'.
    Proof.
      intros Is E. destruct op as [o|k]; simpl in E.
      - destruct (m2m_add_ok get_row get_col clk n o s Is) as (?&?&?&E1&_&_&?&_&_&_&Hn). rewrite E in E1. simplify_eq. lia.
      - destruct (m2m_erase_ok get_row get_col clk n k s Is) as (?&?&?&E1&_&_&Hn&_). rewrite E in E1. simplify_eq. lia.
    Qed.

    Lemma o2o_laws : laws (to_field (FOneToOne get_row get_col)).
    Proof.
      simple refine (Laws (to_field (FOneToOne get_row get_col)) (atab (R * C) T) (o2o_inv get_row get_col) x_abs (aapply key_of pw0)
                (o2o_valid get_row get_col) (apair key_of) _ _ _ _ _); simpl.
      - apply o2o_init_inv.
      - intros e s. apply o2o_apply_ok.
      - intros e u s s0. apply o2o_undo_ok.
      - intros clk n op s Is. destruct (o2o_step_ok get_row get_col clk n op s Is) as (l & s' & n' & E & I' & Hc).
        exists l, s', n'. split_and!; [done|exact (o2o_n _ _ _ _ _ _ _ Is E)|done|revert Hc; generalize (x_abs s); clear; induction l as [|[e u] l IH]; simpl; naive_solver].
      - intros s s' I1 I2 E. exact (o2o_obs_ok get_row get_col s s' I1 I2 E).
    Defined.
    Lemma o2m_laws : laws (to_field (FOneToMany get_row get_col)).
    Proof.
      simple refine (Laws (to_field (FOneToMany get_row get_col)) (atab (R * C) T) (o2m_inv get_row get_col) x_abs (aapply key_of pw0)
                (o2m_valid get_row get_col) (apair key_of) _ _ _ _ _); simpl.
      - apply o2m_init_inv.
      - intros e s. apply o2m_apply_ok.
      - intros e u s s0. apply o2m_undo_ok.
      - intros clk n op s Is. destruct (o2m_step_ok get_row get_col clk n op s Is) as (l & s' & n' & E & I' & Hc).
        exists l, s', n'. split_and!; [done|exact (o2m_n _ _ _ _ _ _ _ Is E)|done|revert Hc; generalize (x_abs s); clear; induction l as [|[e u] l IH]; simpl; naive_solver].
      - intros s s' I1 I2 E. exact (o2m_obs_ok get_row get_col s s' I1 I2 E).
    Defined.
    Lemma m2m_laws : laws (to_field (FManyToMany get_row get_col)).
    Proof.
      simple refine (Laws (to_field (FManyToMany get_row get_col)) (atab (R * C) T) (m2m_inv get_row get_col) x_abs (aapply key_of pw0)
                m2m_valid (apair key_of) _ _ _ _ _); simpl.
      - apply m2m_init_inv.
      - intros e s I _. by apply m2m_apply_ok.
      - intros e u s s0 I I0 _. by apply m2m_undo_ok.
      - intros clk n op s Is. destruct (m2m_step_ok get_row get_col clk n op s Is) as (l & s' & n' & E & I' & Hc).
        exists l, s', n'. split_and!; [done|exact (m2m_n _ _ _ _ _ _ _ Is E)|done|revert Hc; generalize (x_abs s); clear; induction l as [|[e u] l IH]; simpl; naive_solver].
      - intros s s' I1 I2 E. exact (m2m_obs_ok get_row get_col s s' I1 I2 E).
    Defined.
  End M.

  Definition spec_laws (f : field_spec) : patches_keep_keys f → laws (to_field f) :=
    match f with
    | @FDictionary K T P _ _ gk pw => dict_laws gk pw
    | @FOneToOne R C T _ _ _ _ gr gc => λ _, o2o_laws gr gc
    | @FOneToMany R C T _ _ _ _ gr gc => λ _, o2m_laws gr gc
    | @FManyToMany R C T _ _ _ _ gr gc => λ _, m2m_laws gr gc
    end.
End Instances.

(* ------------------------------------------------------------------ *)
(** * Fields of a storage *)
Section Fields.
  Context {I : Type} `{EqDecision I} (F : I -> field) (L : ∀ i, laws (F i)).
  Notation fields := (∀ i, f_st (F i)).

  Definition sinv (fs : fields) : Prop := ∀ i, l_inv _ (L i) (fs i).
  Definition seqv (fs gs : fields) : Prop := ∀ i, l_abs _ (L i) (fs i) = l_abs _ (L i) (gs i).
  Definition svalid (e : sev F) (fs : fields) : Prop :=
    l_valid _ (L (projT1 e)) (projT2 e) (l_abs _ (L (projT1 e)) (fs (projT1 e))).

  (** a logged mutation: the mutation and its rollback *)
  Definition entry := sigT (λ i, (f_ev (F i) * f_rb (F i))%type).
  Definition ent_ev (x : entry) : sev F := existT (projT1 x) (projT2 x).1.
  Definition ent_rb (x : entry) : srb F := existT (projT1 x) (projT2 x).2.
  Definition spair (x : entry) (fs : fields) : Prop :=
    l_pair _ (L (projT1 x)) (projT2 x).1 (projT2 x).2 (l_abs _ (L (projT1 x)) (fs (projT1 x))).

  Global Instance seqv_equiv : Equivalence seqv.
  Proof.
    split.
    - by intros fs i.
    - intros fs gs E i. by rewrite E.
    - intros fs gs hs E1 E2 i. by rewrite E1, E2.
  Qed.

  Lemma seqv_show fs gs : sinv fs → sinv gs → seqv fs gs → same_view F fs gs.
  Proof. intros I1 I2 E i. by apply (l_show _ (L i)). Qed.

  Lemma sinv_supd i s fs : sinv fs → l_inv _ (L i) s → sinv (supd i s fs).
  Proof.
    intros Hs Hi j. destruct (decide (i = j)) as [<-|Hne].
    - by rewrite supd_same.
    - by rewrite supd_other.
  Qed.

  Lemma sinv_init : sinv (init_fields F).
  Proof. intros i. apply l_init. Qed.

  Lemma seqv_supd i s s' fs gs : l_abs _ (L i) s = l_abs _ (L i) s' → seqv fs gs →
    seqv (supd i s fs) (supd i s' gs).
  Proof.
    intros E1 E2 j. destruct (decide (i = j)) as [<-|Hne].
    - by rewrite !supd_same.
    - by rewrite !supd_other.
  Qed.
  Lemma seqv_supd_supd i s s1 s' fs : l_abs _ (L i) s = l_abs _ (L i) s' →
    seqv (supd i s (supd i s1 fs)) (supd i s' fs).
  Proof.
    intros E j. destruct (decide (i = j)) as [<-|Hne].
    - by rewrite !supd_same.
    - by rewrite !supd_other.
  Qed.

  Lemma svalid_seqv e fs gs : seqv fs gs → svalid e fs → svalid e gs.
  Proof. unfold svalid. intros E. by rewrite E. Qed.
  Lemma spair_seqv e fs gs : seqv fs gs → spair e fs → spair e gs.
  Proof. unfold spair. intros E. by rewrite E. Qed.

  Lemma sapply_ok e fs : sinv fs → svalid e fs → sinv (sapply F e fs) ∧
    l_abs _ (L (projT1 e)) (sapply F e fs (projT1 e)) =
    l_aap _ (L (projT1 e)) (projT2 e) (l_abs _ (L (projT1 e)) (fs (projT1 e))).
  Proof.
    intros Hs Hv. destruct (l_apply _ (L (projT1 e)) (projT2 e) (fs (projT1 e)) (Hs _) Hv) as [H1 H2].
    split; [by apply sinv_supd|]. unfold sapply. by rewrite supd_same.
  Qed.

  Lemma sapply_seqv e fs gs : sinv fs → sinv gs → seqv fs gs → svalid e fs →
    seqv (sapply F e fs) (sapply F e gs).
  Proof.
    intros I1 I2 E V. unfold sapply. apply seqv_supd; [|done].
    destruct (l_apply _ (L (projT1 e)) (projT2 e) _ (I1 _) V) as [_ ->].
    destruct (l_apply _ (L (projT1 e)) (projT2 e) _ (I2 _) (svalid_seqv _ _ _ E V)) as [_ ->].
    by rewrite E.
  Qed.

  (** the mutations are all applicable, one after another *)
  Fixpoint svalid_all (es : list (sev F)) (fs : fields) : Prop :=
    match es with
    | [] => True
    | e :: l => svalid e fs ∧ svalid_all l (sapply F e fs)
    end.

  Lemma svalid_all_app l1 l2 fs : svalid_all (l1 ++ l2) fs ↔
    svalid_all l1 fs ∧ svalid_all l2 (sapply_all F l1 fs).
  Proof. revert fs; induction l1 as [|e l IH]; intros fs; simpl; [naive_solver|]. rewrite IH. naive_solver. Qed.

  Lemma sapply_all_app l1 l2 fs : sapply_all F (l1 ++ l2) fs = sapply_all F l2 (sapply_all F l1 fs).
  Proof. apply fold_left_app. Qed.

  Lemma sapply_all_inv es fs : sinv fs → svalid_all es fs → sinv (sapply_all F es fs).
  Proof.
    revert fs; induction es as [|e l IH]; intros fs I1; simpl; [done|].
    intros [V1 V2]. apply IH; [by apply sapply_ok|done].
  Qed.

  Lemma sapply_all_seqv es fs gs : sinv fs → sinv gs → seqv fs gs → svalid_all es fs →
    seqv (sapply_all F es fs) (sapply_all F es gs) ∧ svalid_all es gs.
  Proof.
    revert fs gs; induction es as [|e l IH]; intros fs gs I1 I2 E; simpl; [done|].
    intros [V1 V2]. pose proof (svalid_seqv _ _ _ E V1) as V1'.
    destruct (IH (sapply F e fs) (sapply F e gs)) as [H1 H2]; [by apply sapply_ok|by apply sapply_ok|by apply sapply_seqv|done|].
    split; [done|]. split; done.
  Qed.

  (** the entries link two states *)
  Fixpoint slink (fs : fields) (l : list entry) (gs : fields) : Prop :=
    match l with
    | [] => seqv fs gs
    | x :: l => svalid (ent_ev x) fs ∧ spair x fs ∧ slink (sapply F (ent_ev x) fs) l gs
    end.

  Lemma slink_valid l fs gs : slink fs l gs → svalid_all (map ent_ev l) fs.
  Proof. revert fs; induction l as [|x l IH]; intros fs; simpl; [done|]. naive_solver. Qed.

  Lemma slink_replay l fs gs : slink fs l gs → seqv (sapply_all F (map ent_ev l) fs) gs.
  Proof. revert fs; induction l as [|x l IH]; intros fs; simpl; [done|]. naive_solver. Qed.

  Lemma slink_left l fs fs' gs : sinv fs → sinv fs' → seqv fs fs' → slink fs l gs → slink fs' l gs.
  Proof.
    revert fs fs'; induction l as [|x l IH]; intros fs fs' I1 I2 E; simpl.
    - intros E2. etransitivity; [symmetry; exact E|exact E2].
    - intros (V & Pq & Hl). pose proof (svalid_seqv _ _ _ E V) as V'.
      split; [done|]. split; [by eapply spair_seqv|].
      refine (IH _ _ _ _ _ Hl); [by apply sapply_ok|by apply sapply_ok|by apply sapply_seqv].
  Qed.

  Lemma slink_app l1 l2 fs gs hs : sinv fs → sinv gs → slink fs l1 gs → slink gs l2 hs → slink fs (l1 ++ l2) hs.
  Proof.
    revert fs; induction l1 as [|x l IH]; intros fs I1 I2; simpl.
    - intros E Hl. eapply slink_left; [exact I2|exact I1|by symmetry|exact Hl].
    - intros (V & Pq & Hl) H2. split; [done|]. split; [done|]. apply IH; [by apply sapply_ok|done|done|done].
  Qed.

  (** one container operation *)
  Lemma fchain_slink i log fs a' s' : sinv fs →
    fchain _ (l_aap _ (L i)) (l_valid _ (L i)) (l_pair _ (L i)) (l_abs _ (L i) (fs i)) log a' →
    l_abs _ (L i) s' = a' →
    slink fs (map (existT i) log) (supd i s' fs).
  Proof.
    revert fs; induction log as [|[e u] l IH]; intros fs Is Hc Ea; simpl in *.
    - subst. intros j. destruct (decide (i = j)) as [<-|Hne].
      + by rewrite supd_same.
      + by rewrite supd_other.
    - destruct Hc as (V & Pq & Hc). split; [done|]. split; [done|].
      pose proof (sapply_ok (ent_ev (existT i (e, u))) fs Is V) as [I' Ea'].
      change (ent_ev (existT i (e, u))) with (existT i e : sev F) in *.
      assert (Hl : slink (sapply F (existT i e) fs) (map (existT i) l) (supd i s' (sapply F (existT i e) fs))).
      { apply IH; [done| |done]. refine (eq_rect_r (λ a, fchain _ _ _ _ a _ _) Hc Ea'). }
      change (ent_ev (existT i (e, u))) with (existT i e : sev F) in *.
      assert (Hq : seqv (supd i s' (sapply F (existT i e) fs)) (supd i s' fs)) by by apply seqv_supd_supd.
      assert (Hr : ∀ m (as_ bs cs : fields), slink as_ m bs → seqv bs cs → slink as_ m cs).
      { clear. induction m as [|x m IHm]; simpl; intros as_ bs cs H1 H2; [by etransitivity|naive_solver]. }
      by eapply Hr.
  Qed.

  Definition undo_all (l : list entry) (fs : fields) : fields :=
    fold_left (λ fs u, sundo F u fs) (rev (map ent_rb l)) fs.

  Lemma slink_undo l fs gs : sinv fs → sinv gs → slink fs l gs →
    sinv (undo_all l gs) ∧ seqv (undo_all l gs) fs.
  Proof.
    revert fs; induction l as [|x l IH]; intros fs I1 I2; simpl.
    - intros E. split; [done|]. by symmetry.
    - intros (V & Pq & Hl). pose proof (sapply_ok _ _ I1 V) as [I' Ea].
      destruct (IH _ I' I2 Hl) as [I3 E3]. unfold undo_all. simpl.
      rewrite fold_left_app. simpl. fold (undo_all l gs). set (us := undo_all l gs) in *.
      destruct x as [i [e u]]. unfold sundo, ent_rb. cbn [ent_ev projT1 projT2 snd fst] in *.
      destruct (l_undo _ (L i) e u (us i) (fs i) (I3 i) (I1 i) V Pq) as [H1 H2].
      { rewrite E3. exact Ea. }
      split; [by apply sinv_supd|].
      intros j. destruct (decide (i = j)) as [<-|Hne].
      + by rewrite supd_same.
      + rewrite supd_other by done. rewrite E3. unfold sapply. simpl. by rewrite supd_other.
  Qed.
End Fields.

(* ------------------------------------------------------------------ *)
(** * Transactions *)
Section Txn.
  Context {I : Type} `{EqDecision I} (F : I -> field) (L : ∀ i, laws (F i)) (clk : nat -> Z).
  Notation fields := (∀ i, f_st (F i)).
  Notation sinv := (sinv F L). Notation seqv := (seqv F L).
  Notation slink := (slink F L). Notation svalid_all := (svalid_all F L).

  Lemma run_ok {A} (p : prog F A) n fs j : sinv fs →
    ∃ r l mf n' fs',
      alone_run F clk p n fs (meta_fields (j_meta F j)) = Some (r, map (ent_ev F) l, mf, n', fs') ∧
      run_prog F clk p n fs j =
        Some (r, n', fs', Journal F (Meta (begin_us (j_meta F j)) (end_us (j_meta F j)) mf)
                                  (j_commit F j ++ map (ent_ev F) l) (j_rollback F j ++ map (ent_rb F) l)) ∧
      n ≤ n' ∧ sinv fs' ∧ slink fs l fs'.
  Proof.
    revert n fs j. induction p as [a|e|i op p IH|k IH|k IH|key v p IH|key p IH]; intros n fs j Is; simpl.
    - exists (inl a), [], (meta_fields (j_meta F j)), n, fs. simpl. rewrite !app_nil_r.
      destruct j as [[]]; done.
    - exists (inr e), [], (meta_fields (j_meta F j)), n, fs. simpl. rewrite !app_nil_r.
      destruct j as [[]]; done.
    - destruct (l_step _ (L i) clk n op (fs i) (Is i)) as (log & s' & n1 & E & Hn & Is' & Hc).
      rewrite E. simpl.
      destruct (IH n1 (supd i s' fs) (log_mutations F i log j)) as (r & l & mf & n' & fs' & E1 & E2 & Hn' & If & Hl).
      { by apply sinv_supd. }
      exists r, (map (existT i) log ++ l), mf, n', fs'. simpl in E1, E2.
      rewrite E1, E2. simpl. rewrite !map_app, !map_map, <- !app_assoc. simpl.
      split; [done|]. split; [done|]. split; [lia|]. split; [done|].
      apply (slink_app F L _ _ fs (supd i s' fs)); [done|by apply sinv_supd| |done].
      by eapply fchain_slink.
    - by apply IH.
    - destruct (IH (clk n) (S n) fs j Is) as (r & l & mf & n' & fs' & ? & ? & ? & ? & ?).
      exists r, l, mf, n', fs'. split_and!; [done|done|lia|done|done].
    - apply (IH n fs (set_meta F key v j) Is).
    - apply (IH n fs (erase_meta F key j) Is).
  Qed.

  Definition good (st : stream F) : Prop := svalid_all (mutations_in F (st_log F st)) (init_fields F).
  Definition tied (log : list (Z * option (transaction F))) (s : storage F) : Prop :=
    sinv (s_fields F s) ∧ seqv (s_fields F s) (rebuilt F log) ∧ journal_is_empty F (s_journal F s) ∧
    s_last_applied F s = last_transaction_us F log.
  Definition master_ok (st : stream F) (s : storage F) : Prop :=
    tied (st_log F st) s ∧ s_master F s = true.
  Definition follower_ok (st : stream F) (s : storage F) : Prop :=
    tied (take (s_next F s) (st_log F st)) s ∧ s_master F s = false ∧ s_next F s ≤ length (st_log F st).

  Lemma mutations_in_app l1 l2 : mutations_in F (l1 ++ l2) = mutations_in F l1 ++ mutations_in F l2.
  Proof. unfold mutations_in. induction l1 as [|x l IH]; simpl; [done|]. by rewrite IH, app_assoc. Qed.
  Lemma last_us_app l1 us o : last_transaction_us F (l1 ++ [(us, o)]) =
    match o with Some _ => us | None => last_transaction_us F l1 end.
  Proof. unfold last_transaction_us. rewrite fold_left_app. simpl. by destruct o. Qed.

  Lemma good_prefix l1 l2 h h' : good (Stream F (l1 ++ l2) h) → good (Stream F l1 h').
  Proof. unfold good. simpl. rewrite mutations_in_app, svalid_all_app. naive_solver. Qed.

  Lemma rebuilt_inv st : good st → sinv (rebuilt F (st_log F st)).
  Proof. intros Hg. apply sapply_all_inv; [apply sinv_init|done]. Qed.

  (** what committing leaves in the stream *)
  Definition publishes (n np : nat) (mf : gmap string string) (n' : nat) (ms : list (sev F)) (st st' : stream F) : Prop :=
    match ms with
    | [] => st' = st
    | _ :: _ => (clk np > st_head F st)%Z ∧
        st' = Stream F (st_log F st ++ [(clk np, Some (Transaction F (Meta (clk n) (clk n') mf) ms))]) (clk np)
    end.

  Lemma commit_ok {A} (p : prog F A) n st s : good st → master_ok st s →
    ∃ r ms mf n' fs',
      alone_run F clk p (S n) (s_fields F s) ∅ = Some (r, ms, mf, n', fs') ∧ S n ≤ n' ∧
      ∃ j, run_prog F clk p (S n) (s_fields F s) (before_transaction F (clk n) (s_journal F s)) = Some (r, n', fs', j) ∧
      (* committing *)
      (persist_journal F clk (S n') st (with_run F s fs' (after_transaction F (clk n') j)) = None ∧
         ms ≠ [] ∧ (clk (S n') <= st_head F st)%Z ∨
       ∃ st' s', persist_journal F clk (S n') st (with_run F s fs' (after_transaction F (clk n') j)) = Some (S (S n'), st', s') ∧
         publishes n (S n') mf n' ms st st' ∧ good st' ∧ master_ok st' s' ∧ s_fields F s' = fs' ∧
         s_destructing F s' = s_destructing F s) ∧
      (* rolling back *)
      (let s' := rollback F (with_run F s fs' j) in
       master_ok st s' ∧ seqv (s_fields F s') (s_fields F s) ∧ s_destructing F s' = s_destructing F s).
  Proof.
    intros Hg [(Is & Es & Ej & El) Em].
    destruct s as [fs0 j0 ds ma nx la]; simpl in *. unfold journal_is_empty in Ej. subst j0 ma.
    destruct (run_ok p (S n) fs0 (before_transaction F (clk n) (Journal F (Meta 0 0 ∅) [] [])) Is)
      as (r & l & mf & n' & fs' & E1 & E2 & Hn & If & Hl).
    simpl in E1, E2. exists r, (map (ent_ev F) l), mf, n', fs'. split; [done|]. split; [done|].
    eexists. split; [exact E2|].
    pose proof (rebuilt_inv _ Hg) as Ir.
    pose proof (slink_left F L l _ _ fs' Is Ir Es Hl) as Hlr.
    pose proof (slink_valid F L _ _ _ Hlr) as Hv. pose proof (slink_replay F L _ _ _ Hlr) as Hrep.
    split.
    - unfold persist_journal, with_run, after_transaction. simpl.
      destruct (map (ent_ev F) l) as [|e es] eqn:Ees.
      + right. eexists _, _. split; [done|]. split; [done|]. split; [done|].
        split; [|done]. split; [|done]. split_and!; simpl; [done|by symmetry|done|done].
      + destruct (decide (clk (S n') > st_head F st)%Z) as [Hgt|Hle].
        * right. eexists _, _. split; [done|]. split; [split; [done|done]|].
          assert (Hmi : ∀ t, mutations_in F (st_log F st ++ [(clk (S n'), Some t)]) =
                       mutations_in F (st_log F st) ++ t_mutations F t).
          { intros t. rewrite mutations_in_app. simpl. by rewrite app_nil_r. }
          split; [|split; [|done]].
          -- unfold good. simpl. rewrite Hmi. simpl. apply svalid_all_app. done.
          -- split; [|done]. split_and!; simpl; [done| |done|by rewrite last_us_app].
             unfold rebuilt. rewrite Hmi. simpl. rewrite sapply_all_app. symmetry. exact Hrep.
        * left. split; [done|]. split; [done|]. lia.
    - unfold rollback, journal_rollback. simpl.
      destruct (slink_undo F L l fs0 fs' Is If Hl) as [Iu Eu]. unfold undo_all in *.
      split_and!; simpl; [|done|done].
      split; [|done]. split_and!; simpl; [done| |done|done].
      etransitivity; [exact Eu|exact Es].
  Qed.

  (** ** The system invariant *)
  Definition y_ok (y : system F) : Prop :=
    good (y_stream F y) ∧
    (∀ s, y_master F y = Some s → master_ok (y_stream F y) s) ∧
    (∀ s, y_follower F y = Some s → follower_ok (y_stream F y) s).

  Lemma follower_ok_grow st st' s more : st_log F st' = st_log F st ++ more → follower_ok st s → follower_ok st' s.
  Proof.
    intros E (Ht & Hm & Hn). unfold follower_ok. rewrite E, take_app_le by done.
    rewrite app_length. split_and!; [done|done|lia].
  Qed.

  Lemma publishes_grow n np mf n' ms st st' : publishes n np mf n' ms st st' →
    ∃ more, st_log F st' = st_log F st ++ more.
  Proof.
    unfold publishes. destruct ms as [|e es].
    - intros ->. exists []. by rewrite app_nil_r.
    - intros [_ ->]. simpl. eauto.
  Qed.

  (** after any call, the master is consistent with the stream *)
  Definition settled_ok (st : stream F) (n : nat) {B} (o : outcome F B) : Prop :=
    match o with
    | Finished _ _ _ n' st' s' | Propagates _ _ n' st' s' =>
        (∃ more, st_log F st' = st_log F st ++ more) ∧ good st' ∧ master_ok st' s' ∧ n ≤ n'
    | Exited _ _ => True
    | Undefined _ _ => False
    end.

  Lemma grow_refl (st : stream F) : ∃ more, st_log F st = st_log F st ++ more.
  Proof. exists []. by rewrite app_nil_r. Qed.

  Lemma rw_ok {A} (f : prog F A) n st s : good st → master_ok st s → settled_ok st n (rw_transaction F clk f n st s).
  Proof.
    intros Hg Hm. pose proof Hm as [_ Em]. unfold rw_transaction. rewrite Em.
    destruct (s_destructing F s); [split_and!; auto using grow_refl|].
    destruct (commit_ok f n st s Hg Hm) as (r & ms & mf & n' & fs' & _ & Hn & j & E & Hc & Hr).
    rewrite E. destruct r as [a|e].
    - destruct Hc as [(-> & _)|(st' & s' & -> & Hp & Hg' & Hm' & _)]; [done|].
      apply publishes_grow in Hp. split_and!; auto; lia.
    - destruct Hr as (Hm' & _). destruct e; simpl; split_and!; auto using grow_refl; lia.
  Qed.
  Lemma rw_void_ok (f : prog F unit) n st s : good st → master_ok st s → settled_ok st n (rw_void_transaction F clk f n st s).
  Proof.
    intros Hg Hm. pose proof Hm as [_ Em]. unfold rw_void_transaction. rewrite Em.
    destruct (s_destructing F s); [split_and!; auto using grow_refl|].
    destruct (commit_ok f n st s Hg Hm) as (r & ms & mf & n' & fs' & _ & Hn & j & E & Hc & Hr).
    rewrite E. destruct r as [a|e].
    - destruct Hc as [(-> & _)|(st' & s' & -> & Hp & Hg' & Hm' & _)]; [done|].
      apply publishes_grow in Hp. split_and!; auto; lia.
    - destruct Hr as (Hm' & _). destruct e; simpl; split_and!; auto using grow_refl; lia.
  Qed.

  (** rolling back an empty journal changes nothing *)
  Lemma rollback_empty s : journal_is_empty F (s_journal F s) → rollback F s = s.
  Proof. destruct s; unfold journal_is_empty; simpl; intros ->; done. Qed.

  Lemma rw_two_step_ok {A} (f1 : prog F A) f2 n st s : good st → master_ok st s →
    settled_ok st n (rw_two_step F clk f1 f2 n st s).
  Proof.
    intros Hg Hm. pose proof Hm as [_ Em]. unfold rw_two_step. rewrite Em.
    destruct (s_destructing F s); [split_and!; auto using grow_refl|].
    destruct (commit_ok f1 n st s Hg Hm) as (r & ms & mf & n' & fs' & _ & Hn & j & E & Hc & Hr).
    rewrite E. destruct r as [a|e].
    - destruct Hc as [(-> & _)|(st' & s' & -> & Hp & Hg' & Hm' & _)]; [done|].
      apply publishes_grow in Hp.
      assert (Hrb : rollback F s' = s') by (apply rollback_empty; apply Hm').
      destruct (f2 0 a) as [e|]; [|split_and!; auto; lia].
      unfold two_step_handler. rewrite Hrb. simpl.
      destruct e as [v| |w]; [destruct (f2 1 v)|..]; split_and!; auto; lia.
    - destruct Hr as (Hm' & _). unfold two_step_handler. simpl.
      destruct e as [v| |w]; [destruct (f2 0 v)|..]; simpl; split_and!; auto using grow_refl; lia.
  Qed.

  Lemma run_ro_n {A} (f : ro_prog F A) n fs : n ≤ (run_ro F clk f n fs).2.
  Proof.
    revert n. induction f as [a|e|k IH|k IH]; intros n; simpl; try lia.
    - apply IH.
    - pose proof (IH (clk n) (S n)). lia.
  Qed.

  Lemma ro_ok {A} (f : ro_prog F A) n st s : good st → master_ok st s → settled_ok st n (ro_transaction F clk f n st s).
  Proof.
    intros Hg Hm. unfold ro_transaction. destruct (s_destructing F s); [split_and!; auto using grow_refl|].
    pose proof (run_ro_n f n (s_fields F s)) as Hn.
    destruct (run_ro F clk f n (s_fields F s)) as [[a|[v| |w]] n']; simpl in *; split_and!; auto using grow_refl.
  Qed.
  Lemma ro_void_ok (f : ro_prog F unit) n st s : good st → master_ok st s → settled_ok st n (ro_void_transaction F clk f n st s).
  Proof.
    intros Hg Hm. unfold ro_void_transaction. destruct (s_destructing F s); [split_and!; auto using grow_refl|].
    pose proof (run_ro_n f n (s_fields F s)) as Hn.
    destruct (run_ro F clk f n (s_fields F s)) as [[a|[v| |w]] n']; simpl in *; split_and!; auto using grow_refl.
  Qed.
  Lemma ro_two_step_ok {A} (f1 : ro_prog F A) f2 n st s : good st → master_ok st s →
    settled_ok st n (ro_two_step F clk f1 f2 n st s).
  Proof.
    intros Hg Hm. unfold ro_two_step. destruct (s_destructing F s); [split_and!; auto using grow_refl|].
    pose proof (run_ro_n f1 n (s_fields F s)) as Hn.
    destruct (run_ro F clk f1 n (s_fields F s)) as [[a|e] n']; simpl in *.
    - destruct (f2 0 a) as [[v| |w]|]; [destruct (f2 1 v)|..]; simpl; split_and!; auto using grow_refl.
    - destruct e as [v| |w]; [destruct (f2 0 v)|..]; simpl; split_and!; auto using grow_refl.
  Qed.

  (** ** Replay *)
  Lemma sync_replay_ok k st s : good st → tied (take k (st_log F st)) s →
    tied (st_log F st) (sync_replay F k st s) ∧ s_master F (sync_replay F k st s) = s_master F s ∧
    s_destructing F (sync_replay F k st s) = s_destructing F s.
  Proof.
    intros Hg Ht. unfold sync_replay. rewrite <- (take_drop k (st_log F st)) at 1.
    assert (Hg' : good (Stream F (take k (st_log F st) ++ drop k (st_log F st)) 0)).
    { unfold good. simpl. by rewrite take_drop. }
    revert Hg' Ht. generalize (take k (st_log F st)) as pre. generalize (drop k (st_log F st)) as post.
    clear. intros post. revert s. induction post as [|[us [t|]] post IH]; intros s pre Hg Ht; simpl.
    - by rewrite app_nil_r.
    - rewrite (cons_middle (us, Some t) pre post) in *. rewrite app_assoc in *.
      destruct (IH (apply_mutations F t us s) (pre ++ [(us, Some t)])) as (H1 & H2 & H3).
      + done.
      + destruct Ht as (Is & Es & Ej & El).
        pose proof (good_prefix _ _ _ 0%Z (good_prefix _ _ _ 0%Z Hg)) as Hg1.
        apply good_prefix with (h' := 0%Z) in Hg. unfold good in Hg. simpl in Hg.
        rewrite mutations_in_app, svalid_all_app in Hg. destruct Hg as [_ Hv]. simpl in Hv.
        rewrite app_nil_r in Hv. fold (rebuilt F pre) in Hv.
        pose proof (rebuilt_inv _ Hg1) as Ir. simpl in Ir.
        destruct (sapply_all_seqv F L _ _ _ Ir Is (symmetry Es) Hv) as [Eq Hv'].
        split_and!; simpl; [by apply sapply_all_inv| |done|by rewrite last_us_app].
        unfold rebuilt. rewrite mutations_in_app, sapply_all_app. simpl. rewrite app_nil_r.
        symmetry. exact Eq.
      + done.
    - rewrite (cons_middle (us, None) pre post) in *. rewrite app_assoc in *.
      apply (IH s (pre ++ [(us, None)])); [done|].
      destruct Ht as (Is & Es & Ej & El). split_and!; [done| |done|by rewrite last_us_app].
      unfold rebuilt. rewrite mutations_in_app. simpl. by rewrite app_nil_r.
  Qed.

  Lemma new_tied m : tied [] (new_storage F m).
  Proof. split_and!; simpl; [apply sinv_init|done|done|done]. Qed.

  Lemma open_master_ok st : good st → master_ok st (open_master F st).
  Proof.
    intros Hg. destruct (sync_replay_ok 0 st (new_storage F true) Hg (new_tied true)) as (H1 & H2 & _).
    split; [exact H1|exact H2].
  Qed.

  Lemma next_transaction_Some l k i us t : next_transaction F l k = Some (i, us, t) →
    ∃ pre post, l = pre ++ (us, Some t) :: post ∧ i = k + length pre ∧ Forall (λ e, e.2 = None) pre.
  Proof.
    revert k; induction l as [|[u [t'|]] l IH]; intros k; simpl; [done| |].
    - intros [= <- <- <-]. exists [], l. split_and!; [done|simpl; lia|done].
    - intros (pre & post & -> & -> & Hf)%IH. exists ((u, None) :: pre), post.
      split_and!; [done|simpl; lia|by constructor].
  Qed.

  Lemma skip_others pre l s : Forall (λ e : Z * option (transaction F), e.2 = None) l → tied pre s → tied (pre ++ l) s.
  Proof.
    revert pre; induction l as [|[us o] l IH]; intros pre Hf Ht; [by rewrite app_nil_r|].
    rewrite (cons_middle (us, o) pre l), app_assoc. inversion Hf as [|? ? Ho Hl]; subst. simpl in Ho. subst o.
    apply IH; [done|]. destruct Ht as (Is & Es & Ej & El). split_and!; [done| |done|by rewrite last_us_app].
    unfold rebuilt. rewrite mutations_in_app. simpl. by rewrite app_nil_r.
  Qed.

  Lemma follower_step_ok st s s' : good st → follower_ok st s → follower_step F st s = Some s' → follower_ok st s'.
  Proof.
    intros Hg (Ht & Hm & Hn) E. unfold follower_step in E.
    destruct (next_transaction F (drop (s_next F s) (st_log F st)) (s_next F s)) as [[[i us] t]|] eqn:En; [|done].
    apply next_transaction_Some in En as (pre & post & Ed & Ei & Hf).
    injection E as <-. unfold follower_ok; simpl.
    set (old := take (s_next F s) (st_log F st)) in *.
    assert (Elog : st_log F st = (old ++ pre ++ [(us, Some t)]) ++ post).
    { rewrite <- (take_drop (s_next F s) (st_log F st)) at 1. fold old. rewrite Ed.
      by rewrite <- !app_assoc. }
    assert (Hlo : length old = s_next F s) by (unfold old; rewrite take_length; lia).
    assert (Hlen : length (old ++ pre ++ [(us, Some t)]) = S i) by (rewrite !app_length; simpl; lia).
    assert (Et : take (S i) (st_log F st) = old ++ pre ++ [(us, Some t)]).
    { rewrite Elog, <- Hlen. by rewrite take_app. }
    split_and!; [|done|].
    2:{ rewrite Elog, app_length, Hlen. lia. }
    rewrite Et. pose proof (skip_others _ _ _ Hf Ht) as (Is & Es & Ej & El).
    rewrite app_assoc in *.
    assert (Hg1 : good (Stream F (old ++ pre) 0) ∧ svalid_all (t_mutations F t) (rebuilt F (old ++ pre))).
    { unfold good in *. rewrite Elog in Hg. rewrite mutations_in_app, svalid_all_app in Hg. destruct Hg as [Hg _].
      rewrite mutations_in_app, svalid_all_app in Hg. destruct Hg as [Hg1 Hv]. simpl in Hv.
      rewrite app_nil_r in Hv. done. }
    destruct Hg1 as [Hg1 Hv]. pose proof (rebuilt_inv _ Hg1) as Ir. simpl in Ir.
    destruct (sapply_all_seqv F L _ _ _ Ir Is (symmetry Es) Hv) as [Eq Hv'].
    split_and!; simpl; [by apply sapply_all_inv| |done|by rewrite last_us_app].
    unfold rebuilt. rewrite mutations_in_app, sapply_all_app. simpl. rewrite app_nil_r.
    symmetry. exact Eq.
  Qed.

  Lemma become_master_ok st s : good st → follower_ok st s → master_ok st (become_master F st s).
  Proof.
    intros Hg (Ht & Hm & Hn). destruct (sync_replay_ok _ st s Hg Ht) as ((H1 & H2 & H3 & H4) & _).
    split; [|done]. split_and!; done.
  Qed.

  Lemma ro_same {A} (f : ro_prog F A) n st s :
    ∃ r n', ro_transaction F clk f n st s = Finished F _ r n' st s ∧ n ≤ n'.
  Proof.
    unfold ro_transaction. destruct (s_destructing F s); [eauto|].
    pose proof (run_ro_n f n (s_fields F s)) as Hn.
    destruct (run_ro F clk f n (s_fields F s)) as [[a|[v| |w]] n']; simpl in *; eauto.
  Qed.

  Lemma on_master_ok {B} y y' (call : nat → stream F → storage F → outcome F B) :
    (∀ n st s, good st → master_ok st s → settled_ok st n (call n st s)) →
    y_ok y → on_master F y call = Some y' → y_ok y' ∧
      (∃ more, st_log F (y_stream F y') = st_log F (y_stream F y) ++ more) ∧ y_pos F y ≤ y_pos F y'.
  Proof.
    intros Hcall (Hg & Hm & Hf). unfold on_master. destruct (y_master F y) as [s|] eqn:Em; [|done].
    specialize (Hcall (y_pos F y) (y_stream F y) s Hg (Hm s eq_refl)).
    destruct (call (y_pos F y) (y_stream F y) s) as [b n st' s'|n st' s'| |]; simpl in *; try done;
      intros [= <-]; simpl; destruct Hcall as ((more & Emore) & Hg' & Hm' & Hn);
      (split; [|split; [by exists more|done]]);
      (split_and!; simpl; [done|by intros ? [= <-]|]);
      intros sf Hsf; (apply (follower_ok_grow (y_stream F y) st' sf more); [done|by apply Hf]).
  Qed.

  Lemma step_ok ev y y' : y_ok y → step F clk ev y = Some y' →
    y_ok y' ∧ (∃ more, st_log F (y_stream F y') = st_log F (y_stream F y) ++ more) ∧ y_pos F y ≤ y_pos F y'.
  Proof.
    intros Hy. pose proof Hy as (Hg & Hm & Hf). destruct ev; simpl.
    - apply on_master_ok; [apply rw_ok|done].
    - apply on_master_ok; [apply rw_void_ok|done].
    - apply on_master_ok; [intros ???; apply rw_two_step_ok|done].
    - apply on_master_ok; [apply ro_ok|done].
    - apply on_master_ok; [apply ro_void_ok|done].
    - apply on_master_ok; [intros ???; apply ro_two_step_ok|done].
    - intros [= <-]; simpl. destruct (decide _) as [Hd|Hd]; simpl.
      + assert (Hmi : mutations_in F (st_log F (y_stream F y) ++ [(clk (y_pos F y), None)]) = mutations_in F (st_log F (y_stream F y))).
        { rewrite mutations_in_app. simpl. by rewrite app_nil_r. }
        split; [|split; [eauto|simpl; lia]]. split_and!; simpl.
        * unfold good. simpl. by rewrite Hmi.
        * intros s Hs. destruct (Hm s Hs) as [(H1 & H2 & H3 & H4) H5].
          split; [|done]. split_and!; [done| |done|simpl; by rewrite last_us_app].
          unfold rebuilt. simpl. by rewrite Hmi.
        * intros s Hs. eapply (follower_ok_grow (y_stream F y)); [|by apply Hf]. done.
      + split; [|split; [eauto using grow_refl|simpl; lia]]. split_and!; simpl; done.
    - intros [= <-]; simpl. split.
      + split_and!; simpl; by destruct (decide _).
      + split; [|simpl; lia]. exists []. destruct (decide _); simpl; by rewrite app_nil_r.
    - destruct (y_master F y) as [s|] eqn:Em; [|done]. intros [= <-]; simpl.
      split; [|split; [eauto using grow_refl|simpl; lia]].
      split_and!; simpl; [done| |done]. intros ? [= <-].
      destruct (Hm s eq_refl) as [(H1 & H2 & H3 & H4) H5].
      split; [|done]. split_and!; done.
    - destruct (y_master F y) as [s|] eqn:Em; [done|]. intros [= <-]; simpl.
      split; [|split; [eauto using grow_refl|simpl; lia]].
      split_and!; simpl; [done| |done]. intros ? [= <-]. by apply open_master_ok.
    - intros [= <-]; simpl. split; [|split; [eauto using grow_refl|simpl; lia]].
      split_and!; simpl; [done|done|done].
    - intros [= <-]; simpl. split; [|split; [eauto using grow_refl|simpl; lia]].
      split_and!; simpl; [done|done|]. intros ? [= <-].
      split_and!; [apply new_tied|done|simpl; lia].
    - intros [= <-]; simpl. split; [|split; [eauto using grow_refl|simpl; lia]].
      split_and!; simpl; [done|done|done].
    - destruct (y_follower F y) as [s|] eqn:Ef; [|done].
      destruct (follower_step F (y_stream F y) s) as [s'|] eqn:E; [|done].
      intros [= <-]; simpl. split; [|split; [eauto using grow_refl|simpl; lia]].
      split_and!; simpl; [done|done|]. intros ? [= <-]. by eapply follower_step_ok; [|apply Hf|].
    - destruct (y_follower F y) as [s|] eqn:Ef; [|done].
      destruct (ro_same f (y_pos F y) (y_stream F y) s) as (r & n' & -> & Hn).
      intros [= <-]; simpl. split; [|split; [eauto using grow_refl|simpl; lia]].
      split_and!; simpl; [done|done|]. intros ? [= <-]. by apply Hf.
    - destruct (y_follower F y) as [s|] eqn:Ef; [|done].
      destruct (Hf s eq_refl) as (_ & E & _). unfold rw_transaction. rewrite E.
      intros [= <-]; simpl. split; [|split; [eauto using grow_refl|simpl; lia]].
      split_and!; simpl; [done|done|]. intros ? [= <-]. by apply Hf.
    - destruct (y_master F y) as [?|] eqn:Em; [done|]. destruct (y_follower F y) as [s|] eqn:Ef; [|done].
      intros [= <-]; simpl. split; [|split; [eauto using grow_refl|simpl; lia]].
      split_and!; simpl; [done| |done]. intros ? [= <-]. apply become_master_ok; auto.
  Qed.

  Lemma run_ok_sys evs y y' : y_ok y → run F clk evs y = Some y' →
    y_ok y' ∧ (∃ more, st_log F (y_stream F y') = st_log F (y_stream F y) ++ more) ∧ y_pos F y ≤ y_pos F y'.
  Proof.
    revert y. induction evs as [|ev evs IH]; intros y Hy; simpl.
    - intros [= <-]. eauto using grow_refl.
    - destruct (step F clk ev y) as [y1|] eqn:E; [|done]. intros E2.
      destruct (step_ok _ _ _ Hy E) as (H1 & (m1 & Em1) & Hn1).
      destruct (IH _ H1 E2) as (H2 & (m2 & Em2) & Hn2).
      split_and!; [done| |lia]. exists (m1 ++ m2). by rewrite Em2, Em1, app_assoc.
  Qed.

  Lemma init_ok pos : y_ok (system_init F pos).
  Proof. split_and!; [done|done|done]. Qed.

  Lemma reachable_ok y : reachable F clk y → y_ok y.
  Proof. intros (pos & evs & E). eapply run_ok_sys; [apply (init_ok pos)|exact E]. Qed.
End Txn.

(* ------------------------------------------------------------------ *)
(** * With a strictly increasing clock the head stays behind the clock *)
Section Head.
  Context {I : Type} `{EqDecision I} (F : I -> field) (L : ∀ i, laws (F i)) (clk : nat -> Z).
  Hypothesis clk_pos : ∀ n, (0 <= clk n)%Z.
  Hypothesis clk_inc : ∀ n, (clk n < clk (S n))%Z.

  Lemma clk_lt n m : n < m → (clk n < clk m)%Z.
  Proof. induction 1 as [|m _ IH]; [apply clk_inc|]. pose proof (clk_inc m). lia. Qed.
  Lemma clk_le n m : n ≤ m → (clk n <= clk m)%Z.
  Proof. intros H. destruct (decide (n = m)) as [->|]; [lia|]. pose proof (clk_lt n m). lia. Qed.

  Definition head_ok (st : stream F) (n : nat) : Prop := (st_head F st < clk n)%Z.

  Lemma head_ok_le st n m : n ≤ m → head_ok st n → head_ok st m.
  Proof. unfold head_ok. intros H%clk_le. lia. Qed.

  Lemma publishes_head n np mf n' ms st st' : publishes F clk n np mf n' ms st st' →
    head_ok st (S np) → head_ok st' (S np).
  Proof.
    unfold publishes, head_ok. destruct ms; [by intros ->|]. intros [_ ->] _. simpl. apply clk_inc.
  Qed.

  (** no transaction ends the process *)
  Definition head_settled {B} (o : outcome F B) : Prop :=
    match o with
    | Finished _ _ _ n st _ | Propagates _ _ n st _ => head_ok st n
    | Exited _ _ => False
    | Undefined _ _ => False
    end.

  Lemma commit_head {A} (p : prog F A) n st s : good F L st → master_ok F L st s → head_ok st n →
    ∃ r n' fs' j, run_prog F clk p (S n) (s_fields F s) (before_transaction F (clk n) (s_journal F s)) = Some (r, n', fs', j) ∧
      S n ≤ n' ∧
      ∃ st' s', persist_journal F clk (S n') st (with_run F s fs' (after_transaction F (clk n') j)) = Some (S (S n'), st', s') ∧
         head_ok st' (S (S n')).
  Proof.
    intros Hg Hm Hh. destruct (commit_ok F L clk p n st s Hg Hm) as (r & ms & mf & n' & fs' & _ & Hn & j & E & Hc & _).
    exists r, n', fs', j. split; [done|]. split; [done|].
    destruct Hc as [(_ & _ & Hle)|(st' & s' & E' & Hp & _)].
    - unfold head_ok in Hh. pose proof (clk_le n (S n')). lia.
    - exists st', s'. split; [done|]. eapply publishes_head; [exact Hp|]. eapply head_ok_le; [|exact Hh]. lia.
  Qed.

  Lemma rw_head {A} (f : prog F A) n st s : good F L st → master_ok F L st s → head_ok st n →
    head_settled (rw_transaction F clk f n st s).
  Proof.
    intros Hg Hm Hh. pose proof Hm as [_ Em]. unfold rw_transaction. rewrite Em.
    destruct (s_destructing F s); [done|].
    destruct (commit_head f n st s Hg Hm Hh) as (r & n' & fs' & j & E & Hn & st' & s' & E' & Hh').
    rewrite E. destruct r as [a|e].
    - by rewrite E'.
    - assert (head_ok st n') by (eapply head_ok_le; [|exact Hh]; lia). by destruct e.
  Qed.
  Lemma rw_void_head (f : prog F unit) n st s : good F L st → master_ok F L st s → head_ok st n →
    head_settled (rw_void_transaction F clk f n st s).
  Proof.
    intros Hg Hm Hh. pose proof Hm as [_ Em]. unfold rw_void_transaction. rewrite Em.
    destruct (s_destructing F s); [done|].
    destruct (commit_head f n st s Hg Hm Hh) as (r & n' & fs' & j & E & Hn & st' & s' & E' & Hh').
    rewrite E. destruct r as [a|e].
    - by rewrite E'.
    - assert (head_ok st n') by (eapply head_ok_le; [|exact Hh]; lia). by destruct e.
  Qed.
  Lemma rw_two_step_head {A} (f1 : prog F A) f2 n st s : good F L st → master_ok F L st s → head_ok st n →
    head_settled (rw_two_step F clk f1 f2 n st s).
  Proof.
    intros Hg Hm Hh. pose proof Hm as [_ Em]. unfold rw_two_step. rewrite Em.
    destruct (s_destructing F s); [done|].
    destruct (commit_head f1 n st s Hg Hm Hh) as (r & n' & fs' & j & E & Hn & st' & s' & E' & Hh').
    rewrite E. destruct r as [a|e].
    - rewrite E'. destruct (f2 0 a) as [e|]; [|done]. unfold two_step_handler.
      destruct e as [v| |w]; [destruct (f2 _ v)|..]; done.
    - assert (head_ok st n') by (eapply head_ok_le; [|exact Hh]; lia).
      unfold two_step_handler. destruct e as [v| |w]; [destruct (f2 _ v)|..]; done.
  Qed.
  Lemma ro_head {A} (f : ro_prog F A) n st s : head_ok st n → head_settled (ro_transaction F clk f n st s).
  Proof.
    intros Hh. destruct (ro_same F clk f n st s) as (r & n' & -> & Hn). simpl. by eapply head_ok_le.
  Qed.
  Lemma ro_void_head (f : ro_prog F unit) n st s : head_ok st n → head_settled (ro_void_transaction F clk f n st s).
  Proof.
    intros Hh. unfold ro_void_transaction. destruct (s_destructing F s); [done|].
    pose proof (run_ro_n F clk f n (s_fields F s)) as Hn.
    destruct (run_ro F clk f n (s_fields F s)) as [[a|[v| |w]] n']; simpl in *; by eapply head_ok_le.
  Qed.
  Lemma ro_two_step_head {A} (f1 : ro_prog F A) f2 n st s : head_ok st n → head_settled (ro_two_step F clk f1 f2 n st s).
  Proof.
    intros Hh. unfold ro_two_step. destruct (s_destructing F s); [done|].
    pose proof (run_ro_n F clk f1 n (s_fields F s)) as Hn.
    destruct (run_ro F clk f1 n (s_fields F s)) as [[a|e] n']; simpl in *.
    - destruct (f2 0 a) as [[v| |w]|]; [destruct (f2 1 v)|..]; simpl; by eapply head_ok_le.
    - destruct e as [v| |w]; [destruct (f2 0 v)|..]; simpl; by eapply head_ok_le.
  Qed.

  Definition y_head_ok (y : system F) : Prop := head_ok (y_stream F y) (y_pos F y).

  Lemma on_master_head {B} y y' (call : nat → stream F → storage F → outcome F B) :
    (∀ s, y_master F y = Some s → head_settled (call (y_pos F y) (y_stream F y) s)) →
    on_master F y call = Some y' → y_head_ok y'.
  Proof.
    intros Hc. unfold on_master. destruct (y_master F y) as [s|] eqn:Em; [|done].
    specialize (Hc s eq_refl). destruct (call _ _ s); simpl in *; try done; intros [= <-]; done.
  Qed.

  Lemma step_head ev y y' : y_ok F L y → y_head_ok y → step F clk ev y = Some y' → y_head_ok y'.
  Proof.
    intros (Hg & Hm & Hf) Hh. destruct ev; simpl.
    - apply on_master_head. intros s Hs. apply rw_head; auto.
    - apply on_master_head. intros s Hs. apply rw_void_head; auto.
    - apply on_master_head. intros s Hs. apply rw_two_step_head; auto.
    - apply on_master_head. intros s Hs. by apply ro_head.
    - apply on_master_head. intros s Hs. by apply ro_void_head.
    - apply on_master_head. intros s Hs. by apply ro_two_step_head.
    - intros [= <-]. unfold y_head_ok, head_ok in *. simpl. pose proof (clk_inc (y_pos F y)).
      destruct (decide _); simpl; lia.
    - intros [= <-]. unfold y_head_ok, head_ok in *. simpl. pose proof (clk_inc (y_pos F y)).
      destruct (decide _); simpl; lia.
    - destruct (y_master F y); [|done]. by intros [= <-].
    - destruct (y_master F y); [done|]. by intros [= <-].
    - by intros [= <-].
    - by intros [= <-].
    - by intros [= <-].
    - destruct (y_follower F y) as [s|]; [|done]. destruct (follower_step F _ s); [|done]. by intros [= <-].
    - destruct (y_follower F y) as [s|] eqn:Ef; [|done].
      destruct (ro_same F clk f (y_pos F y) (y_stream F y) s) as (r & n' & -> & Hn).
      intros [= <-]. unfold y_head_ok. simpl. by eapply head_ok_le.
    - destruct (y_follower F y) as [s|] eqn:Ef; [|done].
      destruct (Hf s eq_refl) as (_ & E & _). unfold rw_transaction. rewrite E.
      by intros [= <-].
    - destruct (y_master F y); [done|]. destruct (y_follower F y); [|done]. by intros [= <-].
  Qed.

  Lemma run_head evs y y' : y_ok F L y → y_head_ok y → run F clk evs y = Some y' → y_head_ok y'.
  Proof.
    revert y. induction evs as [|ev evs IH]; intros y Hy Hh; simpl.
    - by intros [= <-].
    - destruct (step F clk ev y) as [y1|] eqn:E; [|done]. apply IH.
      + by eapply step_ok.
      + by eapply step_head.
  Qed.

  Lemma reachable_head y : reachable F clk y → y_head_ok y.
  Proof.
    intros (pos & evs & E). eapply run_head; [apply (init_ok F L pos)| |exact E].
    unfold y_head_ok, head_ok. simpl. pose proof (clk_pos pos). lia.
  Qed.
End Head.
