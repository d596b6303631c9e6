From stdpp Require Import list gmap strings.
From Coq Require Import ZArith Lia.
From Verif Require Import Headers_Model Headers_Spec.

(** ** The comparator *)
Lemma canonical_fold c : canonical c = fold_char c.
Proof. reflexivity. Qed.
Lemma signed_char_inj a b : signed_char a = signed_char b → a = b.
Proof. unfold signed_char. repeat case_decide; lia. Qed.

Fixpoint lexlt (l r : list Z) : bool :=
  match l, r with
  | a :: l', b :: r' => if decide (a < b)%Z then true else if decide (b < a)%Z then false else lexlt l' r'
  | [], _ :: _ => true
  | _, [] => false
  end.
Definition keyz (l : list N) : list Z := (λ c, signed_char (fold_char c)) <$> l.
Lemma key_less_lex l r : key_less l r = lexlt (keyz l) (keyz r).
Proof. revert r. induction l as [|a l IH]; intros [|b r]; simpl; try done. by rewrite IH, !canonical_fold. Qed.
Lemma lexlt_irrefl l : lexlt l l = false.
Proof. induction l as [|a l IH]; simpl; [done|]. rewrite !decide_False by lia. done. Qed.
Lemma lexlt_trans l m r : lexlt l m = true → lexlt m r = true → lexlt l r = true.
Proof.
  revert m r. induction l as [|a l IH]; intros [|b m] [|c r]; simpl; try done.
  repeat case_decide; try done; try lia. apply IH.
Qed.
Lemma lexlt_total l r : lexlt l r = false → lexlt r l = false → l = r.
Proof.
  revert r. induction l as [|a l IH]; intros [|b r]; simpl; try done.
  repeat case_decide; try done. intros. f_equal; [lia|by apply IH].
Qed.
Lemma keyz_eq l r : keyz l = keyz r ↔ same_name l r.
Proof.
  unfold same_name, keyz. split.
  - revert r. induction l as [|a l IH]; intros [|b r]; simpl; try done. intros [= H1 H2].
    f_equal; [by apply signed_char_inj|by apply IH].
  - revert r. induction l as [|a l IH]; intros [|b r]; simpl; try done. intros [= H1 H2]. f_equal; [congruence|by apply IH].
Qed.
Lemma key_equiv_spec l r : key_equiv l r = true ↔ same_name l r.
Proof.
  unfold key_equiv. rewrite <-keyz_eq, !key_less_lex. split.
  - intros [H1%negb_true_iff H2%negb_true_iff]%andb_true_iff. by apply lexlt_total.
  - intros ->. by rewrite lexlt_irrefl.
Qed.
Lemma key_equiv_false l r : key_equiv l r = false ↔ ¬ same_name l r.
Proof. rewrite <-key_equiv_spec. by rewrite not_true_iff_false. Qed.

Global Instance same_name_equiv : Equivalence same_name.
Proof. unfold same_name. split; [done|by intros ???|intros ??? -> ->; done]. Qed.

(** ** Representation *)
Record repr (h : heap) (x : headers) (l : spec_headers) : Prop := {
  r_len : length (hmap x) = length l;
  r_at : ∀ i e s, hmap x !! i = Some e → l !! i = Some s →
         e.1 = s.1 ∧ ∃ a, e.2 = Some a ∧ cells h !! a = Some (Header s.1 s.2);
  r_names : ∀ i j s t, l !! i = Some s → l !! j = Some t → same_name s.1 t.1 → i = j;
  r_addr : ∀ i j e e', hmap x !! i = Some e → hmap x !! j = Some e' → e.2 = e'.2 → i = j;
  r_fresh : ∀ a o, cells h !! a = Some o → a < next h }.
(** The list agrees with the map. *)
Definition listed (x : headers) : Prop := hlist x = hmap x.

Lemma spec_get_none n l : spec_get n l = None ↔ ∀ s, s ∈ l → ¬ same_name s.1 n.
Proof.
  unfold spec_get. destruct (list_find _ l) as [[i s]|] eqn:E; simpl.
  - apply list_find_Some in E as (E1 & E2 & _). split; [done|]. intros H. exfalso. apply (H s); [by eapply elem_of_list_lookup_2|done].
  - apply list_find_None in E. split; [|done]. intros _ s Hs. rewrite Forall_forall in E. by apply E.
Qed.
Lemma spec_get_some n l s : spec_get n l = Some s → ∃ i, l !! i = Some s ∧ same_name s.1 n.
Proof.
  unfold spec_get. destruct (list_find _ l) as [[i s']|] eqn:E; simpl; [|done].
  apply list_find_Some in E as (E1 & E2 & _). intros [= <-]. by exists i.
Qed.

Lemma find_none {A} n (m : list (list N * A)) : find n m = None ↔ ∀ e, e ∈ m → ¬ same_name e.1 n.
Proof.
  induction m as [|[k a] m IH]; simpl.
  - split; [intros _ e H; by apply elem_of_nil in H|done].
  - destruct (key_equiv n k) eqn:E.
    + apply key_equiv_spec in E. split; [done|]. intros H. exfalso. apply (H (k, a)); [by left|done].
    + apply key_equiv_false in E. rewrite IH. split.
      * intros H e [->|He]%elem_of_cons; [simpl; by intros H'|by apply H].
      * intros H e He. apply H. by right.
Qed.
Lemma find_some {A} n (m : list (list N * A)) a : find n m = Some a → ∃ i k, m !! i = Some (k, a) ∧ same_name k n.
Proof.
  induction m as [|[k b] m IH]; simpl; [done|]. destruct (key_equiv n k) eqn:E.
  - apply key_equiv_spec in E. intros [= <-]. exists 0, k. by split.
  - intros (i & k' & H1 & H2)%IH. by exists (S i), k'.
Qed.
Lemma store_none {A} n (a : A) m : find n m = None → store n a m = m ++ [(n, a)].
Proof. induction m as [|[k b] m IH]; simpl; [done|]. destruct (key_equiv n k); [done|]. intros H. by rewrite IH. Qed.

(** Looking a name up. *)
Lemma repr_find h x l n : repr h x l →
  match spec_get n l with
  | None => find n (hmap x) = None
  | Some s => ∃ i a, l !! i = Some s ∧ hmap x !! i = Some (s.1, Some a) ∧ same_name s.1 n ∧
               find n (hmap x) = Some (Some a) ∧ cells h !! a = Some (Header s.1 s.2)
  end.
Proof.
  intros R. destruct (spec_get n l) as [s|] eqn:E.
  - apply spec_get_some in E as (i & Hi & Hs).
    destruct (lookup_lt_is_Some_2 (hmap x) i) as [[k p] He].
    { rewrite (r_len _ _ _ R). by eapply lookup_lt_Some. }
    destruct (r_at _ _ _ R i _ _ He Hi) as (E1 & a & E2 & E3). simpl in *. subst.
    exists i, a. split_and!; try done.
    destruct (find n (hmap x)) as [p|] eqn:F.
    + apply find_some in F as (j & k & Hj & Hk).
      destruct (lookup_lt_is_Some_2 l j) as [t Ht]. { rewrite <-(r_len _ _ _ R). by eapply lookup_lt_Some. }
      destruct (r_at _ _ _ R j _ _ Hj Ht) as (E4 & a' & E5 & E6). simpl in *. subst.
      assert (i = j) as <-. { eapply (r_names _ _ _ R); [exact Hi|exact Ht|]. by rewrite Hs, Hk. }
      rewrite He in Hj. by simplify_eq.
    + rewrite find_none in F. exfalso. apply (F (s.1, Some a)); [by eapply elem_of_list_lookup_2|done].
  - rewrite spec_get_none in E. apply find_none. intros e [i He]%elem_of_list_lookup.
    destruct (lookup_lt_is_Some_2 l i) as [t Ht]. { rewrite <-(r_len _ _ _ R). by eapply lookup_lt_Some. }
    destruct (r_at _ _ _ R i _ _ He Ht) as (-> & _). apply E. by eapply elem_of_list_lookup_2.
Qed.

Definition owns (x : headers) (a : nat) : Prop := ∃ k, (k, Some a) ∈ hmap x.
Definition apart (x y : headers) : Prop := ∀ a, owns x a → owns y a → False.

Lemma repr_owned h x l a : repr h x l → owns x a → ∃ o, cells h !! a = Some o.
Proof.
  intros R (k & [i Hi]%elem_of_list_lookup).
  destruct (lookup_lt_is_Some_2 l i) as [t Ht]. { rewrite <-(r_len _ _ _ R). by eapply lookup_lt_Some. }
  destruct (r_at _ _ _ R i _ _ Hi Ht) as (_ & a' & E & H). simpl in E. simplify_eq. eauto.
Qed.

(** Changing cells [x] does not own. *)
Lemma repr_frame h h' x l : repr h x l → (∀ a, owns x a → cells h' !! a = cells h !! a) →
  (∀ a o, cells h' !! a = Some o → a < next h') → repr h' x l.
Proof.
  intros R Hc Hf. constructor; try apply R; [|done].
  intros i e s He Hs. destruct (r_at _ _ _ R i e s He Hs) as (E & a & Ea & Hcell). split; [done|].
  exists a. split; [done|]. rewrite Hc; [done|]. exists e.1. destruct e; simpl in *; subst. by eapply elem_of_list_lookup_2.
Qed.

(** What changed: other objects stay as they are. *)
Definition safe (h : heap) (x : headers) (h' : heap) (x' : headers) : Prop :=
  ∀ y l', apart x y → repr h y l' → repr h' y l' ∧ apart x' y.

Lemma placeholder_repr h x l n a h1 x1 : repr h x l → placeholder n h x = (a, h1, x1) →
  let l1 := match spec_get n l with Some _ => l | None => l ++ [(n, [])] end in
  repr h1 x1 l1 ∧ safe h x h1 x1 ∧ (listed x → listed x1) ∧ cookies x1 = cookies x ∧
  ∃ i s, l1 !! i = Some s ∧ same_name s.1 n ∧ hmap x1 !! i = Some (s.1, Some a) ∧ cells h1 !! a = Some (Header s.1 s.2).
Proof.
  intros R E. unfold placeholder in E. pose proof (repr_find h x l n R) as Hf.
  destruct (spec_get n l) as [s|] eqn:Eg.
  - destruct Hf as (i & a' & H1 & H2 & H3 & H4 & H5). rewrite H4 in E. simplify_eq. simpl.
    split_and!; try done. exists i, s. by split_and!.
  - rewrite Hf in E. simpl in E. simplify_eq. simpl. rewrite (store_none n (Some (next h)) (hmap x) Hf).
    assert (cells h !! next h = None) as Hfr.
    { destruct (cells h !! next h) eqn:F; [|done]. apply (r_fresh _ _ _ R) in F. lia. }
    assert (∀ a o, <[next h := Header n []]> (cells h) !! a = Some o → a < S (next h)) as Hfr'.
    { intros a' o. destruct (decide (a' = next h)) as [->|]; [lia|]. rewrite lookup_insert_ne by done. intros H%(r_fresh _ _ _ R). lia. }
    split_and!.
    + constructor; simpl.
      * rewrite !app_length. simpl. by rewrite (r_len _ _ _ R).
      * intros i e s He Hs. destruct (decide (i < length l)) as [Hlt|Hge].
        -- rewrite lookup_app_l in He by (rewrite (r_len _ _ _ R); done). rewrite lookup_app_l in Hs by done.
           destruct (r_at _ _ _ R i e s He Hs) as (E1 & a' & E2 & E3). split; [done|]. exists a'. split; [done|].
           rewrite lookup_insert_ne; [done|]. intros <-. congruence.
        -- rewrite lookup_app_r in He by (rewrite (r_len _ _ _ R); lia). rewrite lookup_app_r in Hs by lia. rewrite (r_len _ _ _ R) in He.
           destruct (i - length l) as [|[|]]; simpl in *; simplify_eq. simpl. split; [done|]. exists (next h). split; [done|]. by rewrite lookup_insert.
      * rewrite spec_get_none in Eg. intros i j s t Hi Hj Hst.
        apply lookup_app_Some in Hi as [Hi|[Hi1 Hi]], Hj as [Hj|[Hj1 Hj]].
        -- by eapply (r_names _ _ _ R).
        -- destruct (j - length l) as [|[|]]; simpl in *; simplify_eq. simpl in Hst. exfalso. apply (Eg s); [by eapply elem_of_list_lookup_2|done].
        -- destruct (i - length l) as [|[|]]; simpl in *; simplify_eq. simpl in Hst. exfalso. apply (Eg t); [by eapply elem_of_list_lookup_2|by symmetry].
        -- apply lookup_lt_Some in Hi, Hj. simpl in *. lia.
      * assert (∀ i e, hmap x !! i = Some e → e.2 ≠ Some (next h)) as Hnot.
        { intros i e Hi F. destruct (lookup_lt_is_Some_2 l i) as [t Ht]. { rewrite <-(r_len _ _ _ R). by eapply lookup_lt_Some. }
          destruct (r_at _ _ _ R i _ _ Hi Ht) as (_ & a' & E' & H). congruence. }
        intros i j s t Hi Hj Hst.
        apply lookup_app_Some in Hi as [Hi|[Hi1 Hi]], Hj as [Hj|[Hj1 Hj]].
        -- by eapply (r_addr _ _ _ R).
        -- destruct (j - length (hmap x)) as [|[|]]; simpl in *; simplify_eq. by apply Hnot in Hi.
        -- destruct (i - length (hmap x)) as [|[|]]; simpl in *; simplify_eq. by apply Hnot in Hj.
        -- apply lookup_lt_Some in Hi, Hj. simpl in *. lia.
      * done.
    + intros y l' Hap Ry. split.
      * eapply repr_frame; [done| |done]. simpl. intros a' Ho. rewrite lookup_insert_ne; [done|]. intros <-.
        destruct (repr_owned _ _ _ _ Ry Ho). congruence.
      * intros a' [k Hk] Ho. simpl in Hk. apply elem_of_app in Hk as [Hk|Hk].
        -- apply (Hap a'); [by exists k|done].
        -- apply elem_of_list_singleton in Hk. simplify_eq. destruct (repr_owned _ _ _ _ Ry Ho). congruence.
    + unfold listed. simpl. by intros ->.
    + done.
    + exists (length l), (n, []). rewrite !lookup_app_r, (r_len _ _ _ R), Nat.sub_diag by (rewrite ?(r_len _ _ _ R); lia). simpl.
      split_and!; try done. by rewrite lookup_insert.
Qed.

Lemma update_repr h x l n i s a f : repr h x l → l !! i = Some s → same_name s.1 n → hmap x !! i = Some (s.1, Some a) →
  let h' := update a (λ o, Header (h_name o) (f (h_value o))) h in
  repr h' x ((λ e, if decide (same_name e.1 n) then (e.1, f e.2) else e) <$> l) ∧ safe h x h' x.
Proof.
  intros R Hi Hs Hm h'.
  assert (Hfr : ∀ a o, cells h' !! a = Some o → a < next h').
  { intros a' o. simpl. destruct (decide (a' = a)) as [->|].
    - rewrite lookup_alter. intros (o' & H & _)%fmap_Some. by eapply (r_fresh _ _ _ R).
    - rewrite lookup_alter_ne by done. apply (r_fresh _ _ _ R). }
  split.
  - constructor.
    + by rewrite fmap_length, (r_len _ _ _ R).
    + intros j e t He Ht. rewrite list_lookup_fmap in Ht. apply fmap_Some in Ht as (t' & Ht & ->).
      destruct (r_at _ _ _ R j e t' He Ht) as (E1 & a' & E2 & E3).
      split; [by case_decide|]. exists a'. split; [done|]. simpl.
      destruct (decide (j = i)) as [->|Hne].
      * rewrite Hi in Ht. rewrite Hm in He. simplify_eq. simpl in *. simplify_eq. rewrite lookup_alter, E3. simpl. by rewrite decide_True.
      * rewrite lookup_alter_ne.
        -- rewrite decide_False; [done|]. intros F. apply Hne. eapply (r_names _ _ _ R); [done|done|]. by rewrite F, Hs.
        -- intros ->. apply Hne. eapply (r_addr _ _ _ R); [done|done|]. done.
    + intros j k s1 s2 H1 H2. rewrite list_lookup_fmap in H1, H2.
      apply fmap_Some in H1 as (t1 & H1 & ->). apply fmap_Some in H2 as (t2 & H2 & ->).
      intros H. eapply (r_names _ _ _ R); [done|done|]. repeat case_decide; done.
    + apply (r_addr _ _ _ R).
    + done.
  - intros y l' Hap Ry. split; [|done]. eapply repr_frame; [done| |done].
    intros a' Ho. simpl. rewrite lookup_alter_ne; [done|]. intros <-. apply (Hap a); [|done].
    exists s.1. by eapply elem_of_list_lookup_2.
Qed.

Lemma spec_change_alt n f l :
  spec_change n f l = (λ e, if decide (same_name e.1 n) then (e.1, f e.2) else e) <$>
     match spec_get n l with Some _ => l | None => l ++ [(n, [])] end.
Proof.
  unfold spec_change. destruct (spec_get n l) eqn:E; [done|]. rewrite spec_get_none in E. rewrite fmap_app. simpl.
  rewrite decide_True by done. f_equal. symmetry. clear -E. induction l as [|s l IH]; [done|]. simpl.
  rewrite decide_False by (apply E; by left). f_equal. apply IH. intros t Ht. apply E. by right.
Qed.

Lemma change_repr h x l n f a h1 x1 : repr h x l → placeholder n h x = (a, h1, x1) →
  let h' := update a (λ o, Header (h_name o) (f (h_value o))) h1 in
  repr h' x1 (spec_change n f l) ∧ safe h x h' x1 ∧ (listed x → listed x1).
Proof.
  intros R E h'. destruct (placeholder_repr _ _ _ _ _ _ _ R E) as (R1 & S1 & L1 & _ & i & s & H1 & H2 & H3 & H4).
  destruct (update_repr _ _ _ n i s a f R1 H1 H2 H3) as [R2 S2]. rewrite spec_change_alt. split_and!; [done| |done].
  intros y l' Hap Ry. destruct (S1 y l' Hap Ry) as [Ry1 Hap1]. by apply S2.
Qed.

Lemma set_repr h x l n v : repr h x l → is_cookie_header n = false →
  ∃ h' x', set n v h x = Returns (h', x') ∧ repr h' x' (spec_set n v l) ∧ safe h x h' x' ∧ (listed x → listed x').
Proof.
  intros R Hc. unfold set. rewrite Hc. destruct n as [|c n]; [by exists h, x|].
  unfold spec_set. set (n' := c :: n) in *.
  destruct (placeholder n' h x) as [[a h1] x1] eqn:E. destruct v as [|d v].
  - exists h1, x1. split; [done|].
    destruct (placeholder_repr _ _ _ _ _ _ _ R E) as (R1 & S1 & L1 & _ & _).
    split_and!; [|done|done]. rewrite spec_change_alt.
    replace ((λ e, _) <$> _) with (match spec_get n' l with Some _ => l | None => l ++ [(n', [])] end); [done|].
    symmetry. transitivity (id <$> match spec_get n' l with Some _ => l | None => l ++ [(n', [])] end); [|by rewrite list_fmap_id].
    apply list_fmap_ext. intros j [k w] _. simpl. case_decide; [|done]. by destruct w.
  - eexists _, x1. split; [done|].
    pose proof (change_repr h x l n' (λ old, spec_join old (d :: v)) a h1 x1 R E) as H.
    assert (∀ o, Header (h_name o) (spec_join (h_value o) (d :: v)) =
                 Header (h_name o) (match h_value o with [] => d :: v | v0 => v0 ++ [44; 32]%N ++ d :: v end)) as Hj.
    { intros [k w]. simpl. by destruct w. }
    simpl in H. unfold update in *.
    replace (alter (λ o, Header (h_name o) match h_value o with [] => d :: v | n0 :: l0 => (n0 :: l0) ++ 44%N :: 32%N :: d :: v end) a (cells h1))
      with (alter (λ o, Header (h_name o) (spec_join (h_value o) (d :: v))) a (cells h1)); [exact H|].
    apply map_eq. intros b. destruct (decide (b = a)) as [->|]; [|by rewrite !lookup_alter_ne].
    rewrite !lookup_alter. destruct (cells h1 !! a); [|done]. simpl. f_equal. apply Hj.
Qed.

Lemma assign_repr h x l n v : repr h x l → is_cookie_header n = false →
  ∃ h' x', assign n v h x = Returns (h', x') ∧ repr h' x' (spec_assign n v l) ∧ safe h x h' x' ∧ (listed x → listed x').
Proof.
  intros R Hc. unfold assign. rewrite Hc. destruct (placeholder n h x) as [[a h1] x1] eqn:E.
  eexists _, x1. split; [done|]. apply (change_repr h x l n (λ _, v) a h1 x1 R E).
Qed.

Lemma erase_lookup {A} n (m : list (list N * A)) i k a : m !! i = Some (k, a) → same_name k n →
  (∀ j e, m !! j = Some e → same_name e.1 n → j = i) → erase n m = delete i m.
Proof.
  revert i. induction m as [|[k' b] m IH]; intros i Hi Hs Hu; [done|]. simpl.
  destruct (key_equiv n k') eqn:E.
  - apply key_equiv_spec in E. assert (0 = i) as <- by (by apply (Hu 0 (k', b))). done.
  - destruct i as [|i]; simpl in Hi.
    + simplify_eq. apply key_equiv_false in E. exfalso. by apply E.
    + simpl. f_equal. eapply IH; [done|done|]. intros j e Hj He. specialize (Hu (S j) e Hj He). lia.
Qed.
Lemma filter_delete {A} (P : A → Prop) `{!∀ x, Decision (P x)} (l : list A) i s : l !! i = Some s → ¬ P s →
  (∀ j e, l !! j = Some e → ¬ P e → j = i) → filter P l = delete i l.
Proof.
  revert i. induction l as [|t l IH]; intros i Hi Hs Hu; [done|]. destruct i as [|i]; simpl in Hi.
  - simplify_eq. rewrite filter_cons_False by done. simpl.
    assert (∀ e, e ∈ l → P e) as Hall.
    { intros e [j Hj]%elem_of_list_lookup. destruct (decide (P e)); [done|]. specialize (Hu (S j) e Hj). by feed specialize Hu. }
    clear -Hall. induction l as [|e l IH]; [done|]. rewrite filter_cons_True by (apply Hall; by left). f_equal. apply IH. intros. apply Hall. by right.
  - rewrite filter_cons_True.
    + simpl. f_equal. eapply IH; [done|done|]. intros j e Hj He. specialize (Hu (S j) e Hj He). lia.
    + destruct (decide (P t)); [done|]. specialize (Hu 0 t eq_refl). by feed specialize Hu.
Qed.
Lemma filter_all {A} (P : A → Prop) `{!∀ x, Decision (P x)} (l : list A) : (∀ e, e ∈ l → P e) → filter P l = l.
Proof. intros Hall. induction l as [|e l IH]; [done|]. rewrite filter_cons_True by (apply Hall; by left). f_equal. apply IH. intros. apply Hall. by right. Qed.

(** Lookup past a deleted position. *)
Definition skip (i j : nat) : nat := if decide (j < i) then j else S j.
Lemma delete_lookup {A} (l : list A) i j : delete i l !! j = l !! skip i j.
Proof.
  unfold skip. case_decide.
  - by apply lookup_delete_lt.
  - apply lookup_delete_ge. lia.
Qed.
Lemma skip_inj i j k : skip i j = skip i k → j = k.
Proof. unfold skip. repeat case_decide; lia. Qed.
Lemma skip_ne i j : skip i j ≠ i.
Proof. unfold skip. case_decide; lia. Qed.

Lemma remove_repr h x l n : repr h x l → is_cookie_header n = false →
  ∃ h' x', remove n h x = Returns (h', x') ∧ repr h' x' (spec_remove n l) ∧ safe h x h' x' ∧
    (listed x → (∀ s, s ∈ l → same_name s.1 n → s.1 = n) → listed x').
Proof.
  intros R Hc. unfold remove. rewrite Hc. pose proof (repr_find h x l n R) as Hf.
  destruct (spec_get n l) as [s|] eqn:Eg.
  - destruct Hf as (i & a & H1 & H2 & H3 & -> & H5). eexists _, _. split; [done|].
    assert (∀ j e, hmap x !! j = Some e → same_name e.1 n → j = i) as Hu.
    { intros j e Hj He. destruct (lookup_lt_is_Some_2 l j) as [t Ht]. { rewrite <-(r_len _ _ _ R). by eapply lookup_lt_Some. }
      destruct (r_at _ _ _ R j _ _ Hj Ht) as (E1 & _). eapply (r_names _ _ _ R); [done|done|]. by rewrite <-E1, He, H3. }
    assert (erase n (hmap x) = delete i (hmap x)) as Ee by (by eapply erase_lookup).
    assert (spec_remove n l = delete i l) as Es.
    { unfold spec_remove. eapply filter_delete; [done|by intros H|]. intros j e Hj He. apply dec_stable in He.
      eapply (r_names _ _ _ R); [done|done|]. by rewrite He, H3. }
    rewrite Ee, Es.
    assert (∀ a' o, delete a (cells h) !! a' = Some o → a' < next h) as Hfr.
    { intros a' o. rewrite lookup_delete_Some. intros [_ H]. by eapply (r_fresh _ _ _ R). }
    split_and!.
    + constructor; simpl.
      * rewrite !length_delete by (rewrite ?H2, ?H1; eauto). by rewrite (r_len _ _ _ R).
      * intros j e t. rewrite !delete_lookup. intros He Ht. destruct (r_at _ _ _ R _ _ _ He Ht) as (E1 & a' & E2 & E3).
        split; [done|]. exists a'. split; [done|]. rewrite lookup_delete_ne; [done|]. intros <-.
        apply (skip_ne i j). eapply (r_addr _ _ _ R); [done|done|]. done.
      * intros j k t1 t2. rewrite !delete_lookup. intros Hj Hk E. eapply skip_inj, (r_names _ _ _ R); done.
      * intros j k t1 t2. rewrite !delete_lookup. intros Hj Hk E. eapply skip_inj, (r_addr _ _ _ R); done.
      * done.
    + intros y l' Hap Ry. split.
      * eapply repr_frame; [done| |done]. simpl. intros a' Ho. rewrite lookup_delete_ne; [done|]. intros <-.
        apply (Hap a); [|done]. exists s.1. by eapply elem_of_list_lookup_2.
      * intros a' [k Hk] Ho. simpl in Hk. apply elem_of_list_lookup in Hk as [j Hj]. rewrite delete_lookup in Hj.
        apply (Hap a'); [|done]. exists k. by eapply elem_of_list_lookup_2.
    + unfold listed. simpl. intros HL Hsp. rewrite HL. eapply filter_delete; [done|simpl|].
      * intros F. apply F. apply Hsp; [by eapply elem_of_list_lookup_2|done].
      * intros j e Hj He. apply dec_stable in He. apply (Hu j e Hj). by rewrite He.
  - rewrite Hf. exists h, x. split; [done|].
    assert (spec_remove n l = l) as ->.
    { apply filter_all. intros e He. rewrite spec_get_none in Eg. by apply Eg. }
    split_and!; done.
Qed.

Lemma iterate_repr h x l : repr h x l → listed x → iterate h x = Returns ((λ s, Header s.1 s.2) <$> l).
Proof.
  intros R L. unfold iterate. rewrite L.
  assert (mapM (λ e : list N * option nat, deref e.2 h) (hmap x) = Some ((λ s, Header s.1 s.2) <$> l)) as ->; [|done].
  apply mapM_Some. apply Forall2_same_length_lookup. split; [by rewrite fmap_length, (r_len _ _ _ R)|].
  intros i e o He Ho. rewrite list_lookup_fmap in Ho. apply fmap_Some in Ho as (s & Hs & ->).
  destruct (r_at _ _ _ R i e s He Hs) as (_ & a & -> & H). done.
Qed.

(** ** Copying *)
Lemma copy_map_ok src h m : 
  (∀ k, (k, None) ∉ src) → (∀ k a, (k, Some a) ∈ src → ∃ o, cells h !! a = Some o) →
  (∀ a o, cells h !! a = Some o → a < next h) →
  (∀ i j e e', src !! i = Some e → src !! j = Some e' → same_name e.1 e'.1 → i = j) →
  (∀ e, e ∈ src → find e.1 m = None) →
  ∃ h', copy_map src h m = Some (h', m ++ zip src.*1 (Some <$> seq (next h) (length src))) ∧
    next h' = next h + length src ∧
    (∀ a, a < next h → cells h' !! a = cells h !! a) ∧
    (∀ a o, cells h' !! a = Some o → a < next h') ∧
    ∀ i e, src !! i = Some e → cells h' !! (next h + i) = deref e.2 h.
Proof.
  revert h m. induction src as [|[k p] src IH]; intros h m Hnull Hv Hfr Hnd Hm; simpl.
  - exists h. rewrite app_nil_r. split_and!; try done.
  - destruct p as [a|]; [|destruct (Hnull k); by left].
    destruct (Hv k a) as [o Ho]; [by left|]. simpl. rewrite Ho. simpl.
    assert (find k m = None) as Hk by (apply (Hm (k, Some a)); by left). rewrite Hk.
    rewrite store_none by done.
    destruct (IH (Heap (<[next h := o]> (cells h)) (S (next h))) (m ++ [(k, Some (next h))])) as (h' & E & En & Ec & Ef & Ei).
    + intros k' Hk'. apply (Hnull k'). by right.
    + intros k' a' Hin. simpl. destruct (decide (a' = next h)) as [->|].
      * rewrite lookup_insert. eauto.
      * rewrite lookup_insert_ne by done. apply (Hv k'). by right.
    + simpl. intros a' o'. destruct (decide (a' = next h)) as [->|]; [lia|]. rewrite lookup_insert_ne by done. intros H%Hfr. lia.
    + intros i j e e' Hi Hj Hs. specialize (Hnd (S i) (S j) e e' Hi Hj Hs). lia.
    + intros e He. apply find_none. intros e' [He'|He']%elem_of_app.
      * assert (find e.1 m = None) as F by (apply Hm; by right). rewrite find_none in F. by apply F.
      * apply elem_of_list_singleton in He' as ->. simpl. intros F. apply elem_of_list_lookup in He as [j Hj].
        specialize (Hnd 0 (S j) (k, Some a) e eq_refl Hj F). lia.
    + simpl in *. exists h'. rewrite E, <-app_assoc. split; [done|]. split; [lia|]. split; [|split; [done|]].
      * intros a' Ha. rewrite Ec by lia. rewrite lookup_insert_ne by lia. done.
      * intros [|i] e Hi; simpl in Hi.
        -- simplify_eq. simpl. rewrite Nat.add_0_r, Ec by lia. by rewrite lookup_insert.
        -- specialize (Ei i e Hi). replace (next h + S i) with (S (next h + i)) by lia. rewrite Ei.
           assert (e ∈ src) as Hin by (by eapply elem_of_list_lookup_2).
           destruct e as [k' [a'|]]; simpl; [|done].
           rewrite lookup_insert_ne; [done|]. intros <-. destruct (Hv k' (next h)) as [o' Ho']; [by right|]. apply Hfr in Ho'. lia.
Qed.

Lemma copy_list_ok src x : (∀ e, e ∈ src → find e.1 (hmap x) ≠ None) →
  copy_list src x = Headers (hmap x) (hlist x ++ ((λ e, (e.1, from_option id None (find e.1 (hmap x)))) <$> src)) (cookies x).
Proof.
  revert x. induction src as [|[k p] src IH]; intros x Hf; simpl.
  - rewrite app_nil_r. by destruct x.
  - destruct (find k (hmap x)) as [q|] eqn:E; [|exfalso; apply (Hf (k, p)); [by left|done]].
    rewrite IH; simpl; [|intros e He; apply Hf; by right]. rewrite <-app_assoc. done.
Qed.

Lemma copy_into h b l x : repr h b l → listed b → hmap x = [] → hlist x = [] →
  ∃ h' x', deep_copy_from b h x = Returns (h', x') ∧ repr h' x' l ∧ listed x' ∧ cookies x' = cookies b ∧
    repr h' b l ∧ apart x' b.
Proof.
  intros R L Ex1 Ex2. unfold deep_copy_from. rewrite Ex1.
  assert (∀ i e, hmap b !! i = Some e → ∃ s, l !! i = Some s ∧ e.1 = s.1 ∧ ∃ a, e.2 = Some a ∧ cells h !! a = Some (Header s.1 s.2)) as Hb.
  { intros i e He. destruct (lookup_lt_is_Some_2 l i) as [t Ht]. { rewrite <-(r_len _ _ _ R). by eapply lookup_lt_Some. }
    exists t. split; [done|]. by apply (r_at _ _ _ R i). }
  destruct (copy_map_ok (hmap b) h []) as (h' & E & En & Ec & Ef & Ei).
  { intros k [i Hi]%elem_of_list_lookup. by destruct (Hb _ _ Hi) as (? & _ & _ & ? & ? & _). }
  { intros k a [i Hi]%elem_of_list_lookup. destruct (Hb _ _ Hi) as (? & _ & _ & ? & ? & ?). simpl in *. simplify_eq. eauto. }
  { apply (r_fresh _ _ _ R). }
  { intros i j e e' Hi Hj Hs. destruct (Hb _ _ Hi) as (s & ? & E1 & _). destruct (Hb _ _ Hj) as (t & ? & E2 & _).
    eapply (r_names _ _ _ R); [done|done|]. by rewrite <-E1, <-E2. }
  { done. }
  rewrite E. simpl in E |- *. set (m := zip (hmap b).*1 (Some <$> seq (next h) (length (hmap b)))) in *.
  eexists h', _. split; [done|].
  assert (length m = length l) as Hlen.
  { unfold m. rewrite zip_with_length, !fmap_length, seq_length, (r_len _ _ _ R). lia. }
  assert (∀ i e, m !! i = Some e → ∃ s, l !! i = Some s ∧ e = (s.1, Some (next h + i)) ∧ cells h' !! (next h + i) = Some (Header s.1 s.2)) as Hm.
  { intros i e He. unfold m in He. apply lookup_zip_with_Some in He as (k & p & -> & Hk & Hp).
    rewrite list_lookup_fmap in Hk. rewrite list_lookup_fmap in Hp. apply fmap_Some in Hk as (e0 & He0 & ->). apply fmap_Some in Hp as (a & Ha & ->).
    apply lookup_seq in Ha as [-> _]. destruct (Hb i e0 He0) as (s & Hs & E1 & a & E2 & E3). exists s. split; [done|].
    rewrite E1. split; [done|]. rewrite (Ei i e0 He0), E2. done. }
  assert (∀ c, repr h' (Headers m (hlist x) c) l) as Rm.
  { constructor; simpl.
    - done.
    - intros i e s He Hs. destruct (Hm i e He) as (s' & Hs' & -> & Hc). simplify_eq. simpl. split; [done|]. eauto.
    - apply (r_names _ _ _ R).
    - intros i j e e' Hi Hj. destruct (Hm i e Hi) as (? & _ & -> & _). destruct (Hm j e' Hj) as (? & _ & -> & _). simpl. intros [=]. lia.
    - done. }
  assert (∀ e, e ∈ hlist b → ∃ i a, hlist b !! i = Some e ∧ m !! i = Some (e.1, Some a) ∧ find e.1 m = Some (Some a)) as Hfind.
  { rewrite L. intros e [i Hi]%elem_of_list_lookup. destruct (Hb i e Hi) as (s & Hs & E1 & _).
    destruct (lookup_lt_is_Some_2 m i) as [em Hem]. { rewrite Hlen. by eapply lookup_lt_Some. }
    destruct (Hm i em Hem) as (s' & Hs' & -> & _). simplify_eq. 
    pose proof (repr_find h' _ l e.1 (Rm [])) as Hf. destruct (spec_get e.1 l) as [t|] eqn:Eg.
    - destruct Hf as (j & a & Hj & Hj' & Hsn & Hf & _). simpl in *.
      assert (j = i) as ->. { eapply (r_names _ _ _ R); [done|done|]. by rewrite <-E1. }
      rewrite Hs in Hj. injection Hj as <-. exists i, a. split_and!; [done|by rewrite E1|done].
    - rewrite spec_get_none in Eg. exfalso. apply (Eg s); [by eapply elem_of_list_lookup_2|]. by rewrite E1. }
  rewrite copy_list_ok; simpl.
  2: { intros e He. destruct (Hfind e He) as (? & ? & _ & _ & ->). done. }
  split_and!.
  - destruct (Rm (cookies b)) as [R1 R2 R3 R4 R5]. constructor; done.
  - unfold listed. simpl. rewrite Ex2. simpl. rewrite L. apply list_eq. intros i. rewrite list_lookup_fmap.
    destruct (hmap b !! i) as [e|] eqn:He; simpl.
    + rewrite <-L in He. assert (e ∈ hlist b) as Hin by (by eapply elem_of_list_lookup_2).
      destruct (Hfind e Hin) as (j & a & Hj & Hmj & Hf). rewrite Hf. simpl. rewrite L in He, Hj.
      assert (i = j) as <-; [|by rewrite Hmj].
      destruct (Hb _ _ He) as (s & ? & E1 & _). destruct (Hb _ _ Hj) as (t & ? & E2 & _).
      eapply (r_names _ _ _ R); [done|done|]. by rewrite <-E1, <-E2.
    + symmetry. apply lookup_ge_None. apply lookup_ge_None in He. rewrite Hlen, <-(r_len _ _ _ R). done.
  - done.
  - eapply repr_frame; [done| |done]. intros a Ho. destruct (repr_owned _ _ _ _ R Ho) as [o Ho'].
    apply Ec. by eapply (r_fresh _ _ _ R).
  - intros a [k [i Hi]%elem_of_list_lookup] Ho. simpl in Hi. destruct (Hm _ _ Hi) as (s & _ & [= _ ->] & _).
    destruct (repr_owned _ _ _ _ R Ho) as [o Ho']. apply (r_fresh _ _ _ R) in Ho'. lia.
Qed.
