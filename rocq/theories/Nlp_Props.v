(** * Properties of the matching of queries *)
From stdpp Require Import list.
From Verif Require Import Nlp_Model Nlp_Spec.

Fixpoint size (b : block) : nat :=
  match b with
  | Keyword _ | Dictionary _ | None_ => 1
  | Void b | Map_ _ _ b | Filter _ b => S (size b)
  | Or a b | And a b | Seq _ a b => S (size a + size b)
  end.
Lemma size_type b : size (type_of b) = size b.
Proof. induction b; simpl; congruence. Qed.

(** ** Calling back with each of a list *)
Section Each.
Context {S : Type}.
Notation M := (S → S * option exn).
Lemma andthen_ret_r (m : M) s : andthen m ret s = m s. Proof. unfold andthen, ret. destruct (m s) as [s' [e|]]; done. Qed.
Lemma andthen_assoc (m n o : M) s : andthen (andthen m n) o s = andthen m (andthen n o) s. Proof. unfold andthen. destruct (m s) as [s' [e|]]; done. Qed.
Lemma andthen_ext (m m' n n' : M) s : (∀ s, m s = m' s) → (∀ s, n s = n' s) → andthen m n s = andthen m' n' s.
Proof. intros A B. unfold andthen. rewrite A. destruct (m' s) as [s' [e|]]; done. Qed.
Lemma each_ext l (k k' : value → M) : (∀ v s, k v s = k' v s) → ∀ s, each l k s = each l k' s.
Proof. intros E. induction l as [|v l IH]; intros s; simpl; [done|]. by apply andthen_ext. Qed.
Lemma each_app l l' (k : value → M) s : each (l ++ l') k s = andthen (each l k) (each l' k) s.
Proof. revert s. induction l as [|v l IH]; intros s; simpl; [done|]. rewrite andthen_assoc. by apply andthen_ext. Qed.
Lemma each_fmap f l (k : value → M) s : each (f <$> l) k s = each l (λ v, k (f v)) s.
Proof. revert s. induction l as [|v l IH]; intros s; simpl; [done|]. by apply andthen_ext. Qed.
Lemma each_one v (k : value → M) s : each [v] k s = k v s. Proof. apply andthen_ret_r. Qed.
Lemma each_bind (f : value → list value) l (k : value → M) s : each (l ≫= f) k s = each l (λ v, each (f v) k) s.
Proof. revert s. induction l as [|v l IH]; intros s; simpl; [done|]. rewrite each_app. by apply andthen_ext. Qed.
Lemma each_for (g : nat → list value) (k : value → M) n i s : for_ n i (λ m, each (g m) k) s = each (seq i n ≫= g) k s.
Proof. revert i s. induction n as [|n IH]; intros i s; simpl; [done|]. rewrite each_app. by apply andthen_ext. Qed.
Lemma for_ext n i (f g : nat → M) s : (∀ m s, f m s = g m s) → for_ n i f s = for_ n i g s.
Proof. intros E. revert i s. induction n as [|n IH]; intros i s; simpl; [done|]. by apply andthen_ext. Qed.
Lemma each_filter (p : value → bool) l (k : value → M) s : each (filter (λ v, p v) l) k s = each l (λ v, if p v then k v else ret) s.
Proof.
  revert s. induction l as [|v l IH]; intros s; [done|]. rewrite filter_cons. case_decide as D.
  - simpl. destruct (p v); [|done]. by apply andthen_ext.
  - rewrite IH. simpl. destruct (p v); [done|]. done.
Qed.

(** What the callback throws is not the signal of the block or of one inside. *)
Definition calm (n : nat) (k : value → M) : Prop := ∀ v s s' x, k v s = (s', Some (Signal x)) → n < size x.
Lemma calm_each n l k : calm n k → ∀ s s' x, each l k s = (s', Some (Signal x)) → n < size x.
Proof.
  intros C. induction l as [|v l IH]; intros s s' x; simpl; [done|]. unfold andthen. destruct (k v s) as [s1 [e|]] eqn:K.
  - intros [= -> ->]. by eapply C.
  - apply IH.
Qed.
Lemma calm_le n n' k : n' ≤ n → calm n k → calm n' k. Proof. intros L C v s s' x E. apply C in E. lia. Qed.
(** Nothing, or the first one *)
Lemma emitted_once l (k : value → M) x s : calm (size x) k → try_ (each l (λ _, andthen (k VUnit) (throw (Signal x)))) (Signal x) ret s = each (unit_if l) k s.
Proof.
  intros C. destruct l as [|v l]; simpl; [done|]. unfold try_, andthen, throw, ret. destruct (k VUnit s) as [s' [e|]] eqn:K.
  - rewrite decide_False; [done|]. intros ->. apply C in K. lia.
  - by rewrite decide_True.
Qed.
Lemma emitted_after l (k : value → M) x s : try_ (each l (λ _, throw (Signal x))) (Signal x) (k VUnit) s = each (unit_if l) k s.
Proof.
  destruct l as [|v l]; simpl; [done|]. unfold try_, andthen, throw, ret. rewrite decide_True by done. destruct (k VUnit s) as [s' [e|]]; done.
Qed.
Lemma try_ext (m m' : M) e h s : (∀ s, m s = m' s) → try_ m e h s = try_ m' e h s. Proof. intros E. unfold try_. by rewrite E. Qed.
End Each.

Section Main.
Context {S : Type} (F : nat → value → value) (P : nat → value → bool) (query : list term).
Notation M := (S → S * option exn).
Notation eval := (eval F P query). Notation results := (results F P query).
Lemma calm_inner n x (k : value → M) : calm (size x) k → n < size x → calm n (λ _, andthen (k VUnit) (throw (Signal x))).
Proof.
  intros C L v s s' y. unfold andthen, throw. destruct (k VUnit s) as [s1 [e|]] eqn:K; [|by intros [= _ <-]].
  intros [= -> ->]. apply C in K. lia.
Qed.
Lemma calm_throw n x : n < size x → calm (S := S) n (λ _, throw (Signal x)).
Proof. intros L v s s' y. unfold throw. by intros [= _ <-]. Qed.
Lemma eval_each b : ∀ i j (k : value → M), calm (size b) k → ∀ s, eval b i j k s = each (results b i j) k s.
Proof.
  induction b as [w|f| |b IH|a IHa b IHb|a IHa b IHb|d a IHa b IHb|t f b IH|p b IH]; intros i j k C s; cbn [Nlp_Model.eval Nlp_Spec.results].
  - destruct (query !! i) as [t|]; [|done]. case_decide; [|done]. symmetry. apply each_one.
  - destruct (query !! i) as [t|]; [|done]. case_decide; destruct (fields t f); try done. symmetry. apply each_one.
  - repeat case_decide; subst; try done. symmetry. apply each_one.
  - set (x := Void (type_of b)). assert (X : size x = size (Void b)) by (unfold x; simpl; by rewrite size_type).
    rewrite <- (emitted_once _ k x s) by (by rewrite X). apply try_ext. intros s'. apply IH. apply calm_inner; [by rewrite X|]. rewrite X. simpl. lia.
  - cbn [size] in C. set (x := Or (type_of a) (type_of b)). assert (X : size x = Datatypes.S (size a + size b)) by (unfold x; simpl; by rewrite !size_type).
    assert (U : try_ (andthen (eval a i j (λ _, throw (Signal x))) (eval b i j (λ _, throw (Signal x)))) (Signal x) (k VUnit) s = each (unit_if (results a i j ++ results b i j)) k s).
    { rewrite <- (emitted_after _ k x s). apply try_ext. intros s'. rewrite each_app. apply andthen_ext; intros s1; [apply IHa|apply IHb]; apply calm_throw; lia. }
    assert (N : andthen (eval a i j (λ v, k (or_value (emitted a) (emitted b) (emitted a) v))) (eval b i j (λ v, k (or_value (emitted a) (emitted b) (emitted b) v))) s =
      each ((or_value (emitted a) (emitted b) (emitted a) <$> results a i j) ++ (or_value (emitted a) (emitted b) (emitted b) <$> results b i j)) k s).
    { rewrite each_app. apply andthen_ext; intros s1; rewrite each_fmap; [apply IHa|apply IHb]; intros v s2 s3 y E; apply C in E; lia. }
    case_decide as D; [destruct D as [E1 E2]; rewrite E1, E2; exact U|]. destruct (emitted a), (emitted b); try exact N. by destruct D.
  - cbn [size] in C. rewrite each_bind. assert (B : ∀ v s, eval b i j (λ w, k (cat (emitted a) (emitted b) v w)) s = each (w ← results b i j; [cat (emitted a) (emitted b) v w]) k s).
    { intros v s'. rewrite each_bind. rewrite (each_ext _ _ (λ w, k (cat (emitted a) (emitted b) v w))) by (intros; apply each_one).
      apply IHb. intros w s1 s2 y E. apply C in E. lia. }
    rewrite IHa; [by apply each_ext|]. intros v s1 s2 y. rewrite B. intros E. eapply calm_each in E; [|exact C]. lia.
  - cbn [size] in C. set (x := Seq d (type_of a) (type_of b)). assert (X : size x = Datatypes.S (size a + size b)) by (unfold x; simpl; by rewrite !size_type).
    assert (UL : ∀ (k' : value → M), (calm (size a + size b) k') → ∀ s, for_ (Datatypes.S j - i) i (λ m, eval a i m (λ _, eval b m j k')) s = each (m ← seq i (Datatypes.S j - i); _ ← results a i m; results b m j) k' s).
    { intros k' C' s'. rewrite <- each_for. apply for_ext. intros m s1. rewrite each_bind.
      assert (B : ∀ s, eval b m j k' s = each (results b m j) k' s) by (apply IHb; eapply calm_le; [|done]; lia).
      rewrite IHa; [by apply each_ext|]. intros v s2 s3 y. rewrite B. intros E. eapply calm_each in E; [|exact C']. lia. }
    assert (UR : for_ (Datatypes.S j - i) i (λ m, eval b m j (λ _, eval a i m k)) s = each (m ← seq i (Datatypes.S j - i); _ ← results b m j; results a i m) k s).
    { rewrite <- each_for. apply for_ext. intros m s1. rewrite each_bind.
      assert (B : ∀ s, eval a i m k s = each (results a i m) k s) by (apply IHa; eapply calm_le; [|done]; lia).
      rewrite IHb; [by apply each_ext|]. intros v s2 s3 y. rewrite B. intros E. eapply calm_each in E; [|exact C]. lia. }
    assert (NL : for_ (Datatypes.S j - i) i (λ m, eval a i m (λ v, eval b m j (λ w, k (cat (emitted a) (emitted b) v w)))) s =
      each (m ← seq i (Datatypes.S j - i); v ← results a i m; w ← results b m j; [cat (emitted a) (emitted b) v w]) k s).
    { rewrite <- each_for. apply for_ext. intros m s1. rewrite each_bind.
      assert (B : ∀ v s, eval b m j (λ w, k (cat (emitted a) (emitted b) v w)) s = each (w ← results b m j; [cat (emitted a) (emitted b) v w]) k s).
      { intros v s2. rewrite each_bind. rewrite (each_ext _ _ (λ w, k (cat (emitted a) (emitted b) v w))) by (intros; apply each_one).
        apply IHb. intros w s3 s4 y E. apply C in E. lia. }
      rewrite IHa; [by apply each_ext|]. intros v s2 s3 y. rewrite B. intros E. eapply calm_each in E; [|exact C]. lia. }
    assert (NR : for_ (Datatypes.S j - i) i (λ m, eval b m j (λ w, eval a i m (λ v, k (cat (emitted a) (emitted b) v w)))) s =
      each (m ← seq i (Datatypes.S j - i); w ← results b m j; v ← results a i m; [cat (emitted a) (emitted b) v w]) k s).
    { rewrite <- each_for. apply for_ext. intros m s1. rewrite each_bind.
      assert (B : ∀ w s, eval a i m (λ v, k (cat (emitted a) (emitted b) v w)) s = each (v ← results a i m; [cat (emitted a) (emitted b) v w]) k s).
      { intros w s2. rewrite each_bind. rewrite (each_ext _ _ (λ v, k (cat (emitted a) (emitted b) v w))) by (intros; apply each_one).
        apply IHa. intros v s3 s4 y E. apply C in E. lia. }
      rewrite IHb; [by apply each_ext|]. intros w s2 s3 y. rewrite B. intros E. eapply calm_each in E; [|exact C]. lia. }
    assert (UU : try_ (for_ (Datatypes.S j - i) i (λ m, eval a i m (λ _, eval b m j (λ _, andthen (k VUnit) (throw (Signal x)))))) (Signal x) ret s =
      each (unit_if (m ← seq i (Datatypes.S j - i); _ ← results a i m; results b m j)) k s).
    { rewrite <- (emitted_once _ k x s) by (by rewrite X). apply try_ext. intros s'. apply UL. apply calm_inner; [by rewrite X|]. rewrite X. lia. }
    specialize (UL k ltac:(eapply calm_le; [|done]; lia) s).
    destruct (emitted a) eqn:EA, (emitted b) eqn:EB;
      repeat (case_decide as D; [first [destruct D as [D1 D2]; first [discriminate D1|discriminate D2|idtac]|try discriminate D]|]);
      try (exfalso; tauto); try first [exact UU|exact UL|exact UR]; destruct d; first [exact NL|exact NR].
  - cbn [size] in C. rewrite each_fmap. apply IH. intros v s1 s2 y E. apply C in E. lia.
  - cbn [size] in C. rewrite each_filter. apply IH. intros v s1 s2 y. destruct (P p v); [|done]. intros E. apply C in E. lia.
Qed.
End Main.

(** Evaluating a schema calls the callback with each match, in order, until it throws; what it throws gets out, unless it is one of the signals inside. *)
Theorem C98_the_callback_gets_each_match {S : Type} F P query b i j (k : value → S → S * option exn) s :
  (∀ v s s' x, k v s ≠ (s', Some (Signal x))) → eval F P query b i j k s = each (results F P query b i j) k s.
Proof. intros C. apply eval_each. intros v s1 s2 x E. by apply C in E. Qed.
(** MatchQueryIntoVector gives all matches of the whole query, in order, and JustMatchQuery the first one. *)
Theorem C98_matching F P query b :
  match_into_vector F P query b = results F P query b 0 (length query) ∧
  just_match F P query b = head (results F P query b 0 (length query)).
Proof.
  split.
  - unfold match_into_vector. rewrite C98_the_callback_gets_each_match by done.
    assert (E : ∀ l s, each (S := list value) l (λ v s, (s ++ [v], None)) s = (s ++ l, None)).
    { induction l as [|v l IH]; intros s; simpl; [by rewrite app_nil_r|]. unfold andthen. rewrite IH, <- app_assoc. done. }
    by rewrite E.
  - unfold just_match. rewrite C98_the_callback_gets_each_match by done. by destruct (results F P query b 0 (length query)).
Qed.

Lemma unit_if_elem {A} (l : list A) v : v ∈ unit_if l ↔ v = VUnit ∧ ∃ x, x ∈ l.
Proof.
  destruct l as [|y l]; simpl; [split; [by intros ?%elem_of_nil|intros (_ & x & H); by apply elem_of_nil in H]|]. rewrite elem_of_list_singleton.
  split; [intros ->; split; [done|exists y; by left]|by intros [-> _]].
Qed.
Lemma splits_elem i j m : m ∈ seq i (S j - i) ↔ i ≤ m ≤ j.
Proof. rewrite elem_of_list_In, in_seq. lia. Qed.
(** The matches are those the grammar gives. *)
Theorem C98_what_matches F P query b : ∀ i j v, v ∈ results F P query b i j ↔ matches F P query b i j v.
Proof.
  induction b as [w|f| |b IH|a IHa b IHb|a IHa b IHb|d a IHa b IHb|t f b IH|p b IH]; intros i j v; cbn [results].
  - split.
    + destruct (query !! i) as [t|] eqn:Q; [|by intros ?%elem_of_nil]. case_decide as D; [|by intros ?%elem_of_nil]. destruct D as [-> <-]. intros ->%elem_of_list_singleton. by constructor.
    + intros H. inversion H; subst. match goal with K : _ = Some _ |- _ => rewrite K end. rewrite decide_True by done. by left.
  - split.
    + destruct (query !! i) as [t|] eqn:Q; [|by intros ?%elem_of_nil]. case_decide as D; [|by intros ?%elem_of_nil]. subst. intros K. destruct (fields t f) eqn:E; simpl in K; [|by apply elem_of_nil in K].
      apply elem_of_list_singleton in K as ->. by econstructor.
    + intros H. inversion H; subst. match goal with K : query !! _ = Some _ |- _ => rewrite K end. rewrite decide_True by done. match goal with K : fields _ _ = Some _ |- _ => rewrite K end. by left.
  - split.
    + case_decide as D; [|by intros ?%elem_of_nil]. subst. intros ->%elem_of_list_singleton. constructor.
    + intros H. inversion H; subst. rewrite decide_True by done. by left.
  - rewrite unit_if_elem. setoid_rewrite IH. split; [intros (-> & x & H); by econstructor|]. intros H. inversion H; subst. eauto.
  - case_decide as D.
    + rewrite unit_if_elem. setoid_rewrite elem_of_app. setoid_rewrite IHa. setoid_rewrite IHb. destruct D as [D1 D2]. split.
      * intros (-> & x & [H|H]); [by eapply matches_or_unit_left|by eapply matches_or_unit_right].
      * intros H. inversion H; subst; try tauto; split; eauto.
    + rewrite elem_of_app, !elem_of_list_fmap. setoid_rewrite IHa. setoid_rewrite IHb. split.
      * intros [(x & -> & H)|(x & -> & H)]; [by apply matches_or_left|by apply matches_or_right].
      * intros H. inversion H; subst; try (destruct D; done); eauto.
  - setoid_rewrite elem_of_list_bind. setoid_rewrite elem_of_list_bind. setoid_rewrite elem_of_list_singleton. setoid_rewrite IHa. setoid_rewrite IHb. split.
    + intros (x & (y & -> & H) & H'). by constructor.
    + intros H. inversion H; subst. eauto 10.
  - assert (B : ∀ (f : nat → list value) x, x ∈ (m ← seq i (S j - i); f m) ↔ ∃ m, i ≤ m ≤ j ∧ x ∈ f m).
    { intros f x. rewrite elem_of_list_bind. setoid_rewrite splits_elem. naive_solver. }
    repeat case_decide.
    + rewrite unit_if_elem. setoid_rewrite B. setoid_rewrite elem_of_list_bind. setoid_rewrite IHa. setoid_rewrite IHb. split.
      * destruct H as [H' H'']. intros (-> & x & m & L & y & HA & HB). by eapply matches_seq_units.
      * intros M. inversion M; subst; try (destruct H; congruence); try congruence. eauto 10.
    + rewrite B. setoid_rewrite elem_of_list_bind. setoid_rewrite IHa. setoid_rewrite IHb. split.
      * intros (m & L & x & HA & HB). eapply matches_seq_unit_left; try done. intros K. tauto.
      * intros M. inversion M; subst; try congruence; try tauto. eauto 10.
    + rewrite B. setoid_rewrite elem_of_list_bind. setoid_rewrite IHa. setoid_rewrite IHb. split.
      * intros (m & L & x & HA & HB). by eapply matches_seq_unit_right.
      * intros M. inversion M; subst; try congruence. eauto 10.
    + destruct d; rewrite B; setoid_rewrite elem_of_list_bind; setoid_rewrite elem_of_list_bind; setoid_rewrite elem_of_list_singleton; setoid_rewrite IHa; setoid_rewrite IHb; split.
      * intros (m & L & x & (y & -> & HA) & HB). by eapply matches_seq.
      * intros M. inversion M; subst; try congruence. eauto 10.
      * intros (m & L & x & (y & -> & HA) & HB). by eapply matches_seq.
      * intros M. inversion M; subst; try congruence. eauto 10.
  - rewrite elem_of_list_fmap. setoid_rewrite IH. split; [intros (x & -> & H); by constructor|]. intros H. inversion H; subst. eauto.
  - rewrite elem_of_list_filter, IH. split; [intros [? ?]; constructor; [done|]; by destruct (P p v)|]. intros H. inversion H; subst. split; [|done]. match goal with K : _ = true |- _ => by rewrite K end.
Qed.
