(** * Properties of chunks and of the database of chunks *)
From stdpp Require Import gmap list.
From Verif Require Import Chunk_Model Chunk_Spec.

(** ** memcmp, and the order of strings *)
Lemma string_of_read m c : string_of m c = read m (S_ c) (N_ c).
Proof. unfold string_of, read. replace (seq (S_ c) (N_ c)) with (seq (S_ c + 0) (N_ c)) by (f_equal; lia). rewrite <- fmap_add_seq, <- list_fmap_compose. done. Qed.
Lemma read_length m s n : length (read m s n) = n.
Proof. unfold read. by rewrite fmap_length, seq_length. Qed.
Lemma read_app m s n k : read m s (n + k) = read m s n ++ read m (s + n) k.
Proof. unfold read. by rewrite seq_app, fmap_app. Qed.
Lemma read_S m s n : read m s (S n) = m s :: read m (S s) n. Proof. done. Qed.
Lemma memcmp_0 m n : ∀ a b, memcmp m a b n = 0%Z ↔ read m a n = read m b n.
Proof.
  induction n as [|n IH]; intros a b; [done|]. simpl memcmp. rewrite !read_S. case_decide as E.
  - rewrite IH. split; [by intros ->; rewrite E|congruence].
  - split; [lia|congruence].
Qed.
Lemma memcmp_sign m n : ∀ a b, (memcmp m a b n < 0 ↔ before (read m a n) (read m b n))%Z ∧ (0 < memcmp m a b n ↔ before (read m b n) (read m a n))%Z.
Proof.
  induction n as [|n IH]; intros a b.
  - split; (split; [simpl; lia|intros H; inversion H]).
  - simpl memcmp. rewrite !read_S. case_decide as E.
    + destruct (IH (S a) (S b)) as [L R]. rewrite L, R, E. split; (split; [apply before_later|]); intros H; inversion H; subst; try lia; done.
    + split; (split; [intros ?; apply before_here; lia|]); intros H; inversion H; subst; try lia; done.
Qed.
Lemma before_app l l' k k' : length l = length l' → before (l ++ k) (l' ++ k') ↔ before l l' ∨ l = l' ∧ before k k'.
Proof.
  revert l'. induction l as [|x l IH]; intros [|y l'] E; try done; simpl.
  - split; [auto|]. intros [H|[_ H]]; [inversion H|done].
  - injection E as E. split.
    + intros H. inversion H; subst; [left; by apply before_here|]. apply IH in H1 as [?|[-> ?]]; [left; by apply before_later|auto|done].
    + intros [H|[[= -> ->] H]]; [|apply before_later, IH; auto]. inversion H; subst; [by apply before_here|apply before_later, IH; auto].
Qed.
Lemma compare_read m l r : let n := min (N_ l) (N_ r) in
  string_of m l = read m (S_ l) n ++ read m (S_ l + n) (N_ l - n) ∧ string_of m r = read m (S_ r) n ++ read m (S_ r + n) (N_ r - n).
Proof. intros n. rewrite !string_of_read, <- !read_app. split; f_equal; lia. Qed.

(** LexicographicalCompare is the order of the strings. *)
Theorem C97_comparison m l r :
  ((compare m l r < 0)%Z ↔ before (string_of m l) (string_of m r)) ∧
  (compare m l r = 0%Z ↔ string_of m l = string_of m r) ∧
  ((compare m l r > 0)%Z ↔ before (string_of m r) (string_of m l)).
Proof.
  set (n := min (N_ l) (N_ r)). destruct (compare_read m l r) as [EL ER]. fold n in EL, ER. rewrite EL, ER.
  assert (LN : length (read m (S_ l) n) = length (read m (S_ r) n)) by by rewrite !read_length.
  rewrite !before_app by done. pose proof (memcmp_0 m n (S_ l) (S_ r)) as Z0. destruct (memcmp_sign m n (S_ l) (S_ r)) as [SL SR].
  assert (AE : read m (S_ l) n ++ read m (S_ l + n) (N_ l - n) = read m (S_ r) n ++ read m (S_ r + n) (N_ r - n) ↔ read m (S_ l) n = read m (S_ r) n ∧ N_ l = N_ r).
  { split.
    - intros E. split; [by apply app_inj_1 in E as [? _]|]. apply (f_equal length) in E. rewrite !app_length, !read_length in E. lia.
    - intros [-> E]. rewrite E. replace (N_ r - n) with 0 by lia. done. }
  rewrite AE. clear AE EL ER. rewrite <- SL, <- SR, <- (memcmp_0 m n (S_ l)), <- (memcmp_0 m n (S_ r)).
  assert (SW : memcmp m (S_ r) (S_ l) n = 0%Z ↔ memcmp m (S_ l) (S_ r) n = 0%Z) by (rewrite !memcmp_0; naive_solver). rewrite SW.
  assert (BL : before (read m (S_ l + n) (N_ l - n)) (read m (S_ r + n) (N_ r - n)) ↔ N_ l < N_ r).
  { destruct (decide (N_ l < N_ r)) as [L|L].
    - replace (N_ l - n) with 0 by lia. replace (N_ r - n) with (S (N_ r - n - 1)) by lia. split; [done|]. intros _. constructor.
    - replace (N_ r - n) with 0 by lia. split; [|done]. intros H. inversion H. }
  assert (BR : before (read m (S_ r + n) (N_ r - n)) (read m (S_ l + n) (N_ l - n)) ↔ N_ r < N_ l).
  { destruct (decide (N_ r < N_ l)) as [L|L].
    - replace (N_ r - n) with 0 by lia. replace (N_ l - n) with (S (N_ l - n - 1)) by lia. split; [done|]. intros _. constructor.
    - replace (N_ l - n) with 0 by lia. split; [|done]. intros H. inversion H. }
  rewrite BL, BR. unfold compare. fold n. repeat case_decide; lia.
Qed.
(** ... which is a strict total order. *)
Theorem C97_the_order_is_total :
  (∀ s, ¬ before s s) ∧ (∀ s t u, before s t → before t u → before s u) ∧ (∀ s t, before s t ∨ s = t ∨ before t s).
Proof.
  split_and!.
  - intros s. induction s as [|x s IH]; intros H; inversion H; subst; [lia|done].
  - intros s t u H. revert u. induction H as [x l|x y l l' L|x l l' H IH]; intros u K; inversion K; subst.
    + constructor.
    + constructor.
    + apply before_here. lia.
    + by apply before_here.
    + by apply before_here.
    + apply before_later. auto.
  - intros s. induction s as [|x s IH]; intros [|y t]; [auto|left; constructor|right; right; constructor|].
    destruct (lt_eq_lt_dec x y) as [[L|<-]|L]; [left; by apply before_here| |right; right; by apply before_here].
    destruct (IH t) as [H|[<-|H]]; [left; by apply before_later|auto|right; right; by apply before_later].
Qed.
Lemma has_prefix_spec m c p : has_prefix m c p = true ↔ N_ p <= N_ c ∧ read m (S_ c) (N_ p) = read m (S_ p) (N_ p).
Proof. unfold has_prefix. rewrite andb_true_iff, !bool_decide_eq_true, memcmp_0. done. Qed.
(** HasPrefix, ExpungePrefix, and comparison with an std::string *)
Theorem C97_prefixes m c p :
  (has_prefix m c p = true ↔ ∃ rest, string_of m c = string_of m p ++ rest) ∧
  (∀ r, expunge_prefix m c p = Some r → string_of m c = string_of m p ++ string_of m r) ∧
  (expunge_prefix m c p = None ↔ ¬ ∃ rest, string_of m c = string_of m p ++ rest) ∧
  ∀ s n, is_string m c s n = true ↔ string_of m c = read m s n.
Proof.
  assert (SP : N_ p <= N_ c → string_of m c = read m (S_ c) (N_ p) ++ read m (S_ c + N_ p) (N_ c - N_ p)).
  { intros L. rewrite string_of_read, <- read_app. f_equal. lia. }
  assert (HP : has_prefix m c p = true ↔ ∃ rest, string_of m c = string_of m p ++ rest).
  { rewrite has_prefix_spec. split.
    - intros [L E]. rewrite (SP L), E, (string_of_read m p). eauto.
    - intros [rest E]. assert (L : N_ p <= N_ c). { apply (f_equal length) in E. rewrite app_length, !string_of_read, !read_length in E. lia. }
      split; [done|]. rewrite (SP L), (string_of_read m p) in E. apply app_inj_1 in E as [E _]; [done|]. by rewrite !read_length. }
  split_and!.
  - done.
  - unfold expunge_prefix. intros r H. destruct (has_prefix m c p) eqn:E; [|done]. injection H as <-. apply has_prefix_spec in E as [L E].
    rewrite (SP L), E, (string_of_read m p), string_of_read. done.
  - unfold expunge_prefix. rewrite <- HP. by destruct (has_prefix m c p).
  - intros s n. unfold is_string. rewrite andb_true_iff, !bool_decide_eq_true, memcmp_0, string_of_read. split; [by intros [<- ->]|].
    intros E. assert (N_ c = n) as <-; [|done]. apply (f_equal length) in E. by rewrite !read_length in E.
Qed.
Lemma without_spec p : ∀ l t, without p l = Some t ↔ l = p ++ t.
Proof.
  induction p as [|x p IH]; intros l t; simpl; [naive_solver|]. destruct l as [|y l]; [naive_solver|]. case_decide as E; [rewrite IH; naive_solver|naive_solver].
Qed.

(** ** The database *)
Record inv (m : memory) (s : state) (t : strings) : Prop := Inv {
  i_text v : string_of m (var s v) = the t v;
  i_keys k v : (k, v) ∈ map_ s → k = var s v ∧ v ∈ given t;
  i_distinct : NoDup (string_of m ∘ fst <$> map_ s);
  i_stored l : l ∈ stored t ↔ ∃ k v, (k, v) ∈ map_ s ∧ string_of m k = l;
  i_unique v : v ∈ unique t → ∃ w, (var s v, w) ∈ map_ s }.
Lemma lookup_some m c l w : lookup_ m c l = Some w → ∃ k, (k, w) ∈ l ∧ string_of m k = string_of m c.
Proof.
  induction l as [|[k v] l IH]; simpl; [done|]. case_decide as E.
  - intros [= ->]. exists k. split; [by left|]. by apply C97_comparison.
  - intros H. destruct (IH H) as (k' & ? & ?). exists k'. split; [by right|done].
Qed.
Lemma lookup_none m c l : lookup_ m c l = None ↔ ∀ k v, (k, v) ∈ l → string_of m k ≠ string_of m c.
Proof.
  induction l as [|[k v] l IH]; simpl; [split; [intros _ k v H; by apply elem_of_nil in H|done]|]. case_decide as E.
  - split; [done|]. intros H. destruct (H k v); [by left|]. by apply C97_comparison.
  - rewrite IH. split.
    + intros H k' v' [[= -> ->]|K]%elem_of_cons; [|by eapply H]. intros X. apply E. by apply C97_comparison.
    + intros H k' v' K. eapply H. by right.
Qed.
Lemma var_insert s v c w : var (State (<[v := c]> (vars s)) (map_ s)) w = if decide (v = w) then c else var s w.
Proof. unfold var. simpl. case_decide as E; [subst; by rewrite lookup_insert|by rewrite lookup_insert_ne]. Qed.
Lemma the_insert (t : gmap nat (list nat)) st un gi v x w : the (Strings (<[v := x]> t) st un gi) w = if decide (v = w) then x else default [] (t !! w).
Proof. unfold the. simpl. case_decide as E; [subst; by rewrite lookup_insert|by rewrite lookup_insert_ne]. Qed.
Lemma inv_write m s t v c x : inv m s t → (∀ k, (k, v) ∈ map_ s → c = k) → string_of m c = x → inv m (State (<[v := c]> (vars s)) (map_ s)) (write v x t).
Proof.
  intros [] K E. split; simpl; try done.
  - intros w. unfold write. rewrite var_insert, the_insert. case_decide; [done|]. apply i_text0.
  - intros k w H. rewrite var_insert. destruct (i_keys0 k w H) as (X & G). split; [|done]. case_decide as D; [subst; by apply K in H as <-|done].
  - intros w [W U]%elem_of_list_filter. rewrite var_insert, decide_False by done. by apply i_unique0.
Qed.
Lemma inv_write_unique m s t v c x w : inv m s t → (∀ k, (k, v) ∈ map_ s → c = k) → string_of m c = x → (c, w) ∈ map_ s →
  inv m (State (<[v := c]> (vars s)) (map_ s)) (write_unique v x t).
Proof.
  intros I K E H. destruct (inv_write m s t v c x I K E) as [a1 a2 a3 a4 _]. split; try done.
  intros u U. rewrite var_insert. case_decide as D; [subst; by exists w|]. apply elem_of_cons in U as [->|U]; [done|]. by apply (i_unique m s t I).
Qed.
Lemma inv_insert m s t v : inv m s t → lookup_ m (var s v) (map_ s) = None →
  inv m (State (vars s) ((var s v, v) :: map_ s)) (Strings (text t) (the t v :: stored t) (unique t) (v :: given t)).
Proof.
  intros [] N. rewrite lookup_none in N. split; simpl; try done.
  - intros k w [[= -> ->]|H]%elem_of_cons; [split; [done|by left]|]. destruct (i_keys0 k w H) as (-> & G). split; [done|by right].
  - apply NoDup_cons. split; [|done]. intros (y & E & H)%elem_of_list_fmap. destruct y as [k w]. apply (N k w H). done.
  - intros l. rewrite elem_of_cons, i_stored0. split.
    + intros [->|(k & w & H & E)]; [exists (var s v), v; split; [by left|apply i_text0]|exists k, w; split; [by right|done]].
    + intros (k & w & [[= -> ->]|H]%elem_of_cons & <-); [left; apply i_text0|right; eauto].
  - intros u U. destruct (i_unique0 u U) as (w & H). exists w. by right.
Qed.
Lemma inv_again m s t v : inv m s t → the t v ∈ stored t → inv m s (Strings (text t) (the t v :: stored t) (unique t) (v :: given t)).
Proof.
  intros [] D. split; simpl; try done.
  - intros k w H. destruct (i_keys0 k w H). split; [done|by right].
  - intros l. rewrite elem_of_cons, <- i_stored0. naive_solver.
Qed.
Lemma distinct_keys m s t k k' w w' : inv m s t → (k, w) ∈ map_ s → (k', w') ∈ map_ s → string_of m k = string_of m k' → k = k' ∧ w = w'.
Proof.
  intros I H H' E. pose proof (i_distinct m s t I) as ND. apply elem_of_list_lookup in H as (i & H), H' as (j & H').
  assert (i = j) as <-; [|naive_solver]. eapply NoDup_lookup; [exact ND| |]; rewrite list_lookup_fmap; [rewrite H|rewrite H']; simpl; by rewrite ?E.
Qed.
Lemma lookup_stored m s t v : inv m s t → (is_Some (lookup_ m (var s v) (map_ s)) ↔ the t v ∈ stored t).
Proof.
  intros I. rewrite (i_stored m s t I). split.
  - intros (w & L). destruct (lookup_some _ _ _ _ L) as (k & H & E). exists k, w. split; [done|]. by rewrite E, (i_text m s t I).
  - intros (k & w & K & E). destruct (lookup_ m (var s v) (map_ s)) as [w'|] eqn:L; [eauto|]. rewrite lookup_none in L. exfalso. eapply L; [exact K|]. by rewrite E, (i_text m s t I).
Qed.
Lemma step_inv m o s t : inv m s t → careful_op o t → let '(s', b) := step m o s in let '(t', b') := does m o t in b = b' ∧ inv m s' t'.
Proof.
  intros I C. pose proof (i_keys m s t I) as KEYS. pose proof (i_text m s t I) as TEXT.
  assert (free : ∀ v c, v ∉ given t → ∀ k, (k, v) ∈ map_ s → c = k) by (intros v c N k H; destruct (KEYS k v H); done).
  destruct o as [v a n|v w|v p r|v u|v u]; simpl in *.
  - split; [done|]. apply inv_write; [done|by apply free|apply string_of_read].
  - case_decide as U; (split; [done|]).
    + destruct (i_unique m s t I w U) as (x & X). eapply inv_write_unique; [done|by apply free|by rewrite TEXT|exact X].
    + apply inv_write; [done|by apply free|by rewrite TEXT].
  - destruct (C97_prefixes m (var s v) (var s p)) as (_ & HS & HN & _). rewrite <- (TEXT p), <- (TEXT v). destruct (expunge_prefix m (var s v) (var s p)) as [c|] eqn:X.
    + rewrite (HS c eq_refl). destruct (without_spec (string_of m (var s p)) (string_of m (var s p) ++ string_of m c) (string_of m c)) as [_ ->]; [|done].
      split; [done|]. apply inv_write; [done|by apply free|done].
    + destruct (without _ _) as [q|] eqn:W; [|done]. apply without_spec in W. destruct HN as [HN _]. destruct HN; [done|]. eauto.
  - pose proof (lookup_stored m s t v I) as LS. destruct (lookup_ m (var s v) (map_ s)) as [w|] eqn:L; (split; [done|]).
    + apply (lookup_some m) in L as (k & H & E). destruct (KEYS k w H) as (-> & G). eapply (inv_write_unique _ _ _ _ _ _ w); [apply inv_again; [done|by apply LS]| |by rewrite E, TEXT|done].
      intros k K. destruct C as [C| ->]; [by eapply free|].
      destruct (KEYS k v K) as (-> & _). destruct (distinct_keys m s t _ _ _ _ I H K E) as (? & _). done.
    + apply (inv_write_unique _ (State (vars s) ((var s v, v) :: map_ s)) _ u (var s v) (the t v) v); [by apply inv_insert| |apply TEXT|by left].
      intros k [[= -> ->]|K]%elem_of_cons; [done|]. destruct C as [C| ->]; [by eapply free|]. by destruct (KEYS k v K) as (-> & _).
  - pose proof (lookup_stored m s t v I) as LS. destruct (lookup_ m (var s v) (map_ s)) as [w|] eqn:L.
    + rewrite decide_True by (apply LS; eauto). split; [done|]. apply (lookup_some m) in L as (k & H & E). destruct (KEYS k w H) as (-> & G).
      eapply (inv_write_unique _ _ _ _ _ _ w); [done| |by rewrite E, TEXT|done].
      intros k K. destruct C as [C| ->]; [by eapply free|]. destruct (KEYS k v K) as (-> & _). destruct (distinct_keys m s t _ _ _ _ I H K E) as (? & _). done.
    + rewrite decide_False; [done|]. intros D. apply LS in D. by destruct D.
Qed.
Lemma run_inv m p : ∀ s t, inv m s t → careful m p t → let '(s', bs) := run m p s in let '(t', bs') := does_all m p t in bs = bs' ∧ inv m s' t'.
Proof.
  induction p as [|o p IH]; intros s t I C; cbn [run does_all careful] in *; [done|]. destruct C as [C CS]. pose proof (step_inv m o s t I C) as K.
  destruct (step m o s) as [s' b], (does m o t) as [t' b']. destruct K as (<- & I'). cbn [fst] in CS. specialize (IH s' t' I' CS).
  destruct (run m p s') as [s'' bs], (does_all m p t') as [t'' bs']. destruct IH as (<- & ?). done.
Qed.
Lemma inv_init m : inv m init none.
Proof.
  split; simpl; try done; try (intros; exfalso; by eapply elem_of_nil).
  - constructor.
  - intros l. split; [by intros ?%elem_of_nil|]. intros (k & v & H & _). by apply elem_of_nil in H.
Qed.

(** What each object stands for, what ExpungePrefix and Find return, is as it should be. *)
Theorem C97_objects_stand_for_their_strings m p : careful m p none →
  (run m p init).2 = (does_all m p none).2 ∧ ∀ v, string_of m (var (run m p init).1 v) = the (does_all m p none).1 v.
Proof.
  intros C. pose proof (run_inv m p init none (inv_init m) C) as K. destruct (run m p init) as [s bs], (does_all m p none) as [t bs']. destruct K as (<- & I). split; [done|]. apply I.
Qed.
(** Equal strings from the database are equal UniqueChunks. Equal UniqueChunks are equal strings if they are of one length; if not, one is a prefix of the other. *)
Theorem C97_unique_chunks m p v w : careful m p none → v ∈ unique (does_all m p none).1 → w ∈ unique (does_all m p none).1 →
  let s := (run m p init).1 in let t := (does_all m p none).1 in
  (the t v = the t w → unique_eq (var s v) (var s w) = true ∧ N_ (var s v) = N_ (var s w)) ∧
  (unique_eq (var s v) (var s w) = true → length (the t v) = length (the t w) → the t v = the t w) ∧
  (unique_eq (var s v) (var s w) = true → the t v `prefix_of` the t w ∨ the t w `prefix_of` the t v).
Proof.
  intros C. pose proof (run_inv m p init none (inv_init m) C) as K. destruct (run m p init) as [s bs], (does_all m p none) as [t bs']. destruct K as (_ & I). simpl. intros V W.
  unfold unique_eq. rewrite !bool_decide_eq_true, <- !(i_text m s t I). split_and!.
  - intros E. destruct (i_unique m s t I v V) as (x & X), (i_unique m s t I w W) as (y & Y). by destruct (distinct_keys m s t _ _ _ _ I X Y E) as (-> & _).
  - intros E. rewrite !string_of_read, !read_length, E. by intros ->.
  - intros E. rewrite !string_of_read, E. destruct (decide (N_ (var s v) <= N_ (var s w))) as [L|L]; [left|right].
    + replace (N_ (var s w)) with (N_ (var s v) + (N_ (var s w) - N_ (var s v))) by lia. rewrite read_app. by apply prefix_app_r.
    + replace (N_ (var s v)) with (N_ (var s w) + (N_ (var s v) - N_ (var s w))) by lia. rewrite read_app. by apply prefix_app_r.
Qed.
(** The order of UniqueChunks is strict and, if no two of the chunks that are of different strings begin at the same address, total. *)
Theorem C97_unique_chunks_are_ordered m p : careful m p none →
  let s := (run m p init).1 in let t := (does_all m p none).1 in
  (∀ a, unique_lt a a = false) ∧ (∀ a b c, unique_lt a b = true → unique_lt b c = true → unique_lt a c = true) ∧
  ((∀ v w, S_ (var s v) = S_ (var s w) → N_ (var s v) = N_ (var s w)) → ∀ v w, v ∈ unique t → w ∈ unique t →
    the t v = the t w ∨ unique_lt (var s v) (var s w) = true ∨ unique_lt (var s w) (var s v) = true).
Proof.
  intros C s t. unfold unique_lt. split_and!.
  - intros a. apply bool_decide_eq_false. lia.
  - intros a b c. rewrite !bool_decide_eq_true. lia.
  - intros L v w V W. destruct (C97_unique_chunks m p v w C V W) as (_ & E & _). fold s t in E. unfold unique_eq in E. rewrite !bool_decide_eq_true in *.
    destruct (lt_eq_lt_dec (S_ (var s v)) (S_ (var s w))) as [[?|X]|?]; [auto| |auto]. left. apply E; [done|].
    destruct (C97_objects_stand_for_their_strings m p C) as (_ & T). fold s t in T. rewrite <- !T, !string_of_read, !read_length. by apply L.
Qed.

(** UniqueChunks of one database that point to the same address are equal, whatever their lengths (chunk.h 198-206): the database keeps two chunks that begin at
    the same address, a prefix and the whole, apart, but the UniqueChunks it gives for them are equal. (The comment in 179-181 says the opposite.) With the
    contents [a\0b] and lengths 1 and 3, even the assertion that a NUL follows (75, 98) holds. *)
Theorem C97_equal_unique_chunks_are_equal_strings_refuted :
  ¬ (∀ m p v w, careful m p none → v ∈ unique (does_all m p none).1 → w ∈ unique (does_all m p none).1 →
    unique_eq (var (run m p init).1 v) (var (run m p init).1 w) = true → the (does_all m p none).1 v = the (does_all m p none).1 w).
Proof.
  intros H. set (m := λ a : nat, match a with 1 => 97 | 3 => 98 | _ => 0 end). set (p := [Assign 0 1 1; Assign 1 1 3; Intern 0 2; Intern 1 3]).
  assert (E : [97] = [97; 0; 98]); [|done]. apply (H m p 2 3).
  - simpl. split; [apply not_elem_of_nil|]. split; [apply not_elem_of_nil|]. split; [left; apply not_elem_of_nil|]. split; [|done]. left. by intros ?%elem_of_list_singleton.
  - vm_compute. right. left.
  - vm_compute. left.
  - reflexivity.
Qed.
(** The database keeps a pointer to the Chunk object it was given, not a copy (chunk.h 222-224): when that object is assigned another string, the database gives
    that for the first one: [a] is found, and is [b]. *)
Theorem C97_the_database_keeps_the_strings_refuted :
  ¬ (∀ m p v, v ∈ unique (does_all m p none).1 → string_of m (var (run m p init).1 v) = the (does_all m p none).1 v).
Proof.
  intros H. set (m := λ a : nat, match a with 1 => 97 | 3 => 98 | _ => 0 end). set (p := [Assign 0 1 1; Intern 0 1; Assign 0 3 1; Assign 1 1 1; Find 1 2]).
  assert (E : [98] = [97]); [|done]. apply (H m p 2). vm_compute. left.
Qed.

(** [foo\0foobar\0foo\0]: three chunks, two of the same string; the rest of [foobar] after [foo]; all of it in the database; [bar] and [baz] looked for. *)
Definition ex_memory : memory := λ a, nth a ([0] ++ [102;111;111;0] ++ [102;111;111;98;97;114;0] ++ [102;111;111;0] ++ [98;97;122;0]) 0.
Definition ex_ops : list op :=
  [Assign 0 1 3; Assign 1 5 6; Assign 2 12 3; Intern 0 10; Intern 1 11; Intern 2 12; Expunge 1 2 3; Find 3 13; Intern 3 3; Find 3 13; Assign 4 16 3; Find 4 14; Copy 15 12; Expunge 0 1 16].
Local Instance careful_op_dec o t : Decision (careful_op o t). Proof. destruct o; simpl; apply _. Defined.
Local Instance careful_dec m : ∀ p t, Decision (careful m p t).
Proof. induction p as [|o p IH]; intros t; simpl; [left; exact I|]. destruct (careful_op_dec o t); [|right; tauto]. destruct (IH (does m o t).1); [left; tauto|right; tauto]. Defined.
Example ex_careful : careful ex_memory ex_ops none ∧
  (run ex_memory ex_ops init).2 = [true; true; true; true; true; true; true; false; true; true; true; false; true; false] ∧
  unique (does_all ex_memory ex_ops none).1 = [15; 13; 3; 12; 11; 10] ∧
  (string_of ex_memory ∘ var (run ex_memory ex_ops init).1) <$> [10; 11; 12; 13; 14; 15] = [[102;111;111]; [102;111;111;98;97;114]; [102;111;111]; [98;97;114]; []; [102;111;111]] ∧
  (let s := (run ex_memory ex_ops init).1 in unique_eq (var s 10) (var s 12) = true ∧ unique_eq (var s 10) (var s 11) = false ∧ unique_eq (var s 3) (var s 13) = true).
Proof.
  split; [apply (bool_decide_unpack _); vm_compute; exact I|]. vm_compute. repeat split; reflexivity.
Qed.
Example ex_order : before [102;111;111] [102;111;111;98] ∧ before [102;97] [102;111] ∧ compare ex_memory (Chunk 1 3) (Chunk 5 4) = (-1)%Z.
Proof. split_and!; [do 3 apply before_later; constructor|apply before_later, before_here; lia|reflexivity]. Qed.

Print Assumptions C97_comparison.
Print Assumptions C97_the_order_is_total.
Print Assumptions C97_prefixes.
Print Assumptions C97_objects_stand_for_their_strings.
Print Assumptions C97_unique_chunks.
Print Assumptions C97_unique_chunks_are_ordered.
Print Assumptions C97_equal_unique_chunks_are_equal_strings_refuted.
Print Assumptions C97_the_database_keeps_the_strings_refuted.
