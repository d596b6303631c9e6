(** Properties C46, C47 and C62: HTTP headers and cookies. *)
From stdpp Require Import list gmap strings.
From Coq Require Import ZArith Lia.
From Verif Require Import Headers_Model Headers_Spec Headers_Proofs.
From Verif Require Base Strings_Model Strings_Props.

(** C46. The comparator of the header map is a strict weak ordering (which [std::map]
    needs to work at all), and the keys it identifies are those that differ only in case and [-]/[_]. *)
Theorem C46_comparator_is_strict_weak_order :
  (∀ a, key_less a a = false) ∧
  (∀ a b c, key_less a b = true → key_less b c = true → key_less a c = true) ∧
  (∀ a b, key_less a b = false ∧ key_less b a = false ↔ same_name a b).
Proof.
  split_and!.
  - intros a. rewrite key_less_lex. apply lexlt_irrefl.
  - intros a b c. rewrite !key_less_lex. apply lexlt_trans.
  - intros a b. rewrite <-key_equiv_spec. unfold key_equiv. rewrite andb_true_iff, !negb_true_iff. done.
Qed.

(** ** Sequences of calls.  A call that throws (on a cookie name) changes nothing. *)
Inductive op := OSet (n v : list N) | OAssign (n v : list N) | ORemove (n : list N).
Definition op_name (o : op) : list N := match o with OSet n _ | OAssign n _ | ORemove n => n end.
Definition call (o : op) (st : heap * headers) : result (heap * headers) :=
  match o with
  | OSet n v => set n v st.1 st.2
  | OAssign n v => assign n v st.1 st.2
  | ORemove n => remove n st.1 st.2
  end.
Definition do_op (st : heap * headers) (o : op) : heap * headers :=
  match call o st with Returns st' => st' | _ => st end.
Definition spec_op (l : spec_headers) (o : op) : spec_headers :=
  if is_cookie_header (op_name o) then l else
  match o with
  | OSet n v => spec_set n v l
  | OAssign n v => spec_assign n v l
  | ORemove n => spec_remove n l
  end.
Definition start : heap * headers := (Heap ∅ 0, no_headers).

Definition well_spelled (l : spec_headers) (o : op) : Prop :=
  match o with ORemove n => ∀ s, s ∈ l → same_name s.1 n → s.1 = n | _ => True end.

Lemma do_op_repr h x l o : repr h x l →
  let st := do_op (h, x) o in
  repr st.1 st.2 (spec_op l o) ∧ safe h x st.1 st.2 ∧ (listed x → well_spelled l o → listed st.2).
Proof.
  intros R. unfold do_op, spec_op. destruct o as [n v|n v|n]; simpl.
  - destruct (is_cookie_header n) eqn:E.
    + unfold set. rewrite E. simpl. by split_and!.
    + destruct (set_repr h x l n v R E) as (h' & x' & -> & R' & S' & L'). simpl. by split_and!; auto.
  - destruct (is_cookie_header n) eqn:E.
    + unfold assign. rewrite E. simpl. by split_and!.
    + destruct (assign_repr h x l n v R E) as (h' & x' & -> & R' & S' & L'). simpl. by split_and!; auto.
  - destruct (is_cookie_header n) eqn:E.
    + unfold remove. rewrite E. simpl. by split_and!.
    + destruct (remove_repr h x l n R E) as (h' & x' & -> & R' & S' & L'). simpl. by split_and!; auto.
Qed.

Lemma start_repr : repr start.1 start.2 [].
Proof. constructor; simpl; try done. Qed.

Lemma run_repr ops h x l : repr h x l →
  let st := foldl do_op (h, x) ops in repr st.1 st.2 (foldl spec_op l ops) ∧ safe h x st.1 st.2.
Proof.
  revert h x l. induction ops as [|o ops IH]; intros h x l R; [by split|].
  cbn [foldl]. destruct (do_op_repr h x l o R) as (R1 & S1 & _).
  destruct (do_op (h, x) o) as [h1 x1]. simpl in R1, S1. destruct (IH h1 x1 _ R1) as [R2 S2]. split; [done|].
  intros y l' Ha Ry. destruct (S1 y l' Ha Ry). by apply S2.
Qed.

(** C46. After any sequence of calls, Has, Get and operator[] find under any spelling
    of a name what the calls with any spelling of that name left there; the name
    reported is the first spelling. *)
Theorem C46_lookup ops n : let st := foldl do_op start ops in let l := foldl spec_op [] ops in
  is_cookie_header n = false →
  has n st.2 = Returns (bool_decide (is_Some (spec_get n l))) ∧
  get n st.1 st.2 = match spec_get n l with
                    | Some s => Returns (Header s.1 s.2)
                    | None => Throws (HeaderNotFound n)
                    end.
Proof.
  intros st l Hc. destruct (run_repr ops start.1 start.2 [] start_repr) as [R _].
  change (foldl do_op (start.1, start.2) ops) with st in R. fold l in R. clearbody st l.
  unfold has, get. rewrite Hc. pose proof (repr_find _ _ _ n R) as Hf. destruct (spec_get n l) as [s|].
  - destruct Hf as (i & a & _ & _ & _ & -> & E). split; [by rewrite bool_decide_eq_true_2|]. simpl. by rewrite E.
  - rewrite Hf. split; [by rewrite bool_decide_eq_false_2 by (by intros [? ?])|done].
Qed.

(** C46. No name is listed twice in the specification used above, whatever its spelling. *)
Theorem C46_names_distinct ops i j s t :
  let l := foldl spec_op [] ops in l !! i = Some s → l !! j = Some t → same_name s.1 t.1 → i = j.
Proof.
  intros l. destruct (run_repr ops start.1 start.2 [] start_repr) as [R _]. apply (r_names _ _ _ R).
Qed.

Fixpoint all_well_spelled (l : spec_headers) (ops : list op) : Prop :=
  match ops with [] => True | o :: rest => well_spelled l o ∧ all_well_spelled (spec_op l o) rest end.

(** C46, proved part for iteration: if every Remove spells the name as it was first
    spelled (or removes nothing), iterating lists each present header once, in order of first insertion.
    For other spellings see the refutation below. *)
Theorem C46_iteration_partial ops : all_well_spelled [] ops →
  let st := foldl do_op start ops in
  iterate st.1 st.2 = Returns ((λ s, Header s.1 s.2) <$> foldl spec_op [] ops).
Proof.
  intros Hw. assert (repr start.1 start.2 [] ∧ listed start.2) as H0 by (split; [apply start_repr|done]).
  change start with (start.1, start.2).
  revert H0 Hw. generalize (start.1) (start.2) ([] : spec_headers).
  induction ops as [|o ops IH]; intros h x l [R L] Hw; [by apply iterate_repr|].
  destruct Hw as [Hw Hws]. cbn [foldl]. destruct (do_op_repr h x l o R) as (R1 & _ & L1).
  destruct (do_op (h, x) o) as [h1 x1]. simpl in R1, L1. apply IH; [|done]. split; [done|]. by apply L1.
Qed.

Example C46_example :
  let ops := [OSet (Base.bs "X-Foo") (Base.bs "1"); OSet (Base.bs "Bar") (Base.bs "2"); OSet (Base.bs "x_fOO") (Base.bs "3");
              OSet (Base.bs "baz") []; ORemove (Base.bs "Bar"); OAssign (Base.bs "BAZ") (Base.bs "4"); ORemove (Base.bs "none")] in
  all_well_spelled [] ops ∧ foldl spec_op [] ops = [(Base.bs "X-Foo", Base.bs "1, 3"); (Base.bs "baz", Base.bs "4")].
Proof.
  split; [|by vm_compute]. repeat split; intros s Hs; vm_compute in Hs;
    repeat (apply elem_of_cons in Hs as [->|Hs]; [vm_compute; intros; congruence|]); by apply elem_of_nil in Hs.
Qed.

(** C46 refuted for Remove with another spelling: the header is gone from the map but
    its (freed) object stays listed: size() is 1, and iterating reads freed memory. *)
Theorem C46_remove_other_spelling_refuted :
  let st := foldl do_op start [OSet (Base.bs "Foo") (Base.bs "1"); ORemove (Base.bs "foo")] in
  has (Base.bs "Foo") st.2 = Returns false ∧ length (hlist st.2) = 1 ∧ iterate st.1 st.2 = Undefined.
Proof. vm_compute. done. Qed.

(** ** C47 *)
(** The copy constructor: the copy lists the headers of the source, with the same cookies; the source is intact;
    whatever is then done to either leaves the other alone. *)
Theorem C47_copy_construct ops ops1 ops2 : all_well_spelled [] ops →
  let st := foldl do_op start ops in let l := foldl spec_op [] ops in
  ∃ h' x', copy_construct st.2 st.1 = Returns (h', x') ∧
    iterate h' x' = Returns ((λ s, Header s.1 s.2) <$> l) ∧ cookies x' = cookies st.2 ∧
    iterate h' st.2 = Returns ((λ s, Header s.1 s.2) <$> l) ∧
    (let st1 := foldl do_op (h', x') ops1 in iterate st1.1 st.2 = Returns ((λ s, Header s.1 s.2) <$> l)) ∧
    (let st2 := foldl do_op (h', st.2) ops2 in iterate st2.1 x' = Returns ((λ s, Header s.1 s.2) <$> l)).
Proof.
  intros Hw st l.
  assert (repr st.1 st.2 l ∧ listed st.2) as [R L].
  { unfold st, l. assert (repr start.1 start.2 [] ∧ listed start.2) as H0 by (split; [apply start_repr|done]).
    change start with (start.1, start.2).
    revert H0 Hw. clear. generalize (start.1) (start.2) ([] : spec_headers).
    induction ops as [|o ops IH]; intros h x l [R L] Hw; [done|].
    destruct Hw as [Hw Hws]. cbn [foldl]. destruct (do_op_repr h x l o R) as (R1 & _ & L1).
    destruct (do_op (h, x) o) as [h1 x1]. simpl in R1, L1. apply IH; [|done]. split; [done|]. by apply L1. }
  clearbody st l. destruct st as [h b]. simpl in *. unfold copy_construct.
  destruct (copy_into h b l no_headers R L) as (h' & x' & E & Rx & Lx & Ck & Rb & Ap); [done|done|].
  exists h', x'. split; [done|]. split_and!.
  - by apply iterate_repr.
  - done.
  - by apply iterate_repr.
  - destruct (run_repr ops1 h' x' l Rx) as [_ S1]. destruct (S1 b l Ap Rb) as [Rb' _]. by apply iterate_repr.
  - destruct (run_repr ops2 h' b l Rb) as [_ S2]. destruct (S2 x' l) as [Rx' _]; [|done|by apply iterate_repr].
    intros a H1 H2. by apply (Ap a).
Qed.

(** Copy assignment, proved part: into an object with no headers.  (Missing: any other target, refuted below.) *)
Theorem C47_assign_to_empty_partial ops lhs : all_well_spelled [] ops → hmap lhs = [] → hlist lhs = [] →
  let st := foldl do_op start ops in
  ∃ h' x', copy_assign lhs st.2 st.1 = Returns (h', x') ∧
    iterate h' x' = Returns ((λ s, Header s.1 s.2) <$> foldl spec_op [] ops) ∧ cookies x' = cookies st.2.
Proof.
  intros Hw E1 E2. destruct (C47_copy_construct ops [] [] Hw) as (h' & x' & E & H1 & H2 & _).
  simpl in *. unfold copy_construct, copy_assign, deep_copy_from in *. rewrite E1. simpl in *.
  destruct (copy_map (hmap _) _ []) as [[h'' m]|] eqn:F; [|discriminate E]. rewrite E2.
  exists h', x'. split; [exact E|]. done.
Qed.

(** Copy assignment refuted: the target keeps its own headers ... *)
Definition built (h : heap) (ops : list op) : heap * headers := foldl do_op (h, no_headers) ops.
Theorem C47_assign_keeps_old_headers_refuted :
  let '(h1, b) := built (Heap ∅ 0) [OSet (Base.bs "B") (Base.bs "2")] in
  let '(h2, a) := built h1 [OSet (Base.bs "A") (Base.bs "1")] in
  ∃ h3 a', copy_assign a b h2 = Returns (h3, a') ∧
    iterate h3 a' = Returns [Header (Base.bs "A") (Base.bs "1"); Header (Base.bs "B") (Base.bs "2")].
Proof. eexists _, _. split; vm_compute; reflexivity. Qed.

(** ... and where both have the same header, its old object is freed but still listed. *)
Theorem C47_assign_dangles_refuted :
  let '(h1, b) := built (Heap ∅ 0) [OSet (Base.bs "X") (Base.bs "2")] in
  let '(h2, a) := built h1 [OSet (Base.bs "X") (Base.bs "1")] in
  ∃ h3 a', copy_assign a b h2 = Returns (h3, a') ∧ length (hlist a') = 2 ∧ iterate h3 a' = Undefined.
Proof. eexists _, _. split_and!; vm_compute; reflexivity. Qed.

(** ** C62: cookies *)
(** A name or value that can be sent in a Cookie header as it is. *)
Definition token (t : list N) : Prop :=
  t ≠ [] ∧ Forall (λ c, c ≠ 61 ∧ c ≠ 59)%N t ∧
  (∀ c r, t = c :: r → Strings_Model.is_space c = false) ∧ (∀ c r, t = r ++ [c] → Strings_Model.is_space c = false).

Lemma trim_token t : token t → Strings_Model.trim t = t ∧ Strings_Model.trim (32%N :: t) = t.
Proof.
  intros (Hne & _ & Hf & Hl).
  assert (Strings_Model.trim_left t = t) as Htl.
  { destruct t as [|c r]; [done|]. simpl. by rewrite (Hf c r). }
  assert (Strings_Model.trim_right_n (length t) t = t) as Htr.
  { destruct (exists_last Hne) as (r & c & ->). rewrite app_length, Nat.add_1_r. simpl.
    rewrite app_nth2, Nat.sub_diag by lia. simpl. rewrite (Hl c r) by done.
    rewrite <-(firstn_all (r ++ [c])) at 2. f_equal. rewrite app_length. simpl. lia. }
  unfold Strings_Model.trim. split.
  - by rewrite Htl, Htr.
  - change (Strings_Model.trim_left (32%N :: t)) with (Strings_Model.trim_left t). by rewrite Htl, Htr.
Qed.

Definition kv (p : list N * list N) : list N := p.1 ++ [61]%N ++ p.2.
Lemma as_string_join (cs : list (list N * list N)) : 
  cookies_as_string cs = Strings_Model.join (List.map kv
    match cs with [] => [] | c :: rest => c :: ((λ p, (32%N :: p.1, p.2)) <$> rest) end) [59]%N.
Proof.
  destruct cs as [|c cs]; [done|]. unfold cookies_as_string, Strings_Model.join. cbn [foldl List.map].
  change ([] ++ c.1 ++ [61%N] ++ c.2) with (kv c). cbn [Strings_Model.join_loop].
  assert (∀ acc, acc ≠ [] →
    foldl (λ acc (c : list N * list N), (match acc with [] => [] | _ => acc ++ [59; 32]%N end) ++ c.1 ++ [61]%N ++ c.2) acc cs =
    Strings_Model.join_loop false acc [59]%N (List.map kv ((λ p, (32%N :: p.1, p.2)) <$> cs))) as H.
  { induction cs as [|d cs IH]; intros acc Ha; [done|]. cbn [foldl fmap list_fmap List.map].
    rewrite IH.
    - cbn [Strings_Model.join_loop]. f_equal. destruct acc; [done|]. unfold kv. simpl. by rewrite <-!app_assoc.
    - destruct acc; [done|]. simpl. done. }
  rewrite H; [done|]. unfold kv. by destruct (c.1).
Qed.

(** C62. Cookies whose names and values are tokens survive being written into a Cookie header and read from it. *)
Theorem C62_cookies_round_trip_partial cs : NoDup cs.*1 → Forall (λ c, token c.1 ∧ token c.2) cs →
  apply_cookie_header (cookies_as_string cs) [] = cs.
Proof.
  intros Hnd Ht. unfold apply_cookie_header. rewrite as_string_join.
  rewrite (Strings_Props.C60_key_value_pairs_round_trip 61%N 59%N false); [|done|].
  - set (kvs := match cs with [] => [] | c :: rest => c :: ((λ p, (32%N :: p.1, p.2)) <$> rest) end).
    assert (∀ (l : list (list N * list N)) acc, (foldl (λ cs kv, emplace_cookie (Strings_Model.trim kv.1, Strings_Model.trim kv.2) cs) acc l) =
      foldl (λ cs kv, emplace_cookie kv cs) acc ((λ kv, (Strings_Model.trim kv.1, Strings_Model.trim kv.2)) <$> l)) as Hfold.
    { intros l. induction l as [|x l IH]; intros acc; [done|]. simpl. apply IH. }
    rewrite Hfold. replace ((λ kv, _) <$> kvs) with cs.
    + assert (∀ l acc, NoDup (acc ++ l).*1 → foldl (λ cs kv, emplace_cookie kv cs) acc l = acc ++ l) as He; [|by apply (He cs [])].
      clear. intros l. induction l as [|c l IH]; intros acc Hnd; simpl; [by rewrite app_nil_r|].
      unfold emplace_cookie at 2. 
      assert (existsb (λ c0, bool_decide (c0.1 = c.1)) acc = false) as ->.
      { apply not_true_iff_false. intros (d & Hd & E)%existsb_exists. apply bool_decide_eq_true in E.
        rewrite fmap_app in Hnd. apply NoDup_app in Hnd as (_ & Hnd & _). apply (Hnd c.1); [|by left].
        rewrite <-E. apply elem_of_list_fmap_1. by apply elem_of_list_In. }
      rewrite IH; [by rewrite <-app_assoc|]. by rewrite <-app_assoc.
    + unfold kvs. destruct cs as [|c cs]; [done|]. apply Forall_cons in Ht as [[H1 H2] Ht]. simpl.
      rewrite (proj1 (trim_token _ H1)), (proj1 (trim_token _ H2)). f_equal; [by destruct c|].
      rewrite <-list_fmap_compose. symmetry. transitivity (id <$> cs); [|by rewrite list_fmap_id].
      apply list_fmap_ext. intros i d Hd. eapply Forall_lookup_1 in Ht as [G1 G2]; [|done]. simpl.
      rewrite (proj2 (trim_token _ G1)), (proj1 (trim_token _ G2)). by destruct d.
  - assert (∀ c : list N * list N, token c.1 ∧ token c.2 → ∀ sp : list N, sp = [] ∨ sp = [32]%N →
      sp ++ c.1 ≠ [] ∧ c.2 ≠ [] ∧ List.Forall (λ x, x ≠ 61 ∧ x ≠ 59)%N ((sp ++ c.1) ++ c.2)) as Hc.
    { intros c [(G1 & G2 & _) (G3 & G4 & _)] sp Hsp. split_and!; [by destruct sp|done|].
      apply Forall_app. split; [|done]. apply Forall_app. split; [|done]. destruct Hsp as [-> | ->]; repeat constructor; done. }
    destruct cs as [|c cs]; [constructor|]. apply Forall_cons in Ht as [Hct Ht]. constructor.
    + apply (Hc c Hct []). by left.
    + apply Forall_fmap. eapply Forall_impl; [exact Ht|]. intros d Hd. simpl. apply (Hc d Hd [32%N]). by right.
Qed.

Example C62_example : Forall (λ c, token c.1 ∧ token c.2) [(Base.bs "sid", Base.bs "a b"); (Base.bs "x", Base.bs "1")].
Proof.
  assert (∀ t, (match t with [] => false | c :: _ => negb (Strings_Model.is_space c) end && negb (Strings_Model.is_space (List.last t 32%N)) &&
      forallb (λ c, negb (N.eqb c 61) && negb (N.eqb c 59)) t) = true → token t) as H.
  { intros t [[H1 H2]%andb_true_iff H3]%andb_true_iff. unfold token. split_and!.
    - by destruct t.
    - apply List.Forall_forall. intros c Hc. rewrite forallb_forall in H3. specialize (H3 c Hc).
      apply andb_true_iff in H3 as [G1%negb_true_iff G2%negb_true_iff]. apply N.eqb_neq in G1, G2. done.
    - intros c r ->. by apply negb_true_iff in H1.
    - intros c r ->. rewrite List.last_last in H2. by apply negb_true_iff in H2. }
  apply Forall_cons_2; [split; apply H; by vm_compute|]. apply Forall_cons_2; [split; apply H; by vm_compute|]. by apply Forall_nil_2.
Qed.

(** C62 refuted in general: a value with [=] inside (base64 has it) or an empty one is lost, and of two cookies of
    the same name in a header the first is kept. *)
Theorem C62_cookies_refuted :
  apply_cookie_header (cookies_as_string [(Base.bs "t", Base.bs "aGk=b")]) [] = [] ∧
  apply_cookie_header (cookies_as_string [(Base.bs "t", [])]) [] = [] ∧
  apply_cookie_header (Base.bs "t=1; t=2") [] = [(Base.bs "t", Base.bs "1")].
Proof. vm_compute. done. Qed.

Print Assumptions C46_comparator_is_strict_weak_order.
Print Assumptions C46_lookup.
Print Assumptions C46_names_distinct.
Print Assumptions C46_iteration_partial.
Print Assumptions C46_remove_other_spelling_refuted.
Print Assumptions C47_copy_construct.
Print Assumptions C47_assign_to_empty_partial.
Print Assumptions C47_assign_keeps_old_headers_refuted.
Print Assumptions C47_assign_dangles_refuted.
Print Assumptions C62_cookies_round_trip_partial.
Print Assumptions C62_cookies_refuted.
