(** Property C56: HTTP routing. *)
From stdpp Require Import list gmap strings.
From Coq Require Import Lia.
From Verif Require Import Routing_Model Routing_Spec Routing_Proofs.
From Verif Require Base Url_Model Url_Proofs.

(** C56. A request is served by the handler [h], under the path prefix [base] and with the arguments
    [args], exactly when the URL path is [base] followed by components that decode to [args], [h] is
    registered for [base] with that many arguments, and nothing is registered for a way of
    reading the path with fewer arguments. *)
Theorem C56_routes_to_longest_prefix :
  ∀ H (t : gmap (list N) (gmap nat H)) p h base args,
    (∃ pa, find_handler t p = Some (h, pa) ∧ base_path pa = base ∧ iterate pa = args) ↔
    (∃ comps, decomposition p base comps ∧ args = Url_Model.decode_uri <$> comps ∧
              lookup_handler t base (length comps) = Some h ∧
              ∀ base' comps', decomposition p base' comps' → length comps' < length comps →
                              lookup_handler t base' (length comps') = None).
Proof.
  intros H t p h base args. pose proof (find_handler_spec t p) as F. split.
  - intros (pa & E & <- & <-). rewrite E in F. destruct F as (comps & D & A & L & M). exists comps. by split_and!.
  - intros (comps & D & -> & L & M). destruct (find_handler t p) as [[h' pa]|].
    + destruct F as (comps' & D' & A' & L' & M').
      assert (length comps = length comps') as El.
      { destruct (decide (length comps < length comps')) as [Hl|Hl].
        - specialize (M' _ _ D Hl). congruence.
        - destruct (decide (length comps' < length comps)) as [Hl'|Hl']; [|lia]. specialize (M _ _ D' Hl'). congruence. }
      destruct (dec_functional _ _ _ _ _ D D' El) as [-> ->]. exists pa. rewrite A'. split_and!; try done. congruence.
    + specialize (F _ _ D). congruence.
Qed.
Print Assumptions C56_routes_to_longest_prefix.

(** C56. Fewer arguments means a longer prefix. *)
Theorem C56_served_prefix_is_longest :
  ∀ H (t : gmap (list N) (gmap nat H)) p h pa base' comps',
    find_handler t p = Some (h, pa) → decomposition p base' comps' →
    is_Some (lookup_handler t base' (length comps')) → length base' ≤ length (base_path pa).
Proof.
  intros H t p h pa base' comps' E D [x L]. pose proof (find_handler_spec t p) as F. rewrite E in F.
  destruct F as (comps & D1 & A & L1 & M).
  destruct (decide (length comps' < length comps)) as [Hl|Hl]; [specialize (M _ _ D Hl); congruence|].
  destruct (decide (length comps = length comps')) as [El|Ne].
  - destruct (dec_functional _ _ _ _ _ D1 D El) as [-> _]. done.
  - eapply dec_fewer_longer; [exact D1|exact D|lia].
Qed.
Print Assumptions C56_served_prefix_is_longest.

(** C56. No handler is found exactly when no reading of the path is registered. *)
Theorem C56_unregistered_paths_get_none :
  ∀ H (t : gmap (list N) (gmap nat H)) p,
    find_handler t p = None ↔
    ∀ base comps, decomposition p base comps → lookup_handler t base (length comps) = None.
Proof.
  intros H t p. pose proof (find_handler_spec t p) as F. split.
  - intros E. by rewrite E in F.
  - intros A. destruct (find_handler t p) as [[h pa]|]; [|done]. destruct F as (c & D & _ & L & _).
    specialize (A _ _ D). congruence.
Qed.
Print Assumptions C56_unregistered_paths_get_none.

(** C56. Indexing the arguments gives them in the same order as iterating. *)
Theorem C56_indexing_follows_iteration : ∀ pa i, nth_arg pa i = iterate pa !! i.
Proof.
  intros [b a] i. unfold nth_arg, iterate. simpl. destruct (decide (i < length a)) as [Hl|Hl].
  - rewrite reverse_lookup by done. f_equal. lia.
  - symmetry. apply lookup_ge_None. rewrite reverse_length. lia.
Qed.
Print Assumptions C56_indexing_follows_iteration.

(** The URL of a route with arguments, as a client writes it. *)
Definition url_of (base : list N) (args : list (list N)) : list N :=
  (if decide (base = [47%N]) then [] else base) ++ concat (map (λ a, 47%N :: Url_Model.encode_uri a) args).
Lemma dec_slash p base comps : decomposition p base comps → decomposition (p ++ [47%N]) base comps.
Proof.
  intros [base' n G|q base' cs x n D Hq Hx Hs].
  - rewrite <-app_assoc, <-slashes_snoc. by constructor.
  - rewrite <-!app_assoc, <-slashes_snoc. by constructor.
Qed.
Lemma url_decomposition base args : good_base base → args ≠ [] →
  Forall (λ a, a ≠ [] ∧ Forall (λ c, (c < 128)%N) a) args →
  decomposition (url_of base args) base (Url_Model.encode_uri <$> args).
Proof.
  intros G Hne Hall. induction args as [|a args IH] using rev_ind; [done|].
  apply Forall_app in Hall as [Hall [Ha _]%Forall_cons]. destruct Ha as [Ha Hasc].
  unfold url_of in *. rewrite map_app, concat_app, app_assoc. simpl. rewrite app_nil_r.
  set (u := (if decide (base = [47%N]) then [] else base) ++ concat (map (λ a0 : list N, 47%N :: Url_Model.encode_uri a0) args)) in *.
  assert (decomposition (u ++ [47%N]) base (Url_Model.encode_uri <$> args)) as D.
  { destruct args as [|b args] using rev_ind; [|clear IHargs].
    - unfold u. simpl. rewrite app_nil_r. destruct (decide (base = [47%N])) as [->|Hb]; simpl.
      + apply (dec_base [47%N] 0). by left.
      + apply (dec_base base 1). done.
    - assert (args ++ [b] ≠ []) as Hn by (by destruct args). specialize (IH Hn Hall). by apply dec_slash. }
  rewrite fmap_app.
  change (u ++ 47%N :: Url_Model.encode_uri a) with (u ++ [47%N] ++ Url_Model.encode_uri a).
  rewrite app_assoc.
  enough (decomposition ((u ++ [47%N]) ++ Url_Model.encode_uri a ++ slashes 0) base ((Url_Model.encode_uri <$> args) ++ [Url_Model.encode_uri a])) as X.
  { unfold slashes in X. simpl in X. by rewrite app_nil_r in X. }
  apply dec_more; [done|by rewrite last_snoc| |].
  - destruct a as [|c a]; [done|]. unfold Url_Model.encode_uri. simpl. unfold Url_Model.encode_char.
    intros E. apply app_eq_nil in E as [E _]. revert E. repeat case_match; done.
  - rewrite elem_of_list_In. apply Url_Proofs.encode_no; [by apply Url_Proofs.ascii_ok| |done]. vm_compute. tauto.
Qed.

(** C56. A client gets through: if a route is registered for [base] with as many arguments as given,
    then the URL made of [base] and the escaped arguments (ASCII and not empty) is served by some handler; and by that
    very one with those very arguments, unless a longer prefix of the URL is registered too. *)
Theorem C56_escaped_arguments_arrive :
  ∀ H (t : gmap (list N) (gmap nat H)) base args h,
    good_base base → args ≠ [] → Forall (λ a, a ≠ [] ∧ Forall (λ c, (c < 128)%N) a) args →
    lookup_handler t base (length args) = Some h →
    ∃ h' pa, find_handler t (url_of base args) = Some (h', pa) ∧
             length base ≤ length (base_path pa) ∧
             (length (base_path pa) = length base → h' = h ∧ base_path pa = base ∧ iterate pa = args).
Proof.
  intros H t base args h G Hne Hall L. pose proof (url_decomposition base args G Hne Hall) as D.
  pose proof (find_handler_spec t (url_of base args)) as F.
  destruct (find_handler t (url_of base args)) as [[h' pa]|] eqn:E.
  2:{ specialize (F _ _ D). rewrite fmap_length in F. congruence. }
  exists h', pa. destruct F as (comps & D' & A & L' & M).
  assert (is_Some (lookup_handler t base (length (Url_Model.encode_uri <$> args)))) as HS by (rewrite fmap_length; by rewrite L).
  split_and!; [done|by eapply C56_served_prefix_is_longest|]. intros El.
  assert (length comps = length (Url_Model.encode_uri <$> args)) as Ec.
  { destruct (decide (length (Url_Model.encode_uri <$> args) < length comps)) as [Hl|Hl].
    { specialize (M _ _ D Hl). destruct HS as [x HS]. congruence. }
    destruct (decide (length comps < length (Url_Model.encode_uri <$> args))) as [Hl'|Hl']; [|lia]. exfalso.
    (* the base would be strictly longer *)
    clear -D D' Hl' El. revert D D' Hl' El. generalize (Url_Model.encode_uri <$> args) as cs. generalize (base_path pa) as b1.
    intros b1 cs. generalize (url_of base args). intros p. revert p b1 cs. induction comps as [|a comps IH] using rev_ind; intros p b1 cs D D' Hl El.
    - pose proof (dec_head _ _ _ D) as Hp. apply dec_base_inv in D' as ->; [|done].
      destruct cs as [|a cs _] using rev_ind; [simpl in Hl; lia|].
      apply dec_more_inv in D as (H1 & _ & D); [|done]. pose proof (strip_spec p Hp) as [G _].
      destruct (good_split _ G H1) as (q & b & E2 & _ & _ & _ & Hh & T & _ & Hlen). rewrite T in D. apply dec_base_length in D.
      destruct (strip_spec q Hh) as [_ [n E]]. apply (f_equal length) in E. rewrite app_length in E. lia.
    - pose proof (dec_head _ _ _ D) as Hp. rewrite app_length in Hl. simpl in Hl.
      destruct cs as [|b cs _] using rev_ind; [simpl in Hl; lia|]. rewrite app_length in Hl. simpl in Hl.
      apply dec_more_inv in D as (_ & _ & D); [|done]. apply dec_more_inv in D' as (_ & _ & D'); [|done].
      eapply IH; [exact D|exact D'|lia|done]. }
  destruct (dec_functional _ _ _ _ _ D' D Ec) as [Eb Ecomps]. subst comps. rewrite Eb in *. rewrite fmap_length in L'.
  split_and!; [congruence|done|]. rewrite A. rewrite <-list_fmap_compose.
  clear -Hall. induction Hall as [|a args [_ Ha] _ IH]; [done|]. rewrite fmap_cons, IH. f_equal. by apply Url_Proofs.decode_encode_ascii.
Qed.
Print Assumptions C56_escaped_arguments_arrive.

(** ** Registration *)
(** The characters allowed in a registered path. *)
Definition allowed_char (c : N) : Prop :=
  (48 <= c <= 57)%N ∨ (65 <= c <= 90)%N ∨ (97 <= c <= 122)%N ∨ c ∈ (Base.bs "/-._~!$&'()*+,;=:@" : list N).
Definition in_mask (mask : N) (i : nat) : Prop := i < 16 ∧ N.testbit mask (N.of_nat i) = true.

Lemma validate_route_ok p : validate_route p = None ↔ good_base p ∧ Forall allowed_char p.
Proof.
  assert (is_path_valid p = true ↔ Forall allowed_char p) as V.
  { unfold is_path_valid. induction p as [|c p IH]; [done|]. simpl. rewrite andb_true_iff, IH, Forall_cons.
    apply and_iff_compat_r. unfold is_valid_char, allowed_char. rewrite !orb_true_iff, !bool_decide_eq_true. tauto. }
  unfold validate_route, good_base. destruct (decide (head p ≠ Some 47%N)) as [H1|H1].
  { split; [done|]. intros [[->|[? _]] _]; done. }
  apply dec_stable in H1. destruct (decide (p ≠ [47%N] ∧ last p = Some 47%N)) as [[H2 H3]|H2].
  { split; [done|]. intros [[?|[_ ?]] _]; done. }
  destruct (is_path_valid p); split; try done.
  - intros _. split; [|by apply V]. destruct (decide (p = [47%N])); [by left|]. right. split; [done|]. intros ?. by apply H2.
  - intros [_ F%V]. done.
Qed.

(** C56. What Register does.  With [update = false] (the default policy) it succeeds iff the path is well-formed and none of the
    routes asked for exists; with [update = true] (SilentlyUpdateExisting) iff they all exist.  On success exactly the routes asked for change, and all lead to
    the new handler; otherwise nothing changes.  (An empty mask is a no-op.) *)
Theorem C56_register_changes_exactly_these_routes :
  ∀ H (t : gmap (list N) (gmap nat H)) p h mask update, mask ≠ 0%N →
    let possible := good_base p ∧ Forall allowed_char p ∧
                    ∀ i, in_mask mask i → if update : bool then is_Some (lookup_handler t p i) else lookup_handler t p i = None in
    match register t p h mask update with
    | Done t' _ => possible ∧
        (∀ i, in_mask mask i → lookup_handler t' p i = Some h) ∧
        (∀ q i, ¬ (q = p ∧ in_mask mask i) → lookup_handler t' q i = lookup_handler t q i)
    | Throws _ t' => ¬ possible ∧ t' = t
    end.
Proof.
  intros H t p h mask update Hm possible. unfold register. rewrite decide_False by done.
  pose proof (validate_route_ok p) as V. destruct (validate_route p) as [e|].
  { split; [|done]. intros (G & A & _). pose proof (proj2 V (conj G A)). done. }
  destruct (proj1 V eq_refl) as [G A]. pose proof (check_all_None t p mask update counts) as C.
  destruct (check_all t p mask update counts) as [e|].
  { split; [|done]. intros (_ & _ & P).
    assert (Some e = None); [|done]. apply C. intros i Hi Hs. apply P. split; [|done]. unfold counts in Hi. apply elem_of_seq in Hi. lia. }
  unfold possible. split_and!; try done.
  - intros i [Hi Hs]. apply (proj1 C eq_refl i); [|done]. apply elem_of_seq. lia.
  - intros i [Hi Hs]. rewrite lookup_update_all. by rewrite decide_True.
  - intros q i N1. rewrite lookup_update_all. rewrite decide_False; [done|]. intros (-> & Hi & Hs). by apply N1.
Qed.
Print Assumptions C56_register_changes_exactly_these_routes.

(** C56. UnRegister of routes that all exist removes exactly these. *)
Theorem C56_unregister_changes_exactly_these_routes :
  ∀ H (t : gmap (list N) (gmap nat H)) p mask,
    (∀ i, in_mask mask i → is_Some (lookup_handler t p i)) →
    ∃ t', unregister t p mask = Done t' None ∧
          (∀ i, in_mask mask i → lookup_handler t' p i = None) ∧
          (∀ q i, ¬ (q = p ∧ in_mask mask i) → lookup_handler t' q i = lookup_handler t q i).
Proof.
  intros H t p mask A. unfold unregister. pose proof (unregister_loop_spec t p mask counts (NoDup_seq 0 16)) as U.
  assert (∀ tt s, unregister_loop t p mask counts = Done tt s → s = None) as Hs.
  { generalize counts. intros is. clear. revert t. induction is as [|i is IH]; intros t tt s; cbn [unregister_loop]; [by intros [= <- <-]|].
    repeat case_match; try done; apply IH. }
  destruct (unregister_loop t p mask counts) as [t' s|e t'].
  - destruct U as (_ & B & _). rewrite (Hs t' s eq_refl). exists t'. split_and!; [done| |].
    + intros i [Hi Hb]. rewrite B, decide_True; [done|]. split_and!; [done| |done]. apply elem_of_seq. lia.
    + intros q i N1. rewrite B, decide_False; [done|]. intros (-> & Hi & Hb). apply N1. split; [done|]. split; [|done].
      unfold counts in Hi. apply elem_of_seq in Hi. lia.
  - destruct U as (_ & (i & Hi & Hb & L) & _). exfalso. destruct (A i) as [x E].
    + split; [|done]. unfold counts in Hi. apply elem_of_seq in Hi. lia.
    + congruence.
Qed.
Print Assumptions C56_unregister_changes_exactly_these_routes.

(** C56. When some of the routes do not exist, UnRegister throws; even then it never touches a route it was not asked to remove. *)
Theorem C56_unregister_throws_partial :
  ∀ H (t : gmap (list N) (gmap nat H)) p mask,
    (∃ i, in_mask mask i ∧ lookup_handler t p i = None) →
    ∃ t', unregister t p mask = Throws HandlerDoesNotExist t' ∧
          (∀ q i, ¬ (q = p ∧ in_mask mask i) → lookup_handler t' q i = lookup_handler t q i) ∧
          (∀ i, lookup_handler t' p i = lookup_handler t p i ∨ lookup_handler t' p i = None).
Proof.
  intros H t p mask (i & [Hi Hb] & L). unfold unregister. pose proof (unregister_loop_spec t p mask counts (NoDup_seq 0 16)) as U.
  destruct (unregister_loop t p mask counts) as [t' s|e t'].
  - destruct U as (A & _). destruct (A i) as [x E]; [apply elem_of_seq; lia|done|congruence].
  - destruct U as (-> & _ & B & _). exists t'.
    split_and!; [done| |].
    + intros q j N1. destruct (B q j) as [E|(-> & Hj & Hs & _)]; [done|]. exfalso. apply N1. split; [done|]. split; [|done].
      unfold counts in Hj. apply elem_of_seq in Hj. lia.
    + intros j. destruct (B p j) as [?|(_&_&_&?)]; tauto.
Qed.
Print Assumptions C56_unregister_throws_partial.

(** C56, false as one might expect it: an UnRegister that throws has changed nothing. *)
Theorem C56_throwing_unregister_changes_nothing_refuted :
  ∃ (t t' : gmap (list N) (gmap nat N)) p mask,
    unregister t p mask = Throws HandlerDoesNotExist t' ∧
    find_handler t p = Some (7%N, PathArgs p []) ∧ find_handler t' p = None.
Proof.
  exists {[ (Base.bs "/foo" : list N) := {[ 0 := 7%N ]} ]}. eexists. exists (Base.bs "/foo"), 3%N.
  split_and!; [cbv; reflexivity|reflexivity|reflexivity].
Qed.
Print Assumptions C56_throwing_unregister_changes_nothing_refuted.

(** C56. A registration lasts as long as the scope Register returned: when it ends, with no other change to these routes in
    between, the un-registration it performs succeeds and every route is as it was before. *)
Theorem C56_scope_restores_routes :
  ∀ H (t : gmap (list N) (gmap nat H)) p h mask t1 q m t2,
    register t p h mask false = Done t1 (Some (q, m)) →
    (∀ i, in_mask mask i → is_Some (lookup_handler t2 p i)) →
    ∃ t3, unregister t2 q m = Done t3 None ∧
          (∀ i, in_mask mask i → lookup_handler t3 p i = lookup_handler t p i) ∧
          (∀ r i, ¬ (r = p ∧ in_mask mask i) → lookup_handler t3 r i = lookup_handler t2 r i).
Proof.
  intros H t p h mask t1 q m t2 R P.
  assert (mask ≠ 0%N) as Hm. { intros ->. unfold register in R. simpl in R. done. }
  pose proof (C56_register_changes_exactly_these_routes H t p h mask false Hm) as C. cbv zeta in C. rewrite R in C.
  destruct C as ((_ & _ & N1) & _).
  assert (q = p ∧ m = mask) as [-> ->].
  { unfold register in R. rewrite decide_False in R by done. destruct (validate_route p); [done|].
    destruct (check_all t p mask false counts); [done|]. by injection R as _ -> ->. }
  destruct (C56_unregister_changes_exactly_these_routes H t2 p mask P) as (t3 & U & A & B).
  exists t3. split_and!; [done| |done]. intros i Hi. rewrite A by done. symmetry. by apply N1.
Qed.
Print Assumptions C56_scope_restores_routes.

(** C56. The scope a successful Register returns stands for exactly what it added: a new registration is undone when its scope
    ends, and replacing the handler of existing routes (or an empty mask) returns a scope whose end undoes nothing, so that the routes outlive it. *)
Definition scope_ends {H} (t : gmap (list N) (gmap nat H)) (scope : option (list N * N)) : gmap (list N) (gmap nat H) :=
  match scope with
  | None => t
  | Some (p, m) => match unregister t p m with Done t' _ | Throws _ t' => t' end
  end.
Theorem C56_scope_undoes_exactly_what_register_added :
  ∀ H (t : gmap (list N) (gmap nat H)) p h mask update t1 scope,
    register t p h mask update = Done t1 scope →
    (update = true → scope_ends t1 scope = t1) ∧
    (update = false → ∀ q i, lookup_handler (scope_ends t1 scope) q i = lookup_handler t q i).
Proof.
  intros H t p h mask update t1 scope R. destruct (decide (mask = 0%N)) as [->|Hm].
  { unfold register in R. simpl in R. injection R as <- <-. simpl. done. }
  pose proof (C56_register_changes_exactly_these_routes H t p h mask update Hm) as C. cbv zeta in C. rewrite R in C.
  destruct C as ((_ & _ & N1) & A & B). split; intros ->.
  - unfold register in R. rewrite decide_False in R by done. destruct (validate_route p); [done|].
    destruct (check_all t p mask true counts); [done|]. by injection R as _ <-.
  - assert (scope = Some (p, mask)) as ->.
    { unfold register in R. rewrite decide_False in R by done. destruct (validate_route p); [done|].
      destruct (check_all t p mask false counts); [done|]. by injection R as _ <-. }
    intros q i. destruct (C56_unregister_changes_exactly_these_routes H t1 p mask) as (t3 & U & A3 & B3).
    { intros j Hj. rewrite (A j Hj). by eexists. }
    simpl. rewrite U. destruct (decide (q = p ∧ i < 16 ∧ N.testbit mask (N.of_nat i) = true)) as [(-> & Hi & Hb)|Hn].
    + rewrite A3 by done. symmetry. by apply N1.
    + rewrite B3 by done. by rewrite B.
Qed.
Print Assumptions C56_scope_undoes_exactly_what_register_added.
Example C56_scope_demo :
  let t : gmap (list N) (gmap nat N) := {[ (Base.bs "/foo" : list N) := {[ 0 := 7%N ]} ]} in
  match register t (Base.bs "/foo") 8%N 1%N true with
  | Done t1 scope => lookup_handler (scope_ends t1 scope) (Base.bs "/foo") 0 = Some 8%N
  | _ => False
  end ∧
  match register t (Base.bs "/foo") 8%N 6%N false with
  | Done t1 scope => lookup_handler t1 (Base.bs "/foo") 2 = Some 8%N ∧ lookup_handler (scope_ends t1 scope) (Base.bs "/foo") 2 = None
  | _ => False
  end.
Proof. vm_compute. tauto. Qed.

(** ** PathHandlersCount *)
Inductive call H := CRegister (p : list N) (h : H) (mask : N) (update : bool) | CUnregister (p : list N) (mask : N).
Arguments CRegister {H}. Arguments CUnregister {H}.
Definition table_after {H} (o : outcome H) : gmap (list N) (gmap nat H) := match o with Done t _ | Throws _ t => t end.
Definition run_call {H} (t : gmap (list N) (gmap nat H)) (c : call H) : gmap (list N) (gmap nat H) :=
  table_after match c with
              | CRegister p h mask update => register t p h (mask mod 65536)%N update
              | CUnregister p mask => unregister t p (mask mod 65536)%N
              end.

(** C56. After any calls, failed ones included, PathHandlersCount is the number of distinct paths that have a route. *)
Theorem C56_path_handlers_count :
  ∀ H (calls : list (call H)), let t := foldl run_call ∅ calls in
    ∃ ps : list (list N), NoDup ps ∧ length ps = path_handlers_count t ∧
                          ∀ p, p ∈ ps ↔ ∃ i, is_Some (lookup_handler t p i).
Proof.
  intros H calls t.
  assert (no_empty t) as Hn.
  { unfold t. induction calls as [|c calls IH] using rev_ind; [by intros p|].
    rewrite foldl_app. simpl. set (t0 := foldl run_call ∅ calls) in *. destruct c as [p h mask update|p mask]; unfold run_call; simpl.
    - unfold register. destruct (decide (_ = 0%N)) as [|Hm]; [done|]. destruct (validate_route p); [done|].
      destruct (check_all _ _ _ _ _); [done|]. simpl. apply update_no_empty; [done|done|]. by apply N.mod_lt.
    - unfold unregister. pose proof (unregister_loop_spec t0 p (mask mod 65536)%N counts (NoDup_seq 0 16)) as U.
      destruct (unregister_loop _ _ _ _); simpl; naive_solver. }
  exists (map_to_list t).*1. split_and!.
  - apply NoDup_fst_map_to_list.
  - rewrite fmap_length. unfold path_handlers_count, size, map_size. done.
  - intros p. rewrite elem_of_list_fmap. unfold lookup_handler. split.
    + intros ([p' m] & -> & E%elem_of_map_to_list). simpl. rewrite E. simpl.
      destruct (map_choose m) as (i & x & L); [by intros ->; apply (Hn p')|]. by exists i, x.
    + intros (i & x & L). destruct (t !! p) as [m|] eqn:E; [|done]. exists (p, m). split; [done|]. by apply elem_of_map_to_list.
Qed.
Print Assumptions C56_path_handlers_count.

(** C56. ComposeURLPath puts a served request's path together again, up to repeated and trailing slashes: reading it
    with the same number of components gives the same base and the same arguments, if these are non-empty and have no slash. *)
Theorem C56_compose_url_path :
  ∀ pa, good_base (base_path pa) → Forall (λ a, a ≠ [] ∧ 47%N ∉ a) (iterate pa) →
    decomposition (compose pa) (base_path pa) (iterate pa).
Proof.
  intros [b a] G. simpl in G. unfold compose, compose_from_args, iterate. simpl. generalize (reverse a) as l. clear a. intros l Hl.
  assert (b ≠ []) as Hb by by apply good_not_nil.
  assert (∀ l, l ≠ [] → Forall (λ a : list N, a ≠ [] ∧ 47%N ∉ a) l →
     let r := foldl (λ r c : list N, r ++ [47%N] ++ c) [] l in
     (2 <= length r) ∧ decomposition ((if decide (b = [47%N]) then [] else b) ++ r) b l) as A.
  { clear l Hl. intros l. induction l as [|x l IH] using rev_ind; [done|]. intros _ [Hl [[Hx Hs] _]%Forall_cons]%Forall_app. simpl.
    rewrite foldl_app. simpl. split.
    { rewrite app_length. simpl. destruct x; [done|simpl; lia]. }
    set (r := foldl _ _ _) in *.
    assert (decomposition (((if decide (b = [47%N]) then [] else b) ++ r) ++ [47%N]) b l) as D.
    { destruct l as [|y l] using rev_ind.
      - unfold r. simpl. rewrite app_nil_r. destruct (decide (b = [47%N])) as [->|].
        + apply (dec_base [47%N] 0). by left.
        + by apply (dec_base b 1).
      - apply dec_slash. apply IH; [by destruct l|done]. }
    enough (decomposition ((((if decide (b = [47%N]) then [] else b) ++ r) ++ [47%N]) ++ x ++ slashes 0) b (l ++ [x])) as X.
    { unfold slashes in X. simpl in X. rewrite app_nil_r, <-!app_assoc in X. done. }
    apply dec_more; [done|by rewrite last_snoc|done|done]. }
  destruct (decide (l = [])) as [->|Hne].
  - simpl. destruct (decide (b = [] ∨ b = [47%N])) as [[?| -> ]|N1]; [done| |].
    + apply (dec_base [47%N] 0). by left.
    + rewrite <-(app_nil_r b) at 1. by apply (dec_base b 0).
  - destruct (A l Hne Hl) as [L D]. set (r := foldl _ _ _) in *.
    assert (r ≠ []) by (intros E; rewrite E in L; simpl in L; lia).
    rewrite (decide_False (P := r = [])) by done.
    destruct (decide (b = [] ∨ b = [47%N])) as [[?| -> ]|N1]; [done|by rewrite decide_True in D|].
    rewrite (decide_False (P := r = [47%N])); [|intros E; rewrite E in L; simpl in L; lia].
    rewrite decide_False in D by tauto. done.
Qed.
Print Assumptions C56_compose_url_path.

(** ** Examples *)
Definition demo : gmap (list N) (gmap nat N) :=
  {[ (Base.bs "/" : list N) := {[ 0 := 1%N; 2 := 2%N ]}; (Base.bs "/foo" : list N) := {[ 1 := 3%N; 15 := 4%N ]};
     (Base.bs "/foo/bar" : list N) := {[ 0 := 5%N ]} ]}.
(** "/foo/bar" beats "/foo" with one argument; trailing and repeated slashes are ignored; a "%2F" does not separate. *)
Example C56_demo :
  find_handler demo (Base.bs "/foo/bar///") = Some (5%N, PathArgs (Base.bs "/foo/bar") []) ∧
  (∃ pa, find_handler demo (Base.bs "//foo//a+b%2Fc/") = Some (2%N, pa) ∧ iterate pa = [Base.bs "foo"; Base.bs "a b/c"]) ∧
  (∃ pa, find_handler demo (Base.bs "/foo//a+b%2Fc/") = Some (3%N, pa) ∧ iterate pa = [Base.bs "a b/c"]) ∧
  find_handler demo (Base.bs "/foo/bar/baz") = None ∧ find_handler demo (Base.bs "foo") = None.
Proof. split_and!; [reflexivity|eexists; split; reflexivity|eexists; split; reflexivity|reflexivity|reflexivity]. Qed.
Example C56_demo_register :
  ∃ t', register demo (Base.bs "/foo") 9%N 4 false = Done t' (Some (Base.bs "/foo", 4%N)) ∧
        lookup_handler t' (Base.bs "/foo") 2 = Some 9%N ∧
        register demo (Base.bs "/foo") 9%N 6 false = Throws HandlerAlreadyExists demo ∧
        register demo (Base.bs "/foo/") 9%N 1 false = Throws PathEndsWithSlash demo ∧
        register demo (Base.bs "/f o") 9%N 1 false = Throws PathContainsInvalidCharacters demo.
Proof. eexists. split_and!; [reflexivity|reflexivity|reflexivity|reflexivity|reflexivity]. Qed.
Example C56_demo_client :
  url_of (Base.bs "/foo") [Base.bs "x y"; Base.bs "a/b"] = Base.bs "/foo/x%20y/a%2Fb" ∧
  good_base (Base.bs "/foo").
Proof. split; [reflexivity|]. right. split; [done|]. vm_compute. congruence. Qed.
