(** * Properties of variants *)
From stdpp Require Import gmap list.
From Verif Require Import Variant_Model Variant_Spec.

Definition ok (s : state) : Prop := ∀ x o, s !! x = Some o → well_typed o.

Lemma copy_ok o : well_typed o → copy o = Ok o.
Proof. induction 1 as [| |n ts o T W IH]; simpl; [done|done|]. rewrite !decide_True by done. by rewrite IH. Qed.
Lemma get_at_ok o p o' : well_typed o → get_at o p = Some o' → well_typed o'.
Proof.
  intros W. revert p o'. induction W as [| |n ts o T W IH]; intros [|X p] o'; simpl; try done; try (intros [= <-]; by constructor).
  case_decide; [apply IH|done].
Qed.
Lemma get_ok s p o : ok s → get s p = Some o → well_typed o.
Proof. intros O. unfold get. destruct (s !! variable p) as [r|] eqn:E; [|done]. simpl. apply get_at_ok. by eapply O. Qed.
Lemma set_at_type o p new old : get_at o p = Some old → type_of new = type_of old → type_of (set_at o p new) = type_of o.
Proof. destruct p as [|X p]; simpl; [intros [= ->] E; exact E|]. destruct o as [|n ts [o|]]; try done. by case_decide. Qed.
Lemma set_at_ok o p new : well_typed o → well_typed new → (∀ old, get_at o p = Some old → type_of new = type_of old) → well_typed (set_at o p new).
Proof.
  intros W. revert p. induction W as [| |n ts o T W IH]; intros [|X p] N E; simpl in *; try done; try by constructor.
  case_decide; [|by constructor]. constructor; [|by apply IH].
  destruct (get_at o p) as [old|] eqn:G; [by rewrite (set_at_type o p new old G (E old eq_refl))|].
  (* no such place: nothing changes *)
  assert (set_at o p new = o) as ->; [|done]. clear -G. revert o G. induction p as [|Y p IH]; intros o; simpl; [done|].
  destruct o as [|n ts [o|]]; try done. case_decide; [|done]. intros G. by rewrite IH.
Qed.
Lemma set_ok s p new : ok s → well_typed new → (∀ old, get s p = Some old → type_of new = type_of old) → ok (set s p new).
Proof.
  intros O N E. unfold set. destruct (s !! variable p) as [o|] eqn:G; [|done]. intros x o'. destruct (decide (variable p = x)) as [<-|NE].
  - rewrite lookup_insert. intros [= <-]. apply set_at_ok; [by eapply O|done|]. intros old H. apply E. unfold get. by rewrite G.
  - rewrite lookup_insert_ne by done. apply O.
Qed.
Lemma emptied_ok o : well_typed o → well_typed (emptied o).
Proof. destruct 1; constructor. Qed.
Lemma emptied_type o : type_of (emptied o) = type_of o. Proof. by destruct o. Qed.
Lemma take_from_emptied o : take_from o = emptied o. Proof. by destruct o. Qed.

Lemma copy_from_ok ts n us held : well_typed (OVariant n us held) →
  copy_from ts (OVariant n us held) = match held with Some o => if decide (type_of o ∈ ts) then Ok (Some o) else Throw Incompatible | None => Ok None end.
Proof.
  intros W. destruct held as [o|]; [|done]. inversion_clear W. simpl. unfold dispatch. rewrite decide_True by done.
  case_decide; [|done]. by rewrite copy_ok.
Qed.
(** The source as it is afterwards *)
Definition rest_of (h : how) (o : obj) : obj := match h with Rvalue => emptied o | _ => o end.
Lemma make_unique_ok h o : well_typed o → make_unique h o = Ok (Some o, rest_of h o).
Proof. intros W. destruct h; simpl; rewrite ?copy_ok by done; [done|done|]. by rewrite take_from_emptied. Qed.
Definition answer_of (h : how) (o : obj) (r : option (option (option obj))) : result (option obj * obj) :=
  match r with Some (Some held) => Ok (held, rest_of h o) | Some None => Throw Incompatible | None => Ill end.
Lemma own_ok name ts o : well_typed o → type_of o = TVariant name ts → copy_from ts o = Ok (object_of o).
Proof.
  intros W E. destruct o as [|n us held]; [done|]. simpl in E. simplify_eq. rewrite copy_from_ok by done. destruct held; [|done]. inversion_clear W. by rewrite decide_True.
Qed.
Lemma construct_ok name ts h o : well_typed o →
  match h, o with ConstLvalue, OVariant n us _ => TVariant n us ≠ TVariant name ts → TVariant n us ∉ ts | _, _ => True end →
  construct name ts h o = answer_of h o (gives name ts o).
Proof.
  intros W N. unfold construct, gives. case_decide as E.
  - rewrite (own_ok name) by done. destruct o as [|n us held]; [done|]. by destruct h.
  - destruct o as [m v|n us held].
    + case_decide as T; [|done]. simpl. by rewrite make_unique_ok.
    + destruct h.
      * rewrite copy_from_ok by done. rewrite decide_False by (by apply N). destruct held; simpl; [|done]. by case_decide.
      * case_decide as T; [by rewrite make_unique_ok|]. rewrite copy_from_ok by done. destruct held; simpl; [|done]. by case_decide.
      * case_decide as T; [by rewrite make_unique_ok|]. destruct held as [o|]; simpl; [|done]. inversion_clear W. unfold dispatch. rewrite decide_True by done. by case_decide.
Qed.
Lemma assign_ok name ts h o : well_typed o → assign name ts h o = answer_of h o (gives name ts o).
Proof.
  intros W. unfold assign. case_decide as E; [|case_decide as T].
  - unfold gives. rewrite decide_True by done. rewrite (own_ok name) by done. destruct o as [|n us held]; [done|]. by destruct h.
  - unfold gives. rewrite decide_False, decide_True by done. by rewrite make_unique_ok.
  - apply construct_ok; [done|]. by destruct h, o.
Qed.
Lemma gives_ok name ts o held : well_typed o → gives name ts o = Some (Some held) → well_typed (OVariant name ts held).
Proof.
  intros W. unfold gives. case_decide as E; [|case_decide as T].
  - destruct o; [done|]. simpl in E. simplify_eq. by intros [= <-].
  - intros [= <-]. by constructor.
  - destruct o as [|n us [o|]]; [done| |intros [= <-]; constructor]. case_decide; [|done]. intros [= <-]. inversion_clear W. by constructor.
Qed.

Definition source_of (w : state) (src : source) := match src with Temporary o => Some (Rvalue, o) | At h p => o ← get w p; Some (h, o) end.
Lemma source_ok s src h o : ok s → match src with Temporary o => well_typed o | _ => True end → source_of s src = Some (h, o) → well_typed o.
Proof. intros O S. destruct src as [o'|h' p]; simpl; [by intros [= <- <-]|]. destruct (get s p) eqn:G; [|done]. intros [= <- <-]. by eapply get_ok. Qed.
Lemma leave_is s src h o : source_of s src = Some (h, o) →
  leave s src (rest_of h o) = match src, h with At _ q, Rvalue => set s q (emptied o) | _, _ => s end.
Proof. destruct src as [o'|h' p]; simpl; [done|]. destruct (get s p); [|done]. intros [= <- <-]. by destruct h'. Qed.
Lemma leave_ok s src h o : ok s → source_of s src = Some (h, o) → ok (leave s src (rest_of h o)).
Proof.
  intros O E. rewrite (leave_is _ _ _ _ E). destruct src as [o'|h' p]; [done|]. simpl in E. destruct (get s p) as [r|] eqn:G; [|done]. injection E as -> ->. destruct h; try done.
  apply set_ok; [done|by apply emptied_ok; eapply get_ok|]. intros old. rewrite G. intros [= ->]. apply emptied_type.
Qed.
(** A place whose type is known keeps it when something else is emptied. *)
Lemma get_at_set_at o p q new old r : get_at o q = Some old → type_of new = type_of old → get_at (set_at o q new) p = Some r →
  (∃ r', get_at o p = Some r' ∧ type_of r' = type_of r) ∨ ∃ p', p = q ++ p' ∧ get_at new p' = Some r.
Proof.
  revert o p. induction q as [|X q IH]; intros o p G T H; simpl in *; [right; eauto|].
  destruct o as [|n ts [o|]]; try done. destruct (decide (type_of o = X)) as [E|E]; [|done]. destruct p as [|Y p]; simpl in *.
  - left. eexists. split; [done|]. injection H as <-. done.
  - assert (type_of (set_at o q new) = type_of o) as T' by (by eapply set_at_type).
    destruct (decide (type_of (set_at o q new) = Y)) as [F|F]; [|done]. assert (X = Y) as -> by congruence. rewrite (decide_True _ _ E).
    destruct (IH o p G T H) as [?|(p' & -> & H')]; [by left|]. right. eauto.
Qed.
Lemma place_keeps_type s p q o r : ok s → get s q = Some o → get (set s q (emptied o)) p = Some r → ∃ r', get s p = Some r' ∧ type_of r' = type_of r.
Proof.
  intros O G. unfold get, set in *. destruct (s !! variable q) as [v|] eqn:V; [|done]. simpl in G. destruct (decide (variable q = variable p)) as [E|N].
  - rewrite E in *. rewrite lookup_insert. simpl. intros H. rewrite V. simpl.
    destruct (get_at_set_at _ _ _ _ _ _ G (emptied_type o) H) as [?|(p' & EP & H')]; [done|]. exists o. destruct o as [|n ts held]; simpl in H'.
    + destruct p' as [|Y p']; [|done]. rewrite app_nil_r in EP. rewrite EP. injection H' as <-. done.
    + destruct p' as [|Y p']; [|done]. rewrite app_nil_r in EP. rewrite EP. injection H' as <-. done.
  - rewrite lookup_insert_ne by done. eauto.
Qed.

Lemma is_a_is inherits o X : dynamic_cast inherits o X = is_a inherits o X.
Proof.
  unfold is_a. destruct o, X; simpl; rewrite ?orb_false_r; try done. f_equal. apply bool_decide_ext. split; congruence.
Qed.
Definition const_inner (o : op) (w : state) : Prop :=
  match o with
  | Construct _ name ts (At ConstLvalue p) => ∀ n us held, get w p = Some (OVariant n us held) → TVariant n us ≠ TVariant name ts → TVariant n us ∉ ts
  | _ => True end.
Lemma exec_does inherits o s : ok s → sane o → const_inner o s → exec inherits o s = does inherits o s.
Proof.
  intros O S N. destruct o as [x n ts|x n ts src|p src|p|p o|p|p|p X|p X|x]; simpl; try done.
  - assert (read s src = source_of s src) as -> by done. fold (source_of s src). destruct (source_of s src) as [[h o]|] eqn:E; [|done]. simpl.
    assert (W : well_typed o) by (eapply source_ok; [done| |done]; by destruct src).
    rewrite (construct_ok n ts h o W). 2: { destruct h, o as [|n' us held]; try done. destruct src as [|h' q]; [done|]. simpl in E. destruct (get s q) eqn:G; [|done]. injection E as -> ->. by eapply N. }
    destruct (gives n ts o) as [[held|]|]; simpl; [|done|done]. by rewrite (leave_is _ _ _ _ E).
  - destruct (get s p) as [[|n ts held]|] eqn:G; [done| |done]. assert (read s src = source_of s src) as -> by done. fold (source_of s src).
    destruct (source_of s src) as [[h o]|] eqn:E; [|done]. simpl.
    assert (W : well_typed o) by (eapply source_ok; [done| |done]; by destruct src).
    rewrite (assign_ok n ts h o W). destruct (gives n ts o) as [[held'|]|]; simpl; [|done|done]. by rewrite (leave_is _ _ _ _ E).
  - destruct (get s p) as [[|n ts held]|] eqn:G; [done| |done]. pose proof (get_ok _ _ _ O G) as W. destruct held as [o|]; [|done].
    simpl. unfold dispatch. inversion_clear W. by rewrite decide_True.
  - destruct (get s p) as [[|n ts [o|]]|] eqn:G; try done. simpl. by rewrite is_a_is.
  - destruct (get s p) as [[|n ts [o|]]|] eqn:G; try done. simpl. rewrite is_a_is. by destruct (is_a inherits o X).
Qed.
Lemma does_ok inherits o s a s' : ok s → sane o → does inherits o s = Some (a, s') → ok s'.
Proof.
  intros O S. destruct o as [x n ts|x n ts src|p src|p|p o|p|p|p X|p X|x]; simpl.
  - intros [= <- <-] y o. destruct (decide (x = y)) as [->|NE]; [rewrite lookup_insert; intros [= <-]; constructor|]. rewrite lookup_insert_ne by done. apply O.
  - fold (source_of s src). destruct (source_of s src) as [[h o]|] eqn:E; [|done]. simpl.
    assert (W : well_typed o) by (eapply source_ok; [done| |done]; by destruct src).
    destruct (gives n ts o) as [[held|]|] eqn:G; simpl; [|by intros [= <- <-]|done]. intros [= <- <-].
    intros y o'. destruct (decide (x = y)) as [->|NE]; [rewrite lookup_insert; intros [= <-]; by eapply gives_ok|]. rewrite lookup_insert_ne by done.
    rewrite <- (leave_is _ _ _ _ E). by apply leave_ok.
  - destruct (get s p) as [[|n ts held]|] eqn:G; [done| |done]. fold (source_of s src).
    destruct (source_of s src) as [[h o]|] eqn:E; [|done]. simpl.
    assert (W : well_typed o) by (eapply source_ok; [done| |done]; by destruct src).
    destruct (gives n ts o) as [[held'|]|] eqn:V; simpl; [|by intros [= <- <-]|done]. intros [= <- <-].
    rewrite <- (leave_is _ _ _ _ E). apply set_ok; [by apply leave_ok|by eapply gives_ok|].
    intros old. rewrite (leave_is _ _ _ _ E). destruct src as [o'|h' q]; [rewrite G; by intros [= <-]|]. simpl in E. destruct (get s q) eqn:Q; [|done]. injection E as -> ->.
    destruct h; try (rewrite G; by intros [= <-]). intros H. destruct (place_keeps_type s p q o old O Q H) as (r' & R & T). rewrite G in R. injection R as <-. done.
  - destruct (get s p) as [[|n ts held]|] eqn:G; [done| |done]. intros [= <- <-]. apply set_ok; [done|constructor|]. intros old. rewrite G. by intros [= <-].
  - destruct (get s p) as [[|n ts held]|] eqn:G; [done| |done]. case_decide; [|done]. intros [= <- <-]. apply set_ok; [done|by constructor|]. intros old. rewrite G. by intros [= <-].
  - destruct (get s p) as [[|n ts held]|] eqn:G; [done| |done]. by intros [= <- <-].
  - destruct (get s p) as [[|n ts held]|] eqn:G; [done| |done]. by intros [= <- <-].
  - destruct (get s p) as [[|n ts held]|] eqn:G; [done| |done]. by intros [= <- <-].
  - destruct (get s p) as [[|n ts held]|] eqn:G; [done| |done]. by intros [= <- <-].
  - destruct (s !! x); [|done]. intros [= <- <-] y o2 H. apply lookup_delete_Some in H as (_ & H). by eapply O.
Qed.

(** Whatever is done with variants, nested ones included, they hold what the specification says, exceptions are thrown when it says so, and what each holds is
    of a type in its list. *)
Theorem C95_variants_hold_what_they_are_given inherits os l w :
  Forall sane os → no_const_inner inherits os ∅ → does_all inherits os ∅ = Some (l, w) →
  exec_all inherits os ∅ = Some (l, w) ∧ ∀ x o, w !! x = Some o → well_typed o.
Proof.
  enough (∀ s, ok s → Forall sane os → no_const_inner inherits os s → ∀ l w, does_all inherits os s = Some (l, w) → exec_all inherits os s = Some (l, w) ∧ ok w) as H.
  { intros S N D. apply H; [|done..]. intros x o. by rewrite lookup_empty. }
  clear l w. induction os as [|o os IH]; intros s O S N l w D; simpl in *; [injection D as <- <-; by split|].
  apply Forall_cons in S as (S1 & S2). destruct N as (N1 & N2). rewrite (exec_does inherits o s O S1 N1).
  destruct (does inherits o s) as [[a s1]|] eqn:E; [|done]. simpl in *. destruct (does_all inherits os s1) as [[l' w']|] eqn:E'; [|done]. injection D as <- <-.
  destruct (IH s1) with (l := l') (w := w') as (-> & O'); [by eapply does_ok|done..].
Qed.
(** An operation that throws has changed nothing: not the variant, not what was to be moved into it. *)
Theorem C95_throwing_changes_nothing inherits o s e s' : exec inherits o s = Some (Throws e, s') → s' = s.
Proof.
  destruct o as [x n ts|x n ts src|p src|p|p o|p|p|p X|p X|x]; simpl; try done.
  - destruct (read s src) as [[h o]|]; [|done]. simpl. destruct (construct n ts h o) as [[held rest]| |]; by intros [= _ <-].
  - destruct (get s p) as [[|n ts held]|]; [done| |done]. destruct (read s src) as [[h o]|]; [|done]. simpl. destruct (assign n ts h o) as [[held' rest]| |]; by intros [= _ <-].
  - by destruct (get s p) as [[|n ts held]|].
  - destruct (get s p) as [[|n ts held]|]; [done| |done]. by case_decide.
  - by destruct (get s p) as [[|n ts held]|].
  - destruct (get s p) as [[|n ts held]|]; [done| |done]. destruct (call ts held Ok); by intros [= _ <-].
  - by destruct (get s p) as [[|n ts held]|].
  - destruct (get s p) as [[|n ts held]|]; [done| |done]. destruct (variant_value _ held X); by intros [= _ <-].
  - by destruct (s !! x).
Qed.
(** A variant is never found to hold what is not in its list: Call and copying always find the type. *)
Lemma copy_from_listed ts o r : well_typed o → copy_from ts o = r → r ≠ Throw Unlisted ∧ ∀ name held, r = Ok held → well_typed (OVariant name ts held).
Proof.
  intros W <-. destruct o as [|n us held]; [done|]. rewrite copy_from_ok by done. destruct held as [o|]; [|by split; [|intros name held [= <-]; constructor]].
  inversion_clear W. case_decide; split; try done. intros name held [= <-]. by constructor.
Qed.
Lemma construct_listed name ts h o : well_typed o → construct name ts h o ≠ Throw Unlisted ∧
  ∀ held rest, construct name ts h o = Ok (held, rest) → well_typed (OVariant name ts held) ∧ rest = rest_of h o.
Proof.
  intros W. assert (D : h = ConstLvalue ∨ h ≠ ConstLvalue) by (destruct h; auto). destruct D as [->|D].
  2: { rewrite construct_ok by (done || by destruct h). destruct (gives name ts o) as [[held|]|] eqn:G; simpl; try done. split; [done|]. intros ? ? [= <- <-]. split; [by eapply gives_ok|done]. }
  assert (V : (r ← copy_from ts o; Ok (r, o)) ≠ Throw Unlisted ∧ ∀ held rest, (r ← copy_from ts o; Ok (r, o)) = Ok (held, rest) → well_typed (OVariant name ts held) ∧ rest = rest_of ConstLvalue o).
  { destruct (copy_from_listed ts o _ W eq_refl) as (N & K). destruct (copy_from ts o) as [held|e|]; simpl; [|split; [congruence|done]|done].
    split; [done|]. intros ? ? [= <- <-]. split; [by apply K|done]. }
  unfold construct. case_decide; [exact V|]. destruct o as [m v|n us held]; [|exact V]. case_decide; [|done]. simpl. split; [done|]. intros ? ? [= <- <-]. split; [by constructor|done].
Qed.
Theorem C95_types_are_always_found inherits os l s : Forall sane os → exec_all inherits os ∅ = Some (l, s) →
  Throws Unlisted ∉ l ∧ ∀ x o, s !! x = Some o → well_typed o.
Proof.
  enough (∀ s, ok s → Forall sane os → ∀ l s', exec_all inherits os s = Some (l, s') → Throws Unlisted ∉ l ∧ ok s') as H.
  { intros S E. eapply H; [|done|done]. intros x o. by rewrite lookup_empty. }
  clear l s. induction os as [|o os IH]; intros s O S l s' E; simpl in *; [injection E as <- <-; split; [apply not_elem_of_nil|done]|].
  apply Forall_cons in S as (S1 & S2). destruct (exec inherits o s) as [[a s1]|] eqn:E1; [|done]. simpl in E. destruct (exec_all inherits os s1) as [[l' s2]|] eqn:E2; [|done]. injection E as <- <-.
  enough (a ≠ Throws Unlisted ∧ ok s1) as (NA & O1).
  { destruct (IH s1 O1 S2 _ _ E2). split; [|done]. rewrite elem_of_cons. naive_solver. }
  clear IH S2 E2 l' s2. assert (D : (∃ x n ts src, o = Construct x n ts src) ∨ const_inner o s) by (destruct o; simpl; eauto 10). destruct D as [(x & n & ts & src & ->)|D].
  - simpl in E1. assert (read s src = source_of s src) as R by done. rewrite R in E1. destruct (source_of s src) as [[h o]|] eqn:E; [|done]. simpl in E1.
    assert (W : well_typed o) by (eapply source_ok; [done| |done]; by destruct src).
    destruct (construct_listed n ts h o W) as (N & K). destruct (construct n ts h o) as [[held rest]|e|]; [|injection E1 as <- <-; split; [congruence|done]|done].
    injection E1 as <- <-. destruct (K held rest eq_refl) as (WH & ->). split; [done|]. intros y o'.
    destruct (decide (x = y)) as [->|NE]; [rewrite lookup_insert; intros [= <-]; done|]. rewrite lookup_insert_ne by done. by apply leave_ok.
  - rewrite (exec_does inherits o s O S1 D) in E1. split; [|by eapply does_ok]. clear D S1. intros ->. destruct o as [x n ts|x n ts src|p src|p|p o|p|p|p X|p X|x]; simpl in E1; try done.
    + fold (source_of s src) in E1. destruct (source_of s src) as [[h o]|]; [|done]. simpl in E1. by destruct (gives n ts o) as [[held|]|].
    + destruct (get s p) as [[|n ts held]|]; [done| |done]. fold (source_of s src) in E1. destruct (source_of s src) as [[h o]|]; [|done]. simpl in E1. by destruct (gives n ts o) as [[held'|]|].
    + by destruct (get s p) as [[|n ts held]|].
    + destruct (get s p) as [[|n ts held]|]; [done| |done]. by case_decide.
    + by destruct (get s p) as [[|n ts held]|].
    + by destruct (get s p) as [[|n ts [o|]]|].
    + by destruct (get s p) as [[|n ts held]|].
    + destruct (get s p) as [[|n ts [o|]]|]; try done. by destruct (is_a inherits o X).
    + by destruct (s !! x).
Qed.
(** A copy is equal to what it was made from, at any depth. *)
Theorem C95_copies_are_equal inherits x y n ts held s : ok s → s !! y = Some (OVariant n ts held) → ∀ h, h ≠ Rvalue →
  exec inherits (Construct x n ts (At h (Place y []))) s = Some (Unit, <[x := OVariant n ts held]> s).
Proof.
  intros O E h H. rewrite exec_does; [|done|done|].
  - simpl. unfold get. simpl. rewrite E. simpl. unfold gives. rewrite decide_True by done. simpl. by destruct h.
  - simpl. destruct h; [|done|done]. unfold get. simpl. rewrite E. simpl. intros ? ? ? [= <- <- <-]. done.
Qed.

(** Constructing a variant from a const lvalue of a variant type that is in its list does not put that variant into it: the constructor for other variants is
    preferred (variant.h 148-151 is more specialized than 181-185), which tries to put there what the inner variant holds, and throws. From an lvalue that is not
    const, or by assignment, it works. *)
Theorem C95_const_inner_variants_can_be_put_refuted : ∃ os l s s' s2, let inherits := λ _ _, false in
  Forall sane os ∧ does_all inherits os ∅ = Some (l ++ [Unit], s) ∧ exec_all inherits os ∅ = Some (l ++ [Throws Incompatible], s') ∧
  ∃ x n ts p, last os = Some (Construct x n ts (At ConstLvalue p)) ∧
    exec_all inherits (take (length l) os ++ [Construct x n ts (At Lvalue p)]) ∅ = Some (l ++ [Unit], s) ∧
    exec_all inherits (take (length l) os ++ [Default x n ts; Assign (Place x []) (At ConstLvalue p)]) ∅ = Some (l ++ [Unit; Unit], s2) ∧ s2 !! x = s !! x.
Proof.
  eexists [Construct 0 1 [TStruct 1; TStruct 2] (Temporary (OStruct 2 7)); Construct 1 2 [TStruct 0; TVariant 1 [TStruct 1; TStruct 2]] (At ConstLvalue (Place 0 []))],
    [Unit], _, _, _. cbv zeta. split_and!; [repeat constructor|by vm_compute|by vm_compute|].
  eexists _, _, _, _. split_and!; by vm_compute.
Qed.

(** ** A program to which the theorems apply *)
Definition A : ty := TStruct 0. Definition B : ty := TStruct 1. Definition C : ty := TStruct 2.
Definition BC : ty := TVariant 1 [B; C].
Definition inh : nat → nat → bool := λ n b, (n =? 1) && (b =? 0).     (* B derives from A *)
Definition program : list op := [Construct 0 1 [B; C] (Temporary (OStruct 1 5)); Default 1 2 [A; BC]; Assign (Place 1 []) (At ConstLvalue (Place 0 []));
  Visit (Place 1 []); Visit (Place 1 [BC]); ExistsT (Place 0 []) A; ExistsT (Place 1 []) A; ValueT (Place 0 []) A; Construct 2 3 [A; C] (At Lvalue (Place 0 []));
  IsSet (Place 0 []); Default 2 3 [A; C]; Assign (Place 2 []) (At Rvalue (Place 1 [BC])); Assign (Place 1 [BC]) (Temporary (OStruct 2 6)); Assign (Place 2 []) (At Rvalue (Place 1 [BC]));
  IsSet (Place 1 [BC]); ValueT (Place 2 []) C; Assign (Place 1 []) (At ConstLvalue (Place 1 [BC])); Assign (Place 0 []) (At Rvalue (Place 0 [])); ValueT (Place 0 []) B; AssignNull (Place 0 []);
  Visit (Place 0 [])].
Example C95_program : Forall sane program ∧ no_const_inner inh program ∅ ∧ ∃ w, does_all inh program ∅ =
  Some ([Unit; Unit; Unit; Object (OVariant 1 [B; C] (Some (OStruct 1 5))); Object (OStruct 1 5); Is true; Is false; Object (OStruct 1 5); Throws Incompatible;
    Is true; Unit; Throws Incompatible; Unit; Unit; Is false; Object (OStruct 2 6); Unit; Unit; Object (OStruct 1 5); Unit; Throws Uninitialized], w).
Proof. split_and!; [repeat constructor|vm_compute; repeat split|]. eexists. by vm_compute. Qed.
Example C95_copy : ∃ s, ok s ∧ s !! 0 = Some (OVariant 2 [A; BC] (Some (OVariant 1 [B; C] (Some (OStruct 1 5))))).
Proof.
  exists {[0 := OVariant 2 [A; BC] (Some (OVariant 1 [B; C] (Some (OStruct 1 5))))]}. split; [|done].
  intros x o (_ & <-)%lookup_singleton_Some. repeat constructor.
Qed.

Print Assumptions C95_variants_hold_what_they_are_given.
Print Assumptions C95_throwing_changes_nothing.
Print Assumptions C95_types_are_always_found.
Print Assumptions C95_copies_are_equal.
Print Assumptions C95_const_inner_variants_can_be_put_refuted.
