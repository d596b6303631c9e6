(** * The types of what a schema gives *)
From stdpp Require Import list.
From Verif Require Import Nlp_Model Nlp_Spec Nlp_Props.

Lemma fits_wrapped v t : fits v t → Forall2 fits (wrapped t v) (wrapped_ty t).
Proof. intros H. inversion H as [|n k|l ts L|w u ts E N W]; subst; simpl; try done; (constructor; [done|constructor]). Qed.
Lemma fits_cat v w t u : fits v t → fits w u → fits (cat t u v w) (TTuple (wrapped_ty t ++ wrapped_ty u)).
Proof. intros V W. constructor. apply Forall2_app; by apply fits_wrapped. Qed.
Lemma fits_alternatives v t : fits v t → ∃ u, u ∈ alternatives t ∧ (∀ us, u ≠ TVariant us) ∧ fits (contents v) u.
Proof.
  intros H. inversion H as [|n k|l ts L|w u ts E N W]; subst; simpl.
  - exists TUnit. split_and!; [by left|done|done].
  - exists (TData k). split_and!; [by left|done|done].
  - exists (TTuple ts). split_and!; [by left|done|done].
  - eauto.
Qed.
Lemma or_value_eq a b t v : fits v t → a ≠ b → or_value a b t v = VVariant (contents v).
Proof. intros H N. unfold or_value. rewrite decide_False by done. by inversion H. Qed.
Lemma fits_or a b t v : t = a ∨ t = b → fits v t → fits (or_value a b t v) (or_ty a b).
Proof.
  intros T H. unfold or_ty. destruct (decide (a = b)) as [<-|N]; [unfold or_value; rewrite decide_True by done; by destruct T as [-> | ->]|].
  rewrite (or_value_eq a b t v H N). destruct (fits_alternatives v t H) as (u & U & NV & W). econstructor; [|exact NV|exact W].
  destruct (decide (u ∈ alternatives a)) as [I|I]; apply elem_of_app; [by left|right]. apply elem_of_list_filter. split; [done|]. by destruct T as [-> | ->].
Qed.

(** What a schema gives is of the type the schema has: Units, what the dictionaries have, flat tuples, and Variants that are not within Variants. *)
Theorem C98_results_are_of_the_type F P query b : maps_fit F b → (∀ t f v, t ∈ query → fields t f = Some v → fits v (TData f)) →
  ∀ i j v, v ∈ results F P query b i j → fits v (emitted b).
Proof.
  intros M Q i j v H. apply C98_what_matches in H. revert M. induction H; simpl; intros M;
    repeat match goal with K : _ ∧ _ |- _ => let a := fresh "M" in let b := fresh "M" in destruct K as [a b] end;
    repeat match goal with IH : ?P → fits _ _, K : ?P |- _ => specialize (IH K) end.
  - constructor.
  - eapply Q; [|done]. by eapply elem_of_list_lookup_2.
  - constructor.
  - constructor.
  - rewrite H, H0. constructor.
  - rewrite H, H0. constructor.
  - by apply fits_or; [left|].
  - by apply fits_or; [right|].
  - by apply fits_cat.
  - destruct (emitted a) eqn:EA, (emitted b) eqn:EB; try done; by apply fits_cat.
  - match goal with K : emitted a = TUnit |- _ => rewrite K in * end. by destruct (emitted b).
  - match goal with K : emitted b = TUnit |- _ => rewrite K in * end. by destruct (emitted a).
  - match goal with K : emitted a = TUnit, K' : emitted b = TUnit |- _ => rewrite K, K' in * end. constructor.
  - eauto.
  - eauto.
Qed.
(** What [a | b] gives is what [a] gives and then what [b] gives; only the Variants around them can differ. *)
Theorem C98_or_gives_both F P query a b : maps_fit F a → maps_fit F b → (∀ t f v, t ∈ query → fields t f = Some v → fits v (TData f)) →
  ¬ (emitted a = TUnit ∧ emitted b = TUnit) → ∀ i j,
  contents <$> results F P query (Or a b) i j = contents <$> (results F P query a i j ++ results F P query b i j).
Proof.
  intros MA MB Q N i j. cbn [results]. rewrite decide_False by done. rewrite !fmap_app, <- !list_fmap_compose. f_equal; apply list_fmap_ext; intros k v L; simpl;
    apply elem_of_list_lookup_2 in L.
  - pose proof (C98_results_are_of_the_type F P query a MA Q i j v L) as T.
    destruct (decide (emitted a = emitted b)) as [E|E]; [unfold or_value; by rewrite decide_True|]. by rewrite or_value_eq.
  - pose proof (C98_results_are_of_the_type F P query b MB Q i j v L) as T.
    destruct (decide (emitted a = emitted b)) as [E|E]; [unfold or_value; by rewrite decide_True|]. by rewrite or_value_eq.
Qed.

(** [digit | (word | digit)]: a Variant of the two *)
Definition ex_word (w : list nat) : term := annotate None [([49], 0, VData 1); ([49], 1, VData 5)] w.
Example ex_types : maps_fit (λ _ v, v) (Or (Dictionary 0) (Or (Dictionary 1) (Dictionary 0))) ∧
  emitted (Or (Dictionary 0) (Or (Dictionary 1) (Dictionary 0))) = TVariant [TData 0; TData 1] ∧
  results (λ _ v, v) (λ _ _, true) [ex_word [49]] (Or (Dictionary 0) (Or (Dictionary 1) (Dictionary 0))) 0 1 = [VVariant (VData 1); VVariant (VData 5); VVariant (VData 1)] ∧
  fields (ex_word [49]) 1 = Some (VData 5).
Proof. split_and!; [repeat split|vm_compute; reflexivity|vm_compute; reflexivity|vm_compute; reflexivity]. Qed.

Print Assumptions C98_results_are_of_the_type.
Print Assumptions C98_or_gives_both.
