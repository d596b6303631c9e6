(** * Proofs about command line flags *)
From Coq Require Import String.
From Verif Require Import Base Dec Flags_Model Flags_Spec.
From stdpp Require Import gmap list.
Local Open Scope list_scope.

Lemma bool_word_parse s : bool_word s ↔ parse_bool s ≠ None.
Proof.
  unfold bool_word, parse_bool. cbn [map]. split.
  - intros H. destruct (decide _) as [|D1]; [discriminate|]. destruct (decide _) as [|D2]; [discriminate|]. exfalso.
    revert H D1 D2. rewrite !elem_of_cons. tauto.
  - intros H. destruct (decide _) as [D|D1]; [|destruct (decide _) as [D|D2]; [|done]].
    + revert D. rewrite !elem_of_cons. tauto.
    + revert D. rewrite !elem_of_cons. tauto.
Qed.

Lemma bool_word_dash s : bool_word s → head s ≠ Some 45%N.
Proof.
  unfold bool_word. cbn [map]. rewrite !elem_of_cons, elem_of_nil. intros H.
  repeat (destruct H as [->|H]; [vm_compute; discriminate|]). done.
Qed.

(** The dashes *)
Lemma dashes_stop c s : head s ≠ Some 45%N → dashes c s = Some s.
Proof. destruct s as [|b r]; [done|]. simpl. intros H. destruct (decide (b = 45%N)) as [->|Hn]; [done|]. destruct b as [|b]; [done|]. do 6 (destruct b as [b|b|]; try done). Qed.
Lemma dashes_spec a s :
  head a = Some 45%N → dashes 0 a = Some s → (a = bs "-" ++ s ∨ a = bs "--" ++ s) ∧ head s ≠ Some 45%N.
Proof.
  destruct a as [|b r]; [done|]. intros [= ->]. cbn [dashes].
  rewrite decide_False by lia.
  destruct (decide (head r = Some 45%N)) as [E|E].
  - destruct r as [|b r]; [done|]. injection E as ->. cbn [dashes]. rewrite decide_False by lia.
    destruct (decide (head r = Some 45%N)) as [E|E].
    + destruct r as [|b r]; [done|]. injection E as ->. cbn [dashes]. rewrite decide_True by lia. discriminate.
    + rewrite dashes_stop by done. intros [= ->]. auto.
  - rewrite dashes_stop by done. intros [= ->]. auto.
Qed.
Lemma dashes_complete d s : d = bs "-" ∨ d = bs "--" → head s ≠ Some 45%N → dashes 0 (d ++ s) = Some s.
Proof.
  intros [->| ->] H; cbn -[dashes]; cbn [dashes]; rewrite ?decide_False by lia; by apply dashes_stop.
Qed.

Lemma split_eq_spec s name v :
  split_eq s = (name, v) ↔ s = name ++ match v with Some v => bs "=" ++ v | None => [] end ∧ 61%N ∉ name.
Proof.
  revert name v. induction s as [|b r IH]; intros name v.
  - cbn. split.
    + intros [= <- <-]. split; [done|]. apply not_elem_of_nil.
    + intros [H _]. destruct name; [|discriminate]. destruct v; [discriminate|]. done.
  - assert (split_eq (b :: r) = if decide (b = 61%N) then ([], Some r) else let '(n, v) := split_eq r in (b :: n, v)) as ->.
    { case_decide as D; [by subst|]. cbn. destruct b as [|b]; [done|]. do 6 (destruct b as [b|b|]; try done). }
    case_decide as D.
    + subst b. split.
      * intros [= <- <-]. split; [done|]. apply not_elem_of_nil.
      * intros [H1 H2]. destruct name as [|x name]; simpl in H1.
        -- destruct v; [|discriminate]. change (bs "=") with [61%N] in H1. injection H1 as <-. done.
        -- injection H1 as <- _. destruct H2. left.
    + destruct (split_eq r) as [n w] eqn:E. destruct (proj1 (IH n w) eq_refl) as [H1 H2]. split.
      * intros [= <- <-]. split; [by rewrite H1|]. rewrite elem_of_cons. intros [?|?]; [congruence|done].
      * intros [H3 H4]. destruct name as [|x name]; simpl in H3.
        -- destruct v; [|discriminate]. change (bs "=") with [61%N] in H3. injection H3 as -> _. done.
        -- injection H3 as <- H3. assert (split_eq r = (name, v)) as X; [|rewrite E in X; congruence].
           rewrite E. apply IH. split; [done|]. rewrite elem_of_cons in H4. tauto.
Qed.

(** What the code makes of one argument is what its form says. *)
Lemma flag_arg_dash a name v : flag_arg a name v → head a = Some 45%N.
Proof. intros [(d & [->| ->] & ->) _]; done. Qed.
Lemma flag_arg_parse a name v :
  flag_arg a name v ↔ head a = Some 45%N ∧ ∃ s, dashes 0 a = Some s ∧ split_eq s = (name, v).
Proof.
  split.
  - intros H. split; [by eapply flag_arg_dash|]. destruct H as ((d & Hd & ->) & H1 & H2).
    exists (name ++ match v with Some v => bs "=" ++ v | None => [] end). split.
    + apply dashes_complete; [done|]. destruct name; [|done]. by destruct v.
    + by apply split_eq_spec.
  - intros [H (s & Hd & Hs)]. apply dashes_spec in Hd as [Hd Hh]; [|done].
    apply split_eq_spec in Hs as [-> Hs]. split; [|split; [done|]].
    + destruct Hd as [->| ->]; [exists (bs "-")|exists (bs "--")]; auto.
    + destruct name; [done|]. done.
Qed.
Lemma flag_arg_unique a n1 v1 n2 v2 : flag_arg a n1 v1 → flag_arg a n2 v2 → n1 = n2 ∧ v1 = v2.
Proof.
  rewrite !flag_arg_parse. intros [_ (s1 & H1 & H2)] [_ (s2 & H3 & H4)]. rewrite H1 in H3. injection H3 as <-.
  rewrite H2 in H4. by injection H4.
Qed.

Section Parse.
  Context (reg : gmap bytes kind).

  Lemma parse_param a rest params st :
    head a ≠ Some 45%N → parse_args reg (a :: rest) params st = parse_args reg rest (params ++ [a]) st.
  Proof.
    destruct a as [|b r]; [done|]. intros H. cbn.
    destruct b as [|b]; [done|]. do 6 (destruct b as [b|b|]; try done).
  Qed.

  Definition flag_case (name : bytes) (v : option bytes) (rest params : list bytes) (st : gmap bytes value) : outcome :=
    if decide (name = bs "help") then Exits 0
    else match reg !! name with
         | None => Exits (-1)
         | Some k =>
             match v with
             | Some v => set_flag name k v (parse_args reg rest params) st
             | None =>
                 match rest with
                 | [] => if decide (k = KBool) then set_flag name k (bs "1") (parse_args reg rest params) st else Exits (-1)
                 | next :: rest' =>
                     if decide (k = KBool ∧ parse_bool next = None) then set_flag name k (bs "1") (parse_args reg rest params) st
                     else set_flag name k next (parse_args reg rest' params) st
                 end
             end
         end.
  Lemma parse_flag_arg a name v rest params st :
    flag_arg a name v → parse_args reg (a :: rest) params st = flag_case name v rest params st.
  Proof.
    intros H. apply flag_arg_parse in H as [H (s & Hd & Hs)]. destruct a as [|b a]; [done|]. injection H as ->.
    cbn [parse_args]. rewrite Hd. rewrite Hs. done.
  Qed.
  Lemma dash_cases a : head a = Some 45%N → (∃ name v, flag_arg a name v) ∨ dashes 0 a = None.
  Proof.
    intros H. destruct (dashes 0 a) as [s|] eqn:E; [left|by right].
    destruct (split_eq s) as [n v] eqn:E2. exists n, v. apply flag_arg_parse. split; [done|]. eauto.
  Qed.
  Lemma parse_bad_dashes a rest params st :
    head a = Some 45%N → dashes 0 a = None → parse_args reg (a :: rest) params st = Exits (-1).
  Proof. intros H Hd. destruct a as [|b a]; [done|]. injection H as ->. cbn [parse_args]. by rewrite Hd. Qed.

  Lemma set_flag_continues name k v go st st' ps :
    set_flag name k v go st = Continues st' ps ↔ ∃ x, parse_value k v = Some x ∧ go (<[name := x]> st) = Continues st' ps.
  Proof. unfold set_flag. destruct (parse_value k v); split; [eauto|intros (? & [= <-] & ?); done|discriminate|intros (? & ? & ?); discriminate]. Qed.

  (** Soundness: the strong induction is on the number of arguments, as a flag can take two. *)
  Lemma parse_sound n args params st st' params' :
    length args ≤ n →
    parse_args reg args params st = Continues st' params' →
    ∃ sets ps, command reg args sets ps ∧ params' = params ++ ps ∧ assign reg sets st = Some st'.
  Proof.
    revert args params st. induction n as [|n IH]; intros args params st Hn.
    { destruct args; simpl in Hn; [|lia]. intros [= <- <-]. exists [], []. rewrite app_nil_r. repeat split. constructor. }
    destruct args as [|a rest].
    { intros [= <- <-]. exists [], []. rewrite app_nil_r. repeat split. constructor. }
    cbn [length] in Hn.
    destruct (decide (head a = Some 45%N)) as [Hd|Hd].
    2:{ rewrite parse_param by done. intros H. apply IH in H as (sets & ps & H1 & -> & H2); [|lia].
        exists sets, (a :: ps). rewrite <- app_assoc. repeat split; [by constructor|done]. }
    destruct (dash_cases a Hd) as [(name & v & Hf)|Hb]; [|by rewrite parse_bad_dashes].
    rewrite (parse_flag_arg _ _ _ _ _ _ Hf). unfold flag_case.
    destruct (decide (name = bs "help")) as [|Hh]; [discriminate|].
    destruct (reg !! name) as [k|] eqn:Ek; [|discriminate].
    destruct v as [v|].
    { rewrite set_flag_continues. intros (x & Hx & H). apply IH in H as (sets & ps & H1 & -> & H2); [|lia].
      exists ((name, v) :: sets), ps. split; [by eapply command_equals|]. split; [done|]. cbn [assign]. rewrite Ek. cbn. rewrite Hx. done. }
    destruct rest as [|next rest'].
    { destruct (decide (k = KBool)) as [->|]; [|discriminate].
      rewrite set_flag_continues. intros (x & Hx & H). apply IH in H as (sets & ps & H1 & -> & H2); [|cbn [length]; lia].
      exists ((name, bs "1") :: sets), ps. split; [by eapply command_true|]. split; [done|].
      cbn [assign]. rewrite Ek. cbn -[parse_value bs]. rewrite Hx. done. }
    cbn [length] in Hn. destruct (decide _) as [[-> Hp]|Hnp].
    { rewrite set_flag_continues. intros (x & Hx & H). apply IH in H as (sets & ps & H1 & -> & H2); [|cbn [length]; lia].
      exists ((name, bs "1") :: sets), ps. split.
      - eapply command_true; eauto. intros v [= <-] W%bool_word_parse. done.
      - split; [done|]. cbn [assign]. rewrite Ek. cbn -[parse_value bs]. rewrite Hx. done. }
    rewrite set_flag_continues. intros (x & Hx & H). apply IH in H as (sets & ps & H1 & -> & H2); [|lia].
    exists ((name, next) :: sets), ps. split.
    - eapply command_space; eauto. intros ->. apply bool_word_parse. intros E. by apply Hnp.
    - split; [done|]. cbn [assign]. rewrite Ek. cbn. rewrite Hx. done.
  Qed.

  (** Completeness, and the same with more arguments after these. *)
  Lemma parse_complete args sets ps rest :
    command reg args sets ps → (∀ v, head rest = Some v → ¬ bool_word v) →
    ∀ params st,
      parse_args reg (args ++ rest) params st =
        match assign reg sets st with None => Exits (-1) | Some st' => parse_args reg rest (params ++ ps) st' end.
  Proof.
    intros C Hr. induction C as [|a args sets ps Ha C IH|a name v k args sets ps Hf Hh Hk C IH
                                |a name v k args sets ps Hf Hh Hk Hb C IH|a name args sets ps Hf Hh Hk Hb C IH];
      intros params st; cbn [app].
    - cbn. by rewrite app_nil_r.
    - rewrite parse_param by done. rewrite IH. destruct (assign reg sets st); [|done]. by rewrite <- app_assoc.
    - rewrite (parse_flag_arg _ _ _ _ _ _ Hf). unfold flag_case. rewrite decide_False by done. rewrite Hk.
      unfold set_flag. cbn [assign]. rewrite Hk. cbn. destruct (parse_value k v); [|done]. cbn. apply IH.
    - rewrite (parse_flag_arg _ _ _ _ _ _ Hf). unfold flag_case. rewrite decide_False by done. rewrite Hk.
      rewrite decide_False.
      2:{ intros [-> H]. specialize (Hb eq_refl). by apply bool_word_parse in Hb. }
      unfold set_flag. cbn [assign]. rewrite Hk. cbn. destruct (parse_value k v); [|done]. cbn. apply IH.
    - rewrite (parse_flag_arg _ _ _ _ _ _ Hf). unfold flag_case. rewrite decide_False by done. rewrite Hk.
      assert (∀ v, head (args ++ rest) = Some v → parse_bool v = None) as Hb'.
      { intros v Hv. assert (¬ bool_word v) as W.
        - destruct args as [|x args]; [by apply Hr|]. by apply Hb.
        - rewrite bool_word_parse in W. by destruct (parse_bool v); [destruct W|]. }
      assert (∀ X Y : outcome, match args ++ rest with [] => (if decide (KBool = KBool) then X else Exits (-1)) | next :: rest' =>
                 if decide (KBool = KBool ∧ parse_bool next = None) then X else Y end = X) as E.
      { intros X Y. destruct (args ++ rest) as [|x l]; [by rewrite decide_True|]. rewrite decide_True; [done|]. auto. }
      destruct (args ++ rest) as [|x l] eqn:El.
      + rewrite decide_True by done. unfold set_flag. cbn [assign]. rewrite Hk. cbn -[parse_value bs].
        destruct (parse_value KBool (bs "1")); [|done]. apply IH.
      + rewrite decide_True by (split; [done|]; by apply Hb').
        unfold set_flag. cbn [assign]. rewrite Hk. cbn -[parse_value bs parse_args].
        destruct (parse_value KBool (bs "1")); [|done]. apply IH.
  Qed.

  Lemma command_unique args sets1 ps1 sets2 ps2 :
    command reg args sets1 ps1 → command reg args sets2 ps2 → sets1 = sets2 ∧ ps1 = ps2.
  Proof.
    intros C. revert sets2 ps2.
    induction C as [|a args sets ps Ha C IH|a name v k args sets ps Hf Hh Hk C IH
                   |a name v k args sets ps Hf Hh Hk Hb C IH|a name args sets ps Hf Hh Hk Hb C IH];
      intros sets2 ps2 D; inversion D; subst; try done;
      repeat match goal with H : flag_arg ?a _ _ |- _ => lazymatch goal with _ : head a = Some 45%N |- _ => fail | _ => pose proof (flag_arg_dash _ _ _ H) end end;
      try done;
      try match goal with H1 : flag_arg ?a _ _, H2 : flag_arg ?a _ _ |- _ =>
        destruct (flag_arg_unique _ _ _ _ _ H1 H2) as [? ?]; try discriminate; simplify_eq end;
      try match goal with H : command _ ?l _ _, IH : ∀ s p, command _ ?l s p → _ |- _ => destruct (IH _ _ H); subst; done end.
    - (* one says that the word is the value, the other that it is not *)
      exfalso. match goal with H : ∀ v, head _ = Some v → _ |- _ => eapply H; [reflexivity|] end. apply Hb. congruence.
    - exfalso. eapply Hb; [reflexivity|]. match goal with H : _ → bool_word _ |- _ => apply H end. congruence.
  Qed.

  (** Exits. *)
  Lemma set_flag_exits name k v go st c :
    set_flag name k v go st = Exits c → c = (-1)%Z ∨ ∃ x, parse_value k v = Some x ∧ go (<[name := x]> st) = Exits c.
  Proof. unfold set_flag. destruct (parse_value k v); [eauto|]. intros [= <-]. auto. Qed.

  Lemma parse_exits n args params st c :
    length args ≤ n → parse_args reg args params st = Exits c →
    c = (-1)%Z ∨
    (c = 0%Z ∧ ∃ pre a v post sets ps st', args = pre ++ a :: post ∧ command reg pre sets ps ∧ assign reg sets st = Some st' ∧ flag_arg a (bs "help") v).
  Proof.
    revert args params st. induction n as [|n IH]; intros args params st Hn.
    { destruct args; simpl in Hn; [discriminate|lia]. }
    destruct args as [|a rest]; [discriminate|]. cbn [length] in Hn.
    destruct (decide (head a = Some 45%N)) as [Hd|Hd].
    2:{ rewrite parse_param by done. intros H. apply IH in H as [?|(-> & pre & a' & v & post & sets & ps & st' & -> & H1 & H2 & H3)]; [auto| |lia].
        right. split; [done|]. exists (a :: pre), a', v, post, sets, (a :: ps), st'. split; [done|]. split; [by constructor|done]. }
    destruct (dash_cases a Hd) as [(name & v & Hf)|Hb].
    2:{ rewrite parse_bad_dashes by done. intros [= <-]. auto. }
    rewrite (parse_flag_arg _ _ _ _ _ _ Hf). unfold flag_case.
    destruct (decide (name = bs "help")) as [->|Hh].
    { intros [= <-]. right. split; [done|]. exists [], a, v, rest, [], [], st. repeat split; [constructor|apply Hf..]. }
    destruct (reg !! name) as [k|] eqn:Ek; [|intros [= <-]; auto].
    destruct v as [v|].
    { intros H. apply set_flag_exits in H as [?|(x & Hx & H)]; [auto|].
      apply IH in H as [?|(-> & pre & a' & v' & post & sets & ps & st' & -> & H1 & H2 & H3)]; [auto| |lia].
      right. split; [done|]. exists (a :: pre), a', v', post, ((name, v) :: sets), ps, st'. split; [done|].
      split; [by eapply command_equals|]. split; [|done]. cbn [assign]. rewrite Ek. cbn. by rewrite Hx. }
    destruct rest as [|next rest'].
    { case_decide as D; [|intros [= <-]; auto]. intros H. apply set_flag_exits in H as [?|(x & Hx & H)]; [auto|]. discriminate. }
    cbn [length] in Hn. case_decide as D.
    { destruct D as [-> D]. intros H. apply set_flag_exits in H as [?|(x & Hx & H)]; [auto|].
      apply IH in H as [?|(-> & pre & a' & v' & post & sets & ps & st' & E & H1 & H2 & H3)]; [auto| |cbn [length]; lia].
      right. split; [done|]. rewrite E. exists (a :: pre), a', v', post, ((name, bs "1") :: sets), ps, st'. split; [done|].
      split.
      - eapply command_true; eauto. intros w Hw. assert (w = next) as ->.
        { destruct pre; [done|]. simpl in *. congruence. }
        rewrite bool_word_parse. intros X. by apply X.
      - split; [|done]. cbn [assign]. rewrite Ek. cbn -[parse_value bs]. by rewrite Hx. }
    intros H. apply set_flag_exits in H as [?|(x & Hx & H)]; [auto|].
    apply IH in H as [?|(-> & pre & a' & v' & post & sets & ps & st' & -> & H1 & H2 & H3)]; [auto| |lia].
    right. split; [done|]. exists (a :: next :: pre), a', v', post, ((name, next) :: sets), ps, st'. split; [done|].
    split.
    - eapply command_space; eauto. intros ->. apply bool_word_parse. intros E. by apply D.
    - split; [|done]. cbn [assign]. rewrite Ek. cbn. by rewrite Hx.
  Qed.

  Lemma assign_lookup sets st st' n :
    assign reg sets st = Some st' →
    st' !! n = match last (filter (λ p : bytes * bytes, p.1 = n) sets) with
               | None => st !! n
               | Some (_, s) => k ← reg !! n; parse_value k s
               end.
  Proof.
    revert st. induction sets as [|[m s] r IH]; intros st; [intros [= <-]; done|].
    cbn [assign]. destruct (reg !! m) as [k|] eqn:Ek; [|discriminate]. cbn [mbind option_bind].
    destruct (parse_value k s) as [v|] eqn:Ev; [|discriminate]. cbn [mbind option_bind]. intros H. rewrite (IH _ H). clear IH H.
    rewrite filter_cons. cbn [fst]. destruct (decide (m = n)) as [->|Hn].
    - destruct (filter _ r) as [|p l] eqn:El.
      + cbn. rewrite lookup_insert, Ek. cbn. by rewrite Ev.
      + cbn [last]. destruct (last (p :: l)) as [[? ?]|] eqn:Ep; [done|]. by apply last_None in Ep.
    - destruct (last _) as [[? ?]|]; [done|]. by rewrite lookup_insert_ne.
  Qed.
End Parse.

(** ** Values *)
Lemma digits_all s : Forall (λ b, is_digit b = true) s → digits s = s.
Proof. induction 1 as [|b r Hb _ IH]; cbn; [done|]. by rewrite Hb, IH. Qed.
Lemma digits_prefix s : ∃ r, s = digits s ++ r ∧ Forall (λ b, is_digit b = true) (digits s).
Proof.
  induction s as [|b s IH]; cbn; [by exists []|]. destruct (is_digit b) eqn:E.
  - destruct IH as (r & H1 & H2). exists r. split; [by rewrite H1 at 1|]. by constructor.
  - exists (b :: s). split; [done|constructor].
Qed.
Lemma skip_space_suffix s : ∃ sp, s = sp ++ skip_space s ∧ Forall (λ b, is_space b = true) sp.
Proof.
  induction s as [|b s IH]; cbn; [exists []; split; [done|constructor]|]. destruct (is_space b) eqn:E.
  - destruct IH as (sp & H1 & H2). exists (b :: sp). split; [by rewrite H1 at 1|]. by constructor.
  - exists []. split; [done|constructor].
Qed.
Lemma skip_space_dec b r : is_digit b = true ∨ b = 45%N → skip_space (b :: r) = b :: r.
Proof.
  intros H. cbn. assert (is_space b = false) as ->; [|done]. unfold is_space, is_digit in *.
  destruct H as [H| ->]; [|done]. apply andb_true_iff in H as [H1 H2]. apply N.leb_le in H1, H2.
  apply orb_false_iff. split; [apply N.eqb_neq; lia|]. apply andb_false_iff. right. apply N.leb_gt. lia.
Qed.
Lemma sign_and_digits_digit b r : is_digit b = true → sign_and_digits (b :: r) = (false, digits (b :: r)).
Proof.
  intros H. unfold is_digit in H. apply andb_true_iff in H as [H1 H2]. apply N.leb_le in H1, H2.
  unfold sign_and_digits. destruct b as [|b]; [done|]. do 6 (destruct b as [b|b|]; try done; try lia).
Qed.
Lemma sign_and_digits_zdec z :
  sign_and_digits (skip_space (zdec z)) = ((z <? 0)%Z, dec (Z.to_N (Z.abs z))).
Proof.
  unfold zdec. destruct (z <? 0)%Z eqn:E.
  - apply Z.ltb_lt in E. rewrite skip_space_dec by auto. cbn [sign_and_digits].
    rewrite digits_all by apply dec_is_digit. do 3 f_equal. lia.
  - apply Z.ltb_ge in E. destruct (dec_head_digit (Z.to_N z)) as (b & r & Hb & Hd).
    rewrite Z.abs_eq by done.
    rewrite Hb, skip_space_dec by auto. rewrite sign_and_digits_digit by done. rewrite <- Hb. rewrite digits_all by apply dec_is_digit. done.
Qed.
Lemma text_of_parse k s v : text_of k s v → parse_value k s = Some v.
Proof.
  intros H. destruct H as [s|s H|s H|bits z H|bits z H]; cbn [parse_value].
  - done.
  - unfold parse_bool. rewrite decide_True; [done|]. exact H.
  - unfold parse_bool. rewrite decide_False.
    2:{ cbn [map] in H. rewrite !elem_of_cons, elem_of_nil in H.
        rewrite !elem_of_cons, elem_of_nil. intros D.
        repeat (destruct H as [->|H]; [vm_compute in D; intuition discriminate|]). done. }
    rewrite decide_True; [done|]. exact H.
  - unfold read_int. rewrite sign_and_digits_zdec. rewrite decide_False by apply dec_nonempty. rewrite horner_dec.
    assert ((if (z <? 0)%Z then (- Z.of_N (Z.to_N (Z.abs z)))%Z else Z.of_N (Z.to_N (Z.abs z))) = z) as ->.
    { destruct (z <? 0)%Z eqn:E; lia. }
    by rewrite decide_True.
  - unfold read_uint. rewrite sign_and_digits_zdec. rewrite decide_False by apply dec_nonempty. rewrite horner_dec.
    rewrite decide_True by lia. assert ((z <? 0)%Z = false) as -> by lia. cbn. do 2 f_equal. lia.
Qed.

(** What an integer flag accepts: spaces, a sign, digits, anything. *)
Lemma sign_and_digits_split s neg d :
  sign_and_digits s = (neg, d) → ∃ sg r, s = sg ++ d ++ r ∧ (if neg then sg = bs "-" else sg = [] ∨ sg = bs "+") ∧ Forall (λ b, is_digit b = true) d.
Proof.
  intros H. assert ((∃ r, s = bs "-" ++ r ∧ neg = true ∧ d = digits r) ∨ (∃ r, s = bs "+" ++ r ∧ neg = false ∧ d = digits r) ∨ (neg = false ∧ d = digits s)) as C.
  { unfold sign_and_digits in H. destruct s as [|b r]; [injection H as <- <-; auto|].
    destruct (decide (b = 45%N)) as [->|N1]; [injection H as <- <-; left; by exists r|].
    destruct (decide (b = 43%N)) as [->|N2]; [injection H as <- <-; right; left; by exists r|].
    right. right. destruct b as [|b]; [injection H as <- <-; done|].
    do 6 (destruct b as [b|b|]; try (injection H as <- <-; done); try done). }
  destruct C as [(r & -> & -> & ->)|[(r & -> & -> & ->)|[-> ->]]].
  - destruct (digits_prefix r) as (t & H1 & H2). exists (bs "-"), t. split; [by rewrite H1 at 1|done].
  - destruct (digits_prefix r) as (t & H1 & H2). exists (bs "+"), t. split; [by rewrite H1 at 1|auto].
  - destruct (digits_prefix s) as (t & H1 & H2). exists [], t. split; [done|auto].
Qed.
Lemma read_int_prefix bits s z :
  read_int bits s = Some z →
  ∃ sp sg d r, s = sp ++ sg ++ d ++ r ∧ Forall (λ b, is_space b = true) sp ∧ d ≠ [] ∧ Forall (λ b, is_digit b = true) d ∧
    ((sg = bs "-" ∧ z = (- Z.of_N (horner d))%Z) ∨ ((sg = [] ∨ sg = bs "+") ∧ z = Z.of_N (horner d))) ∧
    (- 2 ^ (bits - 1) ≤ z < 2 ^ (bits - 1))%Z.
Proof.
  unfold read_int. destruct (sign_and_digits (skip_space s)) as [neg d] eqn:E.
  case_decide as Hd; [discriminate|]. case_decide as Hr; [|discriminate]. intros [= <-].
  apply sign_and_digits_split in E as (sg & r & E & Hs & HD).
  destruct (skip_space_suffix s) as (sp & H1 & H2). exists sp, sg, d, r.
  rewrite E in H1. split; [done|]. split; [done|]. split; [done|]. split; [done|].
  split; [|done]. destruct neg; auto.
Qed.
