(** What the endpoint has sent, as an invariant of its calls. *)
From Coq Require Import String Sorted.
From Verif Require Import Base Persister_Model Persister_Spec Stream_Model Stream_Spec Stream_Proofs Replicator_Model Replicator_Spec PubSub_Model PubSub_Spec PubSub_Proofs.
Local Open Scope list_scope.

Section Inv.
Context {E : Type}.
Variable p : params.
Variable now : Z.
Variable aJ : idxts -> bytes.
Variable bJ : E -> bytes.
Variable tJ : Z -> bytes.

Definition text (x : idxts * E) : bytes := if p_entries_only p then bJ (snd x) ++ [NL] else aJ (fst x) ++ [TAB] ++ bJ (snd x) ++ [NL].
Definition sizeof (x : idxts * E) : N := blen (text x).
Definition total (l : list (idxts * E)) : N := fold_right (fun x n => sizeof x + n)%N 0%N l.
Definition line_text (l : line E) : bytes := match l with LEntry x => text x | LHead t => tJ t ++ [NL] end.
Fixpoint joined (l : list (idxts * E)) : bytes := match l with [] => [] | [x] => text x | x :: l => text x ++ COMMA ++ joined l end.
Definition open_array (l : list (idxts * E)) : bytes := match l with [] => [] | _ => OPEN ++ joined l end.
Definition body_of (told : list (line E)) : bytes := if p_array p then open_array (entries_of told) else flat_map line_text told.
Definition init := ep_init p now.

Notation trace := (list (ev E * bool)).
Definition heads (tr : trace) : list Z := flat_map (fun x => match fst x with EvHead t => [t] | _ => [] end) tr.
Definition passed_at (tr : trace) (x : idxts * E) (last : idxts) (r : bool) : Prop := In (EvEntry (fst x) (snd x) last, r) tr.
Definition starts (x : idxts * E) (last : idxts) : bool := start p (e_from init) (fst (fst x)) (snd (fst x)) (fst last).

Record inv (tr : trace) (e : ep) (skipped sent : list (idxts * E)) (told : list (line E)) : Prop := {
  i_del : delivered tr = skipped ++ sent;
  i_sent : entries_of told = sent;
  i_plain : p_array p || p_entries_only p = true -> told = map LEntry sent;
  i_sorted : StronglySorted Z.lt (map line_time told);
  i_incl : incl (map line_time told) (times tr);
  i_from : e_from e = e_from init;
  i_off : e_serving e = false -> told = [] /\ sent = [] /\ e_serving init = false;
  i_skip : Forall (fun x => exists last, passed_at tr x last true /\ starts x last = false) skipped;
  i_on : e_serving init = true -> skipped = [] /\ e_serving e = true;
  i_why : e_serving e = true -> e_serving init = true \/ (exists t, In t (heads tr) /\ (0 < e_from init <= t)%Z /\ Forall (fun x => t < snd (fst x))%Z sent) \/
            (exists x l last, sent = x :: l /\ passed_at tr x last true /\ starts x last = true);
  i_n : e_n e = (p_n p - N.of_nat (List.length sent))%N /\ (p_n p <> 0 -> N.of_nat (List.length sent) < p_n p)%N;
  i_size : e_size e = total sent /\ (p_bytes p <> 0 -> total sent < p_bytes p)%N;
  i_to0 : p_period p = 0%Z -> e_to e = 0%Z;
  i_to : p_period p <> 0%Z -> (e_to e = 0%Z /\ sent = [] /\ told = []) \/
            (exists t, e_to e = (t + p_period p)%Z /\ (0 <= t)%Z /\ In t (times tr) /\ Forall (fun x => t <= snd (fst x) <= e_to e)%Z sent /\
               (In t (heads tr) \/ exists x l, sent = x :: l /\ t = snd (fst x)));
  i_nowait : p_nowait p = true -> forall x last, passed_at tr x last true -> fst (fst x) <> fst last;
  i_started : e_started e = (p_array p && match sent with [] => false | _ => true end);
  i_heads : forall t, In (LHead t) told -> In t (heads tr);
  i_hfrom : forall t, In (LHead t) told -> e_serving init = false -> (e_from init <= t)%Z }.

Lemma inv_init : inv [] init [] [] [].
Proof.
  split; cbn; auto; try easy.
  - constructor.
  - split; [lia|]. lia.
  - split; [lia|]. lia.
  - now rewrite andb_false_r.
Qed.

Lemma entries_app l m : @entries_of E (l ++ m) = entries_of l ++ entries_of m.
Proof. apply flat_map_app. Qed.
Lemma heads_app a c : heads (a ++ c) = heads a ++ heads c.
Proof. apply flat_map_app. Qed.
Lemma total_app l m : total (l ++ m) = (total l + total m)%N.
Proof. induction l as [|x l IH]; [reflexivity|]. change (sizeof x + total (l ++ m) = sizeof x + total l + total m)%N. rewrite IH. lia. Qed.
Lemma joined_snoc l x : joined (l ++ [x]) = match l with [] => text x | _ => joined l ++ COMMA ++ text x end.
Proof.
  induction l as [|y l IH]; [reflexivity|]. destruct l as [|z l]; [cbn; reflexivity|].
  change (joined ((y :: z :: l) ++ [x])) with (text y ++ COMMA ++ joined ((z :: l) ++ [x])). rewrite IH.
  change (joined (y :: z :: l)) with (text y ++ COMMA ++ joined (z :: l)). now rewrite !app_assoc.
Qed.
Lemma open_snoc l x : open_array (l ++ [x]) = open_array l ++ (match l with [] => OPEN | _ => COMMA end) ++ text x.
Proof.
  unfold open_array at 1. destruct (l ++ [x]) eqn:El; [now destruct l|]. rewrite <- El, joined_snoc. destruct l; [reflexivity|].
  unfold open_array. now rewrite <- !app_assoc.
Qed.
Lemma sorted_snoc (l : list Z) x : StronglySorted Z.lt l -> Forall (fun y => (y < x)%Z) l -> StronglySorted Z.lt (l ++ [x]).
Proof.
  induction 1 as [|y l H1 IH H2]; intros HF; cbn; [repeat constructor|]. inversion HF; subst. constructor; [auto|].
  apply Forall_app. split; [exact H2|]. repeat constructor. assumption.
Qed.

Lemma passed_mono tr y x last r : passed_at tr x last r -> passed_at (tr ++ [y]) x last r.
Proof. intros H. apply in_or_app. now left. Qed.
Lemma passed_last tr x last r : passed_at (tr ++ [(EvEntry (fst x) (snd x) last, r)]) x last r.
Proof. apply in_or_app. right. now left. Qed.
Lemma delivered_snoc tr it (x : E) last r : delivered (tr ++ [(EvEntry it x last, r)]) = delivered tr ++ [(it, x)].
Proof. rewrite delivered_app. reflexivity. Qed.
Lemma times_snoc_e tr it (x : E) last r : times (tr ++ [(EvEntry it x last, r)]) = times tr ++ [snd it].
Proof. rewrite times_app. reflexivity. Qed.

(** What ends the session. *)
Inductive why (tr : trace) (sent : list (idxts * E)) : list (idxts * E) -> Prop :=
| why_n : p_n p <> 0%N -> N.of_nat (List.length sent) = p_n p -> why tr sent []
| why_bytes : p_bytes p <> 0%N -> (p_bytes p <= total sent)%N -> why tr sent []
| why_nowait x last : p_nowait p = true -> passed_at tr x last false -> fst (fst x) = fst last -> why tr sent []
| why_period x t : p_period p <> 0%Z -> (t + p_period p < snd (fst x))%Z -> (In t (heads tr) \/ exists y l, sent = y :: l /\ t = snd (fst y)) -> why tr sent [x].

(** What is true also after the end; [extra] has not been sent. *)
Record sound (tr : trace) (skipped sent extra : list (idxts * E)) (told : list (line E)) : Prop := {
  o_del : delivered tr = skipped ++ sent ++ extra;
  o_extra : List.length extra <= 1;
  o_sent : entries_of told = sent;
  o_plain : p_array p || p_entries_only p = true -> told = map LEntry sent;
  o_sorted : StronglySorted Z.lt (map line_time told);
  o_incl : incl (map line_time told) (times tr);
  o_skip : Forall (fun x => exists last r, passed_at tr x last r /\ starts x last = false) skipped;
  o_on : e_serving init = true -> skipped = [];
  o_why : sent <> [] -> e_serving init = true \/ (exists t, In t (heads tr) /\ (0 < e_from init <= t)%Z /\ Forall (fun x => t < snd (fst x))%Z sent) \/
            (exists x l last r, sent = x :: l /\ passed_at tr x last r /\ starts x last = true);
  o_n : (p_n p <> 0 -> N.of_nat (List.length sent) <= p_n p)%N;
  o_bytes : forall l x, sent = l ++ [x] -> (p_bytes p <> 0 -> total l < p_bytes p)%N;
  o_period : p_period p <> 0%Z -> forall x y, In x sent -> In y sent -> (snd (fst y) <= snd (fst x) + p_period p)%Z;
  o_heads : forall t, In (LHead t) told -> In t (heads tr);
  o_hfrom : forall t, In (LHead t) told -> e_serving init = false -> (e_from init <= t)%Z }.

Lemma inv_sound tr e sk se told : inv tr e sk se told -> StronglySorted Z.lt (times tr) -> sound tr sk se [] told.
Proof.
  intros H Hs. split.
  - rewrite (i_del _ _ _ _ _ H). now rewrite app_nil_r.
  - auto.
  - apply H.
  - apply H.
  - apply H.
  - apply H.
  - pose proof (i_skip _ _ _ _ _ H) as Hk. rewrite Forall_forall in *. intros x Hx. destruct (Hk x Hx) as (last & A & B). eauto.
  - intros Hi. now apply (i_on _ _ _ _ _ H).
  - intros Hne. destruct (e_serving e) eqn:Es; [|now apply (i_off _ _ _ _ _ H) in Es]. destruct (i_why _ _ _ _ _ H Es) as [A|[A|(x & l & last & A & B & D)]]; [auto|auto|]. right. right. eauto 7.
  - intros Hn. pose proof (proj2 (i_n _ _ _ _ _ H) Hn). lia.
  - intros l x -> Hb. pose proof (proj2 (i_size _ _ _ _ _ H) Hb) as Ht. rewrite total_app in Ht. lia.
  - intros Hp x y Hx Hy. destruct (i_to _ _ _ _ _ H Hp) as [(_ & -> & _)|(t & A & _ & _ & B & _)]; [easy|]. rewrite Forall_forall in B. pose proof (B x Hx). pose proof (B y Hy). lia.
  - apply H.
  - apply H.
Qed.


Lemma fresh_times (tr : trace) us : (forall t, In t (times tr) -> (t < us)%Z) -> forall told : list (line E), incl (map line_time told) (times tr) -> Forall (fun y => (y < us)%Z) (map line_time told).
Proof. intros H told Hi. apply Forall_forall. intros y Hy. apply H, Hi, Hy. Qed.

(** The closing of the array. *)
Definition closing (sent : list (idxts * E)) : bytes := if p_array p then (match sent with [] => EMPTY | _ => CLOSE end) else [].

Lemma why_serving tr e sk se told (y : ev E * bool) t : inv tr e sk se told -> e_serving e = true -> Forall (fun x => snd (fst x) < t)%Z se -> forall s', (exists u, s' = se ++ u /\ Forall (fun x => forall t0, In t0 (times tr) -> t0 < snd (fst x))%Z u) ->
  e_serving init = true \/ (exists t, In t (heads (tr ++ [y])) /\ (0 < e_from init <= t)%Z /\ Forall (fun x => t < snd (fst x))%Z s') \/
  (exists x l last, s' = x :: l /\ passed_at (tr ++ [y]) x last true /\ starts x last = true).
Proof.
  intros H Hs _ s' (u & -> & Hu). destruct (i_why _ _ _ _ _ H Hs) as [A|[(h & A & B & D)|(x & l & last & A & B & D)]]; [auto| |].
  - right. left. exists h. rewrite heads_app, in_app_iff. split; [auto|]. split; [exact B|]. apply Forall_app. split; [exact D|]. rewrite Forall_forall in *. intros x Hx. apply (Hu x Hx).
    clear -A. unfold heads, times in *. rewrite in_flat_map in *. destruct A as (z & A1 & A2). exists z. split; [exact A1|]. destruct (fst z); cbn in *; tauto.
  - right. right. exists x, (l ++ u), last. split; [now rewrite A|]. split; [now apply passed_mono|exact D].
Qed.

Lemma inv_entry tr e sk se told it x last e' out r :
  inv tr e sk se told -> (forall t, In t (times tr) -> (t < snd it)%Z) -> (0 <= snd it)%Z -> StronglySorted Z.lt (times tr) -> (0 <= p_period p)%Z ->
  ep_entry bJ aJ p e false it x last = (e', out, r) ->
  let tr' := tr ++ [(EvEntry it x last, r)] in
  exists sk' se' told', body_of told ++ out = body_of told' ++ (if r then [] else closing se') /\
    if r then inv tr' e' sk' se' told' else exists extra, sound tr' sk' se' extra told' /\ why tr' se' extra.
Proof.
  intros H Hnew Hpos Hsort Hper He tr'. unfold ep_entry in He.
  destruct (ep_lambda p e false (fst it) (snd it) (fst last) (if p_entries_only p then bJ x ++ [NL] else aJ it ++ [TAB] ++ bJ x ++ [NL])) as [[e1 out1] r1] eqn:El.
  assert (Hr : r1 = r /\ e1 = e' /\ out = out1 ++ (if r then [] else if p_array p then (if e_started e' then CLOSE else EMPTY) else [])).
  { unfold finish in He. destruct r1; [injection He as <- <- <-; now rewrite app_nil_r|]. destruct (p_array p); injection He as <- <- <-; repeat split; now rewrite ?app_nil_r. }
  destruct Hr as (-> & -> & ->). clear He.
  change (if p_entries_only p then bJ x ++ [NL] else aJ it ++ [TAB] ++ bJ x ++ [NL]) with (text (it, x)) in El.
  apply lambda_cases in El. rewrite (i_from _ _ _ _ _ H) in El. change (start p (e_from init) (fst it) (snd it) (fst last)) with (starts (it, x) last) in El.
  assert (Hskip : forall y, Forall (fun x => exists last, passed_at (tr ++ [y]) x last true /\ starts x last = false) sk).
  { intros y. eapply Forall_impl; [|apply (i_skip _ _ _ _ _ H)]. intros z (l & A & B). exists l. split; [now apply passed_mono|exact B]. }
  assert (Hskip' : forall y, Forall (fun x => exists last r, passed_at (tr ++ [y]) x last r /\ starts x last = false) sk).
  { intros y. eapply Forall_impl; [|apply (Hskip y)]. intros z (l & A & B). eauto. }
  assert (Hincl : incl (map line_time told) (times tr')). { unfold tr'. rewrite times_snoc_e. apply incl_appl. apply H. }
  assert (Hheads : heads tr' = heads tr). { unfold tr'. rewrite heads_app. apply app_nil_r. }
  assert (Hhe0 : forall t, In (LHead t) (@nil (line E)) -> In t (heads tr')) by easy.
  assert (Hhe1 : forall t, In (LHead t) told -> In t (heads tr')) by (rewrite Hheads; apply H).
  assert (Hhe2 : forall t, In (LHead t) (told ++ [LEntry (it, x)]) -> In t (heads tr')).
  { intros t Ht. apply in_app_or in Ht as [Ht|[Ht|[]]]; [auto|discriminate]. }
  assert (Hfe0 : forall t, In (LHead t) (@nil (line E)) -> e_serving init = false -> (e_from init <= t)%Z) by easy.
  assert (Hfe1 : forall t, In (LHead t) told -> e_serving init = false -> (e_from init <= t)%Z) by apply H.
  assert (Hfe2 : forall t, In (LHead t) (told ++ [LEntry (it, x)]) -> e_serving init = false -> (e_from init <= t)%Z).
  { intros t Ht. apply in_app_or in Ht as [Ht|[Ht|[]]]; [auto|discriminate]. }
  destruct El as [(Hs & Hst & -> & -> & Hr)|(Hs & [(Ht1 & Ht2 & -> & -> & ->)|(Hto & -> & -> & Hr)])].
  - (* not serving yet *)
    destruct (i_off _ _ _ _ _ H Hs) as (Ho1 & Ho2 & Ho3). subst told se.
    exists (sk ++ [(it, x)]), [], []. split.
    { f_equal. cbn [app]. destruct r; [reflexivity|]. unfold closing. rewrite (i_started _ _ _ _ _ H). now rewrite andb_false_r. }
    destruct r.
    + split; try apply H; auto.
      * unfold tr'. rewrite delivered_snoc, (i_del _ _ _ _ _ H). now rewrite !app_nil_r.
      * apply Forall_app. split; [apply Hskip|]. constructor; [|constructor]. exists last. split; [apply (passed_last tr (it, x))|exact Hst].
      * intros Hi. congruence.
      * intros Hi. congruence.
      * intros Hp. destruct (i_to _ _ _ _ _ H Hp) as [A|(t & A & B & D & F & G)]; [now left|]. right. exists t. rewrite Hheads. unfold tr'. rewrite times_snoc_e. repeat split; auto. apply in_or_app. now left.
      * intros Hn y l Hy. unfold tr', passed_at in Hy. apply in_app_or in Hy as [Hy|[Hy|[]]]; [exact (i_nowait _ _ _ _ _ H Hn _ _ Hy)|].
        injection Hy as <- _ <-. destruct y as [iy y]. cbn [fst]. intros Heq. cbn [fst] in *. rewrite Hn in Hr. rewrite Heq, N.eqb_refl in Hr. discriminate.
    + exists []. split.
      * split; auto; try easy.
        -- unfold tr'. rewrite delivered_snoc, (i_del _ _ _ _ _ H). now rewrite !app_nil_r.
        -- constructor.
        -- apply Forall_app. split; [apply Hskip'|]. constructor; [|constructor]. exists last, false. split; [apply (passed_last tr (it, x))|exact Hst].
        -- intros Hi. congruence.
        -- cbn; lia.
        -- intros l y Heq. destruct l; discriminate.
      * destruct (N.eqb_spec (fst it) (fst last)) as [Heq|]; [|discriminate]. destruct (p_nowait p) eqn:En; [|discriminate].
        eapply (why_nowait _ _ (it, x)); [exact En|apply (passed_last tr (it, x))|exact Heq].
  - (* past the period *)
    assert (Hp : p_period p <> 0%Z). { intros Hp. apply Ht1. unfold to_of. rewrite Hp. apply (i_to0 _ _ _ _ _ H Hp). }
    assert (Hto : e_to e <> 0%Z). { intros Ht. unfold to_of in Ht2. rewrite Ht in Ht2. destruct (Z.eqb_spec (p_period p) 0); [contradiction|]. cbn [negb andb] in Ht2. change (Z.eqb 0 0) with true in Ht2. cbv iota in Ht2. lia. }
    assert (Hto' : to_of p e (snd it) = e_to e). { unfold to_of. destruct (Z.eqb_spec (e_to e) 0); [contradiction|]. now rewrite andb_false_r. }
    rewrite Hto' in Ht2.
    destruct (i_to _ _ _ _ _ H Hp) as [(A & _)|(t & A & B & D & F & G)]; [contradiction|].
    exists sk, se, told. split. { f_equal. cbn [app]. unfold closing. cbn [mk e_started]. rewrite (i_started _ _ _ _ _ H). destruct (p_array p), se; reflexivity. }
    exists [(it, x)]. split; [|apply (why_period _ _ _ t); [exact Hp|cbn; lia|now rewrite Hheads]].
    pose proof (inv_sound _ _ _ _ _ H Hsort) as S. split; try apply S; auto.
    + unfold tr'. rewrite delivered_snoc, (i_del _ _ _ _ _ H). now rewrite app_assoc.
    + apply Hskip'.
    + intros Hne. rewrite Hheads. destruct (o_why _ _ _ _ _ S Hne) as [W|[W|(y & l & la & ra & W1 & W2 & W3)]]; [auto|auto|]. right. right. exists y, l, la, ra. split; [auto|]. split; [now apply passed_mono|auto].
  - (* sent *)
    set (se' := se ++ [(it, x)]). set (told' := told ++ [LEntry (it, x)]).
    assert (Hbody : body_of told ++ sep p e ++ text (it, x) = body_of told').
    { unfold body_of, told', sep. rewrite (i_started _ _ _ _ _ H). destruct (p_array p).
      - rewrite entries_app, (i_sent _ _ _ _ _ H). cbn [entries_of flat_map app]. rewrite open_snoc. destruct se; reflexivity.
      - rewrite flat_map_app. cbn [flat_map line_text app]. now rewrite app_nil_r. }
    assert (Htot : total se' = (e_size e + blen (text (it, x)))%N). { unfold se'. rewrite total_app, (proj1 (i_size _ _ _ _ _ H)). cbn. unfold sizeof. lia. }
    assert (Hlen : N.of_nat (List.length se') = (N.of_nat (List.length se) + 1)%N). { unfold se'. rewrite app_length. cbn. lia. }
    rewrite <- Htot in *.
    assert (Hdel : delivered tr' = sk ++ se'). { unfold tr', se'. now rewrite delivered_snoc, (i_del _ _ _ _ _ H), app_assoc. }
    assert (Hents : entries_of told' = se'). { unfold told', se'. now rewrite entries_app, (i_sent _ _ _ _ _ H). }
    assert (Hpl : p_array p || p_entries_only p = true -> told' = map LEntry se'). { intros Ha. unfold told', se'. rewrite map_app, <- (i_plain _ _ _ _ _ H Ha). reflexivity. }
    assert (Hso : StronglySorted Z.lt (map line_time told')). { unfold told'. rewrite map_app. apply sorted_snoc; [apply H|]. apply (fresh_times tr); [exact Hnew|apply H]. }
    assert (Hinc : incl (map line_time told') (times tr')).
    { unfold told', tr'. rewrite map_app, times_snoc_e. apply incl_app; [apply incl_appl, H|]. apply incl_appr. cbn. apply incl_refl. }
    assert (Hon : e_serving init = true -> sk = []) by (intros Hi; now apply (i_on _ _ _ _ _ H)).
    assert (Hse : Forall (fun y => snd (fst y) < snd it)%Z se).
    { apply Forall_forall. intros y Hy. apply Hnew. apply (i_incl _ _ _ _ _ H). rewrite <- (i_sent _ _ _ _ _ H) in Hy. unfold entries_of in Hy. rewrite in_flat_map in Hy.
      destruct Hy as (l & Hl1 & Hl2). apply in_map_iff. exists l. split; [|exact Hl1]. destruct l; cbn in Hl2; [|contradiction]. destruct Hl2 as [->|[]]. reflexivity. }
    assert (Hwhy : e_serving init = true \/ (exists t, In t (heads tr') /\ (0 < e_from init <= t)%Z /\ Forall (fun x => t < snd (fst x))%Z se') \/
            (exists y l la ra, se' = y :: l /\ passed_at tr' y la ra /\ (r = true -> ra = true) /\ starts y la = true)).
    { destruct (e_serving e) eqn:Es.
      - destruct (why_serving tr e sk se told (EvEntry it x last, r) (snd it) H Es Hse se') as [W|[W|(y & l & la & W1 & W2 & W3)]]; [|auto|auto|].
        + exists [(it, x)]. split; [reflexivity|]. constructor; [exact Hnew|constructor].
        + right. right. exists y, l, la, true. auto.
      - destruct Hs as [Hs|Hs]; [discriminate|]. destruct (i_off _ _ _ _ _ H Es) as (_ & Ho2 & _). right. right. exists (it, x), [], last, r. unfold se'. rewrite Ho2. repeat split; auto. apply (passed_last tr (it, x)). }
    assert (Hto0 : p_period p = 0%Z -> to_of p e (snd it) = 0%Z). { intros Hp. unfold to_of. rewrite Hp. apply (i_to0 _ _ _ _ _ H Hp). }
    assert (Hto1 : p_period p <> 0%Z -> exists t, to_of p e (snd it) = (t + p_period p)%Z /\ (0 <= t)%Z /\ In t (times tr') /\ Forall (fun x => t <= snd (fst x) <= to_of p e (snd it))%Z se' /\
               (In t (heads tr') \/ exists x l, se' = x :: l /\ t = snd (fst x))).
    { intros Hp. rewrite Hheads. unfold tr'. rewrite times_snoc_e. destruct (i_to _ _ _ _ _ H Hp) as [(A1 & A2 & A3)|(t & A & B & D & F & G)].
      - unfold to_of in *. rewrite A1 in *. destruct (Z.eqb_spec (p_period p) 0); [contradiction|]. change (Z.eqb 0 0) with true in *. cbn [negb andb] in *. cbv iota in *. exists (snd it). unfold se'. rewrite A2. cbn [app].
        split; [reflexivity|]. split; [exact Hpos|]. split; [apply in_or_app; right; now left|]. split; [repeat constructor; cbn; lia|]. right. exists (it, x), []. auto.
      - assert (Hto' : to_of p e (snd it) = e_to e). { unfold to_of. destruct (Z.eqb_spec (e_to e) 0); [lia|]. now rewrite andb_false_r. }
        rewrite Hto' in *. exists t. split; [exact A|]. split; [exact B|]. split; [apply in_or_app; now left|]. split.
        + apply Forall_app. split; [exact F|]. constructor; [|constructor]. cbn. pose proof (Hnew t D). lia.
        + destruct G as [G|(y & l & G1 & G2)]; [now left|]. right. unfold se'. rewrite G1. exists y, (l ++ [(it, x)]). auto. }
    exists sk, se', told'. split.
    { rewrite <- Hbody, <- !app_assoc. do 3 f_equal. destruct r; [reflexivity|]. unfold closing. cbn [mk e_started]. destruct (p_array p); [|reflexivity]. rewrite orb_true_r. unfold se'. now destruct se. }
    destruct r.
    + symmetry in Hr. rewrite negb_true_iff in Hr. apply orb_false_iff in Hr as [Hr Hr3]. apply orb_false_iff in Hr as [Hr1 Hr2]. rewrite Hr1.
      split; auto; cbn [mk e_from e_serving e_n e_size e_to e_started]. all: try apply Hskip.
      * discriminate.
      * destruct Hwhy as [W|[W|(y & l & la & ra & W1 & W2 & W3 & W4)]]; [auto|auto|]. right. right. rewrite W3 in W2 by reflexivity. eauto 6.
      * pose proof (i_n _ _ _ _ _ H) as [N1 N2]. rewrite N1 in *. split; [lia|]. intros Hn. specialize (N2 Hn).
        destruct (N.eqb_spec (p_n p - N.of_nat (List.length se)) 0); [lia|]. cbn [negb andb] in Hr2. destruct (N.eqb_spec (p_n p - N.of_nat (List.length se) - 1) 0); [discriminate|]. lia.
      * split; [reflexivity|]. intros Hb. unfold full in Hr1. destruct (N.eqb_spec (p_bytes p) 0); [contradiction|]. cbn [negb andb] in Hr1. now apply N.leb_gt in Hr1.
      * intros Hn y l Hy. unfold tr', passed_at in Hy. apply in_app_or in Hy as [Hy|[Hy|[]]]; [exact (i_nowait _ _ _ _ _ H Hn _ _ Hy)|].
        injection Hy as <- _ <-. intros Heq. rewrite Hn, Heq, N.eqb_refl in Hr3. discriminate.
      * rewrite (i_started _ _ _ _ _ H). unfold se'. destruct (p_array p), se; reflexivity.
    + exists []. split.
      * split; auto. all: try apply Hskip'.
        -- now rewrite app_nil_r.
        -- intros _. destruct Hwhy as [W|[W|(y & l & la & ra & W1 & W2 & W3 & W4)]]; [auto|auto|]. right. right. eauto 7.
        -- intros Hn. pose proof (proj2 (i_n _ _ _ _ _ H) Hn). lia.
        -- intros l y Heq Hb. unfold se' in Heq. apply app_inj_tail in Heq as [<- _]. exact (proj2 (i_size _ _ _ _ _ H) Hb).
        -- intros Hp y z Hy Hz. destruct (Hto1 Hp) as (t & A & B & D & F & G). rewrite Forall_forall in F. pose proof (F y Hy). pose proof (F z Hz). lia.
      * symmetry in Hr. rewrite negb_false_iff in Hr. apply orb_true_iff in Hr as [Hr|Hr]; [apply orb_true_iff in Hr as [Hr|Hr]|].
        -- unfold full in Hr. apply andb_true_iff in Hr as [R1 R2]. apply N.leb_le in R2. apply why_bytes; [|exact R2]. intros Hb. rewrite Hb in R1. discriminate.
        -- pose proof (i_n _ _ _ _ _ H) as [N1 N2]. rewrite N1 in Hr. apply andb_true_iff in Hr as [R1 R2]. apply N.eqb_eq in R2. rewrite negb_true_iff in R1. apply N.eqb_neq in R1.
           apply why_n; lia.
        -- apply andb_true_iff in Hr as [R1 R2]. apply N.eqb_eq in R1. eapply (why_nowait _ _ (it, x)); [exact R2|apply (passed_last tr (it, x))|exact R1].
Qed.

Lemma heads_times (tr : trace) t : In t (heads tr) -> In t (times tr).
Proof. unfold heads, times. rewrite !in_flat_map. intros (z & A1 & A2). exists z. split; [exact A1|]. destruct (fst z); cbn in *; tauto. Qed.

(** The head. *)
Lemma inv_head tr e sk se told t e' out r :
  inv tr e sk se told -> (forall t', In t' (times tr) -> (t' < t)%Z) -> (0 <= t)%Z -> StronglySorted Z.lt (times tr) -> (0 <= p_period p)%Z ->
  ep_head p tJ e false t = (e', out, r) ->
  let tr' := tr ++ [(EvHead t, r)] in
  exists told', body_of told ++ out = body_of told' /\
    if r then inv tr' e' sk se told' else sound tr' sk se [] told' /\ p_period p <> 0%Z.
Proof.
  intros H Hnew Hpos Hsort Hper He tr'. apply head_cases in He. rewrite (i_from _ _ _ _ _ H) in He. cbv zeta in He.
  assert (Hdel : delivered tr' = delivered tr). { unfold tr'. rewrite delivered_app. apply app_nil_r. }
  assert (Htim : times tr' = times tr ++ [t]) by (unfold tr'; now rewrite times_app).
  assert (Hhd : heads tr' = heads tr ++ [t]) by (unfold tr'; now rewrite heads_app).
  assert (Hhe0 : forall t, In (LHead t) (@nil (line E)) -> In t (heads tr')) by easy.
  assert (Hhe1 : forall u, In (LHead u) told -> In u (heads tr')). { rewrite Hhd. intros u Hu. apply in_or_app. left. now apply H. }
  assert (Hhe2 : forall u, In (LHead u) (if p_array p || p_entries_only p then told else told ++ [LHead t]) -> In u (heads tr')).
  { destruct (p_array p || p_entries_only p); [exact Hhe1|]. intros u Hu. apply in_app_or in Hu as [Hu|[[= <-]|[]]]; [auto|]. rewrite Hhd. apply in_or_app. right. now left. }
  assert (Hskip : Forall (fun x => exists last, passed_at tr' x last true /\ starts x last = false) sk).
  { eapply Forall_impl; [|apply (i_skip _ _ _ _ _ H)]. intros z (l & A & B). exists l. split; [now apply passed_mono|exact B]. }
  assert (Hnow : p_nowait p = true -> forall x last, passed_at tr' x last true -> fst (fst x) <> fst last).
  { intros Hn y l Hy. unfold tr', passed_at in Hy. apply in_app_or in Hy as [Hy|[Hy|[]]]; [exact (i_nowait _ _ _ _ _ H Hn _ _ Hy)|discriminate]. }
  assert (Hfe0 : forall t, In (LHead t) (@nil (line E)) -> e_serving init = false -> (e_from init <= t)%Z) by easy.
  assert (Hfe1 : forall t, In (LHead t) told -> e_serving init = false -> (e_from init <= t)%Z) by apply H.
  destruct He as [(Hs & Hhit & -> & -> & ->)|(Hs & -> & He)].
  - destruct (i_off _ _ _ _ _ H Hs) as (Ho1 & Ho2 & Ho3). subst told se. exists []. split; [apply app_nil_r|].
    split; try apply H; auto.
    + rewrite Hdel. apply H.
    + easy.
    + intros Hi. congruence.
    + intros Hp. destruct (i_to _ _ _ _ _ H Hp) as [A|(u & A & B & D & F & G)]; [now left|]. right. exists u. rewrite Htim, Hhd. repeat split; auto; [apply in_or_app; now left|]. destruct G as [G|G]; [left; apply in_or_app; now left|now right].
  - assert (Hwhy : e_serving init = true \/ (exists t, In t (heads tr') /\ (0 < e_from init <= t)%Z /\ Forall (fun x => t < snd (fst x))%Z se) \/
            (exists y l la, se = y :: l /\ passed_at tr' y la true /\ starts y la = true)).
    { destruct (e_serving e) eqn:Es.
      - destruct (i_why _ _ _ _ _ H Es) as [W|[(u & W1 & W2 & W3)|(y & l & la & W1 & W2 & W3)]]; [auto| |].
        + right. left. exists u. rewrite Hhd. repeat split; auto; try lia. apply in_or_app. now left.
        + right. right. exists y, l, la. repeat split; auto. now apply passed_mono.
      - destruct Hs as [Hs|Hs]; [discriminate|]. destruct (i_off _ _ _ _ _ H Es) as (_ & Ho2 & _). right. left. exists t. rewrite Hhd, Ho2. split; [apply in_or_app; right; now left|].
        apply andb_true_iff in Hs as [H1 H2]. apply Z.ltb_lt in H1. apply Z.leb_le in H2. split; [lia|constructor]. }
    assert (Hfe2 : forall u, In (LHead u) (if p_array p || p_entries_only p then told else told ++ [LHead t]) -> e_serving init = false -> (e_from init <= u)%Z).
    { destruct (p_array p || p_entries_only p); [exact Hfe1|]. intros u Hu Hi. apply in_app_or in Hu as [Hu|[[= <-]|[]]]; [auto|].
      destruct (e_serving e) eqn:Es.
      - destruct (i_why _ _ _ _ _ H Es) as [W|[(v & W1 & W2 & _)|(y & l & la & W1 & W2 & W3)]]; [congruence| |].
        + assert (In v (times tr)) as Hv. { unfold heads, times in *. rewrite in_flat_map in *. destruct W1 as (z & A1 & A2). exists z. split; [exact A1|]. destruct (fst z); cbn in *; tauto. }
          specialize (Hnew v Hv). lia.
        + assert (In (snd (fst y)) (times tr)) as Hv. { unfold passed_at in W2. unfold times. rewrite in_flat_map. eexists. split; [exact W2|]. now left. }
          specialize (Hnew _ Hv). unfold starts, start in W3. lia.
      - destruct Hs as [Hs|Hs]; [discriminate|]. lia. }
    destruct He as [(Ht1 & Ht2 & -> & ->)|(Hto & -> & ->)].
    + (* past the period *)
      exists told. split; [apply app_nil_r|].
      pose proof (inv_sound _ _ _ _ _ H Hsort) as S. split.
      * split; try apply S; auto.
        -- rewrite Hdel. apply S.
        -- rewrite Htim. apply incl_appl. apply S.
        -- eapply Forall_impl; [|exact Hskip]. intros z (l & A & B). eauto.
        -- intros _. destruct Hwhy as [W|[W|(y & l & la & W1 & W2 & W3)]]; [auto|auto|]. right. right. eauto 7.
      * intros Hp. apply Ht1. unfold to_of. rewrite Hp. apply (i_to0 _ _ _ _ _ H Hp).
    + exists (if p_array p || p_entries_only p then told else told ++ [LHead t]). split.
      { unfold body_of. destruct (p_array p); cbn [orb]; [now rewrite app_nil_r|]. destruct (p_entries_only p); [now rewrite app_nil_r|].
        rewrite flat_map_app. cbn [flat_map line_text]. now rewrite app_nil_r. }
      assert (Hents : entries_of (if p_array p || p_entries_only p then told else told ++ [LHead t]) = se).
      { destruct (p_array p || p_entries_only p); [apply H|]. rewrite entries_app, (i_sent _ _ _ _ _ H). apply app_nil_r. }
      split; auto; cbn [mk e_from e_serving e_n e_size e_to e_started].
      * rewrite Hdel. apply H.
      * intros Ha. rewrite Ha. now apply H.
      * destruct (p_array p || p_entries_only p); [apply H|]. rewrite map_app. apply sorted_snoc; [apply H|]. apply (fresh_times tr); [exact Hnew|apply H].
      * rewrite Htim. destruct (p_array p || p_entries_only p); [apply incl_appl, H|]. rewrite map_app. apply incl_app; [apply incl_appl, H|]. apply incl_appr, incl_refl.
      * discriminate.
      * intros Hi. split; [|reflexivity]. now apply (i_on _ _ _ _ _ H).
      * apply H.
      * apply H.
      * intros Hp. unfold to_of. rewrite Hp. apply (i_to0 _ _ _ _ _ H Hp).
      * intros Hp. right. destruct (i_to _ _ _ _ _ H Hp) as [(A1 & A2 & A3)|(u & A & B & D & F & G)].
        -- unfold to_of in *. rewrite A1 in *. destruct (Z.eqb_spec (p_period p) 0); [contradiction|]. change (Z.eqb 0 0) with true in *. cbn [negb andb] in *. exists t. rewrite A2, Htim, Hhd.
           split; [reflexivity|]. split; [exact Hpos|]. split; [apply in_or_app; right; now left|]. split; [constructor|]. left. apply in_or_app. right. now left.
        -- assert (Hto' : to_of p e t = e_to e). { unfold to_of. destruct (Z.eqb_spec (e_to e) 0); [lia|]. now rewrite andb_false_r. }
           rewrite Hto'. exists u. rewrite Htim, Hhd. split; [exact A|]. split; [exact B|]. split; [apply in_or_app; now left|]. split; [exact F|]. destruct G as [G|G]; [left; apply in_or_app; now left|now right].
      * apply H.
Qed.
End Inv.
