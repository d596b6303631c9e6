(** C79: the self-modifying config. *)
From Coq Require Import String.
From stdpp Require Import gmap list.
From Coq Require Import NArith ZArith Lia.
From Verif Require Import Dec Date_Model Date_Spec Config_Model Config_Spec Config_Proofs.
Local Open Scope list_scope.
Local Open Scope Z_scope.
Lemma update_written {T} (J : codec T) o c now fs : update J Written Written o c now fs =
  (Object (filename o) c, <[filename o := to_json J c]> (<[historical_filename (filename o) now := to_json J (config o)]> fs), None).
Proof. reflexivity. Qed.

(** The files of saved configs are named after the time of the update and listed in the order of time. *)
Theorem C79_names : ∀ name now, representable now → historical_filename name now = saved_as name now ∧ saved_as name now ≠ name ∧
  ∀ later, representable later → (second_of now < second_of later ↔ listed_before (saved_as name now) (saved_as name later)) ∧
    (saved_as name now = saved_as name later ↔ second_of now = second_of later).
Proof.
  intros name now H. split; [by apply historical_name|]. split; [apply saved_as_ne|]. intros later H'. split; split.
  - by apply saved_as_order.
  - intros Hl. destruct (Z.lt_trichotomy (second_of now) (second_of later)) as [?|[E|E]]; [done|exfalso..].
    + unfold saved_as in Hl. rewrite E in Hl. by apply listed_irrefl in Hl.
    + pose proof (saved_as_order name later now H' H E) as Ho.
      assert (∀ s t, listed_before s t → listed_before t s → False) as A.
      { clear. intros s t Hs. induction Hs as [c s|c d s t Hd|c s t Hs IH]; intros Ht; inversion Ht; subst; first [lia | by apply IH | done]. }
      by eapply A.
  - by apply saved_as_inj.
  - unfold saved_as. by intros ->.
Qed.

(** Update: the new config is in force and in the file, the old one is saved, no other file is touched; reloading or
    starting the program anew gives the new config. *)
Theorem C79_update : ∀ T (J : codec T) (o : object T) c now fs, faithful J → representable now →
  ∃ fs', update J Written Written o c now fs = (Object (filename o) c, fs', None) ∧
    fs' !! filename o = Some (to_json J c) ∧ fs' !! saved_as (filename o) now = Some (to_json J (config o)) ∧
    (∀ other, other ≠ filename o → other ≠ saved_as (filename o) now → fs' !! other = fs !! other) ∧
    (∀ o', filename o' = filename o → reload J o' fs' = (Object (filename o) c, None)) ∧
    ∀ later, ∃ fs'', construct J Written Written (filename o) later fs' = inr (Object (filename o) c, fs'').
Proof.
  intros T J o c now fs HJ Hr. unfold update. simpl. eexists. split; [done|].
  rewrite historical_name by done. pose proof (saved_as_ne (filename o) now) as Hne.
  assert (∀ fs : files, load J (filename o) (<[filename o := to_json J c]> fs) = inr c) as Hload.
  { intros fs0. unfold load, read_file_as_string. by rewrite lookup_insert, HJ. }
  split_and!.
  - apply lookup_insert.
  - rewrite lookup_insert_ne by done. apply lookup_insert.
  - intros other H1 H2. rewrite !lookup_insert_ne by done. done.
  - intros o' E. unfold reload. by rewrite E, Hload.
  - intros later. unfold construct. rewrite Hload. simpl. by eexists.
Qed.

Local Opaque update.
(** Any history of starting, stopping, updating and reloading, of any length: the config in force is in the file, and every config
    which has been in force when another one replaced it, or when the program was started, is in the file saved then. *)
Theorem C79_history : ∀ T (J : codec T) name (es : list (event (T := T))) (fs : files) c0 text0, faithful J →
  fs !! name = Some text0 → parse_json J text0 = Some c0 →
  Forall representable (times es) → NoDup (map second_of (times es)) →
  match run J name es (None, fs), expect_all (Expected false c0 []) es with
  | Some (o, fs'), Some x =>
      o = (if running x then Some (Object name (current x)) else None) ∧
      (∃ text, fs' !! name = Some text ∧ parse_json J text = Some (current x)) ∧
      Forall (λ s, fs' !! saved_as name s.1 = Some (to_json J s.2)) (saved x) ∧
      map fst (saved x) = times es ∧
      (∀ other, other ≠ name → Forall (λ t, other ≠ saved_as name t) (times es) → fs' !! other = fs !! other)
  | None, None => True
  | _, _ => False
  end.
Proof.
  intros T J name es fs c0 text0 HJ E0 P0 Hr Hnd.
  set (inv := λ (w : world (T := T)) (x : expected T) (done_ todo : list Z),
    w.1 = (if running x then Some (Object name (current x)) else None) ∧
    (∃ text, w.2 !! name = Some text ∧ parse_json J text = Some (current x)) ∧
    Forall (λ s, w.2 !! saved_as name s.1 = Some (to_json J s.2)) (saved x) ∧
    map fst (saved x) = done_ ∧ Forall representable (done_ ++ todo) ∧ NoDup (map second_of (done_ ++ todo)) ∧
    (∀ other, other ≠ name → Forall (λ t, other ≠ saved_as name t) done_ → w.2 !! other = fs !! other)).
  assert (∀ es w x done_, inv w x done_ (times es) →
    match run J name es w, expect_all x es with
    | Some w', Some x' => inv w' x' (done_ ++ times es) []
    | None, None => True
    | _, _ => False
    end) as H.
  { clear es Hr Hnd. induction es as [|e es IH]; intros w x done_ Hi; simpl.
    - by rewrite app_nil_r.
    - assert (∀ (c : T) (o : object T) now fs1, o = Object name (current x) → w.2 = fs1 → times (e :: es) = now :: times es →
        ∃ fs2, update J Written Written o c now fs1 = (Object name c, fs2, None) ∧
          inv (Some (Object name c), fs2) (Expected true c (saved x ++ [(now, current x)])) (done_ ++ [now]) (times es)) as Hup.
      { intros c o now fs1 -> <- Et. rewrite Et in Hi. destruct Hi as (_ & _ & Hs & Hm & Hf & Hn & Ho).
        assert (representable now) as Hnow. { rewrite Forall_app in Hf. destruct Hf as [_ Hf]. by inversion Hf. }
        rewrite update_written. simpl. rewrite historical_name by done. eexists. split; [done|]. pose proof (saved_as_ne name now) as Hne.
        assert (∀ t, t ∈ done_ → saved_as name t ≠ saved_as name now) as Hd.
        { intros t Ht E. apply saved_as_inj in E; [|rewrite Forall_app, Forall_forall in Hf; by apply Hf|done].
          rewrite map_app in Hn. apply NoDup_app in Hn as (_ & Hn & _). apply (Hn (second_of t)); [by apply elem_of_list_fmap_1|]. rewrite E. simpl. left. }
        split_and!; simpl.
        - done.
        - exists (to_json J c). rewrite lookup_insert. split; [done|apply HJ].
        - rewrite Forall_app. split.
          + rewrite Forall_forall in Hs |- *. intros s Hin. rewrite lookup_insert_ne by (apply not_eq_sym, saved_as_ne).
            rewrite lookup_insert_ne; [by apply Hs|]. apply not_eq_sym, Hd. rewrite <- Hm. by apply elem_of_list_fmap_1.
          + constructor; [|constructor]. simpl. rewrite lookup_insert_ne by (apply not_eq_sym, saved_as_ne). apply lookup_insert.
        - by rewrite map_app, Hm.
        - by rewrite <- app_assoc.
        - by rewrite <- app_assoc.
        - intros other H1 H2. rewrite Forall_app in H2. destruct H2 as [H2 H3]. inversion H3; subst. rewrite !lookup_insert_ne by done. by apply Ho. }
      assert (∀ w x, inv w x done_ (times es) → match run J name es w, expect_all x es with
        | Some w', Some x' => inv w' x' (done_ ++ times es) [] | None, None => True | _, _ => False end) as Hnop by (intros; by apply IH).
      destruct w as [o fs1]. pose proof Hi as (Eo & (text & Et & Ep) & _). simpl in Eo, Et.
      destruct e as [now| |c now|]; simpl; destruct (running x) eqn:Er; rewrite Eo; try exact Logic.I.
      + unfold construct, load, read_file_as_string. rewrite Et, Ep.
        destruct (Hup (current x) (Object name (current x)) now fs1) as (fs2 & -> & Hi2); [done..|]. specialize (IH _ _ _ Hi2). by rewrite <- app_assoc in IH.
      + apply Hnop. destruct Hi as (_ & H2). split; [done|]. exact H2.
      + destruct (Hup c (Object name (current x)) now fs1) as (fs2 & -> & Hi2); [done..|]. specialize (IH _ _ _ Hi2). by rewrite <- app_assoc in IH.
      + unfold reload, load, read_file_as_string. simpl. rewrite Et, Ep. apply Hnop. destruct Hi as (_ & H2). split; [by rewrite Er|]. exact H2. }
  specialize (H es (None, fs) (Expected false c0 []) []). simpl in H.
  destruct (run J name es (None, fs)) as [[o fs']|], (expect_all (Expected false c0 []) es) as [x|]; simpl in *; try apply H.
  1: assert (inv (o, fs') x (times es) []) as (H1 & H2 & H3 & H4 & _ & _ & H5); [apply H|by split_and!].
  all: split_and!; simpl; [done|by exists text0|constructor|done|done|done|done].
Qed.

Local Transparent update.
(** The program is killed in the middle of Update, or of starting (then the new config is the old one): the file is either as
    before or the beginning of the new one, and in this case the old config has been saved completely; no other file is touched. *)
Theorem C79_killed : ∀ T (J : codec T) (o : object T) c now fs n, representable now →
  let fs' := killed_in_update J n o c now fs in
  (fs' !! filename o = fs !! filename o ∨
   fs' !! saved_as (filename o) now = Some (to_json J (config o)) ∧ ∃ k, fs' !! filename o = Some (take k (to_json J c))) ∧
  (∀ other, other ≠ filename o → other ≠ saved_as (filename o) now → fs' !! other = fs !! other) ∧
  ((length (update_steps J o c now) ≤ n)%nat → update J Written Written o c now fs = (Object (filename o) c, fs', None)).
Proof.
  intros T J o c now fs n Hr fs'. unfold fs', killed_in_update, update_steps. clear fs'. rewrite update_written, historical_name by done. pose proof (saved_as_ne (filename o) now) as Hne.
  set (h := saved_as (filename o) now) in *. set (l1 := write_steps (to_json J (config o)) h). set (l2 := write_steps (to_json J c) (filename o)).
  assert (take n (l1 ++ l2) = take n l1 ∧ (n ≤ length l1)%nat ∨ ∃ k, take n (l1 ++ l2) = l1 ++ take (S k) l2 ∧ n = (length l1 + S k)%nat) as [[E Hn]|(k & E & En)].
  { destruct (decide (n ≤ length l1)%nat) as [Hn|Hn]; [left; split; [|done]; rewrite take_app_le by done; done|].
    right. exists (n - length l1 - 1)%nat. split; [|lia]. rewrite take_app_ge by lia. do 2 f_equal. lia. }
  - rewrite E. split_and!.
    + left. destruct n as [|n]; [done|]. unfold l1. rewrite do_write_steps. by rewrite lookup_insert_ne.
    + intros other H1 H2. destruct n as [|n]; [done|]. unfold l1. rewrite do_write_steps. by rewrite lookup_insert_ne by done.
    + intros Hl. exfalso. assert (length (l1 ++ l2) ≤ n)%nat as Hl' by exact Hl. rewrite app_length in Hl'. assert (0 < length l2)%nat by (unfold l2; simpl; lia). lia.
  - rewrite E, foldl_app. unfold l1, l2. rewrite do_all_write_steps, do_write_steps. split_and!.
    + right. split; [by rewrite lookup_insert_ne, lookup_insert by done|]. exists k. apply lookup_insert.
    + intros other H1 H2. by rewrite !lookup_insert_ne by done.
    + intros Hl. rewrite take_ge; [done|]. assert (length (l1 ++ l2) ≤ n)%nat as Hl' by exact Hl. rewrite app_length in Hl'. assert (length l2 = S (length (to_json J c))) as El by (unfold l2; simpl; by rewrite map_length). lia.
Qed.
(** So a program killed in the middle of Update starts again with the old config or the new one, or refuses to start without touching the
    files, and then the old config is in the file saved last. *)
Theorem C79_killed_and_restarted : ∀ T (J : codec T) (o : object T) c now fs n later, faithful J → no_beginning_parses J → representable now →
  fs !! filename o = Some (to_json J (config o)) →
  let fs' := killed_in_update J n o c now fs in
  (∃ fs'', construct J Written Written (filename o) later fs' = inr (o, fs'')) ∨
  (∃ fs'', construct J Written Written (filename o) later fs' = inr (Object (filename o) c, fs'')) ∨
  (construct J Written Written (filename o) later fs' = inl ParseJSON ∧ construct_files J Written Written (filename o) later fs' = fs' ∧
   fs' !! saved_as (filename o) now = Some (to_json J (config o))).
Proof.
  intros T J o c now fs n later HJ Hb Hr E fs'. destruct (C79_killed T J o c now fs n Hr) as ([Hs|(Hs & k & Hk)] & _); fold fs' in Hs; try fold fs' in Hk.
  - left. unfold construct, load, read_file_as_string. rewrite Hs, E, HJ. simpl. destruct o. by eexists.
  - right. destruct (decide (k < length (to_json J c)))%nat as [Hl|Hl].
    + right. unfold construct, construct_files, load, read_file_as_string. rewrite Hk, Hb by done. done.
    + left. unfold construct, load, read_file_as_string. rewrite Hk, take_ge, HJ by lia. simpl. by eexists.
Qed.
(** Exceptions.  If the old config cannot be saved, nothing has changed but, maybe, the file it was to be saved in; if the new one cannot be
    written, the old one has been saved.  Update returns only if both are written (as long as errors are reported to it). *)
Theorem C79_throws_partial : ∀ T (J : codec T) (o o' : object T) w1 w2 c now fs fs' e, not_silent w1 → not_silent w2 → representable now →
  update J w1 w2 o c now fs = (o', fs', e) →
  (∀ other, other ≠ filename o → other ≠ saved_as (filename o) now → fs' !! other = fs !! other) ∧
  match e with
  | None => w1 = Written ∧ w2 = Written
  | Some (WriteFile f) =>
      (f = saved_as (filename o) now ∧ o' = o ∧ fs' !! filename o = fs !! filename o) ∨
      (f = filename o ∧ fs' !! saved_as (filename o) now = Some (to_json J (config o)))
  | Some _ => False
  end.
Proof.
  intros T J o o' w1 w2 c now fs fs' e N1 N2 Hr. unfold update. rewrite historical_name by done. pose proof (saved_as_ne (filename o) now) as Hne.
  destruct w1 as [| |k1 [|]]; simpl; try done.
  - destruct w2 as [| |k2 [|]]; simpl; try done; intros [= <- <- <-]; (split; [intros other H1 H2; by rewrite ?lookup_insert_ne by done|]).
    + done.
    + right. split; [done|]. apply lookup_insert.
    + right. split; [done|]. rewrite lookup_insert_ne by done. apply lookup_insert.
  - intros [= <- <- <-]. split; [done|]. by left.
  - intros [= <- <- <-]. split; [intros other H1 H2; by rewrite ?lookup_insert_ne by done|]. left. split_and!; [done|done|]. by rewrite lookup_insert_ne by done.
Qed.
(** A file which is missing or cannot be parsed: the constructor and Reload throw, the config in force and the files are left alone. *)
Theorem C79_bad_file : ∀ T (J : codec T) name fs w1 w2 now,
  (fs !! name = None → construct J w1 w2 name now fs = inl ReadFile) ∧
  (∀ text, fs !! name = Some text → parse_json J text = None → construct J w1 w2 name now fs = inl ParseJSON) ∧
  (fs !! name = None ∨ (∃ text, fs !! name = Some text ∧ parse_json J text = None) →
   construct_files J w1 w2 name now fs = fs ∧ ∀ o : object T, filename o = name → (reload J o fs).1 = o ∧ (reload J o fs).2 ≠ None).
Proof.
  intros T J name fs w1 w2 now. unfold construct, construct_files, reload, load, read_file_as_string. split_and!.
  - by intros ->.
  - by intros text -> ->.
  - intros [E|(text & E & P)]; (split; [by rewrite E, ?P|intros o Eo; by rewrite Eo, E, ?P]).
Qed.

(** ** A codec to show cases with: a number in braces, maybe after spaces *)
Definition ex_parse (s : list N) : option N :=
  match skip (λ c, bool_decide (c = 32%N)) s with
  | 123%N :: r => match rev r with 125%N :: d => undec (rev d) | _ => None end
  | _ => None
  end.
Definition ex_codec : codec N := Codec _ (λ n, 123%N :: dec n ++ [125%N]) ex_parse.
Example ex_faithful : faithful ex_codec.
Proof. intros n. simpl. unfold ex_parse. simpl. rewrite rev_app_distr. simpl. by rewrite rev_involutive, undec_dec. Qed.
Example ex_no_beginning_parses : no_beginning_parses ex_codec.
Proof.
  intros n k Hk. simpl in *. rewrite app_length in Hk. simpl in Hk. destruct k as [|k]; [done|]. simpl. unfold ex_parse. simpl.
  rewrite take_app_le by lia. destruct (rev (take k (dec n))) as [|c r] eqn:E; [done|]. assert (c ∈ dec n) as Hc.
  { assert (c ∈ take k (dec n)) as Hc. { apply elem_of_list_In, in_rev. rewrite E. by left. }
    rewrite <- (take_drop k (dec n)). apply elem_of_app. by left. }
  pose proof (dec_is_digit n) as Hd. rewrite Forall_forall in Hd. specialize (Hd c Hc). destruct (decide (c = 125%N)) as [-> |Hne]; [by vm_compute in Hd|].
  destruct c as [|p]; [done|]. do 7 (destruct p; try done).
Qed.
Definition cfg (n : N) : list N := to_json ex_codec n.
Definition file : list N := lit "config.json".
(** Monday 16 August 2021, 12:00:00 UTC. *)
Definition noon : Z := 1629115200000000.
Example C79_history_example : 
  let es := [Start noon; Update 2 (noon + 1000000); Update 3 (noon + 5000000); Reload; Stop; Start (noon + 60000000)]%N in
  let fs : files := {[ file := lit " {1}" ]} in
  Forall representable (times es) ∧ NoDup (map second_of (times es)) ∧ fs !! file = Some (lit " {1}") ∧ parse_json ex_codec (lit " {1}") = Some 1%N ∧
  match run ex_codec file es (None, fs) with
  | Some (Some o, fs') => config o = 3%N ∧ fs' !! file = Some (cfg 3) ∧ fs' !! lit "config.json.20210816-120000" = Some (cfg 1) ∧
      fs' !! lit "config.json.20210816-120001" = Some (cfg 1) ∧ fs' !! lit "config.json.20210816-120005" = Some (cfg 2) ∧ fs' !! lit "config.json.20210816-120100" = Some (cfg 3)
  | _ => False
  end.
Proof.
  split_and!.
  - repeat (constructor; [unfold representable, noon; lia|]). constructor.
  - apply (bool_decide_eq_true_1 _). vm_compute. reflexivity.
  - apply lookup_singleton.
  - reflexivity.
  - vm_compute. repeat split; reflexivity.
Qed.
Example C79_killed_example : let o := Object file 1%N in let fs : files := {[ file := cfg 1 ]} in
  fs !! filename o = Some (to_json ex_codec (config o)) ∧ killed_in_update ex_codec 6 o 2%N noon fs !! file = Some (lit "{") ∧ 
  killed_in_update ex_codec 4 o 2%N noon fs !! file = Some (cfg 1).
Proof. vm_compute. repeat split; reflexivity. Qed.

(** "All updates happen by atomically renaming the old config": they do not; killed in the middle of an update, the program finds neither the old config nor the new
    one and does not start. *)
Theorem C79_atomic_refuted : ¬ (∀ (o : object N) c now fs n later, representable now → fs !! filename o = Some (to_json ex_codec (config o)) →
  let fs' := killed_in_update ex_codec n o c now fs in
  ∃ o' fs'', construct ex_codec Written Written (filename o) later fs' = inr (o', fs'') ∧ (config o' = config o ∨ config o' = c)).
Proof.
  intros H. specialize (H (Object file 1%N) 2%N noon {[ file := cfg 1 ]} 6%nat (noon + 1000000) ltac:(unfold representable, noon; lia) eq_refl).
  destruct H as (o' & fs'' & H & _). vm_compute in H. discriminate H.
Qed.
(** "Preserving the history": of the configs updated within one second only the last is saved. *)
Theorem C79_same_second_refuted : ¬ (∀ (es : list (event (T := N))) fs c0 o fs' x, fs !! file = Some (cfg c0) → Forall representable (times es) →
  run ex_codec file es (None, fs) = Some (o, fs') → expect_all (Expected false c0 []) es = Some x →
  ∀ s, s ∈ saved x → ∃ name, fs' !! name = Some (cfg s.2)).
Proof.
  intros H. set (es := [Start noon; Update 2%N (noon + 1); Update 3%N (noon + 2)]).
  specialize (H es {[ file := cfg 1 ]} 1%N). 
  destruct (run ex_codec file es (None, {[ file := cfg 1 ]})) as [[o fs']|] eqn:E; [|vm_compute in E; discriminate E].
  destruct (expect_all (Expected false 1%N []) es) as [x|] eqn:Ex; [|vm_compute in Ex; discriminate Ex].
  specialize (H o fs' x (lookup_singleton _ _)).
  assert (Forall representable (times es)) as Hr by (repeat (constructor; [unfold representable, noon; lia|]); constructor). specialize (H Hr eq_refl eq_refl (noon, 1%N)).
  vm_compute in Ex. injection Ex as <-. destruct H as (name & Hn). { vm_compute. left. }
  assert (map_to_list fs' = [(file, cfg 3); (lit "config.json.20210816-120000", cfg 2)] ∨ map_to_list fs' = [(lit "config.json.20210816-120000", cfg 2); (file, cfg 3)]) as Hl.
  { vm_compute in E. injection E as <- <-. vm_compute. by (left + right). }
  apply elem_of_map_to_list in Hn. destruct Hl as [-> | ->] in Hn; repeat (apply elem_of_cons in Hn as [Hn|Hn]; [vm_compute in Hn; discriminate Hn|]); by apply elem_of_nil in Hn.
Qed.
(** "During startup, the binary also makes an atomic copy of the config file": it saves what it has parsed, and overwrites the file with it. *)
Theorem C79_startup_copy_refuted : ¬ (∀ fs text o fs', fs !! file = Some text → construct ex_codec Written Written file noon fs = inr (o, fs') →
  ∃ name, fs' !! name = Some text).
Proof.
  intros H. destruct (construct ex_codec Written Written file noon {[ file := lit " {1}" ]}) as [|[o fs']] eqn:E; [vm_compute in E; discriminate E|].
  destruct (H {[ file := lit " {1}" ]} (lit " {1}") o fs' (lookup_singleton _ _) E) as (name & Hn).
  assert (map_to_list fs' = [(file, cfg 1); (lit "config.json.20210816-120000", cfg 1)] ∨ map_to_list fs' = [(lit "config.json.20210816-120000", cfg 1); (file, cfg 1)]) as Hl.
  { vm_compute in E. injection E as <- <-. vm_compute. by (left + right). }
  apply elem_of_map_to_list in Hn. destruct Hl as [-> | ->] in Hn; repeat (apply elem_of_cons in Hn as [Hn|Hn]; [vm_compute in Hn; discriminate Hn|]); by apply elem_of_nil in Hn.
Qed.
(** An Update which throws because the file cannot be written has changed the config in force. *)
Theorem C79_throwing_update_refuted : ¬ (∀ (o : object N) w1 w2 c now fs, representable now → (update ex_codec w1 w2 o c now fs).2 ≠ None → config (update ex_codec w1 w2 o c now fs).1.1 = config o).
Proof.
  intros H. specialize (H (Object file 1%N) Written CannotOpen 2%N noon ∅ ltac:(unfold representable, noon; lia)). vm_compute in H.
  specialize (H ltac:(discriminate)). discriminate H.
Qed.
(** "On any error, an exception is thrown": an error of writing what the stream has buffered is not noticed (the disk is full), both the old and the new config are lost. *)
Theorem C79_silent_refuted : ¬ (∀ (o : object N) w1 w2 c now fs, representable now → fs !! filename o = Some (cfg (config o)) → (update ex_codec w1 w2 o c now fs).2 = None →
  ∃ name, (update ex_codec w1 w2 o c now fs).1.2 !! name = Some (cfg (config o)) ∨ (update ex_codec w1 w2 o c now fs).1.2 !! name = Some (cfg c)).
Proof.
  intros H. specialize (H (Object file 1%N) (Short 0 true) (Short 0 true) 2%N noon {[ file := cfg 1 ]} ltac:(unfold representable, noon; lia) (lookup_singleton _ _) eq_refl).
  destruct H as (name & Hn).
  destruct (update ex_codec (Short 0 true) (Short 0 true) (Object file 1%N) 2%N noon {[ file := cfg 1 ]}) as [[o fs'] e] eqn:E. simpl in Hn.
  assert (map_to_list fs' = [(file, []); (lit "config.json.20210816-120000", [])] ∨ map_to_list fs' = [(lit "config.json.20210816-120000", []); (file, [])]) as Hl.
  { vm_compute in E. injection E as <- <- <-. vm_compute. by (left + right). }
  destruct Hn as [Hn|Hn]; apply elem_of_map_to_list in Hn; destruct Hl as [-> | ->] in Hn; repeat (apply elem_of_cons in Hn as [Hn|Hn]; [vm_compute in Hn; discriminate Hn|]); by apply elem_of_nil in Hn.
Qed.

Print Assumptions C79_names.
Print Assumptions C79_update.
Print Assumptions C79_history.
Print Assumptions C79_killed.
Print Assumptions C79_killed_and_restarted.
Print Assumptions C79_throws_partial.
Print Assumptions C79_bad_file.
Print Assumptions C79_atomic_refuted.
Print Assumptions C79_same_second_refuted.
Print Assumptions C79_startup_copy_refuted.
Print Assumptions C79_throwing_update_refuted.
Print Assumptions C79_silent_refuted.
