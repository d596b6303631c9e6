(** Property C67 on concrete storages: cases that meet the hypotheses of the
    theorems, and what the REST access does not give. *)
From stdpp Require Import gmap strings sorting.
From Coq Require Import ZArith NArith Lia.
From Verif Require Import StorageContainers_Model StorageContainers_Proofs
  StorageTxn_Model StorageTxn_Spec StorageTxn_Proofs StorageRest_Model StorageRest_Spec StorageRest_Proofs
  StorageRest_Proofs2 StorageRest_Props.
From Verif Require Dec Date_Model Date_Spec Date_Props.

(** Two fields: a dictionary of (key, value), a one-to-one matrix of
    (row, column, value), all integers. *)
Definition rx_schema (i : bool) : field_spec :=
  if i then FDictionary (fst : Z * Z → Z) (λ (p : Z) (o : Z * Z), (o.1, p))
  else FOneToOne (λ o : Z * Z * Z, o.1.1) (λ o : Z * Z * Z, o.1.2).
Notation rxF := (λ i, to_field (rx_schema i)).
Lemma rx_keys i : patches_keep_keys (rx_schema i).
Proof. by destruct i. Qed.

(** A clock: one microsecond per reading. *)
Definition rx_clk (n : nat) : Z := 1700000000000000 + Z.of_nat n.
Lemma rx_clk_inc n : (rx_clk n < rx_clk (S n))%Z.
Proof. unfold rx_clk. lia. Qed.
Lemma rx_clk_pos n : (0 < rx_clk n)%Z.
Proof. unfold rx_clk. lia. Qed.

(** Keys are decimal, bodies are lists of bytes, one per number. *)
Definition rx_cfg (i : bool) : rest_cfg (rx_schema i) :=
  match i return rest_cfg (rx_schema i) with
  | true => RestCfg (rx_schema true) read_i64
      (λ b, match b with [k; v] => Some (Z.of_N k, Z.of_N v) | _ => None end)
      (λ b o, match b with [v] => Some (o.1, Z.of_N v) | _ => None end)
      None (λ k, Z.to_N k)
  | false => RestCfg (rx_schema false) (λ k, (read_i64 k.1, read_i64 k.2))
      (λ b, match b with [r; c; v] => Some (Z.of_N r, Z.of_N c, Z.of_N v) | _ => None end)
      (λ b o, match b with [v] => Some (o.1, Z.of_N v) | _ => None end)
      None (λ k, Z.to_N k.1)
  end.
(** Dates: those of chrono.h 235-237 and 244-270 and headers.h 60-77 (Date_Model.v). *)
Definition rx_dates : date_cfg :=
  DateCfg Date_Model.format_imf_fix (λ t, Date_Model.parse_http_date t Date_Model.Upper).
(** They are read as C67_no_lost_update_by_date_partial requires, for all times until 11 April 2262. *)
Theorem C67_dates t : (0 ≤ t < 9223372036854775)%Z →
  d_parse rx_dates (d_format rx_dates t) = Some (t / 1000000 * 1000000 + 999999)%Z.
Proof.
  intros H. simpl. destruct (Date_Props.C78_http t H) as [-> _]. f_equal. pose proof (Z.div_mod t 1000000). lia.
Qed.

Definition rx_empty : gmap string text := ∅.
Definition get_key (k : list text) : request := Request GET k rx_empty [] None None.
Definition put_key (k : list text) (b : text) (cu u : option text) : request := Request PUT k rx_empty b cu u.
Definition delete_key (k : list text) (cu u : option text) : request := Request DELETE k rx_empty [] cu u.

(** Requests served by the master one after another. *)
Definition rx_serve (i : bool) (q : request) (y : system rxF) : option (response (rx_schema i) * system rxF) :=
  match y_master rxF y with
  | Some s =>
      match serve rx_schema i (rx_cfg i) rx_dates rx_clk None q (y_pos rxF y) (y_stream rxF y) s with
      | Finished _ _ [r] n st s' => Some (r, System rxF st (Some s') (y_follower rxF y) n)
      | _ => None
      end
  | None => None
  end.
Fixpoint rx_session (i : bool) (qs : list request) (y : system rxF) : option (list (response (rx_schema i)) * system rxF) :=
  match qs with
  | [] => Some ([], y)
  | q :: qs =>
      match rx_serve i q y with
      | Some (r, y') =>
          match rx_session i qs y' with Some (rs, y'') => Some (r :: rs, y'') | None => None end
      | None => None
      end
  end.

Definition rx_opened : option (system rxF) := run rxF rx_clk [OpenMaster rxF] (system_init rxF 0).
Definition rx_start : system rxF := match rx_opened with Some y => y | None => system_init rxF 0 end.
Lemma rx_start_reachable : reachable rxF rx_clk rx_start.
Proof. exists 0, [OpenMaster rxF]. reflexivity. Qed.

Lemma run_app_rx evs evs' y y' : run rxF rx_clk evs y = Some y' →
  run rxF rx_clk (evs ++ evs') y = run rxF rx_clk evs' y'.
Proof.
  revert y. induction evs as [|e evs IH]; simpl; intros y.
  - by intros [= ->].
  - destruct (step rxF rx_clk e y); [apply IH|done].
Qed.
(** A session is a history. *)
Lemma rx_session_run i qs : ∀ y rs y', rx_session i qs y = Some (rs, y') → ∃ evs, run rxF rx_clk evs y = Some y'.
Proof.
  induction qs as [|q qs IH]; simpl; intros y rs y'.
  - intros [= <- <-]. by exists [].
  - unfold rx_serve. destruct (y_master rxF y) as [s|] eqn:Es; [|done].
    destruct (serve rx_schema i (rx_cfg i) rx_dates rx_clk None q (y_pos rxF y) (y_stream rxF y) s)
      as [[|r [|? ?]] n st s'|? ? ?| |] eqn:E; try done.
    destruct (rx_session i qs _) as [[rs1 y1]|] eqn:E1; [|done].
    intros [= <- <-]. destruct (IH _ _ _ E1) as [evs Ev].
    destruct (C67_requests_are_events rx_schema i (rx_cfg i) rx_dates rx_clk y s q None _ _ _ _ Es E) as [Heq|[ev Hev]].
    + exists evs. rewrite Heq in Ev. destruct y; simpl in *. by subst.
    + exists (ev :: evs). simpl. by rewrite Hev.
Qed.
Lemma rx_session_reachable i qs y rs y' : reachable rxF rx_clk y → rx_session i qs y = Some (rs, y') → reachable rxF rx_clk y'.
Proof.
  intros (pos & evs & E) H. destruct (rx_session_run _ _ _ _ _ H) as [evs' E'].
  exists pos, (evs ++ evs'). by rewrite (run_app_rx _ _ _ _ E).
Qed.

Definition key1 : text := [49]%N.
Definition codes {i} (o : option (list (response (rx_schema i)) * system rxF)) : list N :=
  match o with Some (rs, _) => map r_code rs | None => [] end.
Definition header_of {f} (name : string) (r : response f) : option text :=
  snd <$> find (λ h, bool_decide (h.1 = name)) (r_headers r).
Definition last_time {i} (o : option (list (response (rx_schema i)) * system rxF)) : option text :=
  match o with Some (rs, _) => match rev rs with r :: _ => header_of "X-Current-Last-Modified" r | [] => None end | None => None end.

(** Two clients edit the same entry: both read it; the first writes, the second is
    refused (412), reads again and writes. The hypotheses of C67_get and C67_writes are met
    by every request of this session. *)
Definition rx_t1 : text := Dec.zdec 1700000000000001.
Definition rx_t2 : text := Dec.zdec 1700000000000005.
Definition rx_edit : list request :=
  [put_key [key1] [1; 10]%N None None; get_key [key1]; get_key [key1];
   put_key [key1] [1; 11]%N (Some rx_t1) None; put_key [key1] [1; 12]%N (Some rx_t1) None;
   get_key [key1]; put_key [key1] [1; 12]%N (Some rx_t2) None; delete_key [key1] (Some rx_t2) None; get_key [key1]].
Example C67_example_codes :
  codes (rx_session true rx_edit rx_start) = [201; 200; 200; 200; 412; 200; 200; 412; 200]%N.
Proof. vm_compute. reflexivity. Qed.
Example C67_example_times :
  last_time (rx_session true (take 2 rx_edit) rx_start) = Some rx_t1 ∧
  last_time (rx_session true (take 6 rx_edit) rx_start) = Some rx_t2.
Proof. split; vm_compute; reflexivity. Qed.
(** What a session leaves, as a test. *)
Definition after {A} (i : bool) (qs : list request) (test : list (response (rx_schema i)) → system rxF → storage rxF → A) (d : A) : A :=
  match rx_session i qs rx_start with
  | Some (rs, y) => match y_master rxF y with Some s => test rs y s | None => d end
  | None => d
  end.
Lemma after_true i qs test : after i qs test false = true →
  ∃ rs y s, rx_session i qs rx_start = Some (rs, y) ∧ reachable rxF rx_clk y ∧ y_master rxF y = Some s ∧ test rs y s = true.
Proof.
  unfold after. destruct (rx_session i qs rx_start) as [[rs y]|] eqn:E; [|done].
  destruct (y_master rxF y) as [s|] eqn:Es; [|done]. intros H. exists rs, y, s. split_and!; [done| |done|done].
  by eapply rx_session_reachable; [apply rx_start_reachable|].
Qed.

Notation rserve i q y s := (serve rx_schema i (rx_cfg i) rx_dates rx_clk None q (y_pos rxF y) (y_stream rxF y) s).
Notation rview i s := (show rxF (s_fields rxF s) i).

(** A case which meets the hypotheses of C67_no_lost_update: an entry is put, read, and
    written back with the time read, while another one is put in between. *)
Example C67_no_lost_update_example :
  ∃ y s q uk o r h n1 st1 s1 evs y' s' q' l n2 st2 s2,
    (∀ n, n < y_pos rxF y → (rx_clk n < 2 ^ 63)%Z) ∧
    (∀ n, n < y_pos rxF y → d_parse rx_dates (d_format rx_dates (rx_clk n)) = Some (rx_clk n / 1000000 * 1000000 + 999999)%Z) ∧
    reachable rxF rx_clk y ∧ y_master rxF y = Some s ∧ s_destructing rxF s = false ∧
    q_verb q = GET ∧ url_key (rx_schema true) q = Some uk ∧ q_query q !! "export"%string = None ∧
    rserve true q y s = Finished rxF _ [r] n1 st1 s1 ∧ r_body r = BodyRecord o ∧
    ("X-Current-Last-Modified"%string, h) ∈ r_headers r ∧
    run rxF rx_clk evs y = Some y' ∧ y' ≠ y ∧ y_master rxF y' = Some s' ∧ s_destructing rxF s' = false ∧
    q_verb q' = PUT ∧ url_key (rx_schema true) q' = Some uk ∧
    q_current_unmodified q' = Some h ∧
    rserve true q' y' s' = Finished rxF _ l n2 st2 s2 ∧ st2 ≠ y_stream rxF y'.
Proof.
  set (q1 := put_key [key1] [1; 10]%N None None). set (q := get_key [key1]).
  set (q2 := put_key [[50]%N] [2; 11]%N None None).
  set (q' := put_key [key1] [1; 12]%N (Some rx_t1) None).
  assert (H : after true [q1] (λ _ y s, negb (s_destructing rxF s) && bool_decide (y_pos rxF y < 1000) && bool_decide (length (st_log rxF (y_stream rxF y)) = 1) &&
    match rserve true q y s with
    | Finished _ _ [Response _ (BodyRecord o) (_ :: (n, t) :: _)] _ _ _ =>
        bool_decide (n = "X-Current-Last-Modified"%string) && bool_decide (t = rx_t1)
    | _ => false
    end &&
    match rx_session true [q2] y with
    | Some (_, y') =>
        match y_master rxF y' with
        | Some s' => negb (s_destructing rxF s') &&
            match rserve true q' y' s' with
            | Finished _ _ _ _ st2 _ => bool_decide (length (st_log rxF st2) = 3) && bool_decide (length (st_log rxF (y_stream rxF y')) = 2)
            | _ => false
            end
        | None => false
        end
    | None => false
    end) false = true) by (vm_compute; reflexivity).
  apply after_true in H as (rs & y & s & _ & Hr & Es & H).
  rewrite !andb_true_iff, negb_true_iff, !bool_decide_eq_true in H. destruct H as ((((Hd & Hp) & Hl0) & H1) & H2).
  destruct (rserve true q y s) as [[|[code [o| | | |] [|h1 [|[n t] hs]]] [|? ?]] n1 st1 s1|? ? ?| |] eqn:E1; try done.
  rewrite andb_true_iff, !bool_decide_eq_true in H1. destruct H1 as (-> & ->).
  destruct (rx_session true [q2] y) as [[rs' y']|] eqn:E2; [|done].
  destruct (y_master rxF y') as [s'|] eqn:Es'; [|done].
  rewrite !andb_true_iff, negb_true_iff in H2. destruct H2 as (Hd' & H2).
  destruct (rserve true q' y' s') as [l n2 st2 s2|? ? ?| |] eqn:E3; try done.
  rewrite andb_true_iff, !bool_decide_eq_true in H2. destruct H2 as (Hl & Hl').
  destruct (rx_session_run _ _ _ _ _ E2) as [evs Hev].
  exists y, s, q, key1, o, (Response code (BodyRecord o) (h1 :: ("X-Current-Last-Modified"%string, rx_t1) :: hs)), rx_t1, n1, st1, s1, evs, y', s', q', l, n2, st2, s2.
  split_and!; try done.
  - intros n Hn. unfold rx_clk. lia.
  - intros n Hn. apply C67_dates. unfold rx_clk. lia.
  - right. left.
  - intros ->. congruence.
  - intros ->. congruence.
Qed.

(** The standard headers do not protect from an update made within the same second:
    read an entry, let somebody else update it, write it back under
    [If-Unmodified-Since: <the Last-Modified of the entry read>]: accepted, the other
    update is lost. *)
Theorem C67_same_second_lost_update_refuted :
  ¬ (∀ y s q uk o r h n1 st1 s1 evs y' s' q' l n2 st2 s2 o',
       reachable rxF rx_clk y → y_master rxF y = Some s → s_destructing rxF s = false →
       q_verb q = GET → url_key (rx_schema true) q = Some uk → q_query q !! "export"%string = None →
       rserve true q y s = Finished rxF _ [r] n1 st1 s1 → r_body r = BodyRecord o →
       ("Last-Modified"%string, h) ∈ r_headers r →
       run rxF rx_clk evs y = Some y' → y_master rxF y' = Some s' → s_destructing rxF s' = false →
       q_verb q' = PUT → url_key (rx_schema true) q' = Some uk →
       q_current_unmodified q' = None → q_unmodified q' = Some h →
       rserve true q' y' s' = Finished rxF _ l n2 st2 s2 → st2 ≠ y_stream rxF y' →
       rget (rx_schema true) (rview true s') (c_parse_key _ (rx_cfg true) uk) = Some o' → o' = o).
Proof.
  intros Hall.
  set (q1 := put_key [key1] [1; 10]%N None None). set (q := get_key [key1]).
  set (q2 := put_key [key1] [1; 11]%N None None).
  set (h := Date_Model.format_imf_fix 1700000000000000).
  set (q' := put_key [key1] [1; 12]%N None (Some h)).
  assert (H : after true [q1] (λ _ y s, negb (s_destructing rxF s) &&
    match rserve true q y s with
    | Finished _ _ [Response _ (BodyRecord o) ((n, t) :: _)] _ _ _ =>
        bool_decide (n = "Last-Modified"%string) && bool_decide (t = h) && bool_decide ((o : Z * Z) = (1, 10)%Z)
    | _ => false
    end &&
    match rx_session true [q2] y with
    | Some (_, y') =>
        match y_master rxF y' with
        | Some s' => negb (s_destructing rxF s') &&
            match rserve true q' y' s' with
            | Finished _ _ _ _ st2 _ => bool_decide (length (st_log rxF st2) = 3) && bool_decide (length (st_log rxF (y_stream rxF y')) = 2)
            | _ => false
            end &&
            bool_decide ((rget (rx_schema true) (rview true s') 1%Z : option (Z * Z)) = Some (1, 11)%Z)
        | None => false
        end
    | None => false
    end) false = true) by (vm_compute; reflexivity).
  apply after_true in H as (rs & y & s & _ & Hr & Es & H).
  rewrite !andb_true_iff, negb_true_iff in H. destruct H as ((Hd & H1) & H2).
  destruct (rserve true q y s) as [[|[code [o| | | |] [|[n t] hs]] [|? ?]] n1 st1 s1|? ? ?| |] eqn:E1; try done.
  rewrite !andb_true_iff, !bool_decide_eq_true in H1. destruct H1 as ((-> & ->) & ->).
  destruct (rx_session true [q2] y) as [[rs' y']|] eqn:E2; [|done].
  destruct (y_master rxF y') as [s'|] eqn:Es'; [|done].
  rewrite !andb_true_iff, negb_true_iff in H2. destruct H2 as ((Hd' & H2) & H3).
  destruct (rserve true q' y' s') as [l n2 st2 s2|? ? ?| |] eqn:E3; try done.
  rewrite andb_true_iff, !bool_decide_eq_true in H2. rewrite bool_decide_eq_true in H3. destruct H2 as (Hl & Hl').
  destruct (rx_session_run _ _ _ _ _ E2) as [evs Hev].
  assert (Hx : ((1, 11) : Z * Z)%Z = (1, 10)%Z); [|by simplify_eq].
  eapply (Hall y s q key1 (1, 10)%Z _ h _ _ _ evs y' s' q' l n2 st2 s2);
    [exact Hr|exact Es|exact Hd|reflexivity|reflexivity|reflexivity|exact E1|reflexivity|left|exact Hev|exact Es'|exact Hd'|
     reflexivity|reflexivity|reflexivity|reflexivity|exact E3| |exact H3].
  intros ->. congruence.
Qed.

(** A precondition does not protect from a deletion: the write creates the resource
    anew (201) although its client meant to update the one it had read. *)
Theorem C67_deleted_recreated_refuted :
  ¬ (∀ y s q t t' r n st s',
       reachable rxF rx_clk y → y_master rxF y = Some s → s_destructing rxF s = false →
       q_verb q = PUT → q_current_unmodified q = Some (Dec.zdec t) → (0 < t < 2 ^ 63)%Z →
       rlm (rx_schema true) (rview true s) (read_i64 key1) = Some t' → (t < t')%Z → q_path_args q = [key1] →
       rserve true q y s = Finished rxF _ [r] n st s' → r_code r = 412%N).
Proof.
  intros Hall.
  set (q1 := put_key [key1] [1; 10]%N None None). set (q2 := delete_key [key1] None None).
  set (q' := put_key [key1] [1; 12]%N (Some (Dec.zdec 1700000000000001)) None).
  assert (H : after true [q1; q2] (λ _ y s, negb (s_destructing rxF s) &&
    bool_decide (rlm (rx_schema true) (rview true s) (read_i64 key1) = Some 1700000000000005%Z) &&
    match rserve true q' y s with
    | Finished _ _ [r] _ _ _ => bool_decide (r_code r = 201%N)
    | _ => false
    end) false = true) by (vm_compute; reflexivity).
  apply after_true in H as (rs & y & s & _ & Hr & Es & H).
  rewrite !andb_true_iff, negb_true_iff, bool_decide_eq_true in H. destruct H as ((Hd & H1) & H2).
  destruct (rserve true q' y s) as [[|r [|? ?]] n2 st2 s2|? ? ?| |] eqn:E; try done.
  rewrite bool_decide_eq_true in H2.
  specialize (Hall y s q' 1700000000000001%Z _ r n2 st2 s2 Hr Es Hd eq_refl eq_refl ltac:(lia) H1 ltac:(lia) eq_refl E). congruence.
Qed.

(** A precondition covers the resource written, not those it takes the place of: in a
    one-to-one matrix a conditional PUT removes, with no 412, an entry modified after
    the time given, because it shares the row. *)
Theorem C67_eviction_refuted :
  ¬ (∀ y s q t r n st s' k o t',
       reachable rxF rx_clk y → y_master rxF y = Some s → s_destructing rxF s = false →
       q_verb q = PUT → q_current_unmodified q = Some (Dec.zdec t) → (0 < t < 2 ^ 63)%Z →
       rget (rx_schema false) (rview false s) k = Some o →
       rlm (rx_schema false) (rview false s) k = Some t' → (t < t')%Z →
       rserve false q y s = Finished rxF _ [r] n st s' →
       rget (rx_schema false) (rview false s') k = Some o ∨ r_code r = 412%N).
Proof.
  intros Hall.
  set (q1 := put_key [key1; [50]%N] [1; 2; 5]%N None None).
  set (q' := put_key [key1; key1] [1; 1; 6]%N (Some (Dec.zdec 1600000000000000)) None).
  assert (H : after false [q1] (λ _ y s, negb (s_destructing rxF s) &&
    bool_decide ((rget (rx_schema false) (rview false s) (1, 2)%Z : option (Z * Z * Z)) = Some (1, 2, 5)%Z) &&
    bool_decide (rlm (rx_schema false) (rview false s) (1, 2)%Z = Some 1700000000000001%Z) &&
    match rserve false q' y s with
    | Finished _ _ [r] _ _ s' => bool_decide (r_code r = 201%N) &&
       bool_decide ((rget (rx_schema false) (rview false s') (1, 2)%Z : option (Z * Z * Z)) = None)
    | _ => false
    end) false = true) by (vm_compute; reflexivity).
  apply after_true in H as (rs & y & s & _ & Hr & Es & H).
  rewrite !andb_true_iff, negb_true_iff, !bool_decide_eq_true in H. destruct H as (((Hd & H0) & H1) & H2).
  destruct (rserve false q' y s) as [[|r [|? ?]] n2 st2 s2|? ? ?| |] eqn:E; try done.
  rewrite andb_true_iff, !bool_decide_eq_true in H2. destruct H2 as [H2 H3].
  destruct (Hall y s q' 1600000000000000%Z r n2 st2 s2 (1, 2)%Z (1, 2, 5)%Z _ Hr Es Hd eq_refl eq_refl ltac:(lia) H0 H1 ltac:(lia) E)
    as [Hc|Hc]; [rewrite H3 in Hc; done|congruence].
Qed.

(** The text of a key is not checked: [DELETE .../abc] deletes the entry under key 0. *)
Theorem C67_malformed_key_refuted :
  ¬ (∀ y s q key r n st s',
       reachable rxF rx_clk y → y_master rxF y = Some s → s_destructing rxF s = false →
       q_path_args q = [key] → (∀ z, key ≠ Dec.zdec z) →
       rserve true q y s = Finished rxF _ [r] n st s' → st = y_stream rxF y).
Proof.
  intros Hall.
  set (q1 := put_key [[48]%N] [0; 10]%N None None).
  set (q' := delete_key [[97; 98; 99]%N] None None).
  assert (H : after true [q1] (λ _ y s, negb (s_destructing rxF s) &&
    match rserve true q' y s with
    | Finished _ _ [r] _ st _ => bool_decide (length (st_log rxF st) = 2) && bool_decide (length (st_log rxF (y_stream rxF y)) = 1)
    | _ => false
    end) false = true) by (vm_compute; reflexivity).
  apply after_true in H as (rs & y & s & _ & Hr & Es & H).
  rewrite !andb_true_iff, negb_true_iff in H. destruct H as (Hd & H2).
  destruct (rserve true q' y s) as [[|r [|? ?]] n2 st2 s2|? ? ?| |] eqn:E; try done.
  rewrite andb_true_iff, !bool_decide_eq_true in H2. destruct H2 as [H2 H3].
  specialize (Hall y s q' [97; 98; 99]%N r n2 st2 s2 Hr Es Hd eq_refl).
  rewrite Hall in H2; [congruence| |exact E].
  intros z Hz. symmetry in Hz. destruct (Dec.zdec_head_not z _ _ Hz) as [Hc|Hc]; vm_compute in Hc; discriminate.
Qed.

Print Assumptions C67_get.
Print Assumptions C67_writes.
Print Assumptions C67_followers_refuse_writes.
Print Assumptions C67_requests_are_events.
Print Assumptions C67_no_lost_update.
Print Assumptions C67_dates.
Print Assumptions C67_no_lost_update_by_date_partial.
Print Assumptions C67_shards_partition.
Print Assumptions C67_get_all.
Print Assumptions C67_export.
Print Assumptions C67_same_second_lost_update_refuted.
Print Assumptions C67_deleted_recreated_refuted.
Print Assumptions C67_eviction_refuted.
Print Assumptions C67_malformed_key_refuted.
