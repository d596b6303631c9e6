(** Properties C18 (the flip of the master) and C64 (guessing the key). *)
From Coq Require Import String.
From Verif Require Import Base Dec Codec Persister_Model Persister_Spec Persister_Proofs Stream_Proofs Replicator_Model Replicator_Spec Replicator_Proofs Replicator_Proofs2 Replicator_Props
  Flip_Model Flip_Spec Flip_Proofs Flip_Proofs2 Flip_Proofs3 Flip_Proofs4.
Local Open Scope list_scope.

(** ** C18 *)
(** At no time are both streams accepting local publishes. *)
Theorem C18_never_two_masters : forall (E : Type) (W : wire E) rm s s', wire_ok W -> Flip_Spec.started W s -> steps W rm s s' ->
  ~ (c_role (node s' true) = Master /\ c_role (node s' false) = Master).
Proof.
  intros E W rm s s' HW Hs H [H1 H2]. destruct (J_started W rm s Hs) as [o J0]. destruct (J_steps W HW rm s s' o J0 H) as (o' & J1 & _).
  pose proof (J_who W rm s' o' true J1 H1) as A. pose proof (J_who W rm s' o' false J1 H2) as B. congruence.
Qed.
(** One that becomes the master then has exactly the data and the head of the other one, which no longer accepts anything. *)
Theorem C18_new_master_has_everything : forall (E : Type) (W : wire E) rm s0 s s' x, wire_ok W -> Flip_Spec.started W s0 -> steps W rm s0 s -> step W rm s s' ->
  c_role (node s x) <> Master -> c_role (node s' x) = Master ->
  c_store (node s' x) = c_store (node s (negb x)) /\ c_store (node s' (negb x)) = c_store (node s (negb x)) /\ c_role (node s' (negb x)) <> Master.
Proof.
  intros E W rm s0 s s' x HW Hs H Hst Hn Hm. destruct (J_started W rm s0 Hs) as [o J0]. destruct (J_steps W HW rm s0 s o J0 H) as (o1 & J1 & _).
  destruct (J_step W HW rm s o1 s' J1 Hst) as (o2 & J2 & P & Q & R). destruct (R x Hm) as [|(-> & Hx & St & _)]; [contradiction|]. rewrite Hx in *. rewrite Bool.negb_involutive in *.
  split; [exact St|]. split; [|pose proof (j_master _ _ _ _ J2) as M; now rewrite Bool.negb_involutive in M].
  (* only the receiver's data change in this step *)
  clear R P Q J2. subst x. destruct Hst as [x|x|x|x|x|x|x|x|x r Ha|x|x]; destruct o1, x; unfold upd in *; cbn [node negb Bool.eqb with_store with_role with_exposed c_role] in *; try congruence.
  all: try (exfalso; apply Hn; exact Hm); try reflexivity.
Qed.
(** Nothing that a master has had is ever missing from a later master, or changed in it. *)
Theorem C18_nothing_is_lost : forall (E : Type) (W : wire E) rm s0 s s' x y, wire_ok W -> Flip_Spec.started W s0 -> steps W rm s0 s -> steps W rm s s' ->
  c_role (node s x) = Master -> c_role (node s' y) = Master ->
  (exists more, mp_entries (c_store (node s' y)) = mp_entries (c_store (node s x)) ++ more) /\ (mp_head (c_store (node s x)) <= mp_head (c_store (node s' y)))%Z.
Proof.
  intros E W rm s0 s s' x y HW Hs H H' Hx Hy. destruct (J_started W rm s0 Hs) as [o J0]. destruct (J_steps W HW rm s0 s o J0 H) as (o1 & J1 & _). destruct (J_steps W HW rm s s' o1 J1 H') as (o2 & J2 & P).
  rewrite (J_who W rm s o1 x J1 Hx), (J_who W rm s' o2 y J2 Hy). exact P.
Qed.

(** A request that is granted: the right key, the restrictions are met, what is sent is exactly what the follower lacks, and no one can publish any more. *)
Theorem C18_when_granted : forall (E : Type) (W : wire E) now (c c' : ctl E) rq up b, locked W now c rq up = (c', Some (Diff b)) -> (next_index rq <= mp_size (c_store c'))%N ->
  c_role c' = Held /\ exists x, c_exposed c = Some x /\ (x_block x <= now)%Z /\
    ((max_clock_diff (x_restr x) <= 0)%Z \/ exists k, rq_clock rq = Some k /\ (Z.abs (k - now) <= max_clock_diff (x_restr x))%Z) /\
    within W (x_restr x) (c_store c') (next_index rq) (or_zero (rq_head rq)) /\ b = the_diff W (c_store c') (next_index rq) (or_zero (rq_head rq)) /\
    (c_role c <> Following -> c_role c = Master /\ c_store c' = c_store c /\ rq_key rq = Some (x_key x)) /\ (c_role c = Following -> up = UpDone (c_store c')).
Proof.
  intros E W now c c' rq up b H Hn. unfold locked in H. destruct (c_exposed c) as [x|]; [|discriminate]. 
  destruct (c_role c) eqn:Er; [|discriminate|]; (destruct (Z.ltb_spec now (x_block x)) as [|Hb]; [discriminate|]);
    (destruct (Z.ltb 0 (max_clock_diff (x_restr x)) && _)%bool eqn:Hc; [discriminate|]);
    (assert (Hclock : (max_clock_diff (x_restr x) <= 0)%Z \/ exists k, rq_clock rq = Some k /\ (Z.abs (k - now) <= max_clock_diff (x_restr x))%Z) by
      (apply andb_false_iff in Hc as [Hc|Hc]; [left; lia|right]; destruct (rq_clock rq) as [k|]; [|discriminate]; exists k; split; [reflexivity|lia])).
  - destruct (match rq_key rq with Some k => N.eqb k (x_key x) | None => false end) eqn:Hk; [|discriminate].
    destruct (validate _ _ _ _ _) eqn:Ev; [discriminate|]. injection H as <- <-. cbn [c_store c_role] in *. split; [reflexivity|]. exists x. apply validate_iff in Ev as [V1 V2]; [|exact Hn]. repeat split; auto; try apply V1.
    + destruct (rq_key rq) as [k|]; [|discriminate]. apply N.eqb_eq in Hk. now subst.
    + discriminate.
  - destruct up as [|m|m]; [discriminate|discriminate|]. cbn [c_store c_exposed] in H. destruct (validate _ _ _ _ _) eqn:Ev; [discriminate|]. injection H as <- <-. cbn [c_store c_role] in *. split; [reflexivity|]. exists x.
    apply validate_iff in Ev as [V1 V2]; [|exact Hn]. repeat split; auto; try apply V1; congruence.
Qed.
(** An honest follower with the right key, within the restrictions, is granted the flip, and then has exactly the master's data. *)
Theorem C18_honest_follower_is_granted : forall (E : Type) (W : wire E) rm now ops ops' x key clock checked, wire_ok W ->
  let m := fst (mp_run (w_codec W) mp_init ops) in let f := fst (mp_run (w_codec W) mp_init ops') in let rq := flip_request f key clock checked in
  (mp_size m < npos)%N -> replica m f -> in_time m f ->
  key = x_key x -> (x_block x <= now)%Z -> ((max_clock_diff (x_restr x) <= 0)%Z \/ (Z.abs (clock - now) <= max_clock_diff (x_restr x))%Z) -> within W (x_restr x) m (mp_size f) (mp_head f) ->
  precheck m rq = None /\ exists b, locked W now {| c_store := m; c_role := Master; c_exposed := Some x |} rq UpRefused = ({| c_store := m; c_role := Held; c_exposed := Some x |}, Some (Diff b)) /\
    receive W rm f b = (m, None).
Proof.
  intros E W rm now ops ops' x key clock checked HW m f rq Hsz Hrep Hti -> Hbl Hcl Hwi.
  assert (Hm : mp_inv m) by (apply mp_run_inv, mp_inv_init). assert (Hf : mp_inv f) by (apply mp_run_inv, mp_inv_init). apply replica_prefix in Hrep.
  pose proof (in_time_facts m f Hm Hf Hrep Hti) as F. assert (Hfs : (mp_size f < npos)%N) by (destruct F as (_ & F & _); lia).
  assert (Hnx : next_index rq = mp_size f) by (apply request_next; exact Hfs).
  split; [apply precheck_ok; auto|]. exists (the_diff W m (mp_size f) (mp_head f)).
  assert (Hv : validate W m (x_restr x) (next_index rq) (mp_head f) = Diff (the_diff W m (mp_size f) (mp_head f))) by (rewrite Hnx; apply validate_iff; [apply F|auto]).
  split.
  - unfold locked. cbn [c_exposed c_role c_store rq flip_request rq_clock rq_key rq_head or_zero]. replace (Z.ltb now (x_block x)) with false by lia.
    match goal with |- context [if ?c then (_, Some (Refused 400)) else _] => replace c with false by lia end. rewrite N.eqb_refl. fold rq. now rewrite Hv.
  - eapply flip_ok; eauto; [reflexivity|]. now rewrite Hnx.
Qed.
(** Refusing changes neither the data of either nor who is the master, nor the key and the restrictions; nor does a broken connection change the follower. *)
Theorem C18_refused_changes_nothing : forall (E : Type) (W : wire E) rm now (c c' f : ctl E) rq k, (c_role c <> Following \/ c_exposed c = None) -> locked W now c rq UpRefused = (c', Some (Refused k)) ->
  c_store c' = c_store c /\ c_role c' = c_role c /\ option_map x_key (c_exposed c') = option_map x_key (c_exposed c) /\ option_map x_restr (c_exposed c') = option_map x_restr (c_exposed c) /\
  flip_done W rm f (Some (Refused k)) = (f, false) /\ flip_done W rm f None = (f, false).
Proof.
  intros E W rm now c c' f rq k Hf H. assert (Hf' : c_role c = Following -> c_exposed c = None) by (destruct Hf; tauto).
  destruct (locked_cases W now c rq Hf' c' _ H) as (L1 & L2 & [(R1 & _)|(_ & _ & x & b & _ & Hb & _)]); [|discriminate].
  split; [exact L1|]. split; [exact R1|]. split; [|split; [|split; reflexivity]].
  all: unfold locked in H; destruct (c_exposed c) as [x|] eqn:Ex; [|injection H as <- _; now rewrite Ex].
  all: destruct (c_role c); [|injection H as <- _; now rewrite Ex|discriminate (Hf' eq_refl)].
  all: repeat match type of H with (if ?q then _ else _) = _ => destruct q end; try (injection H as <- _; cbn; now rewrite ?Ex); cbn [c_store c_exposed] in H; destruct (validate _ _ _ _ _); try discriminate; injection H as <- _; cbn; now rewrite ?Ex.
Qed.
(** Whatever the remote stream sends, a follower that cannot replicate all of it stays a follower, and its user is told. *)
Theorem C18_not_the_master_on_a_bad_diff : forall (E : Type) (W : wire E) rm (c : ctl E) body, c_role c = Following ->
  (c_role (fst (flip_done W rm c (Some (Diff body)))) = Master <-> snd (receive W rm (c_store c) body) = None) /\
  (snd (flip_done W rm c (Some (Diff body))) = true <-> c_role (fst (flip_done W rm c (Some (Diff body)))) = Master).
Proof.
  intros E W rm c body Hc. unfold flip_done. destruct (receive W rm (c_store c) body) as [m [x|]]; cbn.
  - split; split; intros; discriminate.
  - split; split; reflexivity.
Qed.
(** A wrong key is refused, and so is every request while the delay lasts, and one to a stream which is not exposed or has been given up. *)
Theorem C18_no_flip_without_the_key : forall (E : Type) (W : wire E) now (c : ctl E) rq x, c_role c <> Following -> c_exposed c = Some x -> rq_key rq <> Some (x_key x) ->
  exists k, snd (locked W now c rq UpRefused) = Some (Refused k).
Proof.
  intros E W now c rq x Hf Hx Hk. destruct (locked W now c rq UpRefused) as [c' r] eqn:El. destruct (locked_cases W now c rq ltac:(tauto) c' r El) as (_ & _ & [(_ & k & ->)|(_ & _ & y & b & Hy & _ & Hk2 & _)]); [now exists k|].
  rewrite Hx in Hy. injection Hy as <-. contradiction.
Qed.
Theorem C18_not_exposed_or_held : forall (E : Type) (W : wire E) now (c : ctl E) rq up, c_exposed c = None \/ c_role c = Held -> locked W now c rq up = (c, Some (Refused 503)).
Proof. intros E W now c rq up [H|H]; unfold locked; rewrite H; [reflexivity|]. now destruct (c_exposed c). Qed.

(** A chain: [c] asks its master [b], which follows [a].  If [b] gets the flip from [a] first and then grants it, [c] has exactly the data of [a]. *)
Theorem C18_chain : forall (E : Type) (W : wire E) rm now opsa opsb opsc (b b' : ctl E) key clock checked bodyb bodyc, wire_ok W ->
  let a := fst (mp_run (w_codec W) mp_init opsa) in let b0 := fst (mp_run (w_codec W) mp_init opsb) in let c := fst (mp_run (w_codec W) mp_init opsc) in
  let rqc := flip_request c key clock checked in
  (mp_size a < npos)%N -> replica a b0 -> in_time a b0 -> replica b0 c -> c_store b = b0 -> c_role b = Following ->
  precheck b0 rqc = None -> receive W rm b0 bodyb = (a, None) -> locked W now b rqc (UpDone a) = (b', Some (Diff bodyc)) ->
  c_role b' = Held /\ c_store b' = a /\ receive W rm c bodyc = (a, None).
Proof.
  intros E W rm now opsa opsb opsc b b' key clock checked bodyb bodyc HW a b0 c rqc Hsz Hab Hti Hbc Hb Hrb Hpre Hrec H.
  assert (Ha : mp_inv a) by (apply mp_run_inv, mp_inv_init). assert (Hb0 : mp_inv b0) by (apply mp_run_inv, mp_inv_init). assert (Hc : mp_inv c) by (apply mp_run_inv, mp_inv_init). apply replica_prefix in Hab, Hbc.
  pose proof (in_time_facts a b0 Ha Hb0 Hab Hti) as Fab. assert (Hbs : (mp_size b0 < npos)%N) by (destruct Fab as (_ & F & _); lia).
  pose proof (precheck_facts b0 rqc (mp_head c) Hb0 Hbs Hpre eq_refl) as Fbc. pose proof (facts_prefix_grows b0 a Hab Hb0 _ Fab eq_refl) as Hg. pose proof (facts_grows _ _ _ _ Fbc Hg) as Fac.
  unfold locked in H. rewrite Hrb in H. destruct (c_exposed b) as [x|]; [|discriminate]. repeat match type of H with (if ?q then _ else _) = _ => destruct q; [discriminate|] end.
  cbn [c_store c_exposed] in H. destruct (validate _ _ _ _ _) eqn:Ev; [discriminate|]. injection H as <- <-. cbn. split; [reflexivity|]. split; [reflexivity|].
  eapply flip_ok; eauto; [eapply prefix_trans; eauto|reflexivity].
Qed.

(** *** Where the property fails *)
(** The reply of a granted flip may be lost: then no stream is a master, now or ever after, whatever is asked. *)
Definition no_master {E} (s : sys E) : Prop := (forall x, c_role (node s x) <> Master) /\ (forall x b, fl s x <> Answered (Some (Diff b))) /\ (forall x, c_role (node s x) = Following -> c_exposed (node s x) = None).
Lemma no_master_step {E} (W : wire E) rm s s' : no_master s -> step W rm s s' -> no_master s'.
Proof.
  intros (N1 & N2 & N3) Hs. destruct Hs as [x o Hr Hz|x l from Hr Hi Hl|x key r Hr He|x|x Hr He|x key clock checked Hr Hi|x rq Hf|x rq now Hf|x r Hf|x Hf|x rq now].
  - exfalso. exact (N1 _ Hr).
  - split; [|split; [exact N2|]]; intros y; cbn [node]; destruct (two x y) as [->| ->]; rewrite ?upd_same, ?upd_other; cbn; auto.
  - split; [|split; [exact N2|]]; intros y; cbn [node]; destruct (two x y) as [->| ->]; rewrite ?upd_same, ?upd_other; cbn; auto; tauto.
  - split; [|split; [exact N2|]]; intros y; cbn [node]; destruct (two x y) as [->| ->]; rewrite ?upd_same, ?upd_other; cbn; auto.
  - split; [|split; [exact N2|]]; intros y; cbn [node]; destruct (two x y) as [->| ->]; rewrite ?upd_same, ?upd_other; cbn; auto; discriminate.
  - split; [exact N1|split; [|exact N3]]. intros y b; cbn [fl]; destruct (two x y) as [->| ->]; rewrite ?upd_same, ?upd_other; auto; discriminate.
  - split; [exact N1|split; [|exact N3]]. intros y b; cbn [fl]; destruct (two x y) as [->| ->]; rewrite ?upd_same, ?upd_other; auto. destruct (precheck _ _); discriminate.
  - destruct (locked W now (node s (negb x)) rq UpRefused) as [c' r] eqn:El. subst res. cbn [fst snd].
    destruct (locked_cases W now (node s (negb x)) rq (N3 (negb x)) c' r El) as (L1 & L2 & [(R1 & k & ->)|(R1 & _)]); [|exfalso; exact (N1 _ R1)].
    split; [|split]; cbn [node fl].
    + intros y. destruct (two (negb x) y) as [->| ->]; rewrite ?upd_same, ?upd_other; auto. rewrite R1. auto.
    + intros y b. destruct (two x y) as [->| ->]; rewrite ?upd_same, ?upd_other; auto; discriminate.
    + intros y. destruct (two (negb x) y) as [->| ->]; rewrite ?upd_same, ?upd_other; auto. rewrite R1. auto.
  - destruct r as [[k|b]|]; [|exfalso; exact (N2 _ _ Hf)|]; cbn [flip_done fst].
    all: split; [|split]; cbn [node fl]; intros y; [| intros b0 |].
    all: destruct (two x y) as [->| ->]; rewrite ?upd_same, ?upd_other; auto; discriminate.
  - split; [exact N1|split; [|exact N3]]. intros y b; cbn [fl]; destruct (two x y) as [->| ->]; rewrite ?upd_same, ?upd_other; auto; discriminate.
  - destruct (locked W now (node s x) rq UpRefused) as [c' r] eqn:El. cbn [fst].
    destruct (locked_cases W now (node s x) rq (N3 x) c' r El) as (L1 & L2 & [(R1 & k & ->)|(R1 & _)]); [|exfalso; exact (N1 _ R1)].
    split; [|split; [exact N2|]]; cbn [node]; intros y; destruct (two x y) as [->| ->]; rewrite ?upd_same, ?upd_other; auto; rewrite R1; auto.
Qed.

(** A master with two entries, and its empty follower. *)
Definition free : restrictions := {| max_index_diff := 0; max_diff_size := 0; max_head_diff := 0; max_clock_diff := 0 |}.
Definition demo_m : mp N := fst (mp_run demo_codec mp_init [Publish 5%N 10%Z; Publish 6%N 20%Z; UpdateHead 25%Z]).
Definition demo (r : restrictions) : sys N := {|
  node := fun x => if x then {| c_store := demo_m; c_role := Master; c_exposed := Some (expose 42 r) |} else {| c_store := mp_init; c_role := Following; c_exposed := None |};
  fl := fun _ => Idle |}.
Lemma demo_started r : Flip_Spec.started demo_wire (demo r).
Proof.
  exists true. cbn. repeat split; try discriminate.
  - intros [|]; [exists [Publish 5%N 10%Z; Publish 6%N 20%Z; UpdateHead 25%Z]|exists []]; reflexivity.
  - now exists 0.
Qed.
Definition demo_rq : request := flip_request (mp_init (E:=N)) 42 0 true.
Definition demo_body : bytes := the_diff demo_wire demo_m 0 (-1).
Definition granted (r : restrictions) : sys N := {|
  node := upd (node (demo r)) true {| c_store := demo_m; c_role := Held; c_exposed := Some (expose 42 r) |}; fl := upd (fl (demo r)) false (Answered (Some (Diff demo_body))) |}.
(** The flip is asked for, the request passes the first checks, and is granted. *)
Lemma demo_granted_steps r : within demo_wire r demo_m 0 (-1) -> (max_clock_diff r <= 0)%Z -> exists s, steps demo_wire true (demo r) s /\ (forall x, node s x = node (granted r) x) /\ (forall x, fl s x = fl (granted r) x).
Proof.
  intros Hw Hc. set (s1 := {| node := node (demo r); fl := upd (fl (demo r)) false (Asked demo_rq) |}). set (s2 := {| node := node s1; fl := upd (fl s1) false (Checked demo_rq) |}).
  assert (Hl : locked demo_wire 100 (node s2 true) demo_rq UpRefused = ({| c_store := demo_m; c_role := Held; c_exposed := Some (expose 42 r) |}, Some (Diff demo_body))).
  { unfold locked. cbn [s2 s1 demo node c_exposed c_role c_store expose x_block x_restr x_key demo_rq flip_request rq_key rq_clock rq_head or_zero]. change (Z.ltb 100 0) with false. cbv iota.
    match goal with |- context [if ?c then (_, Some (Refused 400)) else _] => replace c with false by lia end. change (N.eqb 42 42) with true. cbv iota.
    assert (validate demo_wire demo_m r (next_index demo_rq) (-1) = Diff demo_body) as Hv by (apply validate_iff; [vm_compute; discriminate|split; [exact Hw|reflexivity]]).
    match goal with |- context [validate demo_wire ?m ?q ?n ?h] => change (validate demo_wire m q n h) with (validate demo_wire demo_m r (next_index demo_rq) (-1)%Z) end. now rewrite Hv. }
  exists {| node := upd (node s2) (negb false) (fst (locked demo_wire 100 (node s2 (negb false)) demo_rq UpRefused)); fl := upd (fl s2) false (Answered (snd (locked demo_wire 100 (node s2 (negb false)) demo_rq UpRefused))) |}.
  split.
  - apply st_then with s2; [apply st_then with s1; [apply st_then with (demo r); [apply st_here|]|]|].
    + exact (s_ask demo_wire true (demo r) false 42%N 0%Z true eq_refl eq_refl).
    + pose proof (s_check demo_wire true s1 false demo_rq eq_refl) as H. assert (Hp : precheck (c_store (node s1 (negb false))) demo_rq = None) by (vm_compute; reflexivity). rewrite Hp in H. exact H.
    + exact (s_serve demo_wire true s2 false demo_rq 100%Z eq_refl).
  - change (negb false) with true. rewrite Hl. split; intros [|]; reflexivity.
Qed.
Lemma demo_free : within demo_wire free demo_m 0 (-1).
Proof. vm_compute. split; [auto|]. split; [left; discriminate|auto]. Qed.
(** The hypotheses of the theorems are met: this flip succeeds. *)
Example C18_ex : exists s, steps demo_wire true (demo free) s /\ c_role (node s false) = Master /\ c_store (node s false) = demo_m /\ c_role (node s true) = Held.
Proof.
  destruct (demo_granted_steps free demo_free) as (s & H & Hn & Hf); [cbn; lia|]. pose proof (s_receive demo_wire true s false (Some (Diff demo_body)) (Hf false)) as Hr.
  eexists. split; [apply st_then with s; [exact H|exact Hr]|]. cbn [node]. unfold upd. cbn [Bool.eqb]. rewrite !Hn. vm_compute. repeat split; reflexivity.
Qed.
(** The reply of a granted flip may be lost: then there is no master, now or ever after. *)
Theorem C18_a_lost_reply_refuted : exists s, steps demo_wire true (demo free) s /\ forall s', steps demo_wire true s s' -> forall x, c_role (node s' x) <> Master.
Proof.
  destruct (demo_granted_steps free demo_free) as (s & H & Hn & Hf); [cbn; lia|]. assert (Hi : fl s false <> Idle) by (rewrite Hf; discriminate). pose proof (s_lose demo_wire true s false Hi) as Hr.
  eexists. split; [apply st_then with s; [exact H|exact Hr]|]. intros s' Hs.
  assert (no_master s') as [H1 _]; [|exact H1].
  induction Hs as [|s1 s2 _ IH Hst]; [|exact (no_master_step _ _ _ _ IH Hst)].
  split; [|split]; cbn [node fl].
  - intros [|]; rewrite Hn; discriminate.
  - intros [|] b; unfold upd; cbn; [rewrite Hf; discriminate|discriminate].
  - intros [|]; rewrite Hn; [discriminate|reflexivity].
Qed.
(** The restriction on the number of entries does not hold for a follower without any; the one on the size does not count the head's record. *)
Theorem C18_restrictions_refuted :
  (exists s b, steps demo_wire true (demo {| max_index_diff := 1; max_diff_size := 0; max_head_diff := 0; max_clock_diff := 0 |}) s /\
    fl s false = Answered (Some (Diff b)) /\ b = the_diff demo_wire demo_m 0 (-1) /\ length (mp_entries demo_m) = 2) /\
  (exists s b, steps demo_wire true (demo {| max_index_diff := 0; max_diff_size := 44; max_head_diff := 0; max_clock_diff := 0 |}) s /\
    fl s false = Answered (Some (Diff b)) /\ length b = 54).
Proof.
  split.
  - destruct (demo_granted_steps {| max_index_diff := 1; max_diff_size := 0; max_head_diff := 0; max_clock_diff := 0 |}) as (s & H & Hn & Hf); [vm_compute; split; [auto|]; split; [left; discriminate|auto]|cbn; lia|]. exists s, demo_body. split; [exact H|]. split; [apply Hf|]. split; reflexivity.
  - destruct (demo_granted_steps {| max_index_diff := 0; max_diff_size := 44; max_head_diff := 0; max_clock_diff := 0 |}) as (s & H & Hn & Hf); [|cbn; lia|].
    + vm_compute. split; [auto|]. split; [left; discriminate|right; right; discriminate].
    + exists s, demo_body. split; [exact H|]. split; [apply Hf|]. vm_compute. reflexivity.
Qed.
(** One which follows another stream may refuse a flip, and yet have become the master itself: it asks the stream it follows before it checks its own restrictions. *)
Theorem C18_refused_in_a_chain_refuted : exists (b : ctl N) rq a k,
  c_role b = Following /\ receive demo_wire true (c_store b) demo_body = (a, None) /\
  locked demo_wire 100 b rq (UpDone a) = ({| c_store := a; c_role := Master; c_exposed := c_exposed b |}, Some (Refused k)).
Proof.
  exists {| c_store := mp_init; c_role := Following; c_exposed := Some (expose 42 {| max_index_diff := 0; max_diff_size := 1; max_head_diff := 0; max_clock_diff := 0 |}) |}, demo_rq, demo_m, 400%N.
  split; [reflexivity|]. split; vm_compute; reflexivity.
Qed.

(** ** C64 *)
(** While the delay lasts, the reply does not depend on the key, and nothing changes. *)
Theorem C64_no_answer_during_the_delay : forall (E : Type) (W : wire E) now (c : ctl E) rq x up, c_exposed c = Some x -> c_role c <> Held -> (now < x_block x)%Z -> locked W now c rq up = (c, Some (Refused 400)).
Proof. intros E W now c rq x up Hx Hr Hn. unfold locked. rewrite Hx. replace (Z.ltb now (x_block x)) with true by lia. now destruct (c_role c). Qed.
(** Someone who does not know the key, and has had [k] of the guesses looked at, has spent at least 2^(k-1)-1 seconds, however the guesses are made and timed. *)
Lemma handle_delay {E} (W : wire E) t1 l : forall (c : ctl E) x t, c_exposed c = Some x -> c_role c = Master -> (0 < x_delay x)%Z ->
  Forall (fun q => rq_key (snd q) <> Some (x_key x) /\ (t <= fst q <= t1)%Z) l -> Sorted.StronglySorted (fun p q => fst p <= fst q)%Z l ->
  let k := how_many_looked_at W c l in (k <> 0%nat -> Z.max t (x_block x) + x_delay x * (2 ^ (Z.of_nat k - 1) - 1) <= t1)%Z.
Proof.
  induction l as [|[now rq] l IH]; intros c x t Hx Hr Hd HF HS k Hk; [now cbn in k|]. inversion HF as [|? ? [H1 H2] HF']; subst. inversion HS as [|? ? HS' HS2]; subst. cbn [fst snd] in *.
  assert (HF2 : Forall (fun q => rq_key (snd q) <> Some (x_key x) /\ (now <= fst q <= t1)%Z) l).
  { rewrite Forall_forall in *. intros q Hq. specialize (HF' _ Hq). specialize (HS2 _ Hq). cbn in HS2. split; [tauto|lia]. }
  destruct (looked_at now c rq) eqn:Hl.
  - assert (Hlk : locked W now c rq UpRefused = ({| c_store := c_store c; c_role := Master; c_exposed := Some {| x_key := x_key x; x_delay := 2 * x_delay x; x_block := now + x_delay x; x_restr := x_restr x |} |}, Some (Refused 400))).
    { unfold looked_at in Hl. rewrite Hx in Hl. unfold locked. rewrite Hx, Hr. replace (Z.ltb now (x_block x)) with false by lia.
      match goal with |- (if ?b then _ else _) = _ => replace b with false end.
      - destruct (rq_key rq) as [kk|]; [|reflexivity]. destruct (N.eqb_spec kk (x_key x)); [congruence|reflexivity].
      - apply andb_prop in Hl as [_ Hl]. destruct (rq_clock rq) as [k0|]; lia. }
    assert (Hxb : (x_block x <= now)%Z) by (unfold looked_at in Hl; rewrite Hx in Hl; lia).
    unfold k in *. cbn [how_many_looked_at] in *. rewrite Hl, Hlk in *. cbn [fst] in *. set (c1 := {| c_store := _; c_role := Master; c_exposed := _ |}) in *.
    specialize (IH c1 _ now eq_refl eq_refl ltac:(cbn; lia) HF2 HS'). cbn zeta in IH. cbn [x_delay x_block] in IH. set (k' := how_many_looked_at W c1 l) in *.
    destruct (Nat.eq_dec k' 0) as [->|Hk']; [cbn; lia|]. specialize (IH Hk').
    replace (Z.of_nat (1 + k') - 1)%Z with (Z.of_nat k' - 1 + 1)%Z by lia. rewrite Z.pow_add_r by lia. change (2 ^ 1)%Z with 2%Z. nia.
  - assert (Hlk : fst (locked W now c rq UpRefused) = c).
    { unfold looked_at in Hl. rewrite Hx in Hl. unfold locked. rewrite Hx, Hr. destruct (Z.ltb_spec now (x_block x)); [reflexivity|]. replace (Z.leb (x_block x) now) with true in Hl by lia. cbn [andb] in Hl.
      match goal with |- fst (if ?b then _ else _) = _ => replace b with true; [reflexivity|] end. apply orb_false_iff in Hl as [Hl1 Hl2]. destruct (rq_clock rq) as [k0|]; lia. }
    unfold k in *. cbn [how_many_looked_at] in *. rewrite Hl, Hlk in *. cbn [Nat.add] in *. specialize (IH c x now Hx Hr Hd HF2 HS' Hk). cbn zeta in IH. lia.
Qed.
Theorem C64_guessing_is_slow : forall (E : Type) (W : wire E) (c : ctl E) key r l t0 t1, c_role c = Master -> c_exposed c = Some (expose key r) -> (0 <= t0)%Z ->
  Forall (fun q => rq_key (snd q) <> Some key /\ (t0 <= fst q <= t1)%Z) l -> Sorted.StronglySorted (fun p q => fst p <= fst q)%Z l ->
  how_many_looked_at W c l <> 0 -> (1000000 * (2 ^ (Z.of_nat (how_many_looked_at W c l) - 1) - 1) <= t1 - t0)%Z.
Proof.
  intros E W c key r l t0 t1 Hr Hx H0 HF HS Hk. pose proof (handle_delay W t1 l c (expose key r) t0 Hx Hr ltac:(cbn; lia) HF HS Hk) as H. cbn [expose x_block x_delay] in H. lia.
Qed.
(** The key of a request is looked at if it is granted. *)
Theorem C64_granted_only_if_looked_at : forall (E : Type) (W : wire E) now (c : ctl E) rq up b, snd (locked W now c rq up) = Some (Diff b) -> looked_at now c rq = true.
Proof.
  intros E W now c rq up b H. unfold locked in H. unfold looked_at. destruct (c_exposed c) as [x|]; [|discriminate].
  destruct (c_role c); [|discriminate|]; (destruct (Z.ltb_spec now (x_block x)); [discriminate|]); (destruct (Z.ltb 0 (max_clock_diff (x_restr x)) && _)%bool eqn:Hc; [discriminate|]);
    apply andb_true_intro; (split; [lia|]); apply andb_false_iff in Hc; (destruct (rq_clock rq) as [k0|]; [lia|]); destruct Hc; [lia|discriminate|lia|discriminate].
Qed.
Definition guess (k : N) : request := {| rq_get := true; rq_head := Some 0%Z; rq_i := None; rq_key := Some k; rq_clock := None; rq_checked := true |}.
Example C64_ex : how_many_looked_at demo_wire (node (demo free) true) [(0%Z, guess 1); (999999%Z, guess 2); (1000000%Z, guess 3); (2999999%Z, guess 42); (3000000%Z, guess 4)] = 3.
Proof. vm_compute. reflexivity. Qed.
(** The other side of it: guesses keep the one who knows the key out. *)
Theorem C64_the_owner_is_kept_out_refuted : exists now, exists c c', c = node (demo free) true /\ c' = fst (locked demo_wire now c (guess 1) UpRefused) /\
  (forall later, now <= later < now + 1000000 -> locked demo_wire later c' demo_rq UpRefused = (c', Some (Refused 400)))%Z.
Proof.
  exists 100%Z, (node (demo free) true), (fst (locked demo_wire 100 (node (demo free) true) (guess 1) UpRefused)). split; [reflexivity|]. split; [reflexivity|]. intros later Hl.
  eapply C64_no_answer_during_the_delay; [reflexivity|discriminate|]. cbn [x_block]. change (100 + x_delay (expose 42 free))%Z with 1000100%Z. lia.
Qed.
Print Assumptions C18_never_two_masters.
Print Assumptions C18_new_master_has_everything.
Print Assumptions C18_nothing_is_lost.
Print Assumptions C18_when_granted.
Print Assumptions C18_honest_follower_is_granted.
Print Assumptions C18_refused_changes_nothing.
Print Assumptions C18_no_flip_without_the_key.
Print Assumptions C18_not_exposed_or_held.
Print Assumptions C18_chain.
Print Assumptions C18_a_lost_reply_refuted.
Print Assumptions C18_restrictions_refuted.
Print Assumptions C18_refused_in_a_chain_refuted.
Print Assumptions C64_no_answer_during_the_delay.
Print Assumptions C64_guessing_is_slow.
Print Assumptions C64_granted_only_if_looked_at.
Print Assumptions C64_the_owner_is_kept_out_refuted.
Print Assumptions C18_not_the_master_on_a_bad_diff.
