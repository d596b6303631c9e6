(** * C88: what Karl shows *)
From stdpp Require Import gmap list sorting.
From Coq Require Import ZArith Lia.
From Verif Require Import Karl_Model KarlView_Model KarlView_Spec KarlView_Proofs.

(** ** Proved *)
(** As long as the service has not been heard from since Karl was started, the snapshot of it is its last keepalive, if any. *)
Theorem C88_snapshot_of_the_past x ops1 ops2 :
  quiet_on x ops2 →
  let s := after (ops1 ++ Restart :: ops2) in fst (snapshot x s) = last (of_code x (log s)).
Proof.
  intros Q s. apply snapshot_exact. unfold s. rewrite after_app. simpl. apply apply_all_exact; [done|]. by left.
Qed.
(** Also if its keepalive is the very first entry of the stream. *)
Theorem C88_snapshot_of_the_first e ops1 ops2 :
  log (after ops1) = [] → quiet_on (e_code e) ops2 →
  let s := after (ops1 ++ Publish e :: ops2) in fst (snapshot (e_code e) s) = last (of_code (e_code e) (log s)).
Proof.
  intros L Q s. apply snapshot_exact. unfold s. rewrite after_app. simpl. apply apply_all_exact; [done|].
  left. unfold cached. simpl. by rewrite lookup_insert, L.
Qed.
(** What happens otherwise: the snapshot of the service is the entry of the stream before its last keepalive, of whichever service. *)
Theorem C88_snapshot_is_one_off e ops1 ops2 :
  log (after ops1) ≠ [] → quiet_on (e_code e) ops2 → Restart ∉ ops2 →
  fst (snapshot (e_code e) (after (ops1 ++ Publish e :: ops2))) = last (log (after ops1)).
Proof.
  intros L Q R. apply snapshot_shifted. rewrite after_app. simpl. apply apply_all_shifted; [done|done|].
  split; [|split; [done|]].
  - unfold cached. simpl. by rewrite lookup_insert.
  - simpl. by apply prefix_app_r.
Qed.

(** The fleet view shows a codename exactly if there is a keepalive of it in the window (and, with active_only, the registry does
    not have it in another state); it shows the last of these: up if it is younger than the timeout, on the machine that the
    registry has for it, with its dependencies resolved to the codename last heard from at that location.  The name of the service is
    the last one in the order of the alphabet of those it has used. *)
Theorem C88_view_is_exact T now from to active_only claires l mc x b :
  (0 < to)%Z →
  let W := window from to l in
  fleet_view T now from to active_only claires l !! (mc, x) = Some b ↔
  ∃ e e1, last (of_code x W) = Some e ∧ e1 ∈ of_code x W ∧ (∀ e2, e2 ∈ of_code x W → e_service e2 ≤ e_service e1) ∧
    (active_only = true → ∀ k, claires !! x = Some k → k.2 = Active) ∧
    mc = machine_of (match claires !! x with Some k => At k.1 | None => Zombie x end) ∧
    b = shown T now claires W x e (e_service e1).
Proof. intros H W. unfold W. rewrite <- window_eq by done. apply view_exact. Qed.
(** So a codename is shown at most once. *)
Theorem C88_shown_once T now from to active_only claires l mc1 mc2 x b1 b2 :
  fleet_view T now from to active_only claires l !! (mc1, x) = Some b1 →
  fleet_view T now from to active_only claires l !! (mc2, x) = Some b2 → mc1 = mc2.
Proof. rewrite !view_exact. by intros (e & e1 & _ & _ & _ & _ & -> & _) (e' & e1' & _ & _ & _ & _ & -> & _). Qed.
(** And a codename that does not change its service is shown with it. *)
Theorem C88_shown_with_its_service T now from to active_only claires l mc x b e :
  (∀ e1 e2, e1 ∈ of_code x l → e2 ∈ of_code x l → e_service e1 = e_service e2) →
  fleet_view T now from to active_only claires l !! (mc, x) = Some b →
  last (of_code x (window from to l)) = Some e → (0 < to)%Z → b_service b = e_service e.
Proof.
  intros S. rewrite view_exact. intros (e' & e1 & E' & H1 & _ & _ & _ & ->) E Hto. rewrite window_eq in E', H1 by done. simpl. rewrite E' in E. injection E as ->.
  apply last_Some_elem_of in E'. apply S.
  - apply elem_of_list_filter in H1 as [? [? ?]%elem_of_list_filter]. by apply elem_of_list_filter.
  - apply elem_of_list_filter in E' as [? [? ?]%elem_of_list_filter]. by apply elem_of_list_filter.
Qed.

(** ** Not so *)
(** "The snapshot of a service is its last keepalive": the index of the keepalive is stored where one more than the index is
    expected (554), so the snapshot of a service that has just been heard from is the keepalive of another. *)
Theorem C88_snapshot_refuted :
  ∀ e0 e1, e_code e0 ≠ e_code e1 →
    let s := after [Publish e0; Publish e1] in
    last (of_code (e_code e1) (log s)) = Some e1 ∧ fst (snapshot (e_code e1) s) = Some e0.
Proof.
  intros e0 e1 N s. split.
  - change (log s) with ([e0] ++ [e1]). rewrite of_code_snoc, decide_True by done. by rewrite last_snoc.
  - apply (C88_snapshot_is_one_off e1 [Publish e0] []); [done| |]; [intros e He|]; by apply not_elem_of_nil || by apply elem_of_nil in He.
Qed.

(** "A codename is shown with the service of its last keepalive": a codename that has had another service within the window is shown
    under the name that comes later in the alphabet. *)
Theorem C88_shown_with_its_last_service_refuted :
  ∃ T now from to claires l mc x b e,
    fleet_view T now from to false claires l !! (mc, x) = Some b ∧
    last (of_code x (window from to l)) = Some e ∧ b_service b ≠ e_service e.
Proof.
  exists 20%Z, 110%Z, 90%Z, 110%Z, {[7 := ((1, 80), Active)]}, [Entry 100 7 5 (1, 80) [] 0; Entry 105 7 4 (1, 80) [] 1], (Ip 1), 7.
  do 2 eexists. split; [vm_compute; reflexivity|]. split; [vm_compute; reflexivity|]. vm_compute. lia.
Qed.

(** ** The hypotheses are met *)
Definition log2 : list entry :=
  [Entry 100 7 5 (1, 80) [] 11; Entry 101 8 6 (2, 80) [(1, 80); (9, 80)] 12; Entry 105 7 5 (1, 80) [] 13; Entry 140 9 5 (3, 80) [] 14].
Example C88_log2_view :
  let v := fleet_view 20 122 90 130 false {[7 := ((1, 80), Active)]} log2 in
  v !! (Ip 1, 7) = Some (Blob 5 (At (1, 80)) true 105 [] [] 13) ∧
  v !! (ZombieIp 8, 8) = Some (Blob 6 (Zombie 8) false 101 [7] [(9, 80)] 12) ∧ v !! (ZombieIp 9, 9) = None.
Proof. vm_compute. auto. Qed.
Example C88_log2_snapshot :
  let s := after (map Publish log2 ++ [Restart; Snapshot 8]) in
  fst (snapshot 7 s) = log2 !! 2 ∧ fst (snapshot 8 s) = log2 !! 1 ∧ fst (snapshot 5 s) = None.
Proof. vm_compute. auto. Qed.

Print Assumptions C88_snapshot_of_the_past.
Print Assumptions C88_snapshot_of_the_first.
Print Assumptions C88_snapshot_is_one_off.
Print Assumptions C88_view_is_exact.
Print Assumptions C88_shown_once.
Print Assumptions C88_shown_with_its_service.
Print Assumptions C88_snapshot_refuted.
Print Assumptions C88_shown_with_its_last_service_refuted.
