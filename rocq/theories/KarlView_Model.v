(** * Model of what Karl shows: [karl/karl.h], ServeSnapshot (733-778) and BuildStatusAndRespondWithIt (780-960) *)
From stdpp Require Import gmap list sorting.
From Coq Require Import ZArith.
From Verif Require Import Karl_Model.

(** An entry of the stream of keepalives (548-557), with its timestamp.  Codenames and names of services are numbers, in the order
    of the texts; a location is an address and a port.  [e_data] stands for the rest of the keepalive. *)
Definition loc : Type := nat * nat.
Record entry := Entry { e_us : Z; e_code : nat; e_service : nat; e_loc : loc; e_deps : list loc; e_data : nat }.

(** ** ServeSnapshot *)
(** The stream and [latest_keepalive_index_plus_one_]. *)
Record kstream := KStream { log : list entry; latest : gmap nat nat }.

(** 548-557: a keepalive is published.  What is stored is the index that [Publish] returns (554). *)
Definition publish (e : entry) (s : kstream) : kstream :=
  KStream (log s ++ [e]) (<[e_code e := length (log s)]> (latest s)).
(** Karl is started again: the stream is on disk, the map is not. *)
Definition restart (s : kstream) : kstream := KStream (log s) ∅.

(** 744-749: one more than the index of the last entry of this codename, or zero. *)
Fixpoint scan (x : nat) (i : nat) (index : nat) (l : list entry) : nat :=
  match l with [] => index | e :: l => scan x (S i) (if decide (e_code e = x) then S i else index) l end.
(** 733-778.  In one step: the map is read without its mutex there (742), and the log may have grown by the time it is iterated. *)
Definition snapshot (x : nat) (s : kstream) : option entry * kstream :=
  let cached := default 0 (latest s !! x) in                                              (* 736-742 *)
  let index := if decide (cached = 0) then scan x 0 0 (log s) else cached in              (* 743-749 *)
  let s' := if decide (cached = 0 ∧ index ≠ 0) then KStream (log s) (<[x := cached `max` index]> (latest s)) else s in   (* 750-753 *)
  (match index with 0 => None | S i => log s !! i end, s').                               (* 756-777 *)

Inductive op := Publish (e : entry) | Snapshot (x : nat) | Restart.
Definition apply (o : op) (s : kstream) : kstream :=
  match o with Publish e => publish e s | Snapshot x => snd (snapshot x s) | Restart => restart s end.

(** ** The fleet view *)
(** 836-859: what is put together of a codename. *)
Record report := Report { r_up : bool; r_us : Z; r_deps : list loc; r_data : nat }.
(** 813-825: the four containers. *)
Record proto := Proto { codes : gset nat; reports : gmap nat report; services : gmap nat (gset nat); keys : gmap loc nat }.
(** 829-860: one entry. *)
Definition absorb (T now : Z) (p : proto) (e : entry) : proto :=
  Proto ({[e_code e]} ∪ codes p)                                                                       (* 832 *)
        (<[e_code e := Report (bool_decide (now - e_us e < T)%Z) (e_us e) (e_deps e) (e_data e)]> (reports p))   (* 837-859 *)
        (<[e_service e := {[e_code e]} ∪ default ∅ (services p !! e_service e)]> (services p))          (* 835 *)
        (<[e_loc e := e_code e]> (keys p)).                                                            (* 833 *)
(** blocks/persistence/memory.h 244-266, 324-331: [Iterate(from, to)], of entries in the order of time; see C01, C03. *)
Definition in_window (from to : Z) (e : entry) : Prop := (from ≤ e_us e)%Z ∧ (to > 0 → e_us e ≤ to)%Z.
Global Instance in_window_dec from to e : Decision (in_window from to e). Proof. unfold in_window. apply _. Defined.

(** 909-921: where a codename is.  A codename that the registry does not have is a "zombie". *)
Inductive place := At (l : loc) | Zombie (x : nat).
Inductive machine := Ip (n : nat) | ZombieIp (x : nat).
Global Instance machine_eq_dec : EqDecision machine. Proof. solve_decision. Defined.
Global Program Instance machine_countable : Countable machine :=
  inj_countable' (λ m, match m with Ip n => inl n | ZombieIp n => inr n end) (λ m, match m with inl n => Ip n | inr n => ZombieIp n end) _.
Next Obligation. by intros []. Qed.
Definition machine_of (p : place) : machine := match p with At l => Ip l.1 | Zombie x => ZombieIp x end.
Definition place_of (claires : gmap nat (loc * rstate)) (x : nat) : place :=
  match claires !! x with Some c => At c.1 | None => Zombie x end.

(** 926-956, without the data of the build and the URLs. *)
Record blob := Blob { b_service : nat; b_place : place; b_up : bool; b_us : Z; b_deps : list nat; b_unresolved : list loc; b_data : nat }.
(** 928-934: with ?active_only. *)
Definition skipped (claires : gmap nat (loc * rstate)) (active_only : bool) (x : nat) : bool :=
  active_only && match claires !! x with Some c => bool_decide (c.2 ≠ Active) | None => false end.
Definition make_blob (claires : gmap nat (loc * rstate)) (p : proto) (s x : nat) (r : report) : blob :=
  Blob s (place_of claires x) (r_up r) (r_us r)
       (omap (λ d, keys p !! d) (r_deps r))                                    (* 938-941 *)
       (filter (λ d, keys p !! d = None) (r_deps r))                           (* 942-944 *)
       (r_data r).
Definition by_service (p : proto) : list (nat * nat) :=                        (* 923-925: two nested loops, in the order of the names *)
  s ← merge_sort (≤) (elements (dom (services p))); map (λ x, (s, x)) (elements (default ∅ (services p !! s))).
(** 780-960; the result is [result.machines[ip].services[codename]] as one map. *)
Definition fleet_view (T now from to : Z) (active_only : bool) (claires : gmap nat (loc * rstate)) (l : list entry) : gmap (machine * nat) blob :=
  let p := foldl (absorb T now) (Proto ∅ ∅ ∅ ∅) (filter (in_window from to) l) in
  foldl (λ m sx, match reports p !! sx.2 with                                  (* 927: .at() *)
                 | Some r => if skipped claires active_only sx.2 then m
                             else <[(machine_of (place_of claires sx.2), sx.2) := make_blob claires p sx.1 sx.2 r]> m
                 | None => m
                 end) ∅ (by_service p).
