(** Two controllers, each of which may follow the other: everything that can happen to them. *)
From Verif Require Import Base Codec Persister_Model Persister_Spec Replicator_Model Replicator_Spec Flip_Model.
Local Open Scope list_scope.

(** Where the FlipToMaster() call of a controller is: not called; the request is on its way, or has passed the first checks and waits for the mutex;
    the reply is on its way ([None]: none). *)
Inductive flight := Idle | Asked (rq : request) | Checked (rq : request) | Answered (r : option reply).

Section System.
Context {E : Type}.
Variable W : wire E.
Variable rm : bool.          (* the replication mode *)

Record sys := { node : bool -> ctl E; fl : bool -> flight }.
Definition upd {A} (f : bool -> A) (x : bool) (a : A) : bool -> A := fun y => if Bool.eqb x y then a else f y.
Definition with_store (c : ctl E) (m : mp E) : ctl E := {| c_store := m; c_role := c_role c; c_exposed := c_exposed c |}.
Definition with_role (c : ctl E) (r : role) : ctl E := {| c_store := c_store c; c_role := r; c_exposed := c_exposed c |}.
Definition with_exposed (c : ctl E) (x : option exposed) : ctl E := {| c_store := c_store c; c_role := c_role c; c_exposed := x |}.
Notation other := negb.

(** A controller which follows is not exposed: see [s_follow], [s_expose]. *)
Inductive step (s : sys) : sys -> Prop :=
| s_publish x o :                                                       (* anything the users of a master do with it *)
    c_role (node s x) = Master -> (mp_size (fst (mp_step (w_codec W) (c_store (node s x)) o)) < npos)%N ->
    step s {| node := upd (node s) x (with_store (node s x) (fst (mp_step (w_codec W) (c_store (node s x)) o))); fl := fl s |}
| s_replicate x l from :                                                (* a follower gets a record from the other one, or nonsense *)
    c_role (node s x) = Following -> fl s x = Idle -> genuine W (c_store (node s (other x))) l \/ garbage W l ->
    step s {| node := upd (node s) x (with_store (node s x)
                (r_store (fst (pass_entry W rm {| r_store := c_store (node s x); r_next := mp_size (c_store (node s x)); r_from := from |} l)))); fl := fl s |}
| s_expose x key r :
    c_role (node s x) <> Following -> c_exposed (node s x) = None -> step s {| node := upd (node s) x (with_exposed (node s x) (Some (expose key r))); fl := fl s |}
| s_unexpose x : step s {| node := upd (node s) x (with_exposed (node s x) None); fl := fl s |}
| s_follow x :                                                          (* one which has given up its stream, or even has not, follows the other one *)
    c_role (node s x) <> Following -> c_exposed (node s x) = None -> step s {| node := upd (node s) x (with_role (node s x) Following); fl := fl s |}
| s_ask x key clock checked :                                           (* FlipToMaster() *)
    may_flip (node s x) = true -> fl s x = Idle ->
    step s {| node := node s; fl := upd (fl s) x (Asked (flip_request (c_store (node s x)) key clock checked)) |}
| s_check x rq :
    fl s x = Asked rq ->
    step s {| node := node s; fl := upd (fl s) x (match precheck (c_store (node s (other x))) rq with None => Checked rq | Some k => Answered (Some (Refused k)) end) |}
| s_serve x rq now :
    fl s x = Checked rq ->
    let res := locked W now (node s (other x)) rq UpRefused in
    step s {| node := upd (node s) (other x) (fst res); fl := upd (fl s) x (Answered (snd res)) |}
| s_receive x r :
    fl s x = Answered r -> step s {| node := upd (node s) x (fst (flip_done W rm (node s x) r)); fl := upd (fl s) x Idle |}
| s_lose x :                                                            (* the connection breaks, at any moment *)
    fl s x <> Idle -> step s {| node := node s; fl := upd (fl s) x Idle |}
| s_stranger x rq now :                                                 (* any other request to flip, even one that has not passed the first checks *)
    step s {| node := upd (node s) x (fst (locked W now (node s x) rq UpRefused)); fl := fl s |}.

Inductive steps (s : sys) : sys -> Prop :=
| st_here : steps s s
| st_then s' s'' : steps s s' -> step s' s'' -> steps s s''.

(** One is the master; the other one is not, and its data are the beginning of the master's. *)
Definition started (s : sys) : Prop :=
  exists x, c_role (node s x) = Master /\ c_role (node s (other x)) <> Master /\ c_exposed (node s (other x)) = None /\
    (forall y, exists ops, c_store (node s y) = fst (mp_run (w_codec W) mp_init ops)) /\ (mp_size (c_store (node s x)) < npos)%N /\
    replica (c_store (node s x)) (c_store (node s (other x))) /\ (forall y, fl s y = Idle).
End System.
Arguments sys E : clear implicits.

(** ** What is sent, and when *)
Section Diff.
Context {E : Type}.
Variable W : wire E.
Definition ended (l : bytes) : bytes := l ++ [NL].
(** The records of the entries from the [n]-th on. *)
Definition missing (m : mp E) (n : N) : bytes :=
  concat (map (fun x : idxts * E => ended (entry_line W (fst (fst x)) (snd (fst x)) (snd x))) (numbered_from n (skipn (N.to_nat n) (mp_entries m)))).
(** The time of the last entry, if any. *)
Definition last_time (m : mp E) : option Z := option_map fst (List.hd_error (rev (mp_entries m))).
(** These, and the head if it is later than both the follower's and the last entry. *)
Definition the_diff (m : mp E) (n : N) (h : Z) : bytes :=
  missing m n ++ (if Z.ltb h (mp_head m) && match last_time m with Some t => Z.ltb t (mp_head m) | None => true end then ended (head_line W (mp_head m)) else [])%bool.
(** The restrictions, for a follower with [n] entries and the head [h]. *)
Definition within (r : restrictions) (m : mp E) (n : N) (h : Z) : Prop :=
  (max_index_diff r = 0%N \/ n = 0%N \/ (mp_size m - n <= max_index_diff r)%N) /\
  ((max_head_diff r <= 0)%Z \/ (mp_head m - h <= max_head_diff r)%Z) /\
  (max_diff_size r = 0%N \/ n = mp_size m \/ (N.of_nat (length (missing m n)) <= max_diff_size r)%N).
(** The follower is not ahead of any entry which it lacks. *)
Definition in_time (m f : mp E) : Prop :=
  forall j t e, nth_error (mp_entries m) j = Some (t, e) -> (mp_size f <= N.of_nat j)%N -> (mp_head f < t)%Z.
End Diff.

(** ** Guessing the key *)
Section Guess.
Context {E : Type}.
Variable W : wire E.
(** Requests handled one after another, each at its time. *)
Fixpoint handle (c : ctl E) (l : list (Z * request)) : ctl E :=
  match l with [] => c | (now, rq) :: l => handle (fst (locked W now c rq UpRefused)) l end.
(** The key of the request is looked at: the controller is not in the delay after a wrong key, and the clock is good. *)
Definition looked_at (now : Z) (c : ctl E) (rq : request) : bool :=
  match c_exposed c with
  | Some x => Z.leb (x_block x) now &&
      (Z.leb (max_clock_diff (x_restr x)) 0 || match rq_clock rq with Some k => Z.leb (Z.abs (k - now)) (max_clock_diff (x_restr x)) | None => false end)
  | None => false
  end.
Fixpoint how_many_looked_at (c : ctl E) (l : list (Z * request)) : nat :=
  match l with [] => 0 | (now, rq) :: l => (if looked_at now c rq then 1 else 0) + how_many_looked_at (fst (locked W now c rq UpRefused)) l end.
End Guess.
