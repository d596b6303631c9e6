(** * Model of Karl's registry of services: [karl/karl.h] (built without CURRENT_MOCK_TIME)

    Services send keepalives and deregister over HTTP; a thread of Karl marks those that have been silent for too long.
    The steps are the critical sections: a transaction of the storage (315-339, 397-416, 464-482, 566-658: one mutex of the
    storage) and a section under [services_keepalive_cache_mutex_].  A codename is a number; of a service the storage keeps
    its [registered_state] only.  Times are microseconds. *)
From stdpp Require Import gmap list.
From Coq Require Import ZArith.

(** schema_karl.h, [ClaireRegisteredState]. *)
Inductive rstate := Active | Deregistered | DisconnectedByTimeout.
Global Instance rstate_eq_dec : EqDecision rstate. Proof. solve_decision. Defined.

(** What an HTTP handler (442-684) is about to do. *)
Inductive hpc :=
| K1 (x : nat) (t : Z)     (* 566-658: the transaction of a keepalive received at [t] (546) *)
| K2 (x : nat) (t : Z)     (* 660-672: the time of the last keepalive *)
| D1 (x : nat)             (* 464-482: the transaction of a deregistration *)
| D2 (x : nat).            (* 483-489 *)
Definition name_of (p : hpc) : nat := match p with K1 x _ | K2 x _ | D1 x | D2 x => x end.

(** Where [StateUpdateThread] (378-440) is. *)
Inductive upc :=
| UTop                                                  (* 379: before the test of the loop *)
| UScan (now : Z)                                       (* 384: about to lock; [now] is read at 380 *)
| UTxn (now : Z) (timeouted : gset nat) (recent : Z)    (* 396-416 *)
| UCalc (recent : Z)                                    (* 422: about to lock *)
| UWaiting (since : Z) (deadline : option Z)            (* 427 or 432; [since] is ghost: when it began to wait *)
| UExit.

Record state := State {
  time : Z;                       (* current::time::Now() *)
  claires : gmap nat rstate;      (* fields.claires *)
  cache : gmap nat Z;             (* services_keepalive_time_cache_ *)
  flag : bool;                    (* state_update_thread_force_wakeup_ *)
  stop : bool;                    (* destructing_ *)
  booted : bool;                  (* ghost: the constructor's transaction is done *)
  handlers : gmap nat hpc;
  upd : upc }.

Inductive event :=
| OnKeepalive (x : nat) (t : Z)        (* the callback, 571 *)
| OnDeregistered (x : nat)             (* 469 *)
| OnTimedOut (x : nat) (now : Z)       (* 407 *)
| Kept (x : nat) (t : Z)               (* ghost: the keepalive of [t] is in the cache, 664 or 669 *)
| Gone (x : nat)                       (* ghost: 486 *)
| Scan (now : Z).                      (* ghost: 382-395 *)

Inductive action :=
| Tick (d : Z)                         (* time passes *)
| Keepalive (h x : nat)                (* a request that passes the checks of 442-545 *)
| Delete (h x : nat)
| Handle (h : nat)                     (* the next step of this handler *)
| Update                               (* the next step of the thread *)
| Boot                                 (* 319-339: the rest of the constructor *)
| Stop.                                (* 344, 353-356: the destructor *)

Definition set_time v s := State v (claires s) (cache s) (flag s) (stop s) (booted s) (handlers s) (upd s).
Definition set_claires v s := State (time s) v (cache s) (flag s) (stop s) (booted s) (handlers s) (upd s).
Definition set_cache v s := State (time s) (claires s) v (flag s) (stop s) (booted s) (handlers s) (upd s).
Definition set_flag v s := State (time s) (claires s) (cache s) v (stop s) (booted s) (handlers s) (upd s).
Definition set_stop v s := State (time s) (claires s) (cache s) (flag s) v (booted s) (handlers s) (upd s).
Definition set_booted v s := State (time s) (claires s) (cache s) (flag s) (stop s) v (handlers s) (upd s).
Definition set_handlers v s := State (time s) (claires s) (cache s) (flag s) (stop s) (booted s) v (upd s).
Definition set_upd v s := State (time s) (claires s) (cache s) (flag s) (stop s) (booted s) (handlers s) v.

(** Before the constructor's transaction: what the storage has from the last time. *)
Definition init (c : gmap nat rstate) (t : Z) : state := State t c ∅ false false false ∅ UTop.

(** 381, 389-393: the most recent of the times that stay. *)
Definition most_recent (m : gmap nat Z) : Z := map_fold (λ _ t r, Z.max t r) 0%Z m.
(** 386: is it to be timed out? *)
Definition expired (T now t : Z) : Prop := (now - t > T)%Z.
Global Instance expired_dec T now t : Decision (expired T now t). Proof. unfold expired. apply _. Defined.

(** 378-440, [StateUpdateThread]; [T] is [service_timeout_interval]. *)
Definition update (T : Z) (s : state) : option (list event * state) :=
  let again := set_upd UTop (set_flag false s) in                                      (* 435-437 *)
  match upd s with
  | UTop => Some ([], set_upd (if stop s then UExit else UScan (time s)) s)            (* 379-380 *)
  | UScan now =>                                                                       (* 383-395 *)
      let l := dom (filter (λ p, expired T now p.2) (cache s)) in
      let rest := filter (λ p, ¬ expired T now p.2) (cache s) in
      let r := most_recent rest in
      Some ([Scan now], set_cache rest (set_upd (if decide (l = ∅) then UCalc r else UTxn now l r) s))
  | UTxn now l r =>                                                                    (* 398-416 *)
      Some (map (λ x, OnTimedOut x now) (elements (filter (λ x, is_Some (claires s !! x)) l)),
            set_claires (gset_to_gmap DisconnectedByTimeout l ∪ claires s) (set_upd (UCalc r) s))
  | UCalc r =>                                                                         (* 422-437 *)
      if decide (r ≠ 0)%Z then
        let wait_interval := (T - (time s - r))%Z in                                   (* 424-425 *)
        if decide (wait_interval > 0)%Z then
          if stop s || flag s then Some ([], again)
          else Some ([], set_upd (UWaiting (time s) (Some (time s + wait_interval + 1)%Z)) s)
        else Some ([], again)
      else if stop s || flag s then Some ([], again)
      else Some ([], set_upd (UWaiting (time s) None) s)                               (* 432 *)
  | UWaiting _ d =>                                                                    (* woken up, or timed out *)
      if stop s || flag s || match d with Some d => bool_decide (d ≤ time s)%Z | None => false end
      then Some ([], again) else None
  | UExit => None
  end.

(** 442-684, [AcceptKeepaliveViaHTTP]. *)
Definition handle (h : nat) (s : state) : option (list event * state) :=
  match handlers s !! h with
  | None => None
  | Some (K1 x t) =>                                                                   (* 571, 626-654 *)
      Some ([OnKeepalive x t], set_claires (<[x := Active]> (claires s)) (set_handlers (<[h := K2 x t]> (handlers s)) s))
  | Some (K2 x t) =>                                                                   (* 662-670; 0 is "not there" *)
      let fresh := bool_decide (default 0%Z (cache s !! x) = 0%Z) in
      Some ([Kept x t], set_cache (<[x := t]> (cache s)) (set_flag (flag s || fresh) (set_handlers (delete h (handlers s)) s)))
  | Some (D1 x) =>                                                                     (* 469, 470-478 *)
      Some ([OnDeregistered x], set_claires (<[x := Deregistered]> (claires s)) (set_handlers (<[h := D2 x]> (handlers s)) s))
  | Some (D2 x) =>                                                                     (* 486-488 *)
      Some ([Gone x], set_cache (delete x (cache s)) (set_flag true (set_handlers (delete h (handlers s)) s)))
  end.

Definition step (T : Z) (a : action) (s : state) : option (list event * state) :=
  match a with
  | Tick d => if decide (0 ≤ d)%Z then Some ([], set_time (time s + d)%Z s) else None
  | Keepalive h x => if decide (handlers s !! h = None) then Some ([], set_handlers (<[h := K1 x (time s)]> (handlers s)) s) else None
  | Delete h x => if decide (handlers s !! h = None) then Some ([], set_handlers (<[h := D1 x]> (handlers s)) s) else None
  | Handle h => handle h s
  | Update => update T s
  | Boot =>
      (* 330-337.  The cache is written without its mutex, and nobody is notified. *)
      if booted s then None
      else Some ([], set_cache (((λ _, time s) <$> filter (λ p, p.2 = Active) (claires s)) ∪ cache s) (set_booted true s))
  | Stop => Some ([], set_stop true s)
  end.
