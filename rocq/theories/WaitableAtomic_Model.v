(** Model of [bricks/sync/waitable_atomic.h], [WaitableAtomicImpl::BasicImpl] and [IntrusiveImpl].

    A transition system over any number of threads.  One step is one section locked by
    [data_mutex_], or one access made without it ([cv_.notify_one()] after the unlock).
    The condition variable is modelled with its wait set: a thread in [wait] is asleep and
    has no step of its own until a notification, or a spurious wake-up, makes it runnable;
    then it re-acquires the mutex and re-evaluates the predicate in one step.

    The user's functions and predicates are pure and total here: they do not throw,
    do not block and do not call back into the object. *)
From stdpp Require Import list.

Section WaitableAtomic.
  Context {D : Type}.

  (** A call of Wait(predicate), waitable_atomic.h 183-190 and 311-323.  [under] is the
      [IntrusiveClient] (if any) which the calling thread keeps in scope around the call. *)
  Inductive wait_call :=
  | NotWaiting
  | Asleep (predicate : D → bool) (under : option nat)
  | Awake (predicate : D → bool) (under : option nat)
  | Returned (result : bool).

  (** An IntrusiveClient, waitable_atomic.h 84-102.  [Increased] / [Decreased]: between the
      locked section and cv_.notify_one() (330-341, 343-349). *)
  Inductive client := NoClient | Increased | Registered | Decreased | Refused | Released.

  (** Where ~IntrusiveImpl is, waitable_atomic.h 292-309. *)
  Inductive destructor :=
  | NotStarted      (* the object is in use *)
  | FlagSet         (* 293-297 done *)
  | CountDecreased  (* 298, before cv_.notify_one() *)
  | CountNotified   (* 298 done *)
  | CallbackDone    (* 299-301 done *)
  | Sleeping        (* 306, in cv_.wait *)
  | Woken           (* 306, notified *)
  | Destroyed.      (* returned: the memory is gone *)

  (** waitable_atomic.h 255-257 and 356-359. *)
  Record wa := WA { data : D; destructing : bool; ref_count : nat;
                    waits : nat → wait_call; clients : nat → client; dtor : destructor }.

  (** What a scoped accessor's user does to the data, and whether ~MutableAccessorDoesNotify
      notifies (134-139). *)
  Notation use := (D → D * bool).
  (** 173-174 with ImmutableAccessorDoesNotNotify (126-129); also GetValue 247. *)
  Definition immutable_use : use := λ d, (d, false).
  (** 209-213. *)
  Definition mutable_use (f : D → D) : use := λ d, (f d, true).
  (** 238-246: [f] modifies the data and says whether it did. *)
  Definition potentially_mutable_use (f : D → D * bool) : use := f.
  (** 249. *)
  Definition set_value (v : D) : use := λ _, (v, true).
  (** 251-258. *)
  Definition set_value_if (p : D → bool) (v : D) : use := λ d, if p d then (v, true) else (d, false).

  Inductive action :=
  | Use (u : use) (under : option nat)
  | Notify (under : option nat)                                (* 177, public *)
  | Wait (t : nat) (p : D → bool) (under : option nat)         (* 183, 311 *)
  | SpuriousWake (t : nat)
  | Resume (t : nat)
  | Register (c : nat) | RegisterNotify (c : nat)              (* 325, 330-341 *)
  | Release (c : nat) | ReleaseNotify (c : nat)                (* 98-102, 343-349 *)
  | Destruct                                                   (* the next step of ~IntrusiveImpl *)
  | DestructSpuriousWake.

  Definition upd {A} (f : nat → A) (i : nat) (x : A) : nat → A := λ j, if decide (j = i) then x else f j.

  (** 177, data_condition_variable_.notify_all(). *)
  Definition wake_all (w : nat → wait_call) : nat → wait_call :=
    λ t, match w t with Asleep p u => Awake p u | x => x end.
  (** cv_.notify_one(): only the destructor waits on cv_ (306). *)
  Definition wake_destructor (d : destructor) : destructor := match d with Sleeping => Woken | x => x end.

  Definition with_wait (s : wa) (t : nat) (w : wait_call) : wa := WA (data s) (destructing s) (ref_count s) (upd (waits s) t w) (clients s) (dtor s).
  Definition with_client (s : wa) (n : nat) (c : nat) (x : client) : wa := WA (data s) (destructing s) n (waits s) (upd (clients s) c x) (dtor s).
  Definition notify_cv (s : wa) : wa := WA (data s) (destructing s) (ref_count s) (waits s) (clients s) (wake_destructor (dtor s)).
  Definition with_dtor (s : wa) (d : destructor) : wa := WA (data s) (destructing s) (ref_count s) (waits s) (clients s) d.

  (** ~IntrusiveImpl, 292-309. *)
  Definition destruct_step (s : wa) : option wa :=
    match dtor s with
    | NotStarted => Some (WA (data s) true (ref_count s) (wake_all (waits s)) (clients s) FlagSet)
    | FlagSet => Some (WA (data s) (destructing s) (ref_count s - 1) (waits s) (clients s) CountDecreased)
    | CountDecreased => Some (with_dtor s CountNotified)
    | CountNotified => Some (with_dtor s CallbackDone)
    | CallbackDone | Woken => Some (with_dtor s (if decide (ref_count s = 0) then Destroyed else Sleeping))
    | Sleeping | Destroyed => None
    end.

  Definition exec (s : wa) (a : action) : option wa :=
    match a with
    | Use u _ => let (d, notify) := u (data s) in
                 Some (WA d (destructing s) (ref_count s) (if notify then wake_all (waits s) else waits s) (clients s) (dtor s))
    | Notify _ => Some (WA (data s) (destructing s) (ref_count s) (wake_all (waits s)) (clients s) (dtor s))
    | Wait t p u =>
        match waits s t with
        | NotWaiting | Returned _ =>
            Some (with_wait s t (if destructing s then Returned false else if p (data s) then Returned (negb (destructing s)) else Asleep p u))
        | _ => None
        end
    | SpuriousWake t => match waits s t with Asleep p u => Some (with_wait s t (Awake p u)) | _ => None end
    | Resume t =>
        match waits s t with
        | Awake p u => Some (with_wait s t (if destructing s || p (data s) then Returned (negb (destructing s)) else Asleep p u))
        | _ => None
        end
    | Register c =>
        match clients s c with
        | NoClient | Refused | Released =>
            Some (if destructing s then with_client s (ref_count s) c Refused else with_client s (ref_count s + 1) c Increased)
        | _ => None
        end
    | RegisterNotify c => match clients s c with Increased => Some (notify_cv (with_client s (ref_count s) c Registered)) | _ => None end
    | Release c => match clients s c with Registered => Some (with_client s (ref_count s - 1) c Decreased) | _ => None end
    | ReleaseNotify c => match clients s c with Decreased => Some (notify_cv (with_client s (ref_count s) c Released)) | _ => None end
    | Destruct => destruct_step s
    | DestructSpuriousWake => match dtor s with Sleeping => Some (with_dtor s Woken) | _ => None end
    end.

  (** 282-290: the constructor calls RefCounterTryIncrease(). *)
  Definition initial (d : D) : wa := WA d false 1 (λ _, NotWaiting) (λ _, NoClient) NotStarted.
End WaitableAtomic.
Arguments wa : clear implicits.
Arguments wait_call : clear implicits.
Arguments action : clear implicits.
