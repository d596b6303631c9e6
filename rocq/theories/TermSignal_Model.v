(** * Model of [bricks/util/waitable_terminate_signal.h] *)
From stdpp Require Import gmap list.

(** ** One waiter, and the threads that signal it *)
(** Where the thread in [WaitUntil] (56-70) is.  It holds the caller's mutex from [WTop] to [WSleep], and in [WDone] and [WReturned]. *)
Inductive wpc :=
| WOut                      (* not in WaitUntil, and without the mutex *)
| WTop                      (* 64-66: at the beginning of [wait_for]: the predicate is to be evaluated *)
| WSleep                    (* the predicate was false: about to release the mutex and to wait for a notification, in one step *)
| WSleeping                 (* waiting *)
| WWoken                    (* notified: to get the mutex, and then to evaluate the predicate *)
| WTimedOut                 (* the 25 ms are over: to get the mutex, and then to evaluate the predicate for the last time *)
| WAfter                    (* 67: at the test of the loop, with wait_done = false *)
| WDone                     (* 69: the loop has ended *)
| WReturned (b : bool).
Global Instance wpc_eq_dec : EqDecision wpc. Proof. solve_decision. Defined.

Record state := State {
  stop : bool;              (* stop_signal_ *)
  cond : bool;              (* what external_condition() returns *)
  pending : nat;            (* calls to notify_all() that are still to be made *)
  pc : wpc }.
Definition holds (p : wpc) : bool := match p with WTop | WSleep | WAfter | WDone | WReturned _ => true | _ => false end.

Inductive action :=
| Signal                    (* 47-48: SignalExternalTermination(), up to the notification *)
| Event (b : bool)          (* the condition becomes [b] in a section under the mutex, NotifyOfExternalWaitableEvent() to follow *)
| Notify                    (* 48, 53: condition_variable_.notify_all() *)
| Call                      (* the mutex is locked, and WaitUntil called *)
| Wait                      (* the next step of the waiting thread *)
| Timeout                   (* 25 ms are over *)
| Spurious.                 (* condition variables may wake up of themselves *)

Definition init (b : bool) : state := State false b 0 WOut.
Definition set_pc p s := State (stop s) (cond s) (pending s) p.
(** 59-62; the external condition is not evaluated if the stop signal is set. *)
Definition wait_done (s : state) : bool := stop s || cond s.

(** 56-70, [WaitUntil].  [wait_for(lock, 25ms, pred)] is: while (!pred()) { if (wait_until(...) == timeout) return pred(); } return true. *)
Definition wait_step (s : state) : option state :=
  match pc s with
  | WOut | WSleeping | WReturned _ => None
  | WTop => Some (set_pc (if wait_done s then WDone else WSleep) s)
  | WSleep => Some (set_pc WSleeping s)
  | WWoken => Some (set_pc (if wait_done s then WDone else WSleep) s)
  | WTimedOut => Some (set_pc (if wait_done s then WDone else WAfter) s)
  | WAfter => Some (set_pc WTop s)                                      (* 67: and around again *)
  | WDone => Some (set_pc (WReturned (stop s)) s)                       (* 69 *)
  end.

Definition step (a : action) (s : state) : option state :=
  match a with
  | Signal => Some (State true (cond s) (S (pending s)) (pc s))
  | Event b => if holds (pc s) then None else Some (State (stop s) b (S (pending s)) (pc s))
  | Notify => match pending s with
              | 0 => None
              | S n => Some (State (stop s) (cond s) n (if decide (pc s = WSleeping) then WWoken else pc s))
              end
  | Call => if decide (pc s = WOut) then Some (set_pc WTop s) else None
  | Wait => match pc s with WReturned _ => Some (set_pc WOut s) | _ => wait_step s end      (* the caller unlocks the mutex *)
  | Timeout => if decide (pc s = WSleeping) then Some (set_pc WTimedOut s) else None
  | Spurious => if decide (pc s = WSleeping) then Some (set_pc WWoken s) else None
  end.

(** ** WaitableTerminateSignalBulkNotifier (80-125): each operation is one section under its mutex *)
(** 124: the set of signals. *)
Definition bulk : Type := gset nat.
Definition register (x : nat) (b : bulk) : bulk := {[x]} ∪ b.           (* 110-113 *)
Definition unregister (x : nat) (b : bulk) : bulk := b ∖ {[x]}.         (* 116-119 *)
Definition notified (b : bulk) : gset nat := b.                         (* 102-107: whose condition variables are notified *)
Inductive bulk_op := Open (x : nat) | Close (x : nat).                  (* 84-93: the constructor and the destructor of a Scope *)
Definition apply_op (b : bulk) (o : bulk_op) : bulk := match o with Open x => register x b | Close x => unregister x b end.
