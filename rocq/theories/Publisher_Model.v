(** Model of the publisher of a stream: [stream/stream.h] 144-156 and 202-264, with [stream/stream_impl.h] 110-150.

    The publishers are instances and handles of [Owned_Model]: handle 0 is [owned_publisher_], handle 1 is
    [borrowable_publisher_], the others belong to the users of the stream.  The stream's [publishing_mutex] is held for the whole of
    a role change, and needed by each BorrowPublisher(), IsMasterStream() and Publish() call.
    Not modelled: the reference to [borrowable_publisher_] which Publisher() returns without any protection ("the caller assumes
    full responsibility", 216-226); what is published (C01). *)
From stdpp Require Import list.
From Verif Require Import Owned_Model.

Notation owned := (state unit).
(** BecomeMasterStream(), 250-253; BecomeFollowingStream(), 261-264, whose result is stored as handle [h]. *)
Inductive role := ToMaster | ToFollower (h : nat).
(** Where RecreatePublisher() and its caller are, 202-211. *)
Inductive change_pc := DropBorrowable | DropBorrowableNotify | DropOwned | WaitForBorrowers | MakeNew | GiveOut.
Inductive mutex := Free | HeldByChange (r : role) (pc : change_pc).

Record st := St {
  pubs : owned; publishing_mutex : mutex;
  calls : nat → option nat;     (* thread [t] is inside Publish() through handle [h], and has not locked the mutex yet *)
  log : list nat;               (* ghost: for each entry published, the instance of the publisher used *)
  changes : nat;                (* ghost: the number of role changes completed *)
  is_master : bool }.           (* ghost: the last one completed (or the constructor) made the stream the master *)

(** stream.h 186-201: the constructors; MakeOwned<publisher_t>, then a borrower of it. *)
Definition new_stream : option st :=
  match exec initial (MakeOwned 0) with
  | Some o => match exec o (Borrow 1 0 ()) with Some o => Some (St o Free (λ _, None) [] 0 true) | None => None end
  | None => None
  end.

Inductive result := Done | Threw | Answer (b : bool).
Inductive act :=
| BorrowPublisher (h : nat)                 (* 232-240 *)
| IsMasterStream                            (* 243-247 *)
| External (a : action unit)                (* users copy, move and release their handles *)
| CallPublish (t h : nat)                   (* stream_impl.h 117-125: Publish() is entered *)
| DoPublish (t : nat)                       (* its locked section *)
| StartChange (r : role)
| ContinueChange
| SpuriousWakeInChange.

Definition with_pubs (s : st) (o : owned) : st := St o (publishing_mutex s) (calls s) (log s) (changes s) (is_master s).
Definition with_phase (s : st) (o : owned) (m : mutex) : st := St o m (calls s) (log s) (changes s) (is_master s).

(** Only the users' own handles, and not one through which a call is in progress. *)
Definition in_use (s : st) (h : nat) : Prop := ∃ t, calls s t = Some h.
Definition external_ok (s : st) (a : action unit) : Prop :=
  match a with
  | Borrow h g _ => 2 ≤ h ∧ 2 ≤ g
  | MoveConstruct h g _ | MoveAssign h g _ => 2 ≤ h ∧ 2 ≤ g ∧ ¬ in_use s h ∧ ¬ in_use s g
  | Release h => 2 ≤ h ∧ ¬ in_use s h
  | ReleaseNotify h => 2 ≤ h
  | _ => False
  end.

(** RecreatePublisher(), 202-211, and what the caller does with its result. *)
Definition change_step (s : st) (r : role) (pc : change_pc) : option st :=
  match pc with
  | DropBorrowable =>                                  (* 205: borrowable_publisher_ = nullptr *)
      match p_actual_instance (handles (pubs s) 1) with
      | Some _ => match exec (pubs s) (Release 1) with Some o => Some (with_phase s o (HeldByChange r DropBorrowableNotify)) | None => None end
      | None => Some (with_phase s (pubs s) (HeldByChange r DropOwned))
      end
  | DropBorrowableNotify => match exec (pubs s) (ReleaseNotify 1) with Some o => Some (with_phase s o (HeldByChange r DropOwned)) | None => None end
  | DropOwned => match exec (pubs s) (Destroy 0) with Some o => Some (with_phase s o (HeldByChange r WaitForBorrowers)) | None => None end   (* 206 *)
  | WaitForBorrowers =>                                (* inside ~UniqueInstance of the old publisher *)
      match dtor (insts (pubs s) (changes s)) with
      | Destroyed => Some (with_phase s (pubs s) (HeldByChange r MakeNew))
      | _ => match exec (pubs s) (Continue (changes s)) with Some o => Some (with_pubs s o) | None => None end
      end
  | MakeNew => match exec (pubs s) (MakeOwned 0) with Some o => Some (with_phase s o (HeldByChange r GiveOut)) | None => None end    (* 208 *)
  | GiveOut =>                                         (* 209, then 252 or 263 *)
      match r with
      | ToMaster => match exec (pubs s) (Borrow 1 0 ()) with Some o => Some (St o Free (calls s) (log s) (S (changes s)) true) | None => None end
      | ToFollower h => match exec (pubs s) (Borrow h 0 ()) with Some o => Some (St o Free (calls s) (log s) (S (changes s)) false) | None => None end
      end
  end.

Definition upd_call (f : nat → option nat) (t : nat) (x : option nat) : nat → option nat := λ j, if decide (j = t) then x else f j.

Inductive step : st → act → result → st → Prop :=
| s_borrow s h o : publishing_mutex s = Free → 2 ≤ h → exec (pubs s) (Borrow h 1 ()) = Some o → step s (BorrowPublisher h) Done (with_pubs s o)
| s_borrow_throw s h : publishing_mutex s = Free → p_actual_instance (handles (pubs s) 1) = None → step s (BorrowPublisher h) Threw s
| s_is_master s : publishing_mutex s = Free → step s IsMasterStream (Answer (bool_decide (p_actual_instance (handles (pubs s) 1) ≠ None))) s
| s_external s a o : external_ok s a → exec (pubs s) a = Some o → step s (External a) Done (with_pubs s o)
| s_call s t h i : calls s t = None → 2 ≤ h → p_actual_instance (handles (pubs s) h) = Some i →
    step s (CallPublish t h) Done (St (pubs s) (publishing_mutex s) (upd_call (calls s) t (Some h)) (log s) (changes s) (is_master s))
| s_publish s t h i : calls s t = Some h → publishing_mutex s = Free → p_actual_instance (handles (pubs s) h) = Some i →
    step s (DoPublish t) Done (St (pubs s) Free (upd_call (calls s) t None) (log s ++ [i]) (changes s) (is_master s))
| s_start s r : publishing_mutex s = Free → match r with ToFollower h => 2 ≤ h | ToMaster => True end →
    step s (StartChange r) Done (with_phase s (pubs s) (HeldByChange r DropBorrowable))
| s_continue s r pc s' : publishing_mutex s = HeldByChange r pc → change_step s r pc = Some s' → step s ContinueChange Done s'
| s_spurious s r o : publishing_mutex s = HeldByChange r WaitForBorrowers → exec (pubs s) (SpuriousWake (changes s)) = Some o → step s SpuriousWakeInChange Done (with_pubs s o).

Inductive reachable_from (s : st) : st → Prop :=
| here : reachable_from s s
| there s' a r s'' : reachable_from s s' → step s' a r s'' → reachable_from s s''.
Definition reachable (s : st) : Prop := ∃ s0, new_stream = Some s0 ∧ reachable_from s0 s.
