(** * What Claire has to do *)
From stdpp Require Import gmap list.
From Verif Require Import Claire_Model.

(** Everything that can happen, from some time on. *)
Definition reach (s : state) : Prop := ∃ t tr, (0 ≤ t)%Z ∧ run tr (init t) = Some s.

(** Thread [n] calls nothing in this run. *)
Definition no_call (n : nat) (tr : list action) : Prop := ∀ c, Call n c ∉ tr.
(** Nobody calls SetKarlLocator. *)
Definition no_relocation (tr : list action) : Prop := ∀ n l w, Call n (SetKarl l w) ∉ tr.
(** Nor is anybody about to change the locator. *)
Definition no_relocation_pending (s : state) : Prop := ∀ n l w, users s !! n ≠ Some (SLock l w).

(** The keepalive thread waits, and nobody is going to wake it up. *)
Definition left_asleep (s : state) : Prop :=
  (∃ d, kp s = KSleep d) ∧ (∀ n w, users s !! n ≠ Some (FNotify w)) ∧ dp s ≠ DNotify.

(** Only thread [n], the keepalive thread and the destructor do anything; Karl answers. *)
Definition only (n : nat) (tr : list action) : Prop :=
  Forall (λ a, match a with Keeps _ => True | Users m ok => m = n ∧ ok = true | _ => False end) tr.
Definition only_destruction (tr : list action) : Prop :=
  Forall (λ a, match a with Keeps _ | Destroys => True | _ => False end) tr.
Definition others_idle (n : nat) (s : state) : Prop := ∀ m, m ≠ n → idle (users s !! m) = true.
Definition all_idle (s : state) : Prop := ∀ m, idle (users s !! m) = true.

(** The program calls ForceSendKeepalive and SetKarlLocator, and Karl or anybody else sends the requests that lead to these calls, only
    when a call of Register has succeeded. *)
Fixpoint registered_first (s : state) (tr : list action) : Prop :=
  match tr with
  | [] => True
  | a :: tr =>
      match a with Call _ (Force _) | Call _ (SetKarl _ _) => beacon s = true | _ => True end ∧
      match step a s with Some s' => registered_first s' tr | None => True end
  end.
