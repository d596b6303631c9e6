(** What C53 needs: executions, honest modifications, a fair scheduler, and the discipline of scoped clients. *)
From stdpp Require Import list.
From Verif Require Import WaitableAtomic_Model.

Section Spec.
  Context {D : Type}.

  (** A modification is honest if it notifies whenever it changes the data. *)
  Definition honest (u : D → D * bool) : Prop := ∀ d, snd (u d) = false → fst (u d) = d.
  Definition honest_action (a : action D) : Prop := match a with Use u _ => honest u | _ => True end.

  (** The states reachable from a new object by actions satisfying [ok]. *)
  Inductive reachable (ok : wa D → action D → Prop) : wa D → Prop :=
  | reach_new d : reachable ok (initial d)
  | reach_step s a s' : reachable ok s → ok s a → exec s a = Some s' → reachable ok s'.

  (** Thread [t] is inside Wait(p). *)
  Definition in_wait (s : wa D) (t : nat) (p : D → bool) : Prop := ∃ u, waits s t = Asleep p u ∨ waits s t = Awake p u.

  (** Using the object of which one holds a registered client, and keeping that client for as long as the call lasts;
      registering a client with an object known to exist. *)
  Definition holds (s : wa D) (under : option nat) : Prop := ∃ c, under = Some c ∧ clients s c = Registered.
  Definition waits_under (s : wa D) (t c : nat) : Prop := ∃ p, waits s t = Asleep p (Some c) ∨ waits s t = Awake p (Some c).
  Definition disciplined (s : wa D) (a : action D) : Prop :=
    match a with
    | Use _ u | Notify u | Wait _ _ u => holds s u
    | Register _ => dtor s ≠ Destroyed
    | Release c => ∀ t, ¬ waits_under s t c
    | _ => True
    end.

  (** An infinite execution; [None] is a moment at which nothing happens to this object. *)
  Record execution (run : nat → wa D) (acts : nat → option (action D)) : Prop := Execution {
    starts : ∃ d, run 0 = initial d;
    follows : ∀ n, match acts n with Some a => exec (run n) a = Some (run (S n)) | None => run (S n) = run n end }.
  (** A runnable thread is eventually run. *)
  Definition wait_fair (run : nat → wa D) (acts : nat → option (action D)) : Prop :=
    ∀ t n p u, waits (run n) t = Awake p u → ∃ m, n ≤ m ∧ acts m = Some (Resume t).
  Definition destructor_fair (run : nat → wa D) (acts : nat → option (action D)) : Prop :=
    (∀ n, dtor (run n) ≠ NotStarted → dtor (run n) ≠ Sleeping → dtor (run n) ≠ Destroyed → ∃ m, n ≤ m ∧ acts m = Some Destruct) ∧
    (∀ n c, clients (run n) c = Increased → ∃ m, n ≤ m ∧ acts m = Some (RegisterNotify c)) ∧
    (∀ n c, clients (run n) c = Decreased → ∃ m, n ≤ m ∧ acts m = Some (ReleaseNotify c)).
End Spec.
