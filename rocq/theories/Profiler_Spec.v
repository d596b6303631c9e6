(** * What the profiler has to report *)
From stdpp Require Import gmap list.
From Verif Require Import Profiler_Model.

(** Where a thread has been since it was first seen or the profiler was reset: for how long in which scopes (innermost first), where it is now and since when,
    and what it has entered since, and had entered before. *)
Record history := History { past : list (list nat * Z); inside : list nat; since : Z; entered : list (list nat); known : list (list nat); late : Z }.
(** Time is spent in a scope when it is spent in it or in a scope inside. *)
Definition within (p q : list nat) : Prop := ∃ l, q = l ++ p.
Global Instance within_dec p q : Decision (within p q).
Proof. destruct (decide (p `suffix_of` q)) as [H|H]; [left|right]; exact H. Defined.
Fixpoint time_in (p : list nat) (l : list (list nat * Z)) : Z :=
  match l with [] => 0 | (q, d) :: l => (if decide (within p q) then d else 0) + time_in p l end%Z.
Definition spent (h : history) (p : list nat) (now : Z) : Z := time_in p (past h ++ [(inside h, now - since h)%Z]).
Fixpoint times (p : list nat) (l : list (list nat)) : nat := match l with [] => 0 | q :: l => (if decide (p = q) then 1 else 0) + times p l end.

(** What the thread does at time [now]. [late]: how much later than its first call the profiler has begun to measure the thread. *)
Definition move (now : Z) (to : list nat) (h : history) : history := History (past h ++ [(inside h, now - since h)%Z]) to now (entered h) (known h) (late h).
Definition first_seen (now t : Z) : history := History [] [] now [] [[]] (t - now)%Z.
Definition seen (th : nat) (w c : positive) (hs : gmap nat history) (t : Z) : history * Z * Z :=
  let now := (t + Zpos w)%Z in
  match hs !! th with Some h => (h, now, now) | None => (first_seen now (now + Zpos c)%Z, now, now + Zpos c)%Z end.
Definition happens (a : action) (x : gmap nat history * Z) : gmap nat history * Z :=
  let '(hs, t) := x in
  match a with
  | Enter th k w c => let '(h, now, t') := seen th w c hs t in
      let h' := move now (k :: inside h) h in (<[th := History (past h') (inside h') (since h') (entered h' ++ [inside h']) (known h') (late h')]> hs, t')
  | Leave th k w c => let '(h, now, t') := seen th w c hs t in (<[th := move now (tail (inside h)) h]> hs, t')
  | Report th w c r => let '(h, now, t') := seen th w c hs t in (<[th := h]> hs, (t' + Zpos r)%Z)
  | Reset th w c at_ e => let '(h, now, t') := seen th w c hs t in
      (map_imap (λ th h, Some (History [] (inside h) (at_ th) [] (known h ++ entered h) 0%Z)) (<[th := h]> hs), (t' + Zpos e)%Z)
  end.
Definition happened (tr : list action) (t : Z) : gmap nat history * Z := foldl (λ x a, happens a x) (∅, t) tr.
Definition sum {A} (f : A → Z) (l : list A) : Z := foldr (λ a z, f a + z)%Z 0%Z l.
