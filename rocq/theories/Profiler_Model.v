(** * Model of [profiler/profiler.h]

    Everything under the mutex is one step. Each call of Now() gives more than the ones before (C36): a step says by how much. Scopes are identified by
    their [const char*], a number here. What is measured about the profiler itself (120-123, 135-137, 223-228, 236-241) is left out, and so are the ratios in the
    report. *)
From stdpp Require Import gmap list.

(** Trie, 83-91, without its children: the nodes of a thread are kept by their path, from the scope up to the root. *)
Record node := Node { us_entered : Z; us_total : Z; entries : nat }.
Global Instance node_eq_dec : EqDecision node. Proof. solve_decision. Defined.
(** PerThread, 82-119; [stack]: the path of the node on top of the stack; the nodes below it on the stack are its ancestors. *)
Record per_thread := PerThread { nodes : gmap (list nat) node; stack : list nat }.
Record state := State { threads : gmap nat per_thread; time : Z }.
Definition init (t : Z) : state := State ∅ t.

(** 93-100: ComputeTotalMicroseconds *)
Definition total (now : Z) (n : node) : Z := if decide (us_entered n ≠ 0)%Z then (us_total n + (now - us_entered n))%Z else us_total n.
(** 101-111: RecursiveReset, of one node *)
Definition reset_node (now : Z) (n : node) : node := Node (if decide (us_entered n ≠ 0)%Z then now else 0%Z) 0%Z 1.

(** 234-242: Guarded. Now() after the mutex has been locked, [w] later than the last; then [state_.per_thread[id]] makes a PerThread if there is none for the
    thread, with a Now() of its own (114-118), [c] later. *)
Definition guarded (th : nat) (w c : positive) (s : state) : per_thread * Z * Z :=
  let now := (time s + Zpos w)%Z in
  match threads s !! th with
  | Some pt => (pt, now, now)
  | None => let t := (now + Zpos c)%Z in (PerThread {[ [] := Node t 0%Z 1 ]} [], now, t)
  end.

Inductive action :=
| Enter (th scope : nat) (w c : positive)          (* EnterScope *)
| Leave (th scope : nat) (w c : positive)          (* LeaveScope *)
| Report (th : nat) (w c r : positive)             (* a request for the report *)
| Reset (th : nat) (w c : positive) (at_ : nat → Z) (e : positive).      (* a request with ?reset; [at_]: Now() for each thread, 124-131 *)

(** 187-198 *)
Definition enter (scope : nat) (now : Z) (pt : per_thread) : per_thread :=
  let p := scope :: stack pt in
  let n := default (Node 0%Z 0%Z 0) (nodes pt !! p) in
  PerThread (<[p := Node now (us_total n) (S (entries n))]> (nodes pt)) p.
(** 200-214; [None]: the assertions say this does not happen *)
Definition leave (scope : nat) (now : Z) (pt : per_thread) : option per_thread :=
  match stack pt with
  | k :: p =>
      if decide (scope = k) then
        n ← nodes pt !! (k :: p);
        Some (PerThread (<[k :: p := Node 0%Z (us_total n + (now - us_entered n))%Z (entries n)]> (nodes pt)) p)
      else None
  | [] => None
  end.
(** 124-131: Reset *)
Definition reset (at_ : nat → Z) (s : gmap nat per_thread) : gmap nat per_thread :=
  map_imap (λ th pt, Some (PerThread (reset_node (at_ th) <$> nodes pt) (stack pt))) s.
(** 132-184: GenerateReport: [us] and [entries] of each scope of each thread *)
Definition report (now : Z) (s : state) : gmap nat (gmap (list nat) (Z * nat)) := (λ pt, (λ n, (total now n, entries n)) <$> nodes pt) <$> threads s.

Definition step (a : action) (s : state) : option state :=
  match a with
  | Enter th scope w c => let '(pt, now, t) := guarded th w c s in Some (State (<[th := enter scope now pt]> (threads s)) t)
  | Leave th scope w c => let '(pt, now, t) := guarded th w c s in pt' ← leave scope now pt; Some (State (<[th := pt']> (threads s)) t)
  | Report th w c r => let '(pt, now, t) := guarded th w c s in Some (State (<[th := pt]> (threads s)) (t + Zpos r)%Z)
  | Reset th w c at_ e => let '(pt, now, t) := guarded th w c s in
      let ts := <[th := pt]> (threads s) in
      if decide (map_Forall (λ th _, t < at_ th ≤ t + Zpos e)%Z ts) then Some (State (reset at_ ts) (t + Zpos e)%Z) else None
  end.
Fixpoint run (tr : list action) (s : state) : option state := match tr with [] => Some s | a :: tr => s' ← step a s; run tr s' end.
