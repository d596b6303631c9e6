(** * What a RipCurrent flow is supposed to do (independent of how it is run) *)
From stdpp Require Import list.
From Coq Require Import ZArith.
From Verif Require Import MMQ_Model RipCurrent_Model.

Section Spec.
  Context {B : Type} (code : nat → block B).

  (** ** The diagram *)
  (** The blocks whose output is the output of the flow, and those whose input is its input. *)
  Fixpoint exits (f : flow) : list nat :=
    match f with Leaf b => [b] | Pipe _ _ b => exits b | Plus a b => exits a ++ exits b end.
  Fixpoint entries (f : flow) : list nat :=
    match f with Leaf b => [b] | Pipe _ a _ => entries a | Plus a b => entries a ++ entries b end.
  (** [feeds f x q]: block [x] writes into pipe [q]; [served f q y]: pipe [q] leads to block [y]. *)
  Fixpoint feeds (f : flow) (x q : nat) : Prop :=
    match f with
    | Leaf _ => False
    | Pipe p a b => (q = p ∧ x ∈ exits a) ∨ feeds a x q ∨ feeds b x q
    | Plus a b => feeds a x q ∨ feeds b x q
    end.
  Fixpoint served (f : flow) (q y : nat) : Prop :=
    match f with
    | Leaf _ => False
    | Pipe p a b => (q = p ∧ y ∈ entries b) ∨ served a q y ∨ served b q y
    | Plus a b => served a q y ∨ served b q y
    end.
  (** There is a wire from [x] to [y]. *)
  Definition wired (f : flow) (x y : nat) : Prop := ∃ q, feeds f x q ∧ served f q y.

  (** What the C++ compiler checks: what [a | b] joins has matching types, and the two sides of [a + b]
      take different types. *)
  Fixpoint well_typed (f : flow) : Prop :=
    match f with
    | Leaf b => True
    | Pipe _ a b => well_typed a ∧ well_typed b ∧ outputs code a ≠ [] ∧ (∀ ty, ty ∈ outputs code a ↔ ty ∈ inputs code b)
    | Plus a b => well_typed a ∧ well_typed b ∧ (∀ ty, ty ∈ inputs code a → ty ∉ inputs code b)
    end.
  (** A flow that can be run: types match, nothing dangles, and different blocks and pipes are different objects. *)
  Definition runnable (f : flow) : Prop :=
    well_typed f ∧ inputs code f = [] ∧ outputs code f = [] ∧ NoDup (leaves f) ∧ NoDup (queues f).

  (** ** The programs *)
  Definition message_of (o : op B) : option (msg B) :=
    match o with Emit m | Post _ m | Schedule _ m => Some m | Head _ => None end.
  Definition is_schedule (o : op B) : Prop := match o with Schedule _ _ => True | _ => False end.
  Definition is_emit (o : op B) : Prop := match o with Emit _ => True | _ => False end.
  (** Every call a block can ever make satisfies [P]. *)
  Definition all_calls (P : op B → Prop) (b : nat) : Prop :=
    Forall P (b_start (code b)) ∧ (∀ h m, Forall P (b_react (code b) h m)) ∧ (∀ h, Forall P (b_finish (code b) h)).
  (** ... it only emits the types it declares (this, too, the compiler checks). *)
  Definition declared (b : nat) : Prop :=
    all_calls (λ o, ∀ m, message_of o = Some m → m_type m ∈ b_outs (code b)) b.

  (** The calls of a block that receives the messages [h], one after another, and then is destroyed. *)
  Fixpoint reactions (b : nat) (past h : list (msg B)) : list (op B) :=
    match h with [] => [] | m :: r => b_react (code b) past m ++ reactions b (past ++ [m]) r end.
  (** Only blocks without inputs start by themselves. *)
  Definition starts (b : nat) : list (op B) := if decide (b_ins (code b) = []) then b_start (code b) else [].
  Definition program (b : nat) (h : list (msg B)) : list (op B) :=
    starts b ++ reactions b [] h ++ b_finish (code b) h.

  (** ** What was observed *)
  Definition received (y : nat) (tr : list (event B)) : list (nat * msg B) :=
    omap (λ e, match e with Received b x m => if decide (b = y) then Some (x, m) else None | _ => None end) tr.
  Definition received_from (x y : nat) (tr : list (event B)) : list (msg B) :=
    omap (λ p, if decide (p.1 = x) then Some p.2 else None) (received y tr).
  Definition issued (x : nat) (tr : list (event B)) : list (op B) :=
    omap (λ e, match e with Issued b o => if decide (b = x) then Some o else None | _ => None end) tr.
  (** How the calls carrying a message ended: [true] = in the queue, [false] = in the error handler. *)
  Definition outcomes (x : nat) (tr : list (event B)) : list (msg B * bool) :=
    omap (λ e, match e with
               | Sent b m => if decide (b = x) then Some (m, true) else None
               | Refused b m => if decide (b = x) then Some (m, false) else None
               | _ => None end) tr.
  Definition sent (x : nat) (tr : list (event B)) : list (msg B) :=
    omap (λ p : msg B * bool, if p.2 then Some p.1 else None) (outcomes x tr).
  (** The error handler was called. *)
  Definition is_error (e : event B) : Prop :=
    match e with Refused _ _ | HeadRefused _ => True | _ => False end.
  (** Event [e] uses the object [i]: it runs code of that block, or works on that queue. *)
  Definition uses (f : flow) (e : event B) (i : item) : Prop :=
    match i, e with
    | IBlock b, (Issued x _ | Sent x _ | Refused x _ | HeadRefused x) => b = x
    | IBlock b, Received y _ _ => b = y
    | IQueue q, (Issued x _ | Sent x _ | Refused x _ | HeadRefused x) => feeds f x q
    | IQueue q, Received y _ _ => served f q y
    | _, Destroyed j => i = j
    end.
  (** Whatever goes into one pipe comes from one block, or from blocks that all take their messages from one
      other pipe (and so never run at the same time). *)
  Definition one_at_a_time (f : flow) : Prop :=
    ∀ x1 x2 q, feeds f x1 q → feeds f x2 q → x1 = x2 ∨
      (b_ins (code x1) ≠ [] ∧ b_ins (code x2) ≠ [] ∧ ∃ q0, served f q0 x1 ∧ served f q0 x2).
  (** Every pipe is written to by one block. *)
  Definition one_writer (f : flow) : Prop := ∀ x1 x2 q, feeds f x1 q → feeds f x2 q → x1 = x2.
  (** [Join] has returned. *)
  Definition finished (s : state B) : Prop := st_joining s = true ∧ st_left s = [].
End Spec.
