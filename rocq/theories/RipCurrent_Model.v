(** * Model of RipCurrent, the flow runner: [ripcurrent/ripcurrent.h]

    A flow is put together from user-defined blocks with [|] and [+] and is run with [RipCurrent()].
    Every [|] owns a priority queue (the [MMPQ] of [blocks/mmq/mmpq.h], modelled in MMQ_Model.v) with its
    own consumer thread, and a set of counters its destructor waits on.

    Threads are interleaved at the granularity of the critical sections: taking the time and announcing
    the call, [UpdateHead], [Publish], counting a refusal, the consumer picking a message up, the consumer
    finishing.  While a consumer runs user code it holds the mutex of its queue (mmpq.h 107-125).

    Simplifications.  User code is deterministic: what a block does is a function of the messages it has
    received so far.  A block without inputs emits from one thread of its own (its constructor, or a thread
    which its destructor joins); the others emit from [f] and from their destructors.
    The error handler returns (ripcurrent/types.h 178-215: the default one calls [std::exit(-1)] instead:
    a [Refused]/[HeadRefused] event is then the last thing the process does).
    The usage marks ([MarkAs], [Describe]) are not modelled. *)
From stdpp Require Import list.
From Coq Require Import ZArith.
From Verif Require Import MMQ_Model.

Section RipCurrent.
  Context {B : Type}. (* message bodies *)

  (** types.h 39, [movable_message_t]: an object of a dynamic type, [m_type]. *)
  Record msg := Msg { m_type : nat; m_body : B }.

  (** ripcurrent.h 492-513: the four calls user code can make. *)
  Inductive op :=
  | Emit (m : msg)                 (* emit<T>(...): stamped with time::Now() *)
  | Post (t : Z) (m : msg)         (* post<T>(t, ...) *)
  | Schedule (t : Z) (m : msg)     (* schedule<T>(t, ...) *)
  | Head (t : Z).                  (* head(t) *)

  (** ripcurrent.h 1025-1038: the user's class. [b_ins]/[b_outs] are its [LHS_TS]/[RHS_TS];
      [b_start] is what a block without inputs does, [b_react h m] is [f(m)] after the messages [h],
      [b_finish h] is the destructor. *)
  Record block := Block {
    b_ins : list nat; b_outs : list nat;
    b_start : list op; b_react : list msg → msg → list op; b_finish : list msg → list op }.

  (** ripcurrent.h 672-684, 831-846: a flow.  Blocks and pipes carry names (in C++, addresses). *)
  Inductive flow :=
  | Leaf (b : nat)
  | Pipe (q : nat) (from into : flow)   (* from | into *)
  | Plus (a b : flow).                  (* a + b *)

  Context (code : nat → block).

  (** The type lists of a flow: ripcurrent.h 819-824 (operator |) and 951-960 (operator +). *)
  Fixpoint inputs (f : flow) : list nat :=
    match f with Leaf b => b_ins (code b) | Pipe _ a _ => inputs a | Plus a b => inputs a ++ inputs b end.
  Fixpoint outputs (f : flow) : list nat :=
    match f with Leaf b => b_outs (code b) | Pipe _ _ b => outputs b | Plus a b => outputs a ++ outputs b end.

  Fixpoint leaves (f : flow) : list nat :=
    match f with Leaf b => [b] | Pipe _ a b => leaves a ++ leaves b | Plus a b => leaves a ++ leaves b end.
  Fixpoint queues (f : flow) : list nat :=
    match f with Leaf _ => [] | Pipe q a b => q :: queues a ++ queues b | Plus a b => queues a ++ queues b end.

  (** [Run(next)]: which queue the calls of block [b] go to.
      ripcurrent.h 692-700 (a pipe hands its queue to [from] and [next] to [into]),
      851-860 with 895-917 (both sides of a plus pass everything on to [next]),
      534-537 and 608-613 (a block keeps [next]). *)
  Fixpoint out_queue (f : flow) (next : option nat) (b : nat) : option nat :=
    match f with
    | Leaf _ => next
    | Pipe q x y => if decide (b ∈ leaves x) then out_queue x (Some q) b else out_queue y next b
    | Plus x y => if decide (b ∈ leaves x) then out_queue x next b else out_queue y next b
    end.

  (** [OnThreadSafeMessage]: which block of the flow takes a message of this type.
      ripcurrent.h 539-546 (a block takes the types of its list: [RTTIDynamicCall]),
      702 (a pipe passes to [from]), 862-892 (a plus routes on the type). *)
  Fixpoint entry_block (f : flow) (ty : nat) : option nat :=
    match f with
    | Leaf b => if decide (ty ∈ b_ins (code b)) then Some b else None
    | Pipe _ a _ => entry_block a ty
    | Plus a b => if decide (ty ∈ inputs a) then entry_block a ty else entry_block b ty
    end.

  (** ripcurrent.h 697, 768-772: what the consumer of queue [q] passes a message to: [into]. *)
  Fixpoint consumer_block (f : flow) (q : nat) (ty : nat) : option nat :=
    match f with
    | Leaf _ => None
    | Pipe p x y =>
        if decide (q = p) then entry_block y ty
        else if decide (q ∈ queues x) then consumer_block x q ty else consumer_block y q ty
    | Plus x y => if decide (q ∈ queues x) then consumer_block x q ty else consumer_block y q ty
    end.

  (** The order in which [scope_ = nullptr] (ripcurrent.h 333) takes the flow apart: members are
      destroyed in the reverse order of their declaration: [from_], [into_mmpq_], [into_]
      (ripcurrent.h 783-787); [b_], [a_] (919-924). *)
  Inductive item := IBlock (b : nat) | IQueue (q : nat).
  Fixpoint teardown (f : flow) : list item :=
    match f with
    | Leaf b => [IBlock b]
    | Pipe q a b => teardown a ++ IQueue q :: teardown b
    | Plus a b => teardown b ++ teardown a
    end.

  (** ripcurrent.h 705-781: the queue of a pipe and its counters (the counter of published messages
      is written only). The sender in the body of an entry is a ghost, only used in events. *)
  Record rq := RQ { rq_pq : mmpq (nat * msg); rq_called : nat; rq_processed : nat; rq_refused : nat }.

  Inductive tid := TSource (b : nat) | TQueue (q : nat) | TJoin.
  (** Where a thread is within one of the calls, ripcurrent.h 715-744. *)
  Inductive phase :=
  | Ready
  | Calling (t : Z) (m : msg)      (* the call is counted; about to UpdateHead(t) *)
  | Publishing (t : Z) (m : msg)   (* about to Publish(m, t) *)
  | Refusing (m : msg)             (* in the catch block *)
  | Heading (t : Z).               (* head(t) *)
  Record task := Task { t_who : nat; t_phase : phase; t_ops : list op }.

  Record state := St {
    st_clock : Z;                      (* the last value time::Now() returned, C36 *)
    st_queue : nat → rq;
    st_task : tid → option task;
    st_hist : nat → list msg;          (* what a block has received *)
    st_joining : bool;
    st_left : list item }.             (* what is not destroyed yet *)

  Inductive event :=
  | Issued (b : nat) (o : op)          (* block b makes the call *)
  | Sent (b : nat) (m : msg)           (* the call of block b put m in the queue *)
  | Refused (b : nat) (m : msg)        (* the call of block b ends in the error handler *)
  | HeadRefused (b : nat)
  | Received (b : nat) (from : nat) (m : msg)   (* f(m) of block b is called *)
  | Destroyed (i : item).

  Definition upd {A} (f : nat → A) (k : nat) (v : A) : nat → A := λ x, if decide (x = k) then v else f x.
  Definition tid_eqb (a b : tid) : bool :=
    match a, b with
    | TSource x, TSource y | TQueue x, TQueue y => bool_decide (x = y)
    | TJoin, TJoin => true
    | _, _ => false
    end.
  Definition set_task (τ : tid) (t : option task) (s : state) : state :=
    St (st_clock s) (st_queue s) (λ x, if tid_eqb x τ then t else st_task s x) (st_hist s) (st_joining s) (st_left s).
  Definition set_queue (q : nat) (v : rq) (s : state) : state :=
    St (st_clock s) (upd (st_queue s) q v) (st_task s) (st_hist s) (st_joining s) (st_left s).
  Definition set_clock (c : Z) (s : state) : state :=
    St c (st_queue s) (st_task s) (st_hist s) (st_joining s) (st_left s).
  Definition set_left (l : list item) (s : state) : state :=
    St (st_clock s) (st_queue s) (st_task s) (st_hist s) (st_joining s) l.

  Definition with_pq (v : rq) (p : mmpq (nat * msg)) : rq := RQ p (rq_called v) (rq_processed v) (rq_refused v).
  (** ripcurrent.h 749-753 *)
  Definition report_called (v : rq) : rq := RQ (rq_pq v) (S (rq_called v)) (rq_processed v) (rq_refused v).
  Definition report_processed (v : rq) : rq := RQ (rq_pq v) (rq_called v) (S (rq_processed v)) (rq_refused v).
  Definition report_refused (v : rq) : rq := RQ (rq_pq v) (rq_called v) (rq_processed v) (S (rq_refused v)).
  Definition processed_everything (v : rq) : Prop := rq_called v = rq_processed v + rq_refused v.
  #[global] Instance processed_everything_dec v : Decision (processed_everything v).
  Proof. unfold processed_everything. apply _. Defined.

  (** mmpq.h 107-125: the consumer holds the mutex of the queue while the user code runs. *)
  Definition unlocked (q : nat) (s : state) : Prop := st_task s (TQueue q) = None.
  #[global] Instance unlocked_dec q s : Decision (unlocked q s).
  Proof. unfold unlocked. destruct (st_task s (TQueue q)); [right|left]; congruence. Defined.

  Context (f : flow).

  (** ripcurrent.h 406-413, 692-700: everything is constructed; the blocks without inputs are running. *)
  Definition initial : state :=
    St 0 (λ _, RQ mmpq_init 0 0 0)
      (λ τ, match τ with
            | TSource b =>
                if decide (b ∈ leaves f ∧ b_ins (code b) = []) then Some (Task b Ready (b_start (code b))) else None
            | _ => None
            end)
      (λ _, []) false (teardown f).

  Inductive label :=
  | Advance (τ : tid) (now : Z)   (* a thread goes on with its calls; [now] is what time::Now() returns *)
  | Consume (q : nat)
  | Return (q : nat)
  | Join
  | Destroy.

  (** One step of a thread within the calls of block [x]. *)
  Definition advance (τ : tid) (now : Z) (x : nat) (ph : phase) (ops : list op) (s : state) : option (list event * state) :=
    match ph with
    | Ready =>
        match ops with
        | [] => None
        | o :: rest =>
            match out_queue f None x with
            | None => Some ([Issued x o], set_task τ (Some (Task x Ready rest)) s) (* ripcurrent.h 233-248 *)
            | Some q =>
                let called := set_queue q (report_called (st_queue s q)) s in
                match o with
                | Emit m =>
                    (* ripcurrent.h 493-497, 716 *)
                    if decide (st_clock s < now)%Z
                    then Some ([Issued x o], set_task τ (Some (Task x (Calling now m) rest)) (set_clock now called))
                    else None
                | Post t m => Some ([Issued x o], set_task τ (Some (Task x (Calling t m) rest)) called) (* 500-504, 716 *)
                | Schedule t m => Some ([Issued x o], set_task τ (Some (Task x (Publishing t m) rest)) called) (* 507-511, 728 *)
                | Head t => Some ([Issued x o], set_task τ (Some (Task x (Heading t) rest)) s) (* 513 *)
                end
            end
        end
    | Calling t m =>
        (* ripcurrent.h 718, 721-722 *)
        match out_queue f None x with
        | None => None
        | Some q =>
            if decide (unlocked q s) then
              match pq_step (PqUpdateHead t) (rq_pq (st_queue s q)) with
              | Some ([], p) =>
                  Some ([], set_task τ (Some (Task x (Publishing t m) ops)) (set_queue q (with_pq (st_queue s q) p) s))
              | Some (_, p) => Some ([Refused x m], set_task τ (Some (Task x (Refusing m) ops)) s)
              | None => None
              end
            else None
        end
    | Publishing t m =>
        (* ripcurrent.h 719-720, 730-731 *)
        match out_queue f None x with
        | None => None
        | Some q =>
            if decide (unlocked q s) then
              match pq_step (PqPublish (x, m) t) (rq_pq (st_queue s q)) with
              | Some (_, p) =>
                  Some ([Sent x m], set_task τ (Some (Task x Ready ops)) (set_queue q (with_pq (st_queue s q) p) s))
              | None => None
              end
            else None
        end
    | Refusing m =>
        (* ripcurrent.h 723 *)
        match out_queue f None x with
        | None => None
        | Some q => Some ([], set_task τ (Some (Task x Ready ops)) (set_queue q (report_refused (st_queue s q)) s))
        end
    | Heading t =>
        (* ripcurrent.h 738-744 *)
        match out_queue f None x with
        | None => None
        | Some q =>
            if decide (unlocked q s) then
              match pq_step (PqUpdateHead t) (rq_pq (st_queue s q)) with
              | Some ([], p) => Some ([], set_task τ (Some (Task x Ready ops)) (set_queue q (with_pq (st_queue s q) p) s))
              | Some (_, p) => Some ([HeadRefused x], set_task τ (Some (Task x Ready ops)) s)
              | None => None
              end
            else None
        end
    end.

  Definition step (l : label) (s : state) : option (list event * state) :=
    match l with
    | Advance τ now =>
        match st_task s τ with
        | Some (Task x ph ops) => advance τ now x ph ops s
        | None => None
        end
    | Consume q =>
        (* mmpq.h 107-125 and ripcurrent.h 768-769; the entry is erased after the call, under the same lock *)
        if decide (q ∈ queues f ∧ unlocked q s) then
          match pq_step PqConsume (rq_pq (st_queue s q)) with
          | Some ([PqDelivered e _], p) =>
              let '(x, m) := e_body e in
              match consumer_block f q (m_type m) with
              | Some y =>
                  let s1 := set_queue q (with_pq (st_queue s q) p) s in
                  let s2 := set_task (TQueue q) (Some (Task y Ready (b_react (code y) (st_hist s y) m))) s1 in
                  Some ([Received y x m],
                        St (st_clock s2) (st_queue s2) (st_task s2) (upd (st_hist s) y (st_hist s y ++ [m]))
                           (st_joining s2) (st_left s2))
              | None => None
              end
          | _ => None
          end
        else None
    | Return q =>
        (* ripcurrent.h 770-771 *)
        match st_task s (TQueue q) with
        | Some (Task _ Ready []) =>
            Some ([], set_task (TQueue q) None (set_queue q (report_processed (st_queue s q)) s))
        | _ => None
        end
    | Join =>
        (* ripcurrent.h 325-334; the same when an [Async()] scope ends *)
        if st_joining s then None
        else Some ([], St (st_clock s) (st_queue s) (st_task s) (st_hist s) true (st_left s))
    | Destroy =>
        if st_joining s then
          match st_left s, st_task s TJoin with
          | IBlock b :: rest, None =>
              (* the destructor of the user's class, which joins the thread it has *)
              match st_task s (TSource b) with
              | None | Some (Task _ Ready []) =>
                  Some ([], set_task TJoin (Some (Task b Ready (b_finish (code b) (st_hist s b)))) s)
              | _ => None
              end
          | IBlock b :: rest, Some (Task _ Ready []) =>
              Some ([Destroyed (IBlock b)], set_left rest (set_task TJoin None s))
          | IQueue q :: rest, None =>
              (* ripcurrent.h 711-713, then mmpq.h 60-69 *)
              if decide (processed_everything (st_queue s q) ∧ unlocked q s) then
                match pq_step PqDestroy (rq_pq (st_queue s q)) with
                | Some (_, p) =>
                    Some ([Destroyed (IQueue q)], set_left rest (set_queue q (with_pq (st_queue s q) p) s))
                | None => None
                end
              else None
          | _, _ => None
          end
        else None
    end.

  Fixpoint run (ls : list label) (s : state) : option (list event * state) :=
    match ls with
    | [] => Some ([], s)
    | l :: rest => '(t1, s1) ← step l s; '(t2, s2) ← run rest s1; Some (t1 ++ t2, s2)
    end.
End RipCurrent.
Arguments msg B : clear implicits. Arguments op B : clear implicits. Arguments block B : clear implicits.
Arguments event B : clear implicits. Arguments state B : clear implicits. Arguments task B : clear implicits.
Arguments phase B : clear implicits. Arguments rq B : clear implicits.
