(** Model of [blocks/mmq/mmq.h] (the circular message queue) and
    [blocks/mmq/mmpq.h] (the priority queue).

    The MMQ is a transition system over any number of publisher threads and the
    consumer thread.  Each mutex-locked section is one step; so is each access to
    a slot made without the mutex (writing the body, exporting it, reading the
    timestamp to return).  A thread waiting on the condition variable may take
    its step whenever its predicate holds (so spurious wake-ups and lost
    notifications make no difference to safety). *)
From stdpp Require Import list.
From Coq Require Import ZArith.

(** mmq.h 257, Entry::status. *)
Inductive status := FREE | BEING_IMPORTED | READY | BEING_EXPORTED.
Global Instance status_eq_dec : EqDecision status.
Proof. solve_decision. Defined.

Section MMQ.
  Context {M : Type}.

  (** mmq.h 254-258, Entry. *)
  Record slot := Slot { status_of : status; body : option M; index_ts : nat * Z }.

  (** Where a publisher is inside PublisherPublishImpl, mmq.h 102-122.  [k] counts
      the allocations made before (ghost). *)
  Inductive publisher :=
  | PIdle
  | PWaiting (m : M) (ts : Z)           (* blocked at mmq.h 219-226 *)
  | PImporting (m : M) (k i : nat)      (* allocated slot [i], body not yet written *)
  | PImported (m : M) (k i : nat)       (* body written, not committed *)
  | PCommitted (m : M) (k i : nat).     (* committed, about to return *)

  (** Where the consumer thread is, mmq.h 135-175. *)
  Inductive consumer :=
  | CWaiting
  | CExporting (saved : nat * Z)        (* slot marked BEING_EXPORTED *)
  | CExported                           (* consumer_ called *)
  | CFinished.                          (* returned at line 148 *)

  (** What publishers and the consumer observe. *)
  Inductive event :=
  | Delivered (m : option M) (its last : nat * Z)        (* consumer_(...) *)
  | Published (p : nat) (m : M) (k : nat) (its : nat * Z) (* Publish returned an index *)
  | Rejected (p : nat) (m : M)                           (* Publish returned idxts_t() *)
  | Threw (p : nat) (m : M).                             (* InconsistentTimestampException *)

  Record mmq := MMQ {
    slots : nat -> slot; head : nat; tail : nat; last_idx_ts : nat * Z; destructing : bool;
    pubs : nat -> publisher; cons_ : consumer; trace : list event;
    (* ghost: the messages allocated, in order *)
    allocated : list (nat * Z * M) }.

  Context (size : nat).   (* circular_buffer_size_, mmq.h 251 *)
  Context (drop_on_overflow : bool).

  (** mmq.h 254-268. *)
  Definition mmq_init : mmq :=
    MMQ (λ _, Slot FREE None (0, 0%Z)) 0 0 (0, (-1)%Z) false (λ _, PIdle) CWaiting [] [].

  (** mmq.h 132, Increment. *)
  Definition increment (i : nat) : nat := (i + 1) mod size.

  Definition upd {A} (i : nat) (a : A) (f : nat -> A) : nat -> A :=
    λ j, if decide (j = i) then a else f j.

  Definition set_pub (p : nat) (x : publisher) (s : mmq) : mmq :=
    MMQ (slots s) (head s) (tail s) (last_idx_ts s) (destructing s) (upd p x (pubs s)) (cons_ s) (trace s) (allocated s).
  Definition emit (e : event) (s : mmq) : mmq :=
    MMQ (slots s) (head s) (tail s) (last_idx_ts s) (destructing s) (pubs s) (cons_ s) (trace s ++ [e]) (allocated s).
  Definition set_slot (i : nat) (x : slot) (s : mmq) : mmq :=
    MMQ (upd i x (slots s)) (head s) (tail s) (last_idx_ts s) (destructing s) (pubs s) (cons_ s) (trace s) (allocated s).
  Definition set_cons (c : consumer) (s : mmq) : mmq :=
    MMQ (slots s) (head s) (tail s) (last_idx_ts s) (destructing s) (pubs s) c (trace s) (allocated s).

  (** mmq.h 190-196 and 227-233: taking the slot at [head_]. *)
  Definition allocate (p : nat) (m : M) (us : Z) (s : mmq) : mmq :=
    let i := head s in
    let its := (S (last_idx_ts s).1, us) in
    MMQ (upd i (Slot BEING_IMPORTED (body (slots s i)) its) (slots s)) (increment i) (tail s) its
        (destructing s) (upd p (PImporting m (length (allocated s)) i) (pubs s)) (cons_ s) (trace s)
        (allocated s ++ [(its.1, us, m)]).

  Inductive label :=
  | Publish (p : nat) (m : M) (ts : Z) (now : Z) (* entering Publish; [now]: what Now() would read *)
  | Wake (p : nat) (now : Z)                     (* leaving the wait *)
  | Import (p : nat)                             (* mmq.h 105, 117: message_body = message *)
  | Commit (p : nat)                             (* mmq.h 236-242 *)
  | Return (p : nat)                             (* mmq.h 107, 119 *)
  | Take | Export | Free | Finish                (* the consumer thread *)
  | Destroy.                                     (* ~MMQImpl, mmq.h 85-95 *)

  (** mmq.h 229: [timestamp.count() >= 0 ? timestamp : Now()]. *)
  Definition stamp (ts now : Z) : Z := if decide (0 <= ts)%Z then ts else now.

  (** [None]: the thread cannot take this step now. *)
  Definition step (l : label) (s : mmq) : option mmq :=
    match l with
    | Publish p m ts now =>
        match pubs s p with
        | PIdle =>
            if drop_on_overflow then
              (* mmq.h 183-200 *)
              match status_of (slots s (head s)) with
              | FREE =>
                  if decide (ts > (last_idx_ts s).2)%Z then Some (allocate p m ts s)
                  else Some (emit (Threw p m) s)
              | _ => Some (emit (Rejected p m) s)
              end
            else
              (* mmq.h 211-233 *)
              if destructing s then Some (emit (Rejected p m) s)
              else if decide (ts > (last_idx_ts s).2)%Z then
                match status_of (slots s (head s)) with
                | FREE => Some (allocate p m (stamp ts now) s)
                | _ => Some (set_pub p (PWaiting m ts) s)
                end
              else Some (emit (Threw p m) s)
        | _ => None
        end
    | Wake p now =>
        match pubs s p with
        | PWaiting m ts =>
            if destructing s then Some (emit (Rejected p m) (set_pub p PIdle s))
            else match status_of (slots s (head s)) with
                 | FREE => Some (allocate p m (stamp ts now) s)
                 | _ => None
                 end
        | _ => None
        end
    | Import p =>
        match pubs s p with
        | PImporting m k i =>
            let x := slots s i in
            Some (set_pub p (PImported m k i) (set_slot i (Slot (status_of x) (Some m) (index_ts x)) s))
        | _ => None
        end
    | Commit p =>
        match pubs s p with
        | PImported m k i =>
            let x := slots s i in
            Some (set_pub p (PCommitted m k i) (set_slot i (Slot READY (body x) (index_ts x)) s))
        | _ => None
        end
    | Return p =>
        match pubs s p with
        | PCommitted m k i => Some (emit (Published p m k (index_ts (slots s i))) (set_pub p PIdle s))
        | _ => None
        end
    | Take =>
        (* mmq.h 144-152 *)
        match cons_ s, status_of (slots s (tail s)), destructing s with
        | CWaiting, READY, false =>
            let x := slots s (tail s) in
            Some (set_cons (CExporting (last_idx_ts s)) (set_slot (tail s) (Slot BEING_EXPORTED (body x) (index_ts x)) s))
        | _, _, _ => None
        end
    | Export =>
        (* mmq.h 157-158: the body is moved out *)
        match cons_ s with
        | CExporting saved =>
            let x := slots s (tail s) in
            Some (emit (Delivered (body x) (index_ts x) saved)
                       (set_cons CExported (set_slot (tail s) (Slot (status_of x) None (index_ts x)) s)))
        | _ => None
        end
    | Free =>
        (* mmq.h 164-172 *)
        match cons_ s with
        | CExported =>
            let x := slots s (tail s) in
            let s' := set_cons CWaiting (set_slot (tail s) (Slot FREE (body x) (index_ts x)) s) in
            Some (MMQ (slots s') (head s') (increment (tail s)) (last_idx_ts s') (destructing s') (pubs s')
                      (cons_ s') (trace s') (allocated s'))
        | _ => None
        end
    | Finish =>
        (* mmq.h 147-149 *)
        match cons_ s, destructing s with
        | CWaiting, true => Some (set_cons CFinished s)
        | _, _ => None
        end
    | Destroy =>
        Some (MMQ (slots s) (head s) (tail s) (last_idx_ts s) true (pubs s) (cons_ s) (trace s) (allocated s))
    end.

  Fixpoint run (ls : list label) (s : mmq) : option mmq :=
    match ls with
    | [] => Some s
    | l :: rest => match step l s with Some s' => run rest s' | None => None end
    end.
  Definition reachable (s : mmq) : Prop := ∃ ls, run ls mmq_init = Some s.
End MMQ.
Arguments slot M : clear implicits. Arguments publisher M : clear implicits.
Arguments event M : clear implicits. Arguments mmq M : clear implicits. Arguments label M : clear implicits.

(** * MMPQ, mmpq.h 43-138 *)
Section MMPQ.
  Context {M : Type}.

  (** mmpq.h 131-141: the queue is a [std::set] ordered by timestamp only. *)
  Record entry := Entry { e_index : nat; e_us : Z; e_body : M }.
  Record mmpq := MMPQ { queue : list entry; pq_last : nat * Z; pq_destructing : bool }.
  Definition mmpq_init : mmpq := MMPQ [] (0, (-1)%Z) false.

  (** [std::set::emplace]: no insertion when an equivalent element is present. *)
  Fixpoint emplace (e : entry) (q : list entry) : list entry :=
    match q with
    | [] => [e]
    | x :: rest =>
        if decide (e_us e < e_us x)%Z then e :: q
        else if decide (e_us x < e_us e)%Z then x :: emplace e rest
        else q
    end.

  Inductive pq_op :=
  | PqPublish (m : M) (us : Z)
  | PqUpdateHead (us : Z)
  | PqConsume      (* the consumer thread, when its wait predicate holds *)
  | PqDestroy.

  Inductive pq_event := PqDelivered (e : entry) (last : nat * Z) | PqThrew (us : Z).

  Definition pq_step (op : pq_op) (s : mmpq) : option (list pq_event * mmpq) :=
    match op with
    | PqPublish m us =>
        (* mmpq.h 76-87 *)
        let i := S (pq_last s).1 in
        Some ([], MMPQ (emplace (Entry i us m) (queue s)) (i, (pq_last s).2) (pq_destructing s))
    | PqUpdateHead us =>
        (* mmpq.h 91-99 *)
        if decide (us > (pq_last s).2)%Z then Some ([], MMPQ (queue s) ((pq_last s).1, us) (pq_destructing s))
        else Some ([PqThrew us], s)
    | PqConsume =>
        (* mmpq.h 107-125 *)
        if pq_destructing s then None else
        match queue s with
        | e :: rest =>
            if decide (e_us e <= (pq_last s).2)%Z
            then Some ([PqDelivered e (pq_last s)], MMPQ rest (pq_last s) (pq_destructing s))
            else None
        | [] => None
        end
    | PqDestroy => Some ([], MMPQ (queue s) (pq_last s) true) (* mmpq.h 60-69 *)
    end.

  Fixpoint pq_run (ops : list pq_op) (s : mmpq) : option (list pq_event * mmpq) :=
    match ops with
    | [] => Some ([], s)
    | op :: rest =>
        '(t1, s1) ← pq_step op s; '(t2, s2) ← pq_run rest s1; Some (t1 ++ t2, s2)
    end.
End MMPQ.
Arguments entry M : clear implicits. Arguments mmpq M : clear implicits.
Arguments pq_op M : clear implicits. Arguments pq_event M : clear implicits.
