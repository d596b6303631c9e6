(** Model of the in-memory persister: /repo/blocks/persistence/memory.h (all of [MemoryPersister]),
    and of the vocabulary it shares with the file persister ([idxts_t], exceptions of
    /repo/blocks/persistence/exceptions.h and /repo/blocks/ss/exceptions.h).
    Every [Persister*Impl] call holds [memory_persister_container_mutex_] for its whole body, hence is
    one atomic function here; the exception is [PersisterIterateImpl(from, till)] which locks twice,
    see [mp_iterate_ts]. *)
From Verif Require Import Base.

(** Index-and-timestamp, /repo/blocks/ss/idx_ts.h: [index] is a uint64_t, [us] int64 microseconds
    (modelled as unbounded N and Z: the code performs no arithmetic on them that could wrap except
    [head + 1] in exception payloads). *)
Notation idxts := (N * Z)%type (only parsing).

(** Exceptions: blocks/persistence/exceptions.h and blocks/ss/exceptions.h. *)
Inductive pexn : Type :=
| InconsistentTimestamp (expected found : Z)
| InconsistentIndex (expected found : N)
| UnsafePublishBadIndexTimestamp (expected found : N)
| MalformedEntry
| InvalidJSON                       (* any exception thrown by [ParseJSON] *)
| NoEntriesPublishedYet
| InvalidIterableRange
| InvalidSignatureLocation
| InvalidStreamSignature
| UnexpectedEndOfFile.             (* the bare [current::Exception()] of file.h 313 and 376 *)

(** The JSON codecs used by the persisters, as parameters: [ser_idx] is [JSON(idxts_t)], [par_idx] is
    [ParseJSON<idxts_t>], [ser] is [JSON(entry)], [de] is [ParseJSON<ENTRY>] ([None]: it throws). *)
Record codec (E : Type) : Type := {
  ser_idx : idxts -> bytes;
  par_idx : bytes -> option idxts;
  ser : E -> bytes;
  de : bytes -> option E
}.
Arguments ser_idx {E}. Arguments par_idx {E}. Arguments ser {E}. Arguments de {E}.

Definition TAB : byte := 9%N.
Definition NL : byte := 10%N.
Definition HASH : byte := 35%N.

(** [std::string::find(c)], returning the text before and after the first [c]. *)
Fixpoint cut_at (c : byte) (s : bytes) : option (bytes * bytes) :=
  match s with
  | [] => None
  | b :: s' => if N.eqb b c then Some ([], s')
               else match cut_at c s' with Some (p, q) => Some (b :: p, q) | None => None end
  end.

(** memory.h 57-69, [struct Container]: the deque of (timestamp, entry) and the head. *)
Record mp (E : Type) : Type := { mp_entries : list (Z * E); mp_head : Z }.
Arguments mp_entries {E}. Arguments mp_head {E}. Arguments Build_mp {E}.

Section Memory.
Context {E : Type}.
Variable C : codec E.

(** memory.h 64: [head_ = microseconds(-1)], no entries. *)
Definition mp_init : mp E := {| mp_entries := []; mp_head := (-1)%Z |}.

(** memory.h 209-213, [PersisterSizeImpl]. *)
Definition mp_size (s : mp E) : N := N.of_nat (length (mp_entries s)).

(** memory.h 203-207, [PersisterEmptyImpl]. *)
Definition mp_empty (s : mp E) : bool := match mp_entries s with [] => true | _ => false end.

(** memory.h 154-167, [PersisterPublishImpl]. *)
Definition mp_publish (s : mp E) (e : E) (t : Z) : mp E * outcome pexn idxts :=
  if Z.ltb (mp_head s) t
  then ({| mp_entries := mp_entries s ++ [(t, e)]; mp_head := t |}, Ok (mp_size s, t))
  else (s, Throw (InconsistentTimestamp (mp_head s + 1) t)).

(** memory.h 169-189, [PersisterPublishUnsafeImpl].  The entry is parsed inside the argument list of
    [emplace_back] before the deque is touched, so a parse failure leaves the container unchanged. *)
Definition mp_publish_unsafe (s : mp E) (line : bytes) : mp E * outcome pexn idxts :=
  match cut_at TAB line with
  | None => (s, Throw MalformedEntry)
  | Some (pre, post) =>
      match par_idx C pre with
      | None => (s, Throw InvalidJSON)
      | Some (i, t) =>
          if negb (N.eqb i (mp_size s)) then (s, Throw (UnsafePublishBadIndexTimestamp (mp_size s) i))
          else if negb (Z.ltb (mp_head s) t) then (s, Throw (InconsistentTimestamp (mp_head s + 1) t))
          else match de C post with
               | None => (s, Throw InvalidJSON)
               | Some e => ({| mp_entries := mp_entries s ++ [(t, e)]; mp_head := t |}, Ok (i, t))
               end
      end
  end.

(** memory.h 191-201, [PersisterUpdateHeadImpl]. *)
Definition mp_update_head (s : mp E) (t : Z) : mp E * outcome pexn unit :=
  if Z.ltb (mp_head s) t
  then ({| mp_entries := mp_entries s; mp_head := t |}, Ok tt)
  else (s, Throw (InconsistentTimestamp (mp_head s + 1) t)).

(** memory.h 215-224, [PersisterLastPublishedIndexAndTimestampImpl]. *)
Definition mp_last (s : mp E) : outcome pexn idxts :=
  match nth_error (mp_entries s) (pred (length (mp_entries s))) with
  | Some (t, _) => Ok (N.of_nat (length (mp_entries s)) - 1, t)%N
  | None => Throw NoEntriesPublishedYet
  end.

(** memory.h 226-235, [PersisterHeadAndLastPublishedIndexAndTimestampImpl]. *)
Definition mp_head_and_last (s : mp E) : Z * option idxts :=
  match nth_error (mp_entries s) (pred (length (mp_entries s))) with
  | Some (t, _) => (mp_head s, Some (N.of_nat (length (mp_entries s)) - 1, t)%N)
  | None => (mp_head s, None)
  end.

(** The comparison lambdas of memory.h 251 and 260, as functions of the position. *)
Definition ts_before (l : list (Z * E)) (p : Z -> bool) (i : nat) : bool :=
  match nth_error l i with Some (t, _) => p t | None => false end.

(** memory.h 243-267, [PersisterIndexRangeByTimestampRangeImpl]; [std::lower_bound] and
    [std::upper_bound] are the binary search [bsearch]. *)
Definition mp_index_range (s : mp E) (from till : Z) : N * N :=
  let l := mp_entries s in
  let n := length l in
  let b := bsearch (S n) (ts_before l (fun t => Z.ltb t from)) 0 n in
  let first := if Nat.eqb b n then npos else N.of_nat b in
  let second :=
    if Z.ltb 0 till
    then let e := bsearch (S n) (ts_before l (fun t => negb (Z.ltb till t))) 0 n in
         if Nat.eqb e n then npos else N.of_nat e
    else npos in
  (first, second).

(** memory.h 293-318, [PersisterIterateImpl(begin, end)]: returns the (begin, end) pair of the
    iterable range. *)
Definition mp_iterate (s : mp E) (b e : N) : outcome pexn (N * N) :=
  let size := mp_size s in
  let e := if N.eqb e npos then size else e in
  if N.ltb size e then Throw InvalidIterableRange
  else if N.eqb b e then Ok (0, 0)%N
  else if N.leb size b then Throw InvalidIterableRange
  else if N.ltb e b then Throw InvalidIterableRange
  else Ok (b, e).

(** memory.h 320-331, [PersisterIterateImpl(from, till)].  The mutex is taken once for the index range
    and once more inside [PersisterIterateImpl(begin, end)]; other threads may publish in between, so
    the two critical sections see two states [s1] and [s2].  Calls made under the publish mutex
    ([MutexLockStatus::AlreadyLocked]) have [s1 = s2]. *)
Definition mp_iterate_ts2 (s1 s2 : mp E) (from till : Z) : outcome pexn (N * N) :=
  if Z.ltb 0 till && Z.ltb till from then Throw InvalidIterableRange
  else let r := mp_index_range s1 from till in
       if negb (N.eqb (fst r) npos) then mp_iterate s2 (fst r) (snd r) else Ok (0, 0)%N.
Definition mp_iterate_ts (s : mp E) := mp_iterate_ts2 s s.

(** memory.h 93-96, [Iterator::operator*]; [None] is the out-of-range deque access (UB). *)
Definition mp_deref (s : mp E) (i : N) : option (idxts * E) :=
  match nth_error (mp_entries s) (N.to_nat i) with
  | Some (t, e) => Some ((i, t), e)
  | None => None
  end.

(** memory.h 120-124, [IteratorUnsafe::operator*]. *)
Definition mp_deref_unsafe (s : mp E) (i : N) : option bytes :=
  match nth_error (mp_entries s) (N.to_nat i) with
  | Some (t, e) => Some (ser_idx C (i, t) ++ [TAB] ++ ser C e)
  | None => None
  end.

(** The range-for loop over an iterable range: memory.h 97-101 [operator++]/[operator==] and 141-149
    [begin]/[end]; dereferences the indexes [b, b+1, ...] until equal to [e].  [fuel] is the number of
    steps until [b = e]. *)
Fixpoint idx_run (fuel : nat) (b e : N) : list N :=
  match fuel with
  | O => []
  | S f => if N.eqb b e then [] else b :: idx_run f (b + 1) e
  end.
Definition idx_seq (r : N * N) : list N := idx_run (N.to_nat (snd r - fst r)) (fst r) (snd r).

(** Read a whole iterable range ([None]: UB happened). *)
Definition mp_read (s : mp E) (r : N * N) : option (list (idxts * E)) :=
  omap_list (mp_deref s) (idx_seq r).
Definition mp_read_unsafe (s : mp E) (r : N * N) : option (list bytes) :=
  omap_list (mp_deref_unsafe s) (idx_seq r).

(** The mutating API as operations, for "every sequence of calls". *)
Inductive pop : Type :=
| Publish (e : E) (t : Z)
| PublishUnsafe (line : bytes)
| UpdateHead (t : Z).

Inductive pout : Type :=
| RIdx (r : outcome pexn idxts)
| RUnit (r : outcome pexn unit).

Definition mp_step (s : mp E) (o : pop) : mp E * pout :=
  match o with
  | Publish e t => let r := mp_publish s e t in (fst r, RIdx (snd r))
  | PublishUnsafe l => let r := mp_publish_unsafe s l in (fst r, RIdx (snd r))
  | UpdateHead t => let r := mp_update_head s t in (fst r, RUnit (snd r))
  end.

Fixpoint mp_run (s : mp E) (ops : list pop) : mp E * list pout :=
  match ops with
  | [] => (s, [])
  | o :: ops' => let r := mp_step s o in
                 let r' := mp_run (fst r) ops' in
                 (fst r', snd r :: snd r')
  end.

End Memory.
Arguments pop : clear implicits.
Arguments Publish {E}. Arguments PublishUnsafe {E}. Arguments UpdateHead {E}.
