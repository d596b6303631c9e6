(** Model of a stream subscriber thread, /repo/stream/stream.h 340-416, running against a stream that is
    published to concurrently (/repo/stream/stream_impl.h 110-150).
    A transition system over atomic steps: every access of the thread to the persister is one critical
    section (the persister's calls lock [publishing_mutex]), every call of the subscriber is one step,
    and publishes and the termination signal happen between any two of them.
    Simplifications: the persister is the in-memory one (C05 shows the file persister to be equivalent);
    the 25 ms polling wait (bricks/util/waitable_terminate_signal.h 58-73) is a step that is enabled
    exactly when its predicate holds; one subscriber (subscribers do not interact). *)
From Verif Require Import Base Persister_Model.

Section Stream.
Context {E F : Type}.
Variable C : codec E.
(** What the subscriber gets to see of an entry: [Some] everything for a plain subscription, the value of
    the subscribed-to case for a type-filtered one ([None]: other case), the raw line for the unchecked
    mode; blocks/ss/pubsub.h 180-218 and stream.h 362-378. *)
Variable view : idxts -> E -> option F.
Variable begin_idx : N.        (* stream.h 285 *)
Variable from_us : Z.          (* stream.h 286 *)

(** Calls of the subscriber's methods. *)
Inductive ev : Type :=
| EvEntry (it : idxts) (f : F) (last : idxts)   (* operator()(entry, current, last) *)
| EvFallback (it : idxts)                       (* EntryResponseIfNoMorePassTypeFilter() *)
| EvHead (t : Z)                                (* operator()(head) *)
| EvTerminate.                                  (* Terminate() *)

(** Program counter of [ThreadImpl]. *)
Inductive pc : Type :=
| PTop                                              (* stream.h 384: top of the loop *)
| PSnap                                             (* 391: about to take the snapshot *)
| PPass (cur size : N) (h lu : Z) (checked : bool)  (* 344-359: in the range-for over [cur, size) *)
| PHead (size : N) (h : Z)                          (* 401 *)
| PWaiting                                          (* 405-412 *)
| PStop                                             (* returned *)
| PUB.                                              (* reached undefined behaviour / uncaught exception *)

Record sst : Type := {
  ss_store : mp E;
  ss_term : bool;        (* terminate_signal_ *)
  ss_sent : bool;        (* terminate_sent_ *)
  ss_head : Z;           (* head, 381 *)
  ss_index : N;          (* index, 382 *)
  ss_pc : pc;
  ss_trace : list (ev * bool)  (* subscriber calls and answers; [true] is More resp. Wait *)
}.

(** stream.h 380-383: the thread is started on a stream whose contents are [m]. *)
Definition s_init (m : mp E) : sst :=
  {| ss_store := m; ss_term := false; ss_sent := false; ss_head := (from_us - 1)%Z; ss_index := begin_idx;
     ss_pc := PTop; ss_trace := [] |}.

Definition set_pc (s : sst) (p : pc) : sst :=
  {| ss_store := ss_store s; ss_term := ss_term s; ss_sent := ss_sent s; ss_head := ss_head s;
     ss_index := ss_index s; ss_pc := p; ss_trace := ss_trace s |}.
Definition call (s : sst) (e : ev) (resp : bool) (p : pc) : sst :=
  {| ss_store := ss_store s; ss_term := ss_term s; ss_sent := ss_sent s; ss_head := ss_head s;
     ss_index := ss_index s; ss_pc := if resp then p else PStop; ss_trace := ss_trace s ++ [(e, resp)] |}.

(** stream.h 385-390 and 345-350: announce the termination once; continue at [p] if the answer is Wait. *)
Definition check_terminate (s : sst) (resp : bool) (p : pc) : sst :=
  if negb (ss_sent s) && ss_term s
  then call {| ss_store := ss_store s; ss_term := ss_term s; ss_sent := true; ss_head := ss_head s;
               ss_index := ss_index s; ss_pc := ss_pc s; ss_trace := ss_trace s |} EvTerminate resp p
  else set_pc s p.

(** stream.h 408-412, the wait predicate. *)
Definition wait_done (s : sst) : bool :=
  ss_term s || N.ltb (ss_index s) (mp_size (ss_store s)) ||
  (N.ltb begin_idx (ss_index s) && Z.ltb (ss_head s) (mp_head (ss_store s))).

(** One step of the subscriber thread; [resp] is the answer the subscriber gives if called in it.
    [None]: the thread is blocked or has returned. *)
Definition thread_step (resp : bool) (s : sst) : option sst :=
  match ss_pc s with
  | PTop => Some (check_terminate s resp PSnap)
  | PSnap =>                                                    (* 391-394, 402-405 *)
      let hl := mp_head_and_last (ss_store s) in
      let size := match snd hl with Some (i, _) => (i + 1)%N | None => 0%N end in
      if Z.ltb (ss_head s) (fst hl) then
        if N.ltb (ss_index s) size
        then match snd hl with
             | Some (_, us) => Some (set_pc s (PPass (ss_index s) size (fst hl) us false))
             | None => Some (set_pc s PUB)
             end
        else Some (set_pc s (PHead size (fst hl)))
      else Some (set_pc s PWaiting)
  | PPass cur size h lu checked =>
      if N.eqb cur size then                                    (* 398-399 *)
        Some {| ss_store := ss_store s; ss_term := ss_term s; ss_sent := ss_sent s; ss_head := lu;
                ss_index := size; ss_pc := PHead size h; ss_trace := ss_trace s |}
      else if negb checked then Some (check_terminate s resp (PPass cur size h lu true))
      else match nth_error (mp_entries (ss_store s)) (N.to_nat cur), mp_last (ss_store s) with
           | Some (t, e), Ok last =>
               let next := PPass (cur + 1) size h lu false in
               match view (cur, t) e with
               | Some f => Some (call s (EvEntry (cur, t) f last) resp next)
               | None => if N.ltb cur (fst last) then Some (set_pc s next)      (* pubsub.h 197-198 *)
                         else Some (call s (EvFallback (cur, t)) resp next)     (* pubsub.h 199-200 *)
               end
           | _, _ => Some (set_pc s PUB)
           end
  | PHead size h =>                                             (* 401-404 *)
      let s' := {| ss_store := ss_store s; ss_term := ss_term s; ss_sent := ss_sent s; ss_head := h;
                   ss_index := ss_index s; ss_pc := PTop; ss_trace := ss_trace s |} in
      if N.leb begin_idx size && Z.ltb (ss_head s) h
      then Some (call s' (EvHead h) resp PTop)
      else Some s'
  | PWaiting => if wait_done s then Some (set_pc s PTop) else None
  | PStop | PUB => None
  end.

(** Everything that can happen. *)
Inductive label : Type :=
| LPublisher (o : pop E)     (* stream_impl.h 122-147: a publisher's call (succeeding or throwing) *)
| LSignal                    (* stream.h 300-303, 317-321: SignalExternalTermination *)
| LThread (resp : bool).

Definition sstep (s : sst) (l : label) : option sst :=
  match l with
  | LPublisher o => Some {| ss_store := fst (mp_step C (ss_store s) o); ss_term := ss_term s; ss_sent := ss_sent s;
                            ss_head := ss_head s; ss_index := ss_index s; ss_pc := ss_pc s; ss_trace := ss_trace s |}
  | LSignal => Some {| ss_store := ss_store s; ss_term := true; ss_sent := ss_sent s;
                       ss_head := ss_head s; ss_index := ss_index s; ss_pc := ss_pc s; ss_trace := ss_trace s |}
  | LThread resp => thread_step resp s
  end.

Fixpoint srun (s : sst) (ls : list label) : option sst :=
  match ls with
  | [] => Some s
  | l :: ls' => match sstep s l with Some s' => srun s' ls' | None => None end
  end.
End Stream.
Arguments ev : clear implicits. Arguments sst : clear implicits. Arguments label : clear implicits.
