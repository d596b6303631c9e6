(** What an observer of the queues sees: definitions the statements of C31-C35 and
    C61 use. *)
From stdpp Require Import list sorting.
From Coq Require Import ZArith.
From Verif Require Import MMQ_Model.

Section Spec.
  Context {M : Type}.

  (** The calls of the consumer, in order: the message and its index and timestamp. *)
  Definition delivered (tr : list (event M)) : list (option M * (nat * Z)) :=
    omap (λ e, match e with Delivered m its _ => Some (m, its) | _ => None end) tr.

  (** The Publish calls of thread [p] that returned an index: the message, its place in the
      order of admission, and the index and timestamp returned. *)
  Definition returned (p : nat) (tr : list (event M)) : list (M * nat * (nat * Z)) :=
    omap (λ e, match e with Published q m k its => if decide (p = q) then Some (m, k, its) else None | _ => None end) tr.

  (** The outcomes of the Publish calls of [p]: the messages, with whether each was accepted. *)
  Definition outcomes (p : nat) (tr : list (event M)) : list (M * bool) :=
    omap (λ e, match e with
               | Published q m _ _ => if decide (p = q) then Some (m, true) else None
               | Rejected q m | Threw q m => if decide (p = q) then Some (m, false) else None
               | Delivered _ _ _ => None
               end) tr.

  (** The messages [p] called Publish with. *)
  Definition submitted (p : nat) (ls : list (label M)) : list M :=
    omap (λ l, match l with Publish q m _ _ => if decide (p = q) then Some m else None | _ => None end) ls.

  (** The message of the Publish call [p] is in, if any, with its place in the order of admission. *)
  Definition pending (x : publisher M) : option (M * option nat) :=
    match x with
    | PIdle => None
    | PWaiting m _ => Some (m, None)
    | PImporting m k _ | PImported m k _ | PCommitted m k _ => Some (m, Some k)
    end.

  (** [p] is writing the body of slot [i] (between allocation and commit). *)
  Definition writing (s : mmq M) (p i : nat) : Prop :=
    ∃ m k, pubs s p = PImporting m k i ∨ pubs s p = PImported m k i.
  (** The consumer is reading slot [i]. *)
  Definition reading (s : mmq M) (i : nat) : Prop :=
    tail s = i ∧ ((∃ saved, cons_ s = CExporting saved) ∨ cons_ s = CExported).

  (** Steps other threads make on their own: no new Publish, no destruction. *)
  Definition internal (l : label M) : Prop :=
    match l with Publish _ _ _ _ | Destroy => False | _ => True end.
  (** Steps of the consumer and of the publishers already admitted. *)
  Definition draining (l : label M) : Prop :=
    match l with Import _ | Commit _ | Take | Export | Free => True | _ => False end.

  (** Timestamps strictly increase along a list of deliveries. *)
  Definition increasing_ts (xs : list (option M * (nat * Z))) : Prop :=
    StronglySorted (λ x y, (x.2.2 < y.2.2)%Z) xs.

  (** ** MMPQ *)
  Definition pq_delivered (tr : list (pq_event M)) : list (entry M) :=
    omap (λ e, match e with PqDelivered x _ => Some x | _ => None end) tr.
End Spec.
