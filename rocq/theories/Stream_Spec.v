(** Vocabulary for the subscription properties: what the subscriber's call log says. *)
From Verif Require Import Base Persister_Model Persister_Spec Stream_Model.
From Coq Require Import Sorted.

Section Spec.
Context {E F : Type}.
Variable view : idxts -> E -> option F.

(** Entries delivered, in order. *)
Definition delivered (tr : list (ev F * bool)) : list (idxts * F) :=
  flat_map (fun x => match fst x with EvEntry it f _ => [(it, f)] | _ => [] end) tr.

(** What a subscriber starting at index [b] is to see of a log of which it was given the entries below
    [n]: all of them that pass its filter, in order. *)
Definition due (log : list (Z * E)) (b n : N) : list (idxts * F) :=
  flat_map (fun x : idxts * E => if N.leb b (fst (fst x)) && N.ltb (fst (fst x)) n
                     then match view (fst x) (snd x) with Some f => [(fst x, f)] | None => [] end
                     else [])
    (numbered log).

(** Times told to the subscriber, in order. *)
Definition times (tr : list (ev F * bool)) : list Z :=
  flat_map (fun x => match fst x with EvEntry it _ _ => [snd it] | EvHead t => [t] | _ => [] end) tr.

Definition is_terminate (x : ev F * bool) : bool := match fst x with EvTerminate => true | _ => false end.
End Spec.

(** [s] is a state of a subscription, from index [b] and time [from_us] on, to a stream that had been
    through the calls [before] when the subscriber was started; [during] is everything that happened
    since: calls of publishers, the termination signal, steps of the subscriber's thread. *)
Definition subscription {E F : Type} (C : codec E) (view : idxts -> E -> option F) (b : N) (from_us : Z)
    (before : list (pop E)) (during : list (label E)) (s : sst E F) : Prop :=
  srun C view b (s_init b from_us (fst (mp_run C mp_init before))) during = Some s.

(** The publishers' calls among what happened. *)
Definition calls {E} (during : list (label E)) : list (pop E) :=
  flat_map (fun l => match l with LPublisher o => [o] | _ => [] end) during.

(** The plain subscription: everything is delivered. *)
Definition everything {E} : idxts -> E -> option E := fun _ e => Some e.
