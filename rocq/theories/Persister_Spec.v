(** Independent vocabulary for the persister properties: what a history of calls and their results says
    about the contents of the log, without looking at any persister state. *)
From Verif Require Import Base Persister_Model.
From Coq Require Import Sorted.

Section Spec.
Context {E : Type}.
Variable C : codec E.

(** The (timestamp, payload) a call contributes to the log, judging by its result alone. *)
Definition accepted1 (o : pop E) (r : pout) : list (Z * E) :=
  match o, r with
  | Publish e t, RIdx (Ok _) => [(t, e)]
  | PublishUnsafe line, RIdx (Ok (_, t)) =>
      match cut_at TAB line with
      | Some (_, post) => match de C post with Some e => [(t, e)] | None => [] end
      | None => []
      end
  | _, _ => []
  end.
Fixpoint accepted (os : list (pop E)) (rs : list pout) : list (Z * E) :=
  match os, rs with
  | o :: os', r :: rs' => accepted1 o r ++ accepted os' rs'
  | _, _ => []
  end.

(** The timestamp a call moves the head to, judging by its result alone. *)
Definition moved1 (o : pop E) (r : pout) : list Z :=
  match o, r with
  | Publish _ t, RIdx (Ok _) => [t]
  | PublishUnsafe _, RIdx (Ok (_, t)) => [t]
  | UpdateHead t, RUnit (Ok _) => [t]
  | _, _ => []
  end.
Fixpoint moved (os : list (pop E)) (rs : list pout) : list Z :=
  match os, rs with
  | o :: os', r :: rs' => moved1 o r ++ moved os' rs'
  | _, _ => []
  end.

(** Latest of all accepted timestamps, -1 if there were none. *)
Definition latest (l : list Z) : Z := fold_left Z.max l (-1)%Z.

(** Attach indexes i, i+1, ... *)
Fixpoint numbered_from (i : N) (l : list (Z * E)) : list (idxts * E) :=
  match l with
  | [] => []
  | (t, e) :: l' => ((i, t), e) :: numbered_from (i + 1) l'
  end.
Definition numbered (l : list (Z * E)) := numbered_from 0 l.

Definition increasing (l : list (Z * E)) : Prop := StronglySorted Z.lt (map fst l).

Definition threw (r : pout) : bool :=
  match r with RIdx (Ok _) => false | RUnit (Ok _) => false | _ => true end.

(** "timestamp lies in [from, till]", no upper bound when till <= 0. *)
Definition in_ts_range (from till : Z) (x : idxts * E) : bool :=
  Z.leb from (snd (fst x)) && (Z.leb till 0 || Z.leb (snd (fst x)) till).

Definition in_idx_range (b e : N) (x : idxts * E) : bool :=
  N.leb b (fst (fst x)) && N.ltb (fst (fst x)) e.
End Spec.
