(** What a client of a paginated collection does, and should get. *)
From Coq Require Import List NArith Arith Lia Bool.
From Verif Require Import Pages_Model.
Import ListNotations.

Section Spec.
  Context {E : Type}.

  (** The entries with numbers [i], …, [i + n - 1], as many as there are. *)
  Definition window (l : list E) (i n : nat) : list E := firstn n (skipn i l).

  (** Following [url_next_page] (resp. [url_previous_page]) while there is one. *)
  Inductive walk (next : page E -> option (N * N)) (get : N -> N -> option (page E)) : N -> N -> list (page E) -> Prop :=
  | walk_end i n p : get i n = Some p -> next p = None -> walk next get i n [p]
  | walk_step i n p i' n' ps : get i n = Some p -> next p = Some (i', n') -> walk next get i' n' ps ->
      walk next get i n (p :: ps).

  (** A client collects what it reads: a page begins at entry number [pg_i]. *)
  Definition collect (ps : list (page E)) : list E :=
    fold_left (fun seen p => firstn (N.to_nat (pg_i p)) seen ++ pg_data p) ps [].
End Spec.
