(** Model of how a follower asks for the data it lacks, [stream/replicator.h]: GetURLToSubscribe() 86-89, and ThreadImpl() 298-316, which calls it again
    whenever the connection breaks or a line cannot be accepted.  The `&checked` of the URL chooses the mode of the session (see [PubSub_Spec.mode]). *)
From Verif Require Import Base PubSub_Model.

(** 86-89: url?i=n, and &since=from if from > 0. *)
Definition resubscribe (n : N) (from : Z) : query := {|
  q_recent := None; q_since := if Z.ltb 0 from then Some (Z.to_N from) else None; q_i := Some n; q_tail := None; q_n := None; q_period := None; q_bytes := None;
  q_nowait := false; q_entries_only := false; q_array := false |}.
