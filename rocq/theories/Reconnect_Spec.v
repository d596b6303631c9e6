(** A master and a follower which subscribes to it over HTTP again and again, each connection breaking at any byte. *)
From Verif Require Import Base Codec Persister_Model Persister_Spec Stream_Model Stream_Spec Replicator_Model Replicator_Spec PubSub_Model PubSub_Spec Reconnect_Model.
Local Open Scope list_scope.

Section Link.
Context {E : Type}.
Variable W : wire E.
(** With `checked`, the entries are sent in the JSON format of the codec; otherwise as the raw lines of the log. *)
Variable checked : bool.
Definition mode_of : mode E := if checked then Checked (ser_idx (w_codec W)) (ser (w_codec W)) else Raw.

(** All the calls the users of the master have made so far, and the follower. *)
Record link := { l_calls : list (pop E); l_follower : rep E }.
Definition l_master (l : link) : mp E := fst (mp_run (w_codec W) mp_init (l_calls l)).

(** A connection: the master serves the request of the follower, [body] is what it has sent by a certain moment; of it [concat chunks] has arrived, and no more of it will. *)
Definition connection (l : link) (now : Z) b c during (s : sst E E) (e : ep) (body : bytes) (chunks : list bytes) (lost : bytes) : Prop :=
  session W mode_of (ser_ts W) (resubscribe (r_next (l_follower l)) (r_from (l_follower l))) now true (l_calls l) b c during s e body /\
  ~ In LSignal during /\ body = concat chunks ++ lost.
Definition connected (l : link) b c during chunks : link :=
  {| l_calls := l_calls l ++ b ++ c ++ calls during; l_follower := fst (fst (pass_chunks (pass_entry W checked) [] (l_follower l) chunks)) |}.

Inductive link_step : link -> link -> Prop :=
| ls_calls l more : link_step l {| l_calls := l_calls l ++ more; l_follower := l_follower l |}
| ls_connection l now b c during s e body chunks lost :
    connection l now b c during s e body chunks lost -> link_step l (connected l b c during chunks).
Inductive link_run : link -> link -> Prop :=
| lr_refl l : link_run l l
| lr_step l l1 l2 : link_run l l1 -> link_step l1 l2 -> link_run l l2.

(** The beginning: the follower's stream is empty, and so has been subscribed from index 0. *)
Definition new_follower : rep E := {| r_store := mp_init; r_next := 0; r_from := 0 |}.
Definition new_link (calls : list (pop E)) : link := {| l_calls := calls; l_follower := new_follower |}.
End Link.
