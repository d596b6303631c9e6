(** What following redirects means. *)
From Coq Require Import String.
From Verif Require Import Base Dec Strings_Model Url_Model Redirect_Model.
Local Open Scope list_scope.

(** A reply that sends the client elsewhere. *)
Definition redirects (r : reply) : Prop := (300 <= code r <= 399)%Z /\ location_of r <> [].

(** [us] are the URLs visited, one request each, in order: the first one, and then each
    the target of the reply to the requests so far. *)
Inductive visited (server : list sent -> reply) (a : ask) : url -> list sent -> list url -> Prop :=
| visited_one u log : visited server a u log [u]
| visited_more u log t us :
    redirects (server (log ++ [request_to a u])) ->
    parse_url (location_of (server (log ++ [request_to a u]))) = Some t ->
    visited server a (redirected u t) (log ++ [request_to a u]) us ->
    visited server a u log (u :: us).

(** Where a URL is looked for. *)
Definition standard_port (scheme : bytes) (p : N) : Prop :=
  (scheme = bs "https" -> p = 443%N) /\ (scheme <> bs "https" -> p = 80%N).
Definition served_at (u : url) (p : N) : Prop :=
  (port u <> 0%N -> p = port u) /\ (port u = 0%N -> standard_port (scheme u) p).
