(** Model of the HTTP client: [/repo/blocks/http/impl/posix_client.h], the request it
    sends and the redirects it follows.

    Modelling decisions (SIMPL = simplification):
    - the other side of the network is a function of what was sent so far: the code and
      the headers of each response (the text of messages is Http_Model.v);
    - SIMPL: a connection that fails (an exception) is not modelled;
    - the number of requests is bounded by a parameter, [None] when exceeded, so that
      the loop is a function. *)
From Coq Require Import String.
From Verif Require Import Base Dec Strings_Model Url_Model.
Local Open Scope list_scope.

(** One request on the wire: whom the socket is connected to, then the lines of
    posix_client.h 99-143. *)
Record sent := Sent {
  to_host : bytes; to_port : N;
  s_method : bytes; s_target : bytes; s_host_header : bytes;
  s_headers : list (bytes * bytes);     (* custom headers, cookies among them *)
  s_body : bytes
}.
Record reply := Reply { code : Z; reply_headers : list (bytes * bytes) }.

(** posix_client.h 159-168: what is asked for. *)
Record ask := Ask {
  a_method : bytes; a_url : bytes; a_headers : list (bytes * bytes); a_body : bytes; a_allow_redirects : bool }.

(** posix_client.h 90-98: the port to connect to. *)
Definition port_of (u : url) : N :=
  if N.eqb (port u) 0
  then let d := default_port_for_scheme (scheme u) in if N.eqb d 0 then 80%N else d
  else port u.

(** posix_client.h 99-143. *)
Definition request_to (a : ask) (u : url) : sent :=
  Sent (host u) (port_of u) (a_method a) (path u ++ compose_parameters (parameters_vector u) (fragment u))
       (host u) (a_headers a) (a_body a).

(** posix_client.h 53-57: the last header named exactly "Location". *)
Definition location_of (r : reply) : bytes :=
  fold_left (fun loc h => if beqs (fst h) (bs "Location") then snd h else loc) (reply_headers r) [].

(** How [Go] ends: normally, with the code and [response_url_after_redirects_], or with
    one of three exceptions. *)
Inductive ending :=
| Responded (c : Z) (final_url : bytes)
| RedirectLoop
| RedirectNotAllowed
| BadURL.                                (* EmptyURLException *)

(** posix_client.h 72-157, the loop; [urls] is [all_urls], [after] is
    [response_url_after_redirects_], [log] what was sent, oldest first. *)
Fixpoint client_loop (fuel : nat) (server : list sent -> reply) (a : ask)
  (u : url) (urls : list bytes) (after : bytes) (log : list sent) : option (ending * list sent) :=
  match fuel with
  | O => None
  | S fuel =>
      let composed := compose_url u in
      if existsb (beqs composed) urls then Some (RedirectLoop, log)
      else
        let log := log ++ [request_to a u] in
        let r := server log in
        let loc := location_of r in
        if (Z.leb 300 (code r) && Z.leb (code r) 399 && negb (is_empty loc))%bool then
          if a_allow_redirects a then
            match parse_url loc with
            | Some t =>
                let u' := redirected u t in
                client_loop fuel server a u' (composed :: urls) (compose_url u') log
            | None => Some (BadURL, log)
            end
          else Some (RedirectNotAllowed, log)
        else Some (Responded (code r) after, log)
  end.

Definition client_go (fuel : nat) (server : list sent -> reply) (a : ask) : option (ending * list sent) :=
  match parse_url (a_url a) with
  | Some u => client_loop fuel server a u [] (a_url a) []
  | None => Some (BadURL, [])
  end.
