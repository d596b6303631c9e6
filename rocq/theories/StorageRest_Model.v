(** Model of the RESTful access to a storage: [storage/api.h] (the generic data
    handler), [storage/api_types.h] (keys in URLs), [storage/rest/structured.h]
    (the handlers of GET, POST, PUT, PATCH, DELETE).

    Modelling decisions (SIMPL = simplification):
    - the handlers run their transaction under the publishing mutex
      (api.h 140, the whole handler), hence each request is one atomic call, built
      from the two-step transactions of StorageTxn_Model.v;
    - SIMPL: the two headers read are given by their values (lookup of headers is
      Headers_Model.v), JSON bodies and the text of keys by functions of a
      configuration; [InitializeOwnKey] (user code) is a function of the entry;
      user code in these functions does not throw anything but the JSON parsing
      exception;
    - SIMPL: bodies are the values they render (JSON is Json_Model.v); the
      collection view lists every entry, as [Simple] does (simple.h 49-59; the
      pages of [Hypermedia] are Pages_Model.v);
    - SIMPL: dates in headers are a formatting and a parsing function; both
      go through the C library (strftime, strptime, timegm);
    - rows and columns views (api.h GenerateRowOrColHandler) are not modelled. *)
From stdpp Require Import gmap strings.
From Coq Require Import ZArith NArith.
From Verif Require Import StorageContainers_Model StorageTxn_Model.
From Verif Require Base Dec.

Notation text := (list N).

(* ------------------------------------------------------------------ *)
(** * Integers from text *)

(** [isspace] in the C locale. *)
Definition rest_space (b : N) : bool := (((9 <=? b) && (b <=? 13)) || (b =? 32))%N.
Fixpoint skip_spaces (s : text) : text :=
  match s with b :: r => if rest_space b then skip_spaces r else s | [] => [] end.
Fixpoint leading_digits (s : text) : text :=
  match s with b :: r => if Dec.is_digit b then b :: leading_digits r else [] | [] => [] end.
Definition sign_of (s : text) : bool * text :=
  match s with
  | 45%N :: r => (true, r)
  | 43%N :: r => (false, r)
  | _ => (false, s)
  end.

(** bricks/strings/util.h 233-244 (microseconds), 168-176 with [OUTPUT] = int64_t:
    [is >> value], zero when it fails; [>>] skips spaces, reads the longest
    integer and ignores what follows; it fails on no digits and on overflow. *)
Definition read_i64 (s : text) : Z :=
  let (negative, rest) := sign_of (skip_spaces s) in
  match leading_digits rest with
  | [] => 0%Z
  | ds =>
      let v := (if negative then - Z.of_N (Dec.horner ds) else Z.of_N (Dec.horner ds))%Z in
      if ((- 2 ^ 63 <=? v) && (v <? 2 ^ 63))%Z then v else 0%Z
  end.

(* ------------------------------------------------------------------ *)
(** * A field as the REST handlers see it *)

(** [key_t] of the field: the key of a dictionary, the row and column of a matrix. *)
Definition rkey (f : field_spec) : Type :=
  match f with
  | @FDictionary K T P _ _ _ _ => K
  | @FOneToOne R C T _ _ _ _ _ _ => (R * C)%type
  | @FOneToMany R C T _ _ _ _ _ _ => (R * C)%type
  | @FManyToMany R C T _ _ _ _ _ _ => (R * C)%type
  end.
Definition robj (f : field_spec) : Type :=
  match f with
  | @FDictionary K T P _ _ _ _ => T
  | @FOneToOne R C T _ _ _ _ _ _ => T
  | @FOneToMany R C T _ _ _ _ _ _ => T
  | @FManyToMany R C T _ _ _ _ _ _ => T
  end.

Global Instance rkey_eq (f : field_spec) : EqDecision (rkey f).
Proof. destruct f; simpl; solve_decision. Defined.

(** api_types.h 90-94 and 133-137, ExtractOrComposeKey. *)
Definition rkey_of (f : field_spec) : robj f -> rkey f :=
  match f with
  | @FDictionary K T P _ _ get_key _ => get_key
  | @FOneToOne R C T _ _ _ _ get_row get_col => λ o, (get_row o, get_col o)
  | @FOneToMany R C T _ _ _ _ get_row get_col => λ o, (get_row o, get_col o)
  | @FManyToMany R C T _ _ _ _ get_row get_col => λ o, (get_row o, get_col o)
  end.

(** [field[key]], dictionary.h 64-71; matrices read the object behind the pointer. *)
Definition rget (f : field_spec) : f_obs (to_field f) -> rkey f -> option (robj f) :=
  match f with
  | @FDictionary K T P _ _ _ _ => λ v k, v.1 !! k
  | @FOneToOne R C T _ _ _ _ _ _ => λ v k, mjoin (v.1.1.1 !! k)
  | @FOneToMany R C T _ _ _ _ _ _ => λ v k, mjoin (v.1.1.1 !! k)
  | @FManyToMany R C T _ _ _ _ _ _ => λ v k, mjoin (v.1.1.1 !! k)
  end.

(** [field.LastModified(key)], dictionary.h 73-80. *)
Definition rlm (f : field_spec) : f_obs (to_field f) -> rkey f -> option Z :=
  match f with
  | @FDictionary K T P _ _ _ _ => λ v k, v.2 !! k
  | @FOneToOne R C T _ _ _ _ _ _ => λ v k, v.2 !! k
  | @FOneToMany R C T _ _ _ _ _ _ => λ v k, v.2 !! k
  | @FManyToMany R C T _ _ _ _ _ _ => λ v k, v.2 !! k
  end.

(** The entries, in the order of iteration (SIMPL: some order). *)
Definition rlist (f : field_spec) : f_obs (to_field f) -> list (rkey f * robj f) :=
  match f with
  | @FDictionary K T P _ _ _ _ => λ v, map_to_list v.1
  | @FOneToOne R C T _ _ _ _ _ _ => λ v, omap (λ e, (λ o, (e.1, o)) <$> e.2) (map_to_list v.1.1.1)
  | @FOneToMany R C T _ _ _ _ _ _ => λ v, omap (λ e, (λ o, (e.1, o)) <$> e.2) (map_to_list v.1.1.1)
  | @FManyToMany R C T _ _ _ _ _ _ => λ v, omap (λ e, (λ o, (e.1, o)) <$> e.2) (map_to_list v.1.1.1)
  end.

(** [field.Add(entry)], [field.Erase(key)]. *)
Definition radd (f : field_spec) : robj f -> f_op (to_field f) :=
  match f with
  | @FDictionary K T P _ _ _ _ => λ o, DAdd o
  | @FOneToOne R C T _ _ _ _ _ _ => λ o, OAdd o
  | @FOneToMany R C T _ _ _ _ _ _ => λ o, MAdd o
  | @FManyToMany R C T _ _ _ _ _ _ => λ o, NAdd o
  end.
Definition rerase (f : field_spec) : rkey f -> f_op (to_field f) :=
  match f with
  | @FDictionary K T P _ _ _ _ => λ k, DErase k
  | @FOneToOne R C T _ _ _ _ _ _ => λ k, OErase k
  | @FOneToMany R C T _ _ _ _ _ _ => λ k, MErase k
  | @FManyToMany R C T _ _ _ _ _ _ => λ k, NErase k
  end.

(** api_types.h 65, 99: [url_key_t]. *)
Definition ukey (f : field_spec) : Type :=
  match f with FDictionary _ _ => text | _ => (text * text)%type end.

(** What depends on the entry type of the field. *)
Record rest_cfg (f : field_spec) := RestCfg {
  c_parse_key : ukey f -> rkey f;            (* ParseURLKey, api_types.h 82-85, 122-126 *)
  c_parse_entry : text -> option (robj f);   (* ParseJSON<entry_t>; None: it throws *)
  c_patch : text -> robj f -> option (robj f); (* PatchObjectWithJSON; None: it throws *)
  c_init_key : option (robj f -> robj f);    (* InitializeOwnKey, when the type has one *)
  c_hash : rkey f -> N                       (* GenericHashFunction *)
}.

(** Dates in headers: chrono.h 235-237; headers.h 60-77. *)
Record date_cfg := DateCfg {
  d_format : Z -> text;            (* FormatDateTimeAsIMFFix *)
  d_parse : text -> option Z       (* ParseHTTPDate; None: it throws *)
}.

Inductive verb := GET | POST | PUT | PATCH | DELETE | OTHER_VERB.

(** [Request]: method, [url_path_args], the query, the body and the two headers. *)
Record request := Request {
  q_verb : verb;
  q_path_args : list text;
  q_query : gmap string text;
  q_body : text;
  q_current_unmodified : option text;   (* X-Current-If-Unmodified-Since *)
  q_unmodified : option text            (* If-Unmodified-Since *)
}.

(** api_types.h 66-77 (one key) and 101-117 (row and column). *)
Definition both {A B} (a : option A) (b : option B) : option (A * B) :=
  match a, b with Some x, Some y => Some (x, y) | _, _ => None end.
Definition url_key (f : field_spec) (q : request) : option (ukey f) :=
  match f with
  | FDictionary _ _ =>
      match q_path_args q with
      | [k] => Some k
      | _ => q_query q !! "key"%string
      end
  | _ =>
      match q_path_args q with
      | [r; c] => Some (r, c)
      | _ =>
          match both (q_query q !! "key1"%string) (q_query q !! "key2"%string) with
          | Some p => Some p
          | None =>
              match both (q_query q !! "row"%string) (q_query q !! "col"%string) with
              | Some p => Some p
              | None => both (q_query q !! "1"%string) (q_query q !! "2"%string)
              end
          end
      end
  end.

(** [Response]: the code, the body and the headers set. *)
Inductive body (f : field_spec) : Type :=
| BodyRecord (o : robj f)
| BodyEntries (l : list (rkey f * robj f))
| BodyDetailed (l : list (rkey f * robj f * option Z))
| BodyDone (resource : option (rkey f))
| BodyError (name : string).
Arguments BodyRecord {f}. Arguments BodyEntries {f}. Arguments BodyDetailed {f}.
Arguments BodyDone {f}. Arguments BodyError {f}.
Record response (f : field_spec) := Response {
  r_code : N; r_body : body f; r_headers : list (string * text) }.
Arguments Response {f}. Arguments r_code {f}. Arguments r_body {f}. Arguments r_headers {f}.

Section Rest.
  Context {I : Type} `{EqDecision I} (schema : I -> field_spec).
  Notation F := (λ i, to_field (schema i)).
  Context (i : I).
  Notation f := (schema i).
  Context (cfg : rest_cfg f) (dates : date_cfg).

  Definition error (code : N) (name : string) : response f := Response code (BodyError name) [].

  (** structured.h 157-161, 307-311, 367-371, 435-439, 491-495. *)
  Definition modified_headers (lm : option Z) : list (string * text) :=
    match lm with
    | Some us => [("Last-Modified"%string, d_format dates us);
                  ("X-Current-Last-Modified"%string, Dec.zdec us)]
    | None => []
    end.

  (** structured.h 76-106: [inl] is the error response, [inr] the time, if any. *)
  Definition if_unmodified_since (q : request) : response f + option Z :=
    match q_current_unmodified q with
    | Some h =>
        let us := read_i64 h in
        if decide (us > 0)%Z then inr (Some us) else inl (error 400 "InvalidHeader")
    | None =>
        match q_unmodified q with
        | Some h =>
            match d_parse dates h with
            | Some us => inr (Some us)
            | None => inl (error 400 "InvalidHeader")
            end
        | None => inr None
        end
    end.

  (** [Exists(if_unmodified_since) && Exists(last_modified) && last_modified > if_unmodified_since],
      structured.h 343-345, 406-408, 473-475. *)
  Definition was_modified (since : option Z) (lm : option Z) : bool :=
    match since, lm with
    | Some us, Some t => bool_decide (t > us)%Z
    | _, _ => false
    end.

  (** api_types.h 54-58, api.h 144-153; SIMPL: the numbers are read as
      64-bit integers, negative ones as zero, not as [uint32_t]. *)
  Record export := Export { e_detailed : bool; e_nshards : N; e_shard : N }.
  Definition export_params (q : request) : option export :=
    match q_query q !! "export"%string with
    | Some format =>
        let number name := match q_query q !! name with Some t => Z.to_N (read_i64 t) | None => 0%N end in
        Some (Export (bool_decide (format = [100; 101; 116; 97; 105; 108; 101; 100]%N)) (* "detailed" *)
                     (number "nshards"%string) (number "shard"%string))
    | None => None
    end.

  (** structured.h 204-206: is the entry under this key exported? *)
  Definition in_shard (e : export) (k : rkey f) : bool :=
    negb ((1 <? e_nshards e)%N && negb (c_hash f cfg k mod e_nshards e =? e_shard e)%N).

  (** structured.h 136-226, [RunForFullOrPartialKey] with a complete key. *)
  Definition run_get (master : bool) (key : option (ukey f)) (params : option export)
    (v : f_obs (F i)) : response f :=
    match key with
    | Some uk =>
        let k := c_parse_key f cfg uk in
        match rget f v k with
        | Some o =>
            let lm := rlm f v k in
            match params with
            | None => Response 200 (BodyRecord o) (modified_headers lm)
            | Some e => Response 200 (if e_detailed e then BodyDetailed [(k, o, lm)] else BodyRecord o) []
            end
        | None => error 404 "ResourceNotFound"
        end
    | None =>
        match params with
        | None => Response 200 (BodyEntries (rlist f v)) []
        | Some e =>
            if master then error 403 "NotFollowerMode"
            else
              let l := filter (λ x, in_shard e x.1 = true) (rlist f v) in
              Response 200 (if e_detailed e then BodyDetailed (map (λ x, (x, rlm f v x.1)) l)
                            else BodyEntries l) []
        end
    end.

  (** structured.h 287-323, POST. *)
  Definition run_post (entry : robj f) (overwrite : bool) : prog F (response f) :=
    match c_init_key f cfg with
    | None => Return F _ (error 405 "MethodNotAllowed")
    | Some init =>
        let o := init entry in
        let k := rkey_of f o in
        Read F _ (λ v,
          if overwrite || negb (bool_decide (is_Some (rget f (v i) k)))
          then Do F _ i (radd f o)
                 (Read F _ (λ v', Return F _ (Response 201 (BodyDone (Some k)) (modified_headers (rlm f (v' i) k)))))
          else Return F _ (error 409 "ResourceAlreadyExists"))
    end.

  (** structured.h 338-381, PUT. *)
  Definition run_put (since : option Z) (k : rkey f) (entry : robj f) : prog F (response f) :=
    if decide (rkey_of f entry = k) then
      Read F _ (λ v,
        let exists_ := bool_decide (is_Some (rget f (v i) k)) in
        if exists_ && was_modified since (rlm f (v i) k)
        then Return F _ (error 412 "ResourceWasModified")
        else Do F _ i (radd f entry)
               (Read F _ (λ v', Return F _ (Response (if exists_ then 200 else 201) (BodyDone (Some k))
                                              (modified_headers (rlm f (v' i) k))))))
    else Return F _ (error 400 "InvalidKey").

  (** structured.h 397-452, PATCH. *)
  Definition run_patch (since : option Z) (k : rkey f) (patch : text) : prog F (response f) :=
    Read F _ (λ v,
      match rget f (v i) k with
      | Some o =>
          if was_modified since (rlm f (v i) k)
          then Return F _ (error 412 "ResourceWasModified")
          else
            match c_patch f cfg patch o with
            | Some o' =>
                if decide (rkey_of f o' = k)
                then Do F _ i (radd f o')
                       (Read F _ (λ v', Return F _ (Response 200 (BodyDone (Some k))
                                                      (modified_headers (rlm f (v' i) k)))))
                else Return F _ (error 400 "InvalidKey")
            | None => Return F _ (error 400 "ParseJSONError")
            end
      | None => Return F _ (error 404 "ResourceNotFound")
      end).

  (** structured.h 467-499, DELETE. *)
  Definition run_delete (since : option Z) (k : rkey f) : prog F (response f) :=
    Read F _ (λ v,
      let existed := bool_decide (is_Some (rget f (v i) k)) in
      if existed && was_modified since (rlm f (v i) k)
      then Return F _ (error 412 "ResourceWasModified")
      else Do F _ i (rerase f k)
             (Read F _ (λ v', Return F _ (Response 200 (BodyDone None)
                                (if existed then modified_headers (rlm f (v' i) k) else []))))).

  (** What the handler does with a request: answers at once or runs a transaction
      whose second step sends the response. *)
  Inductive call :=
  | Answer (r : response f)
  | Reads (f1 : ro_prog F (response f))
  | Writes (f1 : prog F (response f)).

  (** api.h 137-283, generic_data_handler, with the [Enter] of each handler
      (structured.h 111-133, 278-286, 332-337, 391-396, 461-466) and
      CallWithKeyFromURL (api_types.h 142-153). *)
  Definition data_handler (master : bool) (q : request) : call :=
    let with_key (k : option Z -> ukey f -> call) : call :=
      match if_unmodified_since q with
      | inl r => Answer r
      | inr since =>
          match url_key f q with
          | Some uk => k since uk
          | None => Answer (error 400 "Need resource key in the URL.")
          end
      end in
    match q_verb q, master with
    | GET, _ => Reads (RoRead F _ (λ v, RoReturn F _ (run_get master (url_key f q) (export_params q) (v i))))
    | POST, true =>
        match q_path_args q with
        | [] =>
            match c_parse_entry f cfg (q_body q) with
            | Some entry => Writes (run_post entry (bool_decide (is_Some (q_query q !! "overwrite"%string))))
            | None => Answer (error 400 "ParseJSONError")
            end
        | _ => Answer (error 400 "InvalidKey")
        end
    | PUT, true =>
        with_key (λ since uk,
          match c_parse_entry f cfg (q_body q) with
          | Some entry => Writes (run_put since (c_parse_key f cfg uk) entry)
          | None => Answer (error 400 "ParseJSONError")
          end)
    | PATCH, true => with_key (λ since uk, Writes (run_patch since (c_parse_key f cfg uk) (q_body q)))
    | DELETE, true => with_key (λ since uk, Writes (run_delete since (c_parse_key f cfg uk)))
    | _, _ => Answer (error 405 "MethodNotAllowed")
    end.

  (** Sending the response: [Request::operator()] may throw (the client is gone). *)
  Definition send_step (gone : option nat) : second_step (response f) :=
    λ _ _, OtherException <$> gone.

  (** One request to a storage: what is sent, and what the storage becomes. *)
  Definition responses {X} (o : outcome F (X * list (response f))) : outcome F (list (response f)) :=
    match o with
    | Finished _ _ (_, l) n st s => Finished F _ l n st s
    | Propagates _ _ n st s => Propagates F _ n st s
    | Exited _ _ => Exited F _
    | Undefined _ _ => Undefined F _
    end.
  Definition serve (clk : nat -> Z) (gone : option nat) (q : request)
    (n : nat) (st : stream F) (s : storage F) : outcome F (list (response f)) :=
    match data_handler (s_master F s) q with
    | Answer r => Finished F _ [r] n st s
    | Reads f1 => responses (ro_two_step F clk f1 (send_step gone) n st s)
    | Writes f1 => responses (rw_two_step F clk f1 (send_step gone) n st s)
    end.
End Rest.
