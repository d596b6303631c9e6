(** Model of the HTTP subscription endpoint: [stream/pubsub.h] (parameters 123-230, the subscriber 232-473), and
    ServeDataViaHTTP() of [stream/stream.h] 475-601, which computes where the subscription begins.
    The subscriber's thread is that of [Stream_Model].
    Simplifications: the body is a byte list (its chunked encoding is C45); a failing send (NetworkException, 296, 396) is not modelled;
    numbers are unbounded (the parameters are uint64_t). *)
From Coq Require Import String.
From Verif Require Import Base Persister_Model Stream_Model Replicator_Model.
Local Open Scope list_scope.

(** pubsub.h 123-164, ParsedHTTPRequestParams: the range-related part. *)
Record params := {
  p_recent : Z; p_since : Z; p_i : N; p_tail : N; p_n : N; p_period : Z; p_nowait : bool; p_bytes : N (* stop_after_bytes *);
  p_entries_only : bool; p_array : bool }.

(** The query: what each parameter is set to. *)
Record query := {
  q_recent : option N; q_since : option N; q_i : option N; q_tail : option N; q_n : option N; q_period : option N; q_bytes : option N;
  q_nowait : bool; q_entries_only : bool; q_array : bool }.
Definition or0 (x : option N) : N := match x with Some n => n | None => 0%N end.
(** pubsub.h 166-230, ParsePubSubHTTPRequest(). *)
Definition parse_params (q : query) : params := {|
  p_recent := Z.of_N (or0 (q_recent q)); p_since := Z.of_N (or0 (q_since q)); p_i := or0 (q_i q);
  p_tail := match q_tail q with Some 0%N => npos | Some t => t | None => 0%N end;
  p_n := or0 (q_n q); p_period := Z.of_N (or0 (q_period q)); p_nowait := q_nowait q; p_bytes := or0 (q_bytes q);
  p_entries_only := q_entries_only q || q_array q; p_array := q_array q |}.

Definition with_tail (p : params) (t : N) : params := {|
  p_recent := p_recent p; p_since := p_since p; p_i := p_i p; p_tail := t; p_n := p_n p; p_period := p_period p; p_nowait := p_nowait p; p_bytes := p_bytes p;
  p_entries_only := p_entries_only p; p_array := p_array p |}.

(** What ServeDataViaHTTP() does with a request for data. *)
Inductive served := NoContent | Subscribed (begin_idx : N) (from_timestamp : Z) (p : params).
(** stream.h 545-576.  [size] is the stream's size read at 511, [m] the persister when asked for the index by timestamp, [now] the request's time. *)
Definition serve {E} (size : N) (m : mp E) (now : Z) (p : params) : served :=
  let tailed := negb (N.eqb (p_tail p) 0) in
  let begin0 := if tailed then (if N.eqb (p_tail p) npos then size else N.max (p_i p) (if N.ltb (p_tail p) size then size - p_tail p else 0)%N)
                else if Z.ltb 0 (p_recent p) || Z.ltb 0 (p_since p) then 0%N else p_i p in
  let tail := if tailed && N.eqb (p_tail p) npos then size else p_tail p in
  let from := if tailed then 0%Z else if Z.ltb 0 (p_recent p) then (now - p_recent p)%Z else if Z.ltb 0 (p_since p) then p_since p else 0%Z in
  let begin := if Z.ltb 0 from then N.max begin0 (N.min (fst (mp_index_range m from 0)) size) else begin0 in
  if p_nowait p && N.leb size begin then NoContent else Subscribed begin from (with_tail p tail).

(** PubSubHTTPEndpointImpl's members, 481-503. *)
Record ep := { e_serving : bool; e_from : Z (* from_timestamp_ *); e_to : Z (* to_timestamp_ *); e_n : N; e_size : N (* current_response_size_ *); e_started : bool (* output_started_ *) }.
(** 237-262, the constructor. *)
Definition ep_init (p : params) (now : Z) : ep :=
  {| e_serving := negb (Z.ltb 0 (p_recent p) || Z.ltb 0 (p_since p));
     e_from := if Z.ltb 0 (p_recent p) then (now - p_recent p)%Z else if Z.ltb 0 (p_since p) then p_since p else 0%Z;
     e_to := 0; e_n := p_n p; e_size := 0; e_started := false |}.

Definition OPEN : bytes := bs "[" ++ [NL].
Definition COMMA : bytes := bs "," ++ [NL].
Definition CLOSE : bytes := bs "]" ++ [NL].
Definition EMPTY : bytes := bs "[]" ++ [NL].
Definition blen (s : bytes) : N := N.of_nat (List.length s).

(** The result of a call: the new state, what has been sent, and [true] for EntryResponse::More. *)
Notation result := (ep * bytes * bool)%type.

(** 324-331 and 413-424: closing the array when done. *)
Definition finish (p : params) (r : result) : result :=
  match r with
  | (e, out, true) => r
  | (e, out, false) => if p_array p then (e, out ++ (if e_started e then CLOSE else EMPTY), false) else r
  end.

(** 274-322 and 350-412: the lambda, common to the two kinds of entries.  [terminate] is time_to_terminate_;
    [us] the entry's timestamp, [text] what is sent for it, [i] its index, [last] the last index published. *)
Definition ep_lambda (p : params) (e : ep) (terminate : bool) (i : N) (us : Z) (last : N) (text : bytes) : result :=
  if terminate then (e, [], false)
  else
    let serving := e_serving e || (N.leb (p_i p) i && (N.eqb (p_tail p) 0 || N.ltb (last - i) (p_tail p)) && (Z.eqb (e_from e) 0 || Z.leb (e_from e) us)) in
    let e := {| e_serving := serving; e_from := e_from e; e_to := e_to e; e_n := e_n e; e_size := e_size e; e_started := e_started e |} in
    if negb serving && N.eqb i last && p_nowait p then (e, [], false)
    else if serving then
      let to := if negb (Z.eqb (p_period p) 0) && Z.eqb (e_to e) 0 then (us + p_period p)%Z else e_to e in
      let e := {| e_serving := true; e_from := e_from e; e_to := to; e_n := e_n e; e_size := e_size e; e_started := e_started e |} in
      if negb (Z.eqb to 0) && Z.ltb to us then (e, [], false)
      else
        let size := (e_size e + blen text)%N in
        let out := if p_array p then (if e_started e then COMMA else OPEN) ++ text else text in
        let started := e_started e || p_array p in
        let e1 := {| e_serving := true; e_from := e_from e; e_to := to; e_n := e_n e; e_size := size; e_started := started |} in
        if negb (N.eqb (p_bytes p) 0) && N.leb (p_bytes p) size then (e1, out, false)
        else if negb (N.eqb (e_n e) 0) then
          let e2 := {| e_serving := true; e_from := e_from e; e_to := to; e_n := (e_n e - 1)%N; e_size := size; e_started := started |} in
          if N.eqb (e_n e - 1) 0 then (e2, out, false)
          else (e2, out, negb (N.eqb i last && p_nowait p))
        else (e1, out, negb (N.eqb i last && p_nowait p))
    else (e, [], true).

(** 434-456: operator()(head). *)
Definition ep_head (p : params) (ser_ts : Z -> bytes) (e : ep) (terminate : bool) (us : Z) : result :=
  if terminate then (e, [], false)
  else
    let serving := e_serving e || (Z.ltb 0 (e_from e) && Z.leb (e_from e) us) in
    let e := {| e_serving := serving; e_from := e_from e; e_to := e_to e; e_n := e_n e; e_size := e_size e; e_started := e_started e |} in
    if serving then
      let to := if negb (Z.eqb (p_period p) 0) && Z.eqb (e_to e) 0 then (us + p_period p)%Z else e_to e in
      let e := {| e_serving := true; e_from := e_from e; e_to := to; e_n := e_n e; e_size := e_size e; e_started := e_started e |} in
      if negb (Z.eqb to 0) && Z.ltb to us then (e, [], false)
      else (e, if negb (p_array p) && negb (p_entries_only p) then ser_ts us ++ [NL] else [], true)
    else (e, [], true).

(** 465-473: Terminate(). *)
Definition TERMINATED : bytes := bs "{""error"":""The subscriber has terminated.""}" ++ [NL].
Definition ep_terminate (p : params) (e : ep) : result := (e, if p_array p && e_started e then COMMA ++ TERMINATED ++ CLOSE else TERMINATED, false).

Section Endpoint.
Context {E : Type}.
Variable W : wire E.
(** JSON<J>(entry), JSON<J>(idxts), JSON<J>(ts_only_t), 289-295, 451: in the format of the ?json parameter. *)
Variable serJ : E -> bytes.
Variable ser_idxJ : idxts -> bytes.
Variable ser_tsJ : Z -> bytes.
Variable p : params.

(** 269-342: operator()(entry, current, last), for the `checked` subscription. *)
Definition ep_entry (e : ep) (terminate : bool) (it : idxts) (x : E) (last : idxts) : result :=
  finish p (ep_lambda p e terminate (fst it) (snd it) (fst last) (if p_entries_only p then serJ x ++ [NL] else ser_idxJ it ++ [TAB] ++ serJ x ++ [NL])).

(** 344-432: operator()(raw_log_line, current_index, last), for the default one.  [None]: ParseJSON throws (out of the subscriber's thread).
    GetCurrentUs() parses the line when first needed: here always. *)
Definition ep_raw (e : ep) (terminate : bool) (raw : bytes) (i : N) (last : idxts) : option result :=
  match par_ts W (match cut_at TAB raw with Some (a, _) => a | None => raw end) with
  | None => None
  | Some us => Some (finish p (ep_lambda p e terminate i us (fst last)
                 ((if negb (p_entries_only p) then raw else match cut_at TAB raw with Some (_, b) => b | None => raw end) ++ [NL])))
  end.
End Endpoint.
