(** What a request for a range of a stream asks for, in the terms of the documentation, [stream/pubsub.h] 45-118; and what an HTTP session is. *)
From Coq Require Import String.
From Verif Require Import Base Persister_Model Persister_Spec Stream_Model Stream_Spec Replicator_Model Replicator_Spec PubSub_Model.
Local Open Scope list_scope.

Definition required {A} (o : option A) (f : A -> bool) : bool := match o with Some a => f a | None => true end.

Section Spec.
Context {E : Type}.
Variable q : query.
Variable now : Z.         (* the time of the request *)
Variable size : N.        (* of the stream when the request is being fulfilled *)

(** "For the record to be returned, all constraints should pass". *)
Definition selected (x : idxts * E) : bool :=
  required (q_i q) (fun i => N.leb i (fst (fst x))) &&
  required (q_tail q) (fun t => N.leb (size - t) (fst (fst x))) &&
  required (q_since q) (fun s => Z.leb (Z.of_N s) (snd (fst x))) &&
  required (q_recent q) (fun r => Z.leb (now - Z.of_N r) (snd (fst x))).

(** ** The end of the range *)
Fixpoint take_while (f : idxts * E -> bool) (l : list (idxts * E)) : list (idxts * E) :=
  match l with [] => [] | x :: l => if f x then x :: take_while f l else [] end.
(** `period`: the entries at most this much later than the first one. *)
Definition within_period (l : list (idxts * E)) : list (idxts * E) :=
  match q_period q, l with
  | Some d, x :: _ => if N.eqb d 0 then l else take_while (fun y => Z.leb (snd (fst y)) (snd (fst x) + Z.of_N d)) l
  | _, _ => l
  end.
(** `n` *)
Definition at_most_n (l : list (idxts * E)) : list (idxts * E) := match q_n q with Some n => firstn (N.to_nat n) l | None => l end.
(** `stop_after_bytes`: up to and including the entry with which this many bytes have been sent. *)
Fixpoint take_bytes (size_of : idxts * E -> N) (budget : N) (l : list (idxts * E)) : list (idxts * E) :=
  match l with
  | [] => []
  | x :: l => x :: (if N.leb budget (size_of x) then [] else take_bytes size_of (budget - size_of x) l)
  end.
Definition within_bytes (size_of : idxts * E -> N) (l : list (idxts * E)) : list (idxts * E) :=
  match q_bytes q with Some n => if N.eqb n 0 then l else take_bytes size_of n l | None => l end.

(** ** The body *)
Variable ser_idxJ : idxts -> bytes.
Variable serJ : E -> bytes.
(** The text of an entry: a line with its index and timestamp, unless only the entries are asked for. *)
Definition text_of (x : idxts * E) : bytes :=
  (if q_entries_only q || q_array q then serJ (snd x) else ser_idxJ (fst x) ++ [TAB] ++ serJ (snd x)) ++ [NL].
Definition text_size (x : idxts * E) : N := N.of_nat (List.length (text_of x)).
Fixpoint commas (l : list (idxts * E)) : bytes :=
  match l with [] => [] | [x] => text_of x | x :: l => text_of x ++ bs "," ++ [NL] ++ commas l end.
(** An array of the entries, complete or still being sent. *)
Definition array_body (closed : bool) (l : list (idxts * E)) : bytes :=
  match l with
  | [] => if closed then bs "[]" ++ [NL] else []
  | _ => bs "[" ++ [NL] ++ commas l ++ (if closed then bs "]" ++ [NL] else [])
  end.
Definition plain_body (l : list (idxts * E)) : bytes := flat_map text_of l.

(** The whole answer, for a log of which no entry is published or waited for. *)
Definition answer_entries (log : list (Z * E)) : list (idxts * E) :=
  within_bytes text_size (at_most_n (within_period (filter selected (numbered log)))).
Definition answer_body (log : list (Z * E)) : bytes :=
  if q_array q then array_body true (answer_entries log) else plain_body (answer_entries log).
End Spec.

(** Requests whose parameters mean what the documentation says.  Otherwise: recent=0, n=0 are ignored, tail=2^64-1 is tail=0,
    `since` is ignored if `recent` is given (see the refutations), tail=0 is not compared to `i`. *)
Definition sane (q : query) (now : Z) : Prop :=
  q_recent q <> Some 0%N /\ q_n q <> Some 0%N /\ q_tail q <> Some npos /\
  (q_recent q = None \/ q_since q = None) /\ (q_tail q = Some 0%N -> q_i q = None) /\
  (forall r, q_recent q = Some r -> Z.of_N r <= now)%Z.

(** Whether the beginning of the range is limited by the time. *)
Definition time_bound (q : query) : bool := match q_recent q, q_since q with Some _, _ => true | None, Some s => negb (N.eqb s 0) | None, None => false end.

(** A line of the body of a request which is not for entries only: an entry, or the head of the stream. *)
Inductive line (E : Type) := LEntry (x : idxts * E) | LHead (t : Z).
Arguments LEntry {E}. Arguments LHead {E}.
Definition line_time {E} (l : line E) : Z := match l with LEntry x => snd (fst x) | LHead t => t end.
Definition entries_of {E} (l : list (line E)) : list (idxts * E) := flat_map (fun x => match x with LEntry x => [x] | LHead _ => [] end) l.

Definition line_of {E} (q : query) (ser_idxJ : idxts -> bytes) (serJ : E -> bytes) (ser_tsJ : Z -> bytes) (l : line E) : bytes :=
  match l with LEntry x => text_of q ser_idxJ serJ x | LHead t => ser_tsJ t ++ [NL] end.

(** ** Sessions *)
(** How the subscription is served: with `checked`, in the JSON format [J]; or by default, as the raw lines of the log. *)
Inductive mode (E : Type) := Checked (ser_idxJ : idxts -> bytes) (serJ : E -> bytes) | Raw.
Arguments Checked {E}. Arguments Raw {E}.

Section Session.
Context {E : Type}.
Variable W : wire E.
Variable M : mode E.
Definition M_idx : idxts -> bytes := match M with Checked a _ => a | Raw => ser_idx (w_codec W) end.
Definition M_ser : E -> bytes := match M with Checked _ b => b | Raw => ser (w_codec W) end.
(** The head is printed as JSON<J>(ts_only_t) in both modes. *)
Variable ser_tsJ : Z -> bytes.

(** [answered p now alive tr e body]: the endpoint, of state [e] by now, has been called and has answered according to [tr],
    and has sent [body].  [alive]: the stream is not being destroyed (time_to_terminate_ stays false). *)
Inductive answered (p : params) (now : Z) (alive : bool) : list (ev E * bool) -> ep -> bytes -> Prop :=
| an_start : answered p now alive [] (ep_init p now) []
| an_entry tr e body terminate it x last e' out r :
    answered p now alive tr e body -> (alive = true -> terminate = false) ->
    match M with
    | Checked a b => ep_entry b a p e terminate it x last = (e', out, r)
    | Raw => ep_raw W p e terminate (ser_idx (w_codec W) it ++ [TAB] ++ ser (w_codec W) x) (fst it) last = Some (e', out, r)
    end -> answered p now alive (tr ++ [(EvEntry it x last, r)]) e' (body ++ out)
| an_head tr e body terminate t e' out r :
    answered p now alive tr e body -> (alive = true -> terminate = false) ->
    ep_head p ser_tsJ e terminate t = (e', out, r) -> answered p now alive (tr ++ [(EvHead t, r)]) e' (body ++ out)
| an_terminate tr e body e' out r :
    answered p now alive tr e body ->
    ep_terminate p e = (e', out, r) -> answered p now alive (tr ++ [(EvTerminate, r)]) e' (body ++ out).

(** A session: the request is served with the stream's size after the calls [a] and its index by timestamp after [a ++ b]; the subscriber
    is started after [a ++ b ++ c]; [during] is all that has happened since. *)
Definition session (q : query) (now : Z) (alive : bool) (a b c : list (pop E)) (during : list (label E)) (s : sst E E) (e : ep) (body : bytes) : Prop :=
  exists begin from p,
    serve (mp_size (fst (mp_run (w_codec W) mp_init a))) (fst (mp_run (w_codec W) mp_init (a ++ b))) now (parse_params q) = Subscribed begin from p /\
    subscription (w_codec W) everything begin from (a ++ b ++ c) during s /\
    answered p now alive (ss_trace s) e body.
End Session.
