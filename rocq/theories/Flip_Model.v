(** Model of the flip of the master, [stream/replicator.h]: MasterFlipController 520-867, and the client's side of it, 95-106, 411-421.
    The persister is the in-memory one, as in [Replicator_Model].
    Simplifications: the parameters of the request are numbers (their parsing is C59); std::stringstream::tellp() is the number of bytes written;
    exceptions of Iterate() do not happen (the range is valid, see [Flip_Proofs]); the callbacks are not modelled. *)
From Verif Require Import Base Codec Persister_Model Replicator_Model.
Local Open Scope list_scope.

(** 496-500, MasterFlipRestrictions; 0 is "no restriction". *)
Record restrictions := { max_index_diff : N; max_diff_size : N; max_head_diff : Z; max_clock_diff : Z }.
(** 771-798, ExposedStreamState: the part which the flip depends on. *)
Record exposed := { x_key : N; x_delay : Z (* wrong_key_delay_ *); x_block : Z (* block_flip_until_ *); x_restr : restrictions }.
(** 783-798, its constructor. *)
Definition expose (key : N) (r : restrictions) : exposed := {| x_key := key; x_delay := 1000000; x_block := 0; x_restr := r |}.

(** The members 861-866.  [Master]: the stream has its publisher; [Held]: borrowed_publisher_ is set, no one can publish; [Following]: remote_follower_ is
    set, and has the publisher. *)
Inductive role := Master | Held | Following.
Record ctl (E : Type) := { c_store : mp E; c_role : role; c_exposed : option exposed }.
Arguments c_store {E}. Arguments c_role {E}. Arguments c_exposed {E}. Arguments Build_ctl {E}.

(** The request: the method is GET or not; the parameters. *)
Record request := { rq_get : bool; rq_head : option Z; rq_i : option N; rq_key : option N; rq_clock : option Z; rq_checked : bool }.
(** 639: FromString<uint64_t>(i) + 1u, or 0. *)
Definition next_index (rq : request) : N := match rq_i rq with Some i => N.modulo (i + 1) (2 ^ 64) | None => 0%N end.
Definition or_zero (x : option Z) : Z := match x with Some z => z | None => 0%Z end.

Inductive reply := Refused (code : N) | Diff (body : bytes).

Section Flip.
Context {E : Type}.
Variable W : wire E.

(** 628-665, before the mutex is taken; [Some code]: refused. *)
Definition precheck (m : mp E) (rq : request) : option N :=
  if negb (rq_get rq) then Some 405%N
  else match rq_head rq, rq_key rq with
  | Some client_head, Some _ =>
      let hl := mp_head_and_last m in
      if Z.ltb (fst hl) client_head then Some 400%N
      else if match rq_i rq, snd hl with
              | None, _ => false
              | Some _, None => true
              | Some _, Some last => N.ltb (fst last + 1) (next_index rq)
              end then Some 400%N
      else match snd hl with
           | None => None
           | Some last => if N.eqb (N.min (fst (mp_index_range m (client_head + 1) 0)) (fst last + 1)) (next_index rq) then None else Some 400%N
           end
  | _, _ => Some 400%N
  end.

(** 746-764: the entries from [i] on; [None] if the diff is too large. *)
Fixpoint diff_loop (max_size : N) (acc : bytes) (i : N) (l : list (Z * E)) : option bytes :=
  match l with
  | [] => Some acc
  | (t, e) :: l =>
      let acc := acc ++ ser_idx (w_codec W) (i, t) ++ [TAB] ++ ser (w_codec W) e ++ [NL] in
      if negb (N.eqb max_size 0) && N.ltb max_size (N.of_nat (length acc)) then None else diff_loop max_size acc (i + 1) l
  end.

(** 728-769, ValidateAndSendDiff(). *)
Definition validate (m : mp E) (r : restrictions) (start : N) (head_us : Z) : reply :=
  let hl := mp_head_and_last m in
  if negb (N.eqb (max_index_diff r) 0) && negb (N.eqb start 0) && match snd hl with Some last => N.leb (start + max_index_diff r) (fst last) | None => false end then Refused 400
  else if Z.ltb 0 (max_head_diff r) && Z.ltb (head_us + max_head_diff r) (fst hl) then Refused 400
  else match diff_loop (max_diff_size r) [] start (skipn (N.to_nat start) (mp_entries m)) with
       | None => Refused 400
       | Some body =>
           Diff (body ++ (if Z.ltb head_us (fst hl) && match snd hl with None => true | Some last => Z.ltb (snd last) (fst hl) end then ser_ts W (fst hl) ++ [NL] else []))
       end.

(** What a nested flip, of the stream this one follows, came to (686-694): refused, ended by another exception, or succeeded, the data having been received. *)
Inductive upstream := UpRefused | UpThrew (m : mp E) | UpDone (m : mp E).

(** 667-726, under the mutex.  The reply [None]: an exception leaves the handler. *)
Definition locked (now : Z) (c : ctl E) (rq : request) (up : upstream) : ctl E * option reply :=
  match c_exposed c, c_role c with
  | None, _ | _, Held => (c, Some (Refused 503))                                                      (* 668-671 *)
  | Some x, _ =>
      if Z.ltb now (x_block x) then (c, Some (Refused 400))                                           (* 672-676 *)
      else if Z.ltb 0 (max_clock_diff (x_restr x)) &&
              match rq_clock rq with None => true | Some k => Z.ltb (max_clock_diff (x_restr x)) (Z.abs (k - now)) end
      then (c, Some (Refused 400))                                                                    (* 677-685 *)
      else
        let go (c : ctl E) :=                                                                         (* 701-726 *)
          match validate (c_store c) (x_restr x) (next_index rq) (or_zero (rq_head rq)) with
          | Refused k => ({| c_store := c_store c; c_role := Master; c_exposed := c_exposed c |}, Some (Refused k))
          | Diff b => ({| c_store := c_store c; c_role := Held; c_exposed := c_exposed c |}, Some (Diff b))
          end in
        match c_role c with
        | Following =>                                                                                (* 686-694 *)
            match up with
            | UpRefused => (c, Some (Refused 400))
            | UpThrew m => ({| c_store := m; c_role := Following; c_exposed := c_exposed c |}, None)
            | UpDone m => go {| c_store := m; c_role := Master; c_exposed := c_exposed c |}
            end
        | _ =>
            if match rq_key rq with Some k => N.eqb k (x_key x) | None => false end then go c
            else ({| c_store := c_store c; c_role := c_role c;                                        (* 695-700 *)
                     c_exposed := Some {| x_key := x_key x; x_delay := (2 * x_delay x)%Z; x_block := (now + x_delay x)%Z; x_restr := x_restr x |} |}, Some (Refused 400))
        end
  end.

(** 95-106, 834-836: the request of a follower with the data [m]. *)
Definition flip_request (m : mp E) (key : N) (clock : Z) (checked : bool) : request :=
  {| rq_get := true; rq_head := Some (mp_head m); rq_i := option_map fst (snd (mp_head_and_last m)); rq_key := Some key; rq_clock := Some clock; rq_checked := checked |}.
(** 413-416: receiving the diff, in the replication mode [rm] (true: Checked).  [None]: no exception. *)
Definition receive (rm : bool) (m : mp E) (body : bytes) : mp E * option rexn :=
  let start := match snd (mp_head_and_last m) with Some last => (fst last + 1)%N | None => 0%N end in
  match pass_chunk (pass_entry W rm) [] {| r_store := m; r_next := start; r_from := 0 |} body with
  | (f, _, x) => (r_store f, x)
  end.

(** 577-602, FollowRemoteStream(), if the remote stream can be followed: throws (None) if following already. *)
Definition follow (c : ctl E) : option (ctl E) :=
  match c_role c with Following => None | _ => Some {| c_store := c_store c; c_role := Following; c_exposed := c_exposed c |} end.
(** 604-614, FlipToMaster(), with the reply of the remote stream ([None]: a network exception): the controller and whether it has returned normally.
    The beginning, 605-610, is [may_flip]. *)
Definition may_flip (c : ctl E) : bool := match c_role c with Following => true | _ => false end.
Definition flip_done (rm : bool) (c : ctl E) (r : option reply) : ctl E * bool :=
  match r with
  | Some (Diff body) =>
      match receive rm (c_store c) body with
      | (m, None) => ({| c_store := m; c_role := Master; c_exposed := c_exposed c |}, true)
      | (m, Some _) => ({| c_store := m; c_role := Following; c_exposed := c_exposed c |}, false)
      end
  | _ => (c, false)
  end.
End Flip.
