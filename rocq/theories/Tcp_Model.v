(** * Model of the TCP layer: [bricks/net/tcp/impl/posix.h] (POSIX, not Apple)

    Three parts: reading and writing on a connection, who owns a descriptor, and the search for a free port.
    What the operating system answers is an argument everywhere. *)
From stdpp Require Import list.
From Coq Require Import ZArith.

(** ** Reading and writing *)
Section Bytes.
  Context {byte : Type}.

  (** What [recv] can answer: some of the bytes that have arrived (at least one, at most what was asked for), the end of
      the stream, or an error. *)
  Inductive answer := Chunk (k : nat) | Eof | Error (errno : Z).
  Definition EAGAIN : Z := 11.
  Definition ECONNRESET : Z := 104.
  Definition EINTR : Z := 4.

  (** The receiving end of a connection: the bytes that are yet to be read; and the errno of this thread. *)
  Record sock := Sock { incoming : list byte; errno : Z }.

  (** [recv(socket, ptr, n, flags)]: the bytes stored at [ptr], the return value, the new state. *)
  Definition recv (n : nat) (a : answer) (s : sock) : list byte * Z * sock :=
    match a with
    | Chunk k =>
        let got := take (min n k) (incoming s) in
        (got, Z.of_nat (length got), Sock (drop (min n k) (incoming s)) (errno s))
    | Eof => ([], 0%Z, s)
    | Error e => ([], (-1)%Z, Sock (incoming s) e)
    end.

  Inductive policy := ReturnASAP | FillFullBuffer.
  Inductive exception :=
  | ConnectionResetByPeer | EmptyConnectionResetByPeer | SocketReadException | EmptySocketReadException.
  (** What a call does: returns with these bytes in the buffer, or throws. *)
  Inductive outcome := Returns (l : list byte) | Throws (e : exception).

  (** posix.h 403-505, [BlockingRead] of one-byte elements.  The body of [do { ... } while (false)] runs once: [continue]
      in it goes to the evaluation of [false]. *)
  Definition blocking_read (n : nat) (p : policy) (a : answer) (s : sock) : outcome * sock :=
    if decide (n = 0) then (Returns [], s)                                        (* 405-406 *)
    else
      let '(got, retval, s') := recv n a s in                                     (* 424 *)
      let fail :=                                                                 (* 463-482 *)
        if decide (errno s' = ECONNRESET)
        then Throws (if decide (got = []) then EmptyConnectionResetByPeer else ConnectionResetByPeer)
        else Throws (if decide (length got = 0) then EmptySocketReadException else SocketReadException) in
      if decide (0 < retval)%Z then                                               (* 433-440 *)
        match p with
        | ReturnASAP => (Returns got, s')
        | FillFullBuffer => if decide (length got = n) then (Returns got, s') else (fail, s')
        end
      else (fail, s').                                                            (* 443-446, and without it *)

  (** [static_cast<int>] of a 64-bit value. *)
  Definition to_int (z : Z) : Z := ((z + 2 ^ 31) mod 2 ^ 32 - 2 ^ 31)%Z.
  Inductive wresult := Written | SocketWriteException | SocketCouldNotWriteEverythingException.
  (** What [send] can answer: it took the first [k] bytes, or an error. *)
  Inductive sanswer := Took (k : nat) | SendError.
  (** posix.h 510-537, [BlockingWrite(buffer, length, more)]: what it ends with, and what went out. *)
  Definition blocking_write (buf : list byte) (a : sanswer) : wresult * list byte :=
    match a with
    | SendError => (SocketWriteException, [])
    | Took k =>
        let out := take k buf in
        let result := to_int (Z.of_nat (length out)) in                           (* 518 *)
        if decide (result < 0)%Z then (SocketWriteException, out)                 (* 525-526 *)
        else if decide (result ≠ Z.of_nat (length buf)) then (SocketCouldNotWriteEverythingException, out) (* 527-529 *)
        else (Written, out)
    end.
End Bytes.
Arguments sock byte : clear implicits. Arguments outcome byte : clear implicits.

(** ** Descriptors *)
(** A [SocketHandle] variable: posix.h 216, [socket_]; [None] is -1. *)
Record fds := Fds { open : list nat; handles : nat → option (option nat) }.
Definition no_handles : fds := Fds [] (λ _, None).

Inductive fd_op :=
| Create (h : nat) (fd : nat)            (* 111-154, 184-185: socket(), setsockopt(); bind() and listen() (156-181) are then uses *)
| CreateFails (fd : nat)                 (* 128-130, 143-148: setsockopt() fails: the constructor throws, no destructor runs *)
| CreateUnbound (fd : nat)               (* 171-179: bind() or listen() fails: the delegated-to constructor has completed, the destructor runs *)
| Accept (h : nat) (fd : nat)            (* 191-196, 588-620 *)
| MoveConstruct (h from : nat)           (* 212 *)
| MoveAssign (h from : nat)              (* 245-248, 578-582 *)
| Use (h : nat)                          (* 225-233: bind, recv, send, accept, shutdown: all go through [socket] *)
| Destroy (h : nat).                     (* 198-210 *)
Inductive fd_event :=
| Opened (fd : nat) | Used (fd : nat) | Closed (fd : nat)
| MovedAway                              (* AttemptedToUseMovedAwayConnection *)
| Invalid                                (* InvalidSocketException *)
| Terminate.                             (* an exception leaves a destructor *)
Global Instance fd_event_eq_dec : EqDecision fd_event. Proof. solve_decision. Defined.

Definition set_handle (h : nat) (v : option (option nat)) (s : fds) : fds :=
  Fds (open s) (λ x, if decide (x = h) then v else handles s x).
Definition add_open (fd : nat) (s : fds) : fds := Fds (fd :: open s) (handles s).
Definition del_open (fd : nat) (s : fds) : fds := Fds (filter (λ x, x ≠ fd) (open s)) (handles s).

(** posix.h 225-233: the accessor. *)
Definition use (fd : option nat) : list fd_event :=
  match fd with
  | Some 0 => [Invalid]                  (* 226-228: !ref_ *)
  | Some fd => [Used fd]
  | None => [MovedAway]                  (* 229-231 *)
  end.
(** posix.h 198-210: [shutdown] goes through the accessor, [close] does not. *)
Definition destroy (fd : option nat) (s : fds) : list fd_event * fds :=
  match fd with
  | None => ([], s)
  | Some 0 => ([Invalid; Terminate], s)
  | Some fd => ([Used fd; Closed fd], del_open fd s)
  end.

Definition fd_step (o : fd_op) (s : fds) : option (list fd_event * fds) :=
  match o with
  | Create h fd | Accept h fd =>
      (* socket() and accept() return a descriptor that is not open *)
      if decide (fd ∉ open s ∧ handles s h = None) then Some ([Opened fd], set_handle h (Some (Some fd)) (add_open fd s)) else None
  | CreateFails fd => if decide (fd ∉ open s) then Some ([Opened fd], add_open fd s) else None
  | CreateUnbound fd =>
      if decide (fd ∉ open s) then
        let '(ev, s') := destroy (Some fd) (add_open fd s) in Some (Opened fd :: ev, s')
      else None
  | MoveConstruct h from =>
      match handles s from with
      | Some v => if decide (handles s h = None) then Some ([], set_handle h (Some v) (set_handle from (Some None) s)) else None
      | None => None
      end
  | MoveAssign h from =>
      match handles s from, handles s h with
      | Some v, Some _ => Some ([], set_handle from (Some None) (set_handle h (Some v) s))
      | _, _ => None
      end
  | Use h => match handles s h with Some v => Some (use v, s) | None => None end
  | Destroy h =>
      match handles s h with
      | Some v => let '(ev, s') := destroy v s in Some (ev, set_handle h None s')
      | None => None
      end
  end.
(** Calls in this order; nothing runs after [std::terminate]. *)
Fixpoint fd_run (l : list fd_op) (s : fds) : option (list fd_event * fds) :=
  match l with
  | [] => Some ([], s)
  | o :: r =>
      '(e1, s1) ← fd_step o s;
      if decide (Terminate ∈ e1) then Some (e1, s1)
      else '(e2, s2) ← fd_run r s1; Some (e1 ++ e2, s2)
  end.

(** ** Finding a free port *)
Section Ports.
  (** posix.h 278-279 *)
  Definition kPickFreePortMin : nat := Z.to_nat 25000.
  Definition kPickFreePortMax : nat := Z.to_nat 29000.
  (** posix.h 304-315: the ports of this thread, and where it is in them. *)
  Record picker := Picker { order : list nat; index : nat }.
  Definition new_picker : picker := Picker (seq kPickFreePortMin (kPickFreePortMax - kPickFreePortMin + 1)) 0.

  Context (shuffle : nat → list nat → list nat).  (* std::shuffle; the argument counts the calls *)
  Context (try : nat → nat → bool).               (* the n-th attempt to bind and listen, on this port *)

  Inductive found := Found (port : nat) (p : picker) | Fatal. (* Fatal: std::exit(-1) *)

  (** posix.h 326-341: the port to try, the new [keep_searching], the new [hint], the new [index_]. *)
  Definition candidate (keep : bool) (hint save : nat) (p : picker) : nat * bool * nat * picker :=
    if decide (hint ≠ 0) then (hint, keep, 0, p)                                                     (* 328-330 *)
    else
      let port := nth (index p) (order p) 0 in                                                       (* 332 *)
      let i := S (index p) in
      let i := if decide (i = length (order p)) then 0 else i in                                     (* 333-335 *)
      (port, if decide (i = save) then false else keep, 0, Picker (order p) i).                      (* 336-338 *)

  (** posix.h 322-360: the n-th round of the loop; the list is of the ports tried. [keep] is the loop's condition. *)
  Fixpoint search (fuel n : nat) (keep : bool) (hint save : nat) (p : picker) : option (list nat * found) :=
    match fuel with
    | 0 => None
    | S fuel =>
        if keep then
          let p := if decide (index p = 0) then Picker (shuffle n (order p)) (index p) else p in     (* 323-325 *)
          let '(port, keep, hint, p) := candidate keep hint save p in
          if try n port then Some ([port], Found port p)                                             (* 342-348 *)
          else '(l, r) ← search fuel (S n) keep hint save p; Some (port :: l, r)                     (* 349-360 *)
        else Some ([], Fatal)                                                                        (* 361-362 *)
    end.
  (** posix.h 317-363, [DoIt]. *)
  Definition reserve_local_port (fuel hint : nat) (p : picker) : option (list nat * found) :=
    search fuel 0 true hint (index p) p.
End Ports.
