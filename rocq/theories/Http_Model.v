(** Model of bricks/net/http/impl/server.h: the constructor of GenericHTTPRequestData, which reads an HTTP message from a socket through a
    growing buffer (406-637), and of ChunkedResponseSender (757-849).

    A char is a number below 256.  The network: the bytes that the peer sends before it closes the connection, and the sizes of
    the pieces in which they arrive.  Reading from a closed connection throws a SocketException (posix.h 403-505; recv with
    MSG_WAITALL is taken to return less than asked for only then).  Memory is never exhausted. *)
From stdpp Require Import list strings.
From Coq Require Import ZArith.
From Verif Require Base Strings_Model.

Notation str := (list N) (only parsing).

(** constants.h 38-63. *)
Definition kContentLength : str := Eval compute in Base.bs "Content-Length".
Definition kTransferEncoding : str := Eval compute in Base.bs "Transfer-Encoding".
Definition kChunked : str := Eval compute in Base.bs "chunked".
Definition kMethodOverride : str := Eval compute in Base.bs "X-HTTP-Method-Override".
Definition kMaxPayload : N := 16777216.
Definition CR : N := 13. Definition LF : N := 10.

(** ** The standard library *)
Definition is_space (c : N) : bool := Strings_Model.is_space c.
Definition to_lower (c : N) : N := if decide (65 ≤ c ∧ c ≤ 90)%N then (c + 32)%N else c.
Definition to_upper (c : N) : N := if decide (97 ≤ c ∧ c ≤ 122)%N then (c - 32)%N else c.
Definition digit_value (c : N) : option N :=
  if decide (48 ≤ c ∧ c ≤ 57)%N then Some (c - 48)%N
  else if decide (97 ≤ c ∧ c ≤ 122)%N then Some (c - 87)%N
  else if decide (65 ≤ c ∧ c ≤ 90)%N then Some (c - 55)%N else None.
Definition digit_in (base : N) (c : N) : option N :=
  match digit_value c with Some d => if decide (d < base)%N then Some d else None | None => None end.
Fixpoint skip_spaces (s : str) : str := match s with c :: s' => if is_space c then skip_spaces s' else s | [] => [] end.
(** The value of the leading digits, none if there are none. *)
Fixpoint digits (base : N) (s : str) (acc : option N) : option N :=
  match s with
  | c :: s' => match digit_in base c with Some d => digits base s' (Some (default 0%N acc * base + d)%N) | None => acc end
  | [] => acc
  end.
(** The prefix "0x" is skipped if a digit follows it. *)
Definition skip_0x (s : str) : str :=
  match s with
  | z :: x :: c :: s' => if decide (z = 48 ∧ (x = 120 ∨ x = 88))%N then match digit_in 16 c with Some _ => c :: s' | None => s end else s
  | _ => s
  end.
(** strtol (without the clamping to long), none if there are no digits. *)
Definition strtol (base : N) (s : str) : option Z :=
  let s := skip_spaces s in
  let '(neg, s) := match s with c :: s' => if decide (c = 45)%N then (true, s') else if decide (c = 43)%N then (false, s') else (false, s) | [] => (false, s) end in
  let s := if decide (base = 16)%N then skip_0x s else s in
  match digits base s None with Some n => Some (if neg : bool then - Z.of_N n else Z.of_N n)%Z | None => None end.
(** std::stoi(s, nullptr, 16). *)
Inductive stoi := Number (z : Z) | InvalidArgument | OutOfRange.
Definition stoi16 (s : str) : stoi :=
  match strtol 16 s with
  | None => InvalidArgument
  | Some z => if decide (- 2 ^ 31 ≤ z < 2 ^ 31)%Z then Number z else OutOfRange
  end.
(** atoi of glibc, then converted to size_t: strtol clamps to long, which is truncated to int. *)
Definition clamp (z : Z) : Z := Z.max (- 2 ^ 63) (Z.min (2 ^ 63 - 1) z).
Definition to_int (z : Z) : Z := ((z + 2 ^ 31) mod 2 ^ 32 - 2 ^ 31)%Z.
Definition atoi_size (s : str) : N := Z.to_N (to_int (clamp (default 0%Z (strtol 10 s))) mod 2 ^ 64).

(** ** What a line of the message means *)
(** 671-680, HeaderNameEquals. *)
Definition normalize_char (c : N) : N := if decide (c = 95)%N then 45%N else to_lower c.
Definition header_name_equals (a b : str) : bool := bool_decide (map normalize_char a = map normalize_char b).

(** 551-581: the name of a header is what precedes the colon (strchr), its value is trimmed of spaces and tabs. *)
Definition space_or_tab (c : N) : bool := bool_decide (c = 32 ∨ c = 9)%N.
Fixpoint strip_left (s : str) : str := match s with c :: s' => if space_or_tab c then strip_left s' else s | [] => [] end.
Definition strip (s : str) : str := reverse (strip_left (reverse (strip_left s))).
Fixpoint split_colon (s : str) : option (str * str) :=
  match s with
  | [] => None
  | c :: s' => if decide (c = 58)%N then Some ([], s') else match split_colon s' with Some (k, v) => Some (c :: k, v) | None => None end
  end.

(** The members and variables of the constructor that carry the meaning. *)
Record parsed := Parsed {
  first_line_parsed : bool; method : str; raw_path : str;
  headers : list (str * str);              (* the calls HELPER::OnHeader(key, value) *)
  body_length : option N;                  (* none is static_cast<size_t>(-1) *)
  chunked_transfer_encoding : bool; receiving_body_in_chunks : bool;
  chunks : list str                        (* the calls HELPER::OnChunk *)
}.
Definition nothing_parsed : parsed := Parsed false [] [] [] None false false [].

Inductive message_error :=
| SocketClosed         (* ConnectionResetByPeer or another SocketException: a current::Exception *)
| BadChunkSize         (* 400 has been sent, ChunkSizeNotAValidHEXValue *)
| PayloadTooLarge      (* 413 has been sent, HTTPPayloadTooLarge *)
| LengthRequired       (* 411 has been sent, HTTPRequestBodyLengthNotProvided *)
| StdOutOfRange | StdLengthError. (* std::out_of_range, std::length_error: not a current::Exception *)
Inductive outcome :=
| Message (m : str) (path : str) (hs : list (str * str)) (body : str) (* a request or a response has been read *)
| Failed (e : message_error)
| OutOfBounds          (* an access outside of the buffer *)
| OutOfFuel.

(** body_.append for each chunk (366-384); a message without a body has the empty string for one. *)
Definition message (p : parsed) (body : str) : outcome := Message (method p) (raw_path p) (headers p) body.

(** What is to be done with a line, [line_is_blank] is that it is empty. *)
Inductive action :=
| NextLine (p : parsed)                    (* go on with the next line *)
| ReadChunk (n : nat) (p : parsed)         (* a chunk of n bytes follows *)
| ReadBody (n : nat)                       (* the body of n bytes follows *)
| Finish (o : outcome).

(** 472-485. *)
Definition first_line (line : str) (p : parsed) : parsed :=
  let pieces := Strings_Model.split Strings_Model.is_space false line in
  Parsed true (default (method p) (pieces !! 0)) (default (raw_path p) (pieces !! 1)) (headers p) (body_length p)
         (chunked_transfer_encoding p) (receiving_body_in_chunks p) (chunks p).
(** 551-581. *)
Definition header_line (line : str) (p : parsed) : action :=
  match split_colon line with
  | None => NextLine p
  | Some (key, v) =>
      let value := strip v in
      let hs := headers p ++ [(key, value)] in
      if header_name_equals key kContentLength then
        let n := atoi_size value in
        if decide (kMaxPayload < n)%N then Finish (Failed PayloadTooLarge)
        else NextLine (Parsed (first_line_parsed p) (method p) (raw_path p) hs (Some n) (chunked_transfer_encoding p) (receiving_body_in_chunks p) (chunks p))
      else if header_name_equals key kMethodOverride then
        NextLine (Parsed (first_line_parsed p) (map to_upper value) (raw_path p) hs (body_length p) (chunked_transfer_encoding p) (receiving_body_in_chunks p) (chunks p))
      else if header_name_equals key kTransferEncoding && header_name_equals value kChunked then
        NextLine (Parsed (first_line_parsed p) (method p) (raw_path p) hs (body_length p) true (receiving_body_in_chunks p) (chunks p))
      else NextLine (Parsed (first_line_parsed p) (method p) (raw_path p) hs (body_length p) (chunked_transfer_encoding p) (receiving_body_in_chunks p) (chunks p))
  end.
(** body_requirement.h 35-37. *)
Definition need_content_length (m : str) : bool := bool_decide (m = Base.bs "POST" ∨ m = Base.bs "PUT" ∨ m = Base.bs "PATCH").
(** 582-620. *)
Definition end_of_headers (p : parsed) : action :=
  if chunked_transfer_encoding p then
    NextLine (Parsed (first_line_parsed p) (method p) (raw_path p) (headers p) (body_length p) (chunked_transfer_encoding p) true (chunks p))
  else match body_length p with
       | Some n => ReadBody (N.to_nat n)
       | None => if need_content_length (method p) then Finish (Failed LengthRequired) else Finish (message p [])
       end.
(** 487-505.  A negative size becomes, as a size_t, more than 2^63: then buffer_.resize (if the sum next_offset does not wrap around),
    or otherwise body_.append, throws std::length_error. *)
Definition chunk_line (line : str) (p : parsed) : action :=
  match stoi16 line with
  | InvalidArgument => Finish (Failed BadChunkSize)
  | OutOfRange => Finish (Failed StdOutOfRange)
  | Number z => if decide (z < 0)%Z then Finish (Failed StdLengthError)
                else if decide (z = 0)%Z then Finish (message p (concat (chunks p)))
                else ReadChunk (Z.to_nat z) p
  end.
(** 469-616, the branches. *)
Definition on_line (line : str) (p : parsed) : action :=
  if first_line_parsed p then
    if receiving_body_in_chunks p then match line with [] => NextLine p | _ => chunk_line line p end
    else match line with [] => end_of_headers p | _ => header_line line p end
  else match line with [] => NextLine p | _ => NextLine (first_line line p) end.
(** HELPER::OnChunk. *)
Definition on_chunk (c : str) (p : parsed) : parsed :=
  Parsed (first_line_parsed p) (method p) (raw_path p) (headers p) (body_length p) (chunked_transfer_encoding p) (receiving_body_in_chunks p) (chunks p ++ [c]).

(** ** The buffer *)
Record state := State { buffer : list N; offset : nat; current_line : nat; info : parsed }.
(** Bytes that have not been sent yet, the sizes of the pieces they will be received in (whatever is left arrives at once). *)
Record network := Network { to_come : list N; pieces : list nat }.

(** memcpy into the buffer at [i], none: outside of the buffer. *)
Definition write (b : list N) (i : nat) (data : list N) : option (list N) :=
  if decide (i + length data ≤ length b) then Some (take i b ++ data ++ drop (i + length data) b) else None.
(** The bytes [i, j) of the buffer. *)
Definition slice (b : list N) (i j : nat) : option (list N) := if decide (i ≤ j ≤ length b) then Some (take (j - i) (drop i b)) else None.
(** strstr(p, "\r\n"): none if it runs beyond the end of the buffer, otherwise the distance to the first CRLF before the first NUL. *)
Fixpoint strstr_crlf (s : list N) : option (option nat) :=
  match s with
  | [] => None
  | c :: s' =>
      if decide (c = 0)%N then Some None
      else if decide (c = CR ∧ head s' = Some LF) then Some (Some 0)
      else match strstr_crlf s' with Some (Some i) => Some (Some (S i)) | r => r end
  end.
(** std::vector::resize to a larger size. *)
Definition resize (b : list N) (n : nat) : list N := b ++ replicate (n - length b) 0%N.
(** memmove(&buffer_[0], &buffer_[from], n). *)
Definition memmove (b : list N) (from n : nat) : option (list N) :=
  match slice b from (from + n) with Some d => write b 0 d | None => None end.

(** posix.h 403-440, BlockingRead with ReturnASAP: at least one byte, at most [n]. *)
Definition blocking_read (n : nat) (net : network) : option (list N * network) :=
  let available := min n (length (to_come net)) in
  match available with
  | 0 => None
  | _ => let k := max 1 (min (default available (head (pieces net))) available) in
         Some (take k (to_come net), Network (drop k (to_come net)) (tail (pieces net)))
  end.
(** BlockingRead with FillFullBuffer: all of [n] bytes. *)
Definition blocking_read_full (n : nat) (net : network) : option (list N * network) :=
  if decide (n ≤ length (to_come net)) then Some (take n (to_come net), Network (drop n (to_come net)) (pieces net)) else None.

Section growth.
(** static_cast<size_t>(size * buffer_growth_k). *)
Variable grow : nat → nat.

Inductive next := Scan (st : state) (net : network) | Read (st : state) (net : network) | End (o : outcome).
Definition checked {A} (o : option A) (k : A → next) : next := match o with Some a => k a | None => End OutOfBounds end.

(** 438-466: read what has arrived into the free part of the buffer, and enlarge the buffer if it is full.
    ([length_cap] and [body_offset] only change immediately before a return: they are infinite here.) *)
Definition read_more (st : state) (net : network) : next :=
  let size := length (buffer st) in
  if decide (size ≤ offset st + 1) then End OutOfBounds (* CURRENT_ASSERT(buffer_.size() > offset + 1) *)
  else
    let chunk := size - offset st - 1 in
    match blocking_read chunk net with
    | None => End (Failed SocketClosed)
    | Some (data, net') =>
        checked (write (buffer st) (offset st) data) (λ b,
          let offset' := offset st + length data in
          let b := if decide (length data = chunk) then resize b (max (grow size) (size + 1)) else b in
          checked (write b offset' [0%N]) (λ b, Scan (State b offset' (current_line st) (info st)) net'))
    end.

(** 536-541: the chunk is in the buffer. *)
Definition finish_chunk (b : list N) (offset chunk_offset next_offset : nat) (p : parsed) (net : network) : next :=
  checked (slice b chunk_offset next_offset) (λ c, Scan (State b offset next_offset (on_chunk c p)) net).
(** 527-533: its rest is read. *)
Definition fill_chunk (b : list N) (offset chunk_offset next_offset : nat) (p : parsed) (net : network) : next :=
  match blocking_read_full (next_offset - offset) net with
  | None => End (Failed SocketClosed)
  | Some (data, net') =>
      checked (write b offset data) (λ b, checked (write b next_offset [0%N]) (λ b, finish_chunk b next_offset chunk_offset next_offset p net'))
  end.
(** 505-541: a chunk of [n] bytes starts at [chunk_offset]. *)
Definition read_chunk (b : list N) (offset : nat) (net : network) (chunk_offset n : nat) (p : parsed) : next :=
  let next_offset := chunk_offset + n in
  let size := length b in
  if decide (offset < next_offset) then
    if decide (size < next_offset + 1) then
      if decide (next_offset + 1 - size ≤ chunk_offset) then
        checked (memmove b chunk_offset (offset - chunk_offset)) (λ b, fill_chunk b (offset - chunk_offset) 0 (next_offset - chunk_offset) p net)
      else fill_chunk (resize b (max (grow size) (next_offset + 1))) offset chunk_offset next_offset p net
    else fill_chunk b offset chunk_offset next_offset p net
  else finish_chunk b offset chunk_offset next_offset p net.

(** 589-605: the body of [n] bytes starts at [body_offset]. *)
Definition finish_body (b : list N) (body_offset n : nat) (p : parsed) : next :=
  checked (slice b body_offset (body_offset + n)) (λ body, End (message p body)).
Definition read_body (b : list N) (offset : nat) (net : network) (body_offset n : nat) (p : parsed) : next :=
  let length_cap := body_offset + n in
  let b := if decide (length b < length_cap + 1) then resize b (length_cap + 1) else b in
  if decide (offset < length_cap) then
    match blocking_read_full (length_cap - offset) net with
    | None => End (Failed SocketClosed)
    | Some (data, _) => checked (write b offset data) (λ b, finish_body b body_offset n p)
    end
  else finish_body b body_offset n p.

(** 467-621, one iteration of the inner loop; 622-635 after it.  (The NUL that is written over the colon of a header and the one after the trimmed value
    are not modelled: they are within the line, which is not looked at again.) *)
Definition scan (st : state) (net : network) : next :=
  match strstr_crlf (drop (current_line st) (buffer st)) with
  | None => End OutOfBounds
  | Some None =>
      if receiving_body_in_chunks (info st) && bool_decide (current_line st ≠ 0) then
        if decide (current_line st < offset st) then
          checked (memmove (buffer st) (current_line st) (offset st - current_line st)) (λ b,
            Read (State b (offset st - current_line st) 0 (info st)) net)
        else Read (State (buffer st) 0 0 (info st)) net
      else Read st net
  | Some (Some len) =>
      let crlf := current_line st + len in
      let next_line := crlf + 2 in
      checked (slice (buffer st) (current_line st) crlf) (λ line,
        checked (write (buffer st) crlf [0%N]) (λ b,
          match on_line line (info st) with
          | NextLine p => Scan (State b (offset st) next_line p) net
          | ReadChunk n p => read_chunk b (offset st) net next_line n p
          | ReadBody n => read_body b (offset st) net next_line n (info st)
          | Finish o => End o
          end))
  end.

(** The loops. *)
Fixpoint run (fuel : nat) (n : next) : outcome :=
  match n with
  | End o => o
  | Scan st net => match fuel with 0 => OutOfFuel | S fuel => run fuel (scan st net) end
  | Read st net => match fuel with 0 => OutOfFuel | S fuel => run fuel (read_more st net) end
  end.
(** The constructor, 406-437.  The fuel is more than is ever needed. *)
Definition receive (initial_buffer_size : nat) (net : network) : outcome :=
  run (3 * length (to_come net) + 2) (Read (State (replicate initial_buffer_size 0%N) 0 0 nothing_parsed) net).
End growth.

(** ** ChunkedResponseSender *)
(** printf "%lX". *)
Definition hex_digit (d : N) : N := if decide (d < 10)%N then (48 + d)%N else (55 + d)%N.
Fixpoint hex_loop (fuel : nat) (n : N) (acc : str) : str :=
  match fuel with
  | 0 => acc
  | S f => let acc' := hex_digit (n mod 16) :: acc in if decide (n / 16 = 0)%N then acc' else hex_loop f (n / 16) acc'
  end.
Definition hex (n : N) : str := hex_loop (S (N.to_nat (N.log2 n))) n [].

(** data_cache_ up to cache_size_, and what has been written to the connection; 839-841. *)
Record sender := Sender { cache : list N; sent : list N }.
Definition new_sender : sender := Sender [] [].
(** 783-819, SendImpl.  None: memcpy beyond the end of data_cache_. *)
Definition send (cache_size : N) (data : str) (flush : bool) (s : sender) : option sender :=
  match data with
  | [] => if flush && bool_decide (cache s ≠ []) then Some (Sender [] (sent s ++ cache s)) else Some s
  | _ =>
      let chunk_header := hex (N.of_nat (length data)) ++ [CR; LF] in
      let chunk_size := N.of_nat (length chunk_header + length data + 2) in
      let s := if bool_decide (cache s ≠ []) && (flush || bool_decide (cache_size - N.of_nat (length (cache s)) < chunk_size)%N)
               then Sender [] (sent s ++ cache s) else s in
      if flush || bool_decide (cache_size < chunk_size)%N
      then Some (Sender (cache s) (sent s ++ chunk_header ++ data ++ [CR; LF]))
      else if decide (N.of_nat (length (cache s)) + chunk_size ≤ cache_size)%N
           then Some (Sender (cache s ++ chunk_header ++ data ++ [CR; LF]) (sent s)) else None
  end.
Fixpoint send_all (cache_size : N) (l : list (str * bool)) (s : sender) : option sender :=
  match l with
  | [] => Some s
  | (data, flush) :: l' => match send cache_size data flush s with Some s' => send_all cache_size l' s' | None => None end
  end.
(** 762-781, the destructor: everything that has been written. *)
Definition close_sender (s : sender) : str := sent s ++ cache s ++ [48%N; CR; LF; CR; LF].
