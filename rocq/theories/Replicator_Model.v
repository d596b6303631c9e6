(** Model of the remote-stream client, [stream/replicator.h] 60-410, and of the replicator which it feeds, 442-491.
    The persister is the in-memory one (C05 relates the file persister to it). *)
From Verif Require Import Base Codec Persister_Model.
From Verif Require Strings_Model.
Local Open Scope list_scope.

(** 135, 149, 156: the two bytes which end a record. *)
Definition is_eol (b : byte) : bool := (N.eqb b 10 || N.eqb b 13)%bool.
Definition not_eol (b : byte) : bool := negb (is_eol b).

Section Chunks.
Context {S X : Type}.
(** PassEntryToSubscriber(): the subscriber's new state, and the exception if it throws. *)
Variable pass : S -> bytes -> S * option X.

(** 148-166, the loop; [rest] is the chunk from [begin_pos] on.  The result's bytes are [carried_over_data_].
    [fuel] is the length of the chunk plus one: each iteration consumes a byte. *)
Fixpoint chunk_loop (fuel : nat) (s : S) (rest : bytes) : S * bytes * option X :=
  match fuel with
  | O => (s, [], None)
  | Datatypes.S f =>
      match snd (span is_eol rest) with                                  (* 149-151 *)
      | [] => (s, [], None)                                              (* 152-154 *)
      | b :: r =>
          match span not_eol r with                                      (* 155-158 *)
          | (l, []) => (s, b :: l, None)                                 (* 159-162 *)
          | (l, _ :: r') =>
              match pass s (b :: l) with                                 (* 163 *)
              | (s', Some x) => (s', [], Some x)
              | (s', None) => chunk_loop f s' r'                         (* 164 *)
              end
          end
      end
  end.

(** 128-167, PassChunkToSubscriber(). *)
Definition pass_chunk (carried : bytes) (s : S) (chunk : bytes) : S * bytes * option X :=
  match carried with
  | [] => chunk_loop (Datatypes.S (length chunk)) s chunk
  | _ =>
      match span not_eol chunk with                                      (* 134-137 *)
      | (_, []) => (s, carried ++ chunk, None)                           (* 138-142 *)
      | (l, rest) =>
          match pass s (carried ++ l) with                               (* 145 *)
          | (s', Some x) => (s', carried, Some x)
          | (s', None) => chunk_loop (Datatypes.S (length chunk)) s' rest
          end
      end
  end.

(** 329-333, OnChunk(), for each chunk of a response until one throws. *)
Fixpoint pass_chunks (carried : bytes) (s : S) (chunks : list bytes) : S * bytes * option X :=
  match chunks with
  | [] => (s, carried, None)
  | c :: cs => match pass_chunk carried s c with
               | (s', carried', Some x) => (s', carried', Some x)
               | (s', carried', None) => pass_chunks carried' s' cs
               end
  end.
End Chunks.

(** The JSON codecs of the lines sent over the wire, beside those of the persister: ParseJSON<ts_optidx_t>, ParseJSON<ts_only_t>
    and JSON(ts_only_t), [blocks/ss/idx_ts.h] 47-77. *)
Record wire (E : Type) : Type := {
  w_codec : codec E;
  par_tsopt : bytes -> option (Z * option N);
  par_ts : bytes -> option Z;
  ser_ts : Z -> bytes }.
Arguments w_codec {E}. Arguments par_tsopt {E}. Arguments par_ts {E}. Arguments ser_ts {E}.

(** Exceptions: RemoteStreamMalformedChunkException, and those thrown by the replicator's publisher. *)
Inductive rexn := Malformed | FromPublisher (x : pexn).

(** RemoteStreamSubscriber's members, 170-175, with the stream the replicator publishes to. *)
Record rep (E : Type) : Type := { r_store : mp E; r_next : N (* next_expected_index_ *); r_from : Z (* from_us_ *) }.
Arguments r_store {E}. Arguments r_next {E}. Arguments r_from {E}. Arguments Build_rep {E}.

Section Rep.
Context {E : Type}.
Variable W : wire E.
Let C := w_codec W.

(** 457-460: the replicator's operator()(entry, idxts, ...); then 198-199. *)
Definition rep_entry (s : rep E) (t : Z) (e : E) : rep E * option rexn :=
  match mp_publish (r_store s) e t with
  | (m, Ok _) => ({| r_store := m; r_next := (r_next s + 1)%N; r_from := 0 |}, None)
  | (_, Throw x) => (s, Some (FromPublisher x))
  | (_, UB) => (s, None)
  end.
(** 477-480: operator()(microseconds); then 207, 229. *)
Definition rep_head (s : rep E) (t : Z) : rep E * option rexn :=
  match mp_update_head (r_store s) t with
  | (m, Ok _) => ({| r_store := m; r_next := r_next s; r_from := (t + 1)%Z |}, None)
  | (_, Throw x) => (s, Some (FromPublisher x))
  | (_, UB) => (s, None)
  end.
(** 467-475: operator()(raw_log_line, ...); then 220-221. *)
Definition rep_raw (s : rep E) (line : bytes) : rep E * option rexn :=
  match mp_publish_unsafe C (r_store s) line with
  | (m, Ok _) => ({| r_store := m; r_next := (r_next s + 1)%N; r_from := 0 |}, None)
  | (_, Throw x) => (s, Some (FromPublisher x))
  | (_, UB) => (s, None)
  end.

(** 178-211, PassEntryToSubscriber() in the Checked mode. *)
Definition pass_checked (s : rep E) (line : bytes) : rep E * option rexn :=
  let fields := Strings_Model.split (Strings_Model.sep_char TAB) false line in
  match fields with
  | [] => (s, Some Malformed)
  | f0 :: fs =>
      match par_tsopt W f0 with
      | None => (s, Some Malformed)
      | Some (us, oi) =>
          if (Z.ltb 0 (r_from s) && Z.ltb us (r_from s))%bool then (s, Some Malformed)
          else match oi with
               | Some i =>
                   match fs with
                   | [f1] => if negb (N.eqb i (r_next s)) then (s, Some Malformed)
                             else match de C f1 with None => (s, Some Malformed) | Some e => rep_entry s us e end
                   | _ => (s, Some Malformed)
                   end
               | None => match fs with [] => rep_head s us | _ => (s, Some Malformed) end
               end
      end
  end.

(** 213-236, in the Unchecked mode. *)
Definition pass_unchecked (s : rep E) (line : bytes) : rep E * option rexn :=
  match cut_at TAB line with
  | Some _ => rep_raw s line
  | None => match par_ts W line with None => (s, Some Malformed) | Some t => rep_head s t end
  end.
Definition pass_entry (checked : bool) := if checked then pass_checked else pass_unchecked.
End Rep.
