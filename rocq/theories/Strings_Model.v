(** Models of /repo/bricks/strings/split.h, join.h, group_by_lines.h, fixed_size_serializer.h and the
    trimming of util.h. *)
From Coq Require Import String.
From Verif Require Import Base Dec.
Local Open Scope list_scope.

(** ** split.h *)

(** [std::string::substr(pos, len)]. *)
Definition substr (s : bytes) (pos len : nat) : bytes := firstn len (skipn pos s).

(** split.h 57-98, [impl::Match]: a separator is modelled as the predicate "this char separates". *)
Definition sep_char (c : byte) : byte -> bool := fun b => N.eqb b c.                       (* MatchImpl<char> *)
Definition is_space (c : byte) : bool := (N.eqb c 32 || (N.leb 9 c && N.leb c 13))%bool.   (* ::isspace *)
Definition sep_lines (c : byte) : bool := (N.eqb c 10 || N.eqb c 13)%bool.                 (* ByLines *)
Definition sep_string (s : bytes) : byte -> bool := fun b => existsb (N.eqb b) s.          (* MatchImpl<std::string> *)

(** split.h 138-143, the [emit] lambda (the fields emitted, in order). *)
Definition split_emit (keep : bool) (s : bytes) (i j : nat) : list bytes :=
  if (keep || negb (Nat.eqb i j))%bool then [substr s j (i - j)] else [].

(** split.h 144-150, the loop from [i] on; [rest] is [s] from position [i]. *)
Fixpoint split_loop (sep : byte -> bool) (keep : bool) (s rest : bytes) (i j : nat) : list bytes :=
  match rest with
  | [] => split_emit keep s i j
  | c :: rest' => if sep c then split_emit keep s i j ++ split_loop sep keep s rest' (S i) (S i)
                  else split_loop sep keep s rest' (S i) j
  end.
(** split.h 131-152 and 289-300.  The returned [n] is the number of fields emitted. *)
Definition split (sep : byte -> bool) (keep : bool) (s : bytes) : list bytes := split_loop sep keep s s 0 0.

(** split.h 159-185, the in-place version over a buffer; [s\[i\]] is saved, set to NUL for the call and
    restored.  Result: for each call, the chunk's bytes and the byte right after it; and the buffer. *)
Fixpoint set_nth (l : bytes) (i : nat) (b : byte) : bytes :=
  match l, i with
  | [], _ => []
  | _ :: l', O => b :: l'
  | a :: l', S i' => a :: set_nth l' i' b
  end.
Definition inplace_emit (keep : bool) (buf : bytes) (i j : nat) : list (bytes * option byte) * bytes :=
  if (keep || negb (Nat.eqb i j))%bool
  then let save := nth i buf 0%N in
       let buf1 := set_nth buf i 0%N in
       ([(substr buf1 j (i - j), nth_error buf1 i)], set_nth buf1 i save)
  else ([], buf).
Fixpoint inplace_loop (fuel : nat) (sep : byte -> bool) (keep : bool) (len : nat) (buf : bytes) (i j : nat)
  : list (bytes * option byte) * bytes :=
  match fuel with
  | O => inplace_emit keep buf i j
  | S f => if sep (nth i buf 0%N)
           then let r := inplace_emit keep buf i j in
                let r' := inplace_loop f sep keep len (snd r) (S i) (S i) in
                (fst r ++ fst r', snd r')
           else inplace_loop f sep keep len buf (S i) j
  end.
(** [length] iterations, then the final [emit]. *)
Definition split_inplace (sep : byte -> bool) (keep : bool) (buf : bytes) (len : nat) :=
  inplace_loop len sep keep len buf 0 0.

(** ** join.h 126-144; the separator is a string (a char is a string of length one). *)
Fixpoint join_loop (first : bool) (result sep : bytes) (l : list bytes) : bytes :=
  match l with
  | [] => result
  | x :: l' => join_loop false ((if first then result else result ++ sep) ++ x) sep l'
  end.
Definition join (l : list bytes) (sep : bytes) : bytes :=
  match l with [] => [] | _ => join_loop true [] sep l end.

(** ** split.h 302-327, [SplitIntoKeyValuePairs]; [Throw true]: KeyValueMultipleValuesException,
    [Throw false]: KeyValueNoValueException. *)
Fixpoint kv_loop (kvsep : byte -> bool) (throwing : bool) (fields : list bytes) : outcome bool (list (bytes * bytes)) :=
  match fields with
  | [] => Ok []
  | f :: fs =>
      match split kvsep false f with
      | [k; v] => obind (kv_loop kvsep throwing fs) (fun r => Ok ((k, v) :: r))
      | [] | [_] => if throwing then Throw false else kv_loop kvsep throwing fs
      | _ => if throwing then Throw true else kv_loop kvsep throwing fs
      end
  end.
Definition split_kv (kvsep fsep : byte -> bool) (throwing : bool) (s : bytes) : outcome bool (list (bytes * bytes)) :=
  kv_loop kvsep throwing (split fsep false s).

(** ** util.h 278-290, [Trim]: two scanning loops over pointers into the input. *)
Fixpoint trim_left (s : bytes) : bytes :=
  match s with [] => [] | c :: s' => if is_space c then trim_left s' else s end.
(** The second loop moves the end backwards from the end of what the first loop left. *)
Fixpoint trim_right_n (n : nat) (s : bytes) : bytes :=
  match n with
  | O => firstn 0 s
  | S m => if is_space (nth m s 0%N) then trim_right_n m s else firstn n s
  end.
Definition trim (s : bytes) : bytes := let t := trim_left s in trim_right_n (List.length t) t.

(** util.h 324-332, [UTF8StringLength]: stops at NUL, counts the bytes that are not 10xxxxxx. *)
Fixpoint utf8_length (s : bytes) : nat :=
  match s with
  | [] => 0
  | c :: s' => if N.eqb c 0 then 0 else (if N.eqb (N.land c 192) 128 then 0 else 1) + utf8_length s'
  end.

(** ** group_by_lines.h *)

(** group_by_lines.h 76-83: state.  [gl_throws n] says whether the user's callback throws on its n-th
    call (0-based). *)
Record gl : Type := { gl_residual : bytes; gl_excn : bool; gl_done : bool; gl_out : list bytes }.
Definition gl_init : gl := {| gl_residual := []; gl_excn := false; gl_done := false; gl_out := [] |}.

Inductive glexn := FeedAfterDone | DoneTwice | UserException.

(** [PROCESSOR::DoProcess(extracted, f_)]: the callback gets the line; group_by_lines.h 45-57. *)
Section GL.
Variable throws : nat -> bool.
Definition gl_emit (s : gl) : gl * bool :=
  ({| gl_residual := []; gl_excn := gl_excn s; gl_done := gl_done s; gl_out := gl_out s ++ [gl_residual s] |},
   throws (List.length (gl_out s))).
(** group_by_lines.h 108-122: the scanning loop; [rest] is what [s] points to; a NUL ends it. *)
Fixpoint gl_scan (s : gl) (rest : bytes) : gl * bool :=
  match rest with
  | [] => (s, false)
  | c :: rest' =>
      if N.eqb c 0 then (s, false)
      else if N.eqb c 10 then
        let r := gl_emit s in
        if snd r then r else gl_scan (fst r) rest'
      else gl_scan {| gl_residual := gl_residual s ++ [c]; gl_excn := gl_excn s; gl_done := gl_done s; gl_out := gl_out s |} rest'
  end.
(** group_by_lines.h 95-128, [Feed]. *)
Definition gl_feed (s : gl) (text : bytes) : gl * outcome glexn unit :=
  if gl_done s then (s, Throw FeedAfterDone)
  else if gl_excn s then (s, Ok tt)
  else let r := gl_scan s text in
       if snd r
       then ({| gl_residual := gl_residual (fst r); gl_excn := true; gl_done := gl_done (fst r); gl_out := gl_out (fst r) |},
             Throw UserException)
       else (fst r, Ok tt).
(** group_by_lines.h 85-91, [DoDone]; also the destructor in the Prohibit mode (145-154). *)
Definition gl_dodone (s : gl) : gl * outcome glexn unit :=
  match gl_residual s with
  | [] => (s, Ok tt)
  | _ => let r := gl_emit s in (fst r, if snd r then Throw UserException else Ok tt)
  end.
(** group_by_lines.h 130-137, [Done] (exception-friendly mode). *)
Definition gl_call_done (s : gl) : gl * outcome glexn unit :=
  if gl_done s then (s, Throw DoneTwice)
  else gl_dodone {| gl_residual := gl_residual s; gl_excn := gl_excn s; gl_done := true; gl_out := gl_out s |}.
Fixpoint gl_feed_all (s : gl) (blocks : list bytes) : gl :=
  match blocks with [] => s | b :: bs' => gl_feed_all (fst (gl_feed s b)) bs' end.
End GL.

(** ** fixed_size_serializer.h 44-57.  [digits10 + 1] for the unsigned type of [w] bits. *)
Definition fss_size (w : N) : nat :=
  if N.eqb w 16 then 5 else if N.eqb w 32 then 10 else if N.eqb w 64 then 20 else 0.
(** 45-49: [setfill('0') << setw(size) << x]. *)
Definition pack (w x : N) : bytes := repeat 48%N (fss_size w - List.length (dec x)) ++ dec x.
(** 50-55: [istringstream >> x] of a string of digits into a T: the value, or T's maximum on overflow
    (the conversion of leading zeroes is decimal as no base prefix is honoured in [dec] mode). *)
Definition unpack (w : N) (s : bytes) : option N :=
  match undec s with Some v => Some (N.min v (2 ^ w - 1)) | None => None end.
