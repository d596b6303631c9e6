(** Model of the file-backed persister, /repo/blocks/persistence/file.h, at the level of file bytes.
    Simplifications: a write of one record is one atomic extension of the byte list (crash points inside
    it are modelled separately by cutting the byte list, see FileCrash files); readers see the current
    bytes of the file (no stale stream buffers); [CURRENT_ASSERT]s are not modelled (they are proved to
    hold where they matter); file-not-writable errors are not modelled. *)
From Coq Require Import Ascii String.
From Verif Require Import Base Dec Persister_Model.
Local Open Scope list_scope.

(** file.h 60-63. *)
Definition kHead : bytes := bs "#head".
Definition kSignature : bytes := bs "#signature".
Definition SP : byte := 32%N.

(** file.h 63, [Printf("%020lld", t)]; only non-negative [t] are ever formatted. *)
Definition head_str (t : Z) : bytes := pad 20 (Z.to_N t).

(** [std::isspace] in the C locale, used at file.h 208 and 223. *)
Definition isspace (b : byte) : bool := (((9 <=? b) && (b <=? 13)) || (b =? 32))%N.
Fixpoint skip_space (s : bytes) : bytes :=
  match s with b :: s' => if isspace b then skip_space s' else s | [] => [] end.
Fixpoint count_space (s : bytes) : nat :=
  match s with b :: s' => if isspace b then S (count_space s') else 0 | [] => 0 end.

(** bricks/strings/util.h 169-178, [FromString<int64_t>]: [istringstream >> int64_t], 0 on failure. *)
Fixpoint span_digits (s : bytes) : bytes :=
  match s with b :: s' => if is_digit b then b :: span_digits s' else [] | [] => [] end.
Definition int64_or_zero (z : Z) : Z :=
  if (Z.leb (- 2 ^ 63) z && Z.ltb z (2 ^ 63))%Z then z else 0%Z.
Definition from_string_i64 (s : bytes) : Z :=
  let num (neg : bool) (d : bytes) :=
    match d with [] => 0%Z | _ => int64_or_zero (if neg then - Z.of_N (horner d) else Z.of_N (horner d))%Z end in
  match skip_space s with
  | b :: r => if N.eqb b 45 then num true (span_digits r)
              else if N.eqb b 43 then num false (span_digits r)
              else num false (span_digits (b :: r))
  | [] => 0%Z
  end.

(** Repeated [std::getline(fi_, line_)] over a byte string: newline-terminated lines, plus a last
    unterminated one if the text does not end with a newline. *)
Fixpoint lines_of (s : bytes) : list bytes :=
  match s with
  | [] => []
  | b :: s' => if N.eqb b NL then [] :: lines_of s'
               else match lines_of s' with
                    | [] => [[b]]
                    | l :: ls => (b :: l) :: ls
                    end
  end.

Definition unlines (ls : list bytes) : bytes := flat_map (fun l => l ++ [NL]) ls.

Definition starts_with (p s : bytes) : bool := if list_eq_dec N.eq_dec (firstn (length p) s) p then true else false.

(** A line starting with '#': file.h 85. *)
Definition is_directive (line : bytes) : bool := match line with b :: _ => N.eqb b HASH | [] => false end.

(** file.h 78-137, [FilePersisterImpl]: the file and the in-memory indexes.
    [fp_pos] is the file position of [file_appender_] (what its [tellp] reports). *)
Record fp : Type := {
  fp_file : bytes;
  fp_pos : N;
  fp_offs : list N;      (* record_offset_ *)
  fp_ts : list Z;        (* record_timestamp_ *)
  fp_headoff : N;        (* head_offset_ *)
  fp_next : N;           (* end_.next_index *)
  fp_last : Z;           (* end_.last_entry_us *)
  fp_head : Z            (* end_.head *)
}.

(** State of the replay loop, file.h 186-255. *)
Record rs : Type := {
  r_next : idxts;        (* cit.next_ *)
  r_off : N;             (* current_offset *)
  r_head : Z;            (* head *)
  r_headoff : N;         (* head_offset_ *)
  r_offs : list N;
  r_ts : list Z
}.
Definition rs_init : rs := {| r_next := (0%N, 0%Z); r_off := 0; r_head := (-1)%Z; r_headoff := 0; r_offs := []; r_ts := [] |}.

Section File.
Context {E : Type}.
Variable C : codec E.
Variable sig : bytes.     (* JSON of the stream signature, file.h 198 *)

(** file.h 81-111, [ProcessNextEntry] up to the callbacks. *)
Inductive line_kind : Type :=
| LDirective (value : bytes)
| LEntry (it : idxts) (payload : bytes)
| LThrow (x : pexn).
Definition process_line (next : idxts) (line : bytes) : line_kind :=
  if is_directive line then LDirective line
  else match cut_at TAB line with
       | None => LThrow MalformedEntry
       | Some (pre, post) =>
           match par_idx C pre with
           | None => LThrow InvalidJSON
           | Some (i, t) =>
               if negb (N.eqb i (fst next)) then LThrow (InconsistentIndex (fst next) i)
               else if Z.ltb t (snd next) then LThrow (InconsistentTimestamp (snd next) t)
               else LEntry (i, t) post
           end
       end.

(** file.h 199-243: one iteration of the replay loop ([on_entry] 200-212, [on_directive] 213-242). *)
Definition replay_line (r : rs) (line : bytes) : outcome pexn rs :=
  let off' := (r_off r + N.of_nat (length line) + 1)%N in     (* current_offset = fi.tellg() *)
  match process_line (r_next r) line with
  | LThrow x => Throw x
  | LEntry (i, t) _ =>
      if negb (Z.ltb (r_head r) t) then Throw (InconsistentTimestamp (r_head r + 1) t)
      else Ok {| r_next := ((i + 1)%N, (t + 1)%Z); r_off := off'; r_head := t; r_headoff := 0;
                 r_offs := r_offs r ++ [r_off r]; r_ts := r_ts r ++ [t] |}
  | LDirective value =>
      if starts_with kHead value then
        let us := from_string_i64 (skip_space (skipn 5 value)) in
        let offset := (5 + count_space (skipn 5 value))%nat in
        if negb (Z.ltb (r_head r) us) then Throw (InconsistentTimestamp (r_head r + 1) us)
        else Ok {| r_next := r_next r; r_off := off'; r_head := us; r_headoff := (r_off r + N.of_nat offset)%N;
                   r_offs := r_offs r; r_ts := r_ts r |}
      else
        let r' := {| r_next := r_next r; r_off := off'; r_head := r_head r; r_headoff := 0;
                     r_offs := r_offs r; r_ts := r_ts r |} in
        if starts_with kSignature value then
          if negb (N.eqb (r_off r) 0) then Throw InvalidSignatureLocation
          else if list_eq_dec N.eq_dec (firstn (length sig) (skip_space (skipn 10 value))) sig
               then Ok r' else Throw InvalidStreamSignature
        else Ok r'
  end.

Fixpoint replay_lines (r : rs) (ls : list bytes) : outcome pexn rs :=
  match ls with
  | [] => Ok r
  | l :: ls' => obind (replay_line r l) (fun r' => replay_lines r' ls')
  end.

Definition sig_line : bytes := kSignature ++ [SP] ++ sig.

(** file.h 166-182 (constructor) and 186-255: open an existing (or empty, newly created) file. *)
Definition fp_open (file : bytes) : outcome pexn fp :=
  obind (replay_lines rs_init (lines_of file)) (fun r =>
    let file' := if N.eqb (r_off r) 0 then file ++ sig_line ++ [NL] else file in
    Ok {| fp_file := file'; fp_pos := N.of_nat (length file');
          fp_offs := r_offs r; fp_ts := r_ts r; fp_headoff := r_headoff r;
          fp_next := fst (r_next r); fp_last := (snd (r_next r) - 1)%Z; fp_head := r_head r |}).

(** Append one line through [file_appender_] (opened with O_APPEND: always written at the real end of
    the file, after which the appender's position is the end of the file). *)
Definition append_entry (s : fp) (line : bytes) (t : Z) : fp :=
  let file' := fp_file s ++ line ++ [NL] in
  {| fp_file := file'; fp_pos := N.of_nat (length file');
     fp_offs := fp_offs s ++ [fp_pos s]; fp_ts := fp_ts s ++ [t]; fp_headoff := 0;
     fp_next := (fp_next s + 1)%N; fp_last := t; fp_head := t |}.

(** file.h 439-470, [PersisterPublishImpl]. *)
Definition fp_publish (s : fp) (e : E) (t : Z) : fp * outcome pexn idxts :=
  if negb (Z.ltb (fp_head s) t) then (s, Throw (InconsistentTimestamp (fp_head s + 1) t))
  else (append_entry s (ser_idx C (fp_next s, t) ++ [TAB] ++ ser C e) t, Ok (fp_next s, t)).

(** file.h 472-501, [PersisterPublishUnsafeImpl]: the payload is neither parsed nor checked. *)
Definition fp_publish_unsafe (s : fp) (line : bytes) : fp * outcome pexn idxts :=
  match cut_at TAB line with
  | None => (s, Throw MalformedEntry)
  | Some (pre, _) =>
      match par_idx C pre with
      | None => (s, Throw InvalidJSON)
      | Some (i, t) =>
          if negb (N.eqb i (fp_next s)) then (s, Throw (UnsafePublishBadIndexTimestamp (fp_next s) i))
          else if negb (Z.ltb (fp_head s) t) then (s, Throw (InconsistentTimestamp (fp_head s + 1) t))
          else (append_entry s line t, Ok (i, t))
      end
  end.

(** [seekp(off); << data] through [head_rewriter_]. *)
Definition overwrite (off : nat) (data file : bytes) : bytes :=
  firstn off file ++ data ++ skipn (off + length data) file.

(** file.h 503-525, [PersisterUpdateHeadImpl].  The rewriter does not move the appender's position. *)
Definition fp_update_head (s : fp) (t : Z) : fp * outcome pexn unit :=
  if negb (Z.ltb (fp_head s) t) then (s, Throw (InconsistentTimestamp (fp_head s + 1) t))
  else if negb (N.eqb (fp_headoff s) 0)
  then ({| fp_file := overwrite (N.to_nat (fp_headoff s)) (head_str t ++ [NL]) (fp_file s); fp_pos := fp_pos s;
           fp_offs := fp_offs s; fp_ts := fp_ts s; fp_headoff := fp_headoff s;
           fp_next := fp_next s; fp_last := fp_last s; fp_head := t |}, Ok tt)
  else let file' := fp_file s ++ kHead ++ [SP] ++ head_str t ++ [NL] in
       ({| fp_file := file'; fp_pos := N.of_nat (length file');
           fp_offs := fp_offs s; fp_ts := fp_ts s; fp_headoff := (fp_pos s + 6)%N;
           fp_next := fp_next s; fp_last := fp_last s; fp_head := t |}, Ok tt).

(** file.h 527-560, accessors (one atomic load of [end_] each). *)
Definition fp_empty (s : fp) : bool := N.eqb (fp_next s) 0.
Definition fp_size (s : fp) : N := fp_next s.
Definition fp_lastidx (s : fp) : outcome pexn idxts :=
  if N.eqb (fp_next s) 0 then Throw NoEntriesPublishedYet else Ok (fp_next s - 1, fp_last s)%N.
Definition fp_head_and_last (s : fp) : Z * option idxts :=
  if N.eqb (fp_next s) 0 then (fp_head s, None) else (fp_head s, Some (fp_next s - 1, fp_last s)%N).

(** file.h 562-586. *)
Definition fts_before (l : list Z) (p : Z -> bool) (i : nat) : bool :=
  match nth_error l i with Some t => p t | None => false end.
Definition fp_index_range (s : fp) (from till : Z) : N * N :=
  let l := fp_ts s in
  let n := length l in
  let b := bsearch (S n) (fts_before l (fun t => Z.ltb t from)) 0 n in
  let first := if Nat.eqb b n then npos else N.of_nat b in
  let second :=
    if Z.ltb 0 till
    then let e := bsearch (S n) (fts_before l (fun t => negb (Z.ltb till t))) 0 n in
         if Nat.eqb e n then npos else N.of_nat e
    else npos in
  (first, second).

(** file.h 612-640, [PersisterIterateImpl(begin, end)]: (begin, end, begin_offset). *)
Definition fp_iterate (s : fp) (b e : N) : outcome pexn (N * N * N) :=
  let size := fp_next s in
  let e := if N.eqb e npos then size else e in
  if N.ltb size e then Throw InvalidIterableRange
  else if N.eqb b e then Ok (0, 0, 0)%N
  else if N.ltb e b then Throw InvalidIterableRange
  else match nth_error (fp_offs s) (N.to_nat b) with
       | Some o => Ok (b, e, o)
       | None => UB
       end.

(** file.h 642-652, in one critical section (the two-section race is the same as in memory.h). *)
Definition fp_iterate_ts (s : fp) (from till : Z) : outcome pexn (N * N * N) :=
  if Z.ltb 0 till && Z.ltb till from then Throw InvalidIterableRange
  else let r := fp_index_range s from till in
       if negb (N.eqb (fst r) npos) then fp_iterate s (fst r) (snd r) else Ok (0, 0, 0)%N.

(** file.h 298-318, [Iterator::operator*]: read lines from the current position until the entry with
    index [i]; returns it with the new position and [next_]. *)
Fixpoint it_scan (i : N) (nxt : idxts) (pos : N) (ls : list bytes)
  : outcome pexn ((idxts * E) * (N * idxts)) :=
  match ls with
  | [] => Throw UnexpectedEndOfFile
  | l :: ls' =>
      let pos' := (pos + N.of_nat (length l) + 1)%N in
      match process_line nxt l with
      | LThrow x => Throw x
      | LDirective _ => it_scan i nxt pos' ls'
      | LEntry (j, t) payload =>
          let nxt' := ((j + 1)%N, (t + 1)%Z) in
          if N.eqb j i then match de C payload with
                            | Some e => Ok (((j, t), e), (pos', nxt'))
                            | None => Throw InvalidJSON
                            end
          else if N.ltb i j then Throw (InconsistentIndex i j)
          else it_scan i nxt' pos' ls'
      end
  end.

(** The range-for loop: dereference, increment, compare ([fuel] = end - begin). *)
Fixpoint it_run (fuel : nat) (s : fp) (i : N) (pos : N) (nxt : idxts) : outcome pexn (list (idxts * E)) :=
  match fuel with
  | O => Ok []
  | S f => obind (it_scan i nxt pos (lines_of (skipn (N.to_nat pos) (fp_file s)))) (fun r =>
             obind (it_run f s (i + 1) (fst (snd r)) (snd (snd r))) (fun l => Ok (fst r :: l)))
  end.
Definition fp_read (s : fp) (r : N * N * N) : outcome pexn (list (idxts * E)) :=
  let '(b, e, o) := r in it_run (N.to_nat (e - b)) s b o (b, 0%Z).

(** file.h 360-379, [IteratorUnsafe::operator*]: the raw line at [record_offset_[i]]. *)
Definition fp_raw (s : fp) (i : N) : outcome pexn bytes :=
  match nth_error (fp_offs s) (N.to_nat i) with
  | None => UB
  | Some o => match lines_of (skipn (N.to_nat o) (fp_file s)) with
              | [] => Throw UnexpectedEndOfFile
              | l :: _ => Ok l
              end
  end.
Fixpoint raw_run (fuel : nat) (s : fp) (i : N) : outcome pexn (list bytes) :=
  match fuel with
  | O => Ok []
  | S f => obind (fp_raw s i) (fun l => obind (raw_run f s (i + 1)) (fun ls => Ok (l :: ls)))
  end.
Definition fp_read_unsafe (s : fp) (r : N * N * N) : outcome pexn (list bytes) :=
  let '(b, e, _) := r in raw_run (N.to_nat (e - b)) s b.

Definition fp_step (s : fp) (o : pop E) : fp * pout :=
  match o with
  | Publish e t => let r := fp_publish s e t in (fst r, RIdx (snd r))
  | PublishUnsafe l => let r := fp_publish_unsafe s l in (fst r, RIdx (snd r))
  | UpdateHead t => let r := fp_update_head s t in (fst r, RUnit (snd r))
  end.
Fixpoint fp_run (s : fp) (ops : list (pop E)) : fp * list pout :=
  match ops with
  | [] => (s, [])
  | o :: ops' => let r := fp_step s o in let r' := fp_run (fst r) ops' in (fst r', snd r :: snd r')
  end.

End File.

(** Read-only API calls of both persisters and their results, for observational equivalence. *)
Inductive pquery : Type :=
| QSize | QEmpty | QHead | QLast | QHeadAndLast
| QIndexRange (from till : Z)
| QIterate (b e : N)
| QIterateTs (from till : Z)
| QIterateUnsafe (b e : N).

Inductive qres (E : Type) : Type :=
| ANum (n : N) | ABool (b : bool) | ATime (t : Z)
| ALast (r : outcome pexn idxts) | AHeadAndLast (r : Z * option idxts)
| ARange (r : N * N)
| AEntries (r : outcome pexn (list (idxts * E)))
| ALines (r : outcome pexn (list bytes)).
Arguments ANum {E}. Arguments ABool {E}. Arguments ATime {E}. Arguments ALast {E}. Arguments AHeadAndLast {E}.
Arguments ARange {E}. Arguments AEntries {E}. Arguments ALines {E}.

Definition mp_query {E} (C : codec E) (s : mp E) (q : pquery) : qres E :=
  let lift {A} (m : option A) : outcome pexn A := match m with Some a => Ok a | None => UB end in
  match q with
  | QSize => ANum (mp_size s) | QEmpty => ABool (mp_empty s) | QHead => ATime (mp_head s)
  | QLast => ALast (mp_last s) | QHeadAndLast => AHeadAndLast (mp_head_and_last s)
  | QIndexRange f t => ARange (mp_index_range s f t)
  | QIterate b e => AEntries (obind (mp_iterate s b e) (fun r => lift (mp_read s r)))
  | QIterateTs f t => AEntries (obind (mp_iterate_ts s f t) (fun r => lift (mp_read s r)))
  | QIterateUnsafe b e => ALines (obind (mp_iterate s b e) (fun r => lift (mp_read_unsafe C s r)))
  end.

Definition fp_query {E} (C : codec E) (s : fp) (q : pquery) : qres E :=
  match q with
  | QSize => ANum (fp_size s) | QEmpty => ABool (fp_empty s) | QHead => ATime (fp_head s)
  | QLast => ALast (fp_lastidx s) | QHeadAndLast => AHeadAndLast (fp_head_and_last s)
  | QIndexRange f t => ARange (fp_index_range s f t)
  | QIterate b e => AEntries (obind (fp_iterate s b e) (fp_read C s))
  | QIterateTs f t => AEntries (obind (fp_iterate_ts s f t) (fp_read C s))
  | QIterateUnsafe b e => ALines (obind (fp_iterate s b e) (fp_read_unsafe s))
  end.
