(** Vocabulary for the file persister properties. *)
From Coq Require Import Sorted String.
From Verif Require Import Base Dec Codec Persister_Model Persister_Spec FilePersister_Model.
Local Open Scope list_scope.

Definition no_nl (l : bytes) : Prop := ~ In NL l.

(** Calls considered: head updates carry int64 timestamps, and a raw line given to PublishUnsafe is a
    single line with a payload that parses. *)
Definition op_ok {E} (C : codec E) (o : pop E) : Prop :=
  match o with
  | Publish _ _ => True
  | UpdateHead t => (t < 2 ^ 63)%Z
  | PublishUnsafe line =>
      no_nl line /\ forall pre post, cut_at TAB line = Some (pre, post) -> de C post <> None
  end.

(** Raw lines in the form the persister itself would write. *)
Definition op_canonical {E} (C : codec E) (o : pop E) : Prop :=
  match o with
  | PublishUnsafe line => exists it e, line = ser_idx C it ++ [TAB] ++ ser C e /\ (-1 <= snd it)%Z
  | _ => True
  end.

Definition sig_ok (sig : bytes) : Prop :=
  no_nl sig /\ match sig with [] => False | b :: _ => isspace b = false end.

Definition is_unsafe_read (q : pquery) : bool := match q with QIterateUnsafe _ _ => true | _ => false end.

(** ** Which files are well-formed logs (C07). *)
Section Log.
Context {E : Type}.
Variable C : codec E.
Variable sig : bytes.

(** The (index, timestamp) header of an entry line: the JSON before the first tab. *)
Definition line_header (l : bytes) : option idxts :=
  match cut_at TAB l with Some (pre, _) => par_idx C pre | None => None end.

(** Index, resp. timestamp, carried by a line ('#' lines carry no index; "#head" lines carry a time). *)
Definition line_index (l : bytes) : list N :=
  if is_directive l then [] else match line_header l with Some (i, _) => [i] | None => [] end.
Definition line_time (l : bytes) : list Z :=
  if is_directive l then if starts_with kHead l then [from_string_i64 (skip_space (skipn 5 l))] else []
  else match line_header l with Some (_, t) => [t] | None => [] end.

Record log_wf (ls : list bytes) : Prop := {
  wf_headers : Forall (fun l => is_directive l = false -> line_header l <> None) ls;
  wf_indexes : flat_map line_index ls = map N.of_nat (seq 0 (length (flat_map line_index ls)));
  wf_times : StronglySorted Z.lt ((-1)%Z :: flat_map line_time ls);
  wf_signature : forall k l, nth_error ls k = Some l -> starts_with kSignature l = true ->
     k = 0 /\ firstn (length sig) (skip_space (skipn 10 l)) = sig
}.
End Log.

(** The #head record as written: 27 bytes with the newline. *)
Definition head_record (t : Z) : bytes := bs "#head " ++ pad 20 (Z.to_N t) ++ [NL].
Definition is_head_line (l : bytes) : bool := is_directive l && starts_with kHead l.

(** An iterator opened on some state and dereferenced while further calls are made: [sched] lists the
    calls made before each dereference; file.h 292-345. *)
Fixpoint iterate_interleaved {E} (C : codec E) (s : fp) (i pos : N) (nxt : idxts) (sched : list (list (pop E)))
  : outcome pexn (list (idxts * E)) :=
  match sched with
  | [] => Ok []
  | ops :: sched' =>
      let s' := fst (fp_run C s ops) in
      obind (it_scan C i nxt pos (lines_of (skipn (N.to_nat pos) (fp_file s')))) (fun r =>
        obind (iterate_interleaved C s' (i + 1) (fst (snd r)) (snd (snd r)) sched') (fun l => Ok (fst r :: l)))
  end.
