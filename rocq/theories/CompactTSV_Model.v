(** Model of /repo/compact_tsv/compact_tsv.h. *)
From Verif Require Import Base.

(** port.h 282-292, [CURRENT_ASSERT]: with CURRENT_BUILD_WITH_PARANOIC_RUNTIME_CHECKS ([paranoic]) a failed
    assertion ends the program (modelled as [Throw tt]); otherwise it prints and the program goes on. *)
Definition check {A} (paranoic cond : bool) (k : outcome unit A) : outcome unit A :=
  if (paranoic && negb cond)%bool then Throw tt else k.

(** Little-endian bytes of an unsigned number, as [data_.append(reinterpret_cast<const char*>(&x), sizeof(x))]
    writes on the platforms the code supports. *)
Fixpoint le_bytes (n : nat) (x : N) : bytes :=
  match n with O => [] | S n' => (x mod 256)%N :: le_bytes n' (x / 256)%N end.
(** Reading it back. *)
Fixpoint le_value (s : bytes) : N :=
  match s with [] => 0%N | b :: s' => (b + 256 * le_value s')%N end.

(** compact_tsv.h 214-217. *)
Definition row_done : N := 254%N.
Definition storage : N := 255%N.

(** compact_tsv.h 222-229: the members ([done_] is not kept: [Finalize] is called once, at the end). *)
Record packer := mkPacker {
  dim_ : nat;
  first_ : bool;
  current_ : list bytes;
  data_ : bytes;
  offsets_ : list (bytes * N)  (** [unordered_map]; the most recent binding is at the head. *)
}.

Definition beqb (a b : bytes) : bool := if list_eq_dec N.eq_dec a b then true else false.

(** [offsets_[s]]: a missing key is created with value 0. *)
Fixpoint find_offset (m : list (bytes * N)) (s : bytes) : N :=
  match m with
  | [] => 0%N
  | (k, o) :: m' => if beqb k s then o else find_offset m' s
  end.

(** compact_tsv.h 231-234, [AssertStillSmall]. *)
Definition still_small (d : bytes) : bool := N.ltb (N.of_nat (length d)) (2 ^ 32).

(** compact_tsv.h 236-245, [StoreString]; returns the offset and the new data.
    [s.c_str(), length + 1]: the string with its terminating null character. *)
Definition store_string (paranoic : bool) (d s : bytes) : outcome unit (N * bytes) :=
  let len := (N.of_nat (length s) mod 2 ^ 16)%N in
  check paranoic (N.eqb len (N.of_nat (length s)))
  (let d1 := d ++ [storage] in
   let result := (N.of_nat (length d1) mod 2 ^ 32)%N in
   let d2 := d1 ++ le_bytes 2 len ++ firstn (S (N.to_nat len)) (s ++ [0%N]) in
   check paranoic (still_small d2) (Ok (result, d2))).

(** compact_tsv.h 247-253, [GetOffsetOf]; returns the offset, data and the map. *)
Definition get_offset_of (paranoic : bool) (d : bytes) (m : list (bytes * N)) (s : bytes) : outcome unit (N * bytes * list (bytes * N)) :=
  let o := find_offset m s in
  if N.eqb o 0
  then obind (store_string paranoic d s) (fun r => Ok (fst r, snd r, (s, fst r) :: m))
  else Ok (o, d, m).

(** compact_tsv.h 132-139: the loop over the columns, from column [i] on; [cur] are the remaining elements of
    [current_]; returns the new values of these elements, data and offsets.  Reading [current_] past its end is
    undefined behaviour; so are (here) rows of 256 and more columns, for which the 8-bit counter never stops. *)
Fixpoint pack_cells (paranoic first : bool) (i : nat) (row cur : list bytes) (d : bytes) (m : list (bytes * N))
  : outcome unit (list bytes * bytes * list (bytes * N)) :=
  match row, cur with
  | [], _ => Ok (cur, d, m)
  | _ :: _, [] => UB
  | cell :: row', c :: cur' =>
      if Nat.leb 256 i then UB
      else if (negb (beqb cell c) || first)%bool then
        obind (get_offset_of paranoic d m cell) (fun '(o, d1, m1) =>
        obind (pack_cells paranoic first (S i) row' cur' (d1 ++ [N.of_nat i] ++ le_bytes 4 o) m1) (fun '(cur2, d2, m2) =>
        Ok (cell :: cur2, d2, m2)))
      else
        obind (pack_cells paranoic first (S i) row' cur' d m) (fun '(cur2, d2, m2) => Ok (c :: cur2, d2, m2))
  end.

(** [std::vector::resize]. *)
Definition resize {A} (def : A) (n : nat) (l : list A) : list A := firstn n l ++ repeat def (n - length l).

(** compact_tsv.h 117-120, the constructor. *)
Definition tsv_new (paranoic : bool) (dim : nat) : outcome unit packer :=
  check paranoic (Nat.leb dim 254) (Ok (mkPacker dim true (resize [] dim []) [] [])).

(** compact_tsv.h 122-143, [operator()(row)]. *)
Definition tsv_row (paranoic : bool) (p : packer) (row : list bytes) : outcome unit packer :=
  check paranoic (negb (Nat.eqb (length row) 0))
  (let k dim cur :=
     obind (pack_cells paranoic (first_ p) 0 row cur (data_ p) (offsets_ p)) (fun '(cur', d', m') =>
     let d'' := d' ++ [row_done] in
     check paranoic (still_small d'') (Ok (mkPacker dim false cur' d'' m')))
   in
   if Nat.eqb (dim_ p) 0
   then let dim := length row in check paranoic (Nat.leb dim 254) (k dim (resize [] dim (current_ p)))
   else check paranoic (Nat.eqb (length row) (dim_ p)) (k (dim_ p) (current_ p))).

Fixpoint tsv_rows (paranoic : bool) (p : packer) (rows : list (list bytes)) : outcome unit packer :=
  match rows with
  | [] => Ok p
  | r :: rows' => obind (tsv_row paranoic p r) (fun p' => tsv_rows paranoic p' rows')
  end.

(** A client that constructs a [CompactTSV(dim)], feeds the rows, calls [Finalize] and [GetPackedString]
    (compact_tsv.h 145-153). *)
Definition tsv_pack (paranoic : bool) (dim : nat) (rows : list (list bytes)) : outcome unit bytes :=
  obind (tsv_new paranoic dim) (fun p => obind (tsv_rows paranoic p rows) (fun p' => Ok (data_ p'))).

(** Reading [n] bytes at position [p] of [data]; [None] if not all of them are within it. *)
Definition read (data : bytes) (p n : nat) : option bytes :=
  if Nat.leb (p + n) (length data) then Some (firstn n (skipn p data)) else None.

(** compact_tsv.h 43-58, 64-99, the four dispatchers: the row is a vector of pairs (pointer, length), copied
    to strings or not; [None] is the default-constructed element that [resize] may create. *)
Definition dispatcher_row := list (option (nat * N)).
Definition update (row : dispatcher_row) (index : nat) (v : nat * N) : dispatcher_row :=
  let row' := if Nat.ltb index (length row) then row else resize None (S index) row in
  firstn index row' ++ Some v :: skipn (S index) row'.

(** compact_tsv.h 155-192, [Unpack]: the loop, from position [p]; [fuel] exceeds the number of remaining bytes.
    The rows passed to [f] are returned; their number is the returned [total].
    The read of the 2-byte length at [data + offset] is out of bounds if the offset is too large. *)
Fixpoint unpack_loop (paranoic : bool) (data : bytes) (fuel : nat) (p : nat) (dim : nat) (row : dispatcher_row)
  : outcome unit (list dispatcher_row) :=
  match fuel with
  | O => UB
  | S fuel' =>
      if Nat.eqb p (length data) then Ok []
      else check paranoic (Nat.ltb p (length data))
        match read data p 1 with
        | Some [index] =>
            if N.eqb index storage then
              match read data (S p) 2 with
              | Some l => let p' := S p + 2 + N.to_nat (le_value l) + 1 in
                          check paranoic (Nat.leb p' (length data)) (unpack_loop paranoic data fuel' p' dim row)
              | None => UB
              end
            else if N.eqb index row_done then
              check paranoic (negb (Nat.eqb (length row) 0))
              (if Nat.eqb dim 0
               then obind (unpack_loop paranoic data fuel' (S p) (length row) row) (fun r => Ok (row :: r))
               else check paranoic (Nat.eqb dim (length row))
                    (obind (unpack_loop paranoic data fuel' (S p) dim row) (fun r => Ok (row :: r))))
            else
              match read data (S p) 4 with
              | Some o =>
                  let offset := N.to_nat (le_value o) in
                  match read data offset 2 with
                  | Some l => unpack_loop paranoic data fuel' (S p + 4) dim (update row (N.to_nat index) (offset + 2, le_value l))
                  | None => UB
                  end
              | None => UB
              end
        | _ => UB
        end
  end.
Definition tsv_unpack (paranoic : bool) (data : bytes) : outcome unit (list dispatcher_row) :=
  unpack_loop paranoic data (S (length data)) 0 0 [].

(** What the callback sees in a cell: compact_tsv.h 64-71 and 84-99, (pointer, length) as a string ... *)
Definition view_string (data : bytes) (c : option (nat * N)) : option bytes :=
  match c with
  | Some (p, l) => read data p (N.to_nat l)
  | None => Some []
  end.
(** ... and compact_tsv.h 76-82, [const char*], read up to the null character ([None]: null or unterminated). *)
Fixpoint until_nul (s : bytes) : option bytes :=
  match s with
  | [] => None
  | b :: s' => if N.eqb b 0 then Some [] else match until_nul s' with Some r => Some (b :: r) | None => None end
  end.
Definition view_cstr (data : bytes) (c : option (nat * N)) : option bytes :=
  match c with Some (p, _) => until_nul (skipn p data) | None => None end.
