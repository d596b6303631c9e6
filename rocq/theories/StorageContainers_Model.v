(** Model of the storage containers: [storage/container/dictionary.h],
    [one_to_one.h], [one_to_many.h], [many_to_many.h].

    Modelling decisions (simplifications are marked SIMPL):
    - key, row and column types are arbitrary types with decidable equality
      and a countable encoding ([std::hash]/[operator<] on the C++ side).
      SIMPL: the ordered and the unordered flavours only differ in the
      iteration order, which is not modelled: a view is a finite map.
    - [std::unique_ptr<T>] values of [map_] and the raw [const T*] values of
      [forward_] and [transposed_] are allocation identifiers; a heap maps the
      live identifiers to objects; dereferencing an identifier that is no
      longer in the heap is undefined behaviour.  SIMPL: an identifier is
      never reused after being freed (a dangling pointer is undefined
      behaviour in any case).
    - [current::time::Now()] is an oracle [clk : nat -> Z] read at successive
      positions.
    - The rollback closures pushed to the journal are defunctionalised: three
      shapes exist in the code ([undo] below).
    - an operation returns [None] when it would dereference an end iterator or
      a dangling pointer ([CURRENT_ASSERT] only prints in release builds). *)
From stdpp Require Import gmap.
From Coq Require Import ZArith.

(** storage/storage.h 74-150 (dictionary) and 161-236 (matrix): the
    [entry_name##Updated], [entry_name##Deleted] and [entry_name##Patched]
    structures.  [Deleted] is built from the deleted object and keeps its key
    only (lines 88-91, 177-180). *)
Inductive mutation (K T P : Type) : Type :=
| Updated (us : Z) (data : T)
| Deleted (us : Z) (key : K)
| Patched (us : Z) (key : K) (patch : P).
Arguments Updated {K T P}. Arguments Deleted {K T P}. Arguments Patched {K T P}.

(** The three shapes of rollback closures, e.g. dictionary.h 91-94, 98-101,
    103-106; one_to_one.h 85-87, 134-135, 137-140. *)
Inductive undo (K T : Type) : Type :=
| Restore (k : K) (o : T) (ts : Z)   (* put the object and its time back *)
| EraseTs (k : K) (ts : Z)           (* erase the object, restore the time *)
| EraseAll (k : K).                  (* erase the object and its time *)
Arguments Restore {K T}. Arguments EraseTs {K T}. Arguments EraseAll {K T}.

(** What [LogMutation] (base.h 199-203) records for one operation. *)
Definition logged (K T P : Type) := list (mutation K T P * undo K T).

(* ------------------------------------------------------------------ *)
(** * GenericDictionary, container/dictionary.h 40-212 *)

Section Dictionary.
  Context {K T P : Type} `{Countable K}.
  Context (get_key : T -> K).        (* sfinae::GetKey *)
  Context (patch_with : P -> T -> T). (* T::PatchWith *)

  (** dictionary.h 207-211: [map_] and [last_modified_]. *)
  Record dict := Dict { d_map : gmap K T; d_lm : gmap K Z }.

  Definition dict_init : dict := Dict ∅ ∅.

  Inductive dict_op := DAdd (o : T) | DErase (k : K) | DPatch (k : K) (p : P).

  (** dictionary.h 82-111. *)
  Definition dict_add (clk : nat -> Z) (n : nat) (o : T) (s : dict)
    : option (logged K T P * dict * nat) :=
    let now := clk n in
    let key := get_key o in
    match d_map s !! key with
    | Some previous_object =>
        match d_lm s !! key with
        | None => None (* lm_iterator is end(): undefined behaviour *)
        | Some previous_timestamp =>
            Some ([(Updated now o, Restore key previous_object previous_timestamp)],
                  Dict (<[key := o]> (d_map s)) (<[key := now]> (d_lm s)), S n)
        end
    | None =>
        match d_lm s !! key with
        | Some previous_timestamp =>
            Some ([(Updated now o, EraseTs key previous_timestamp)],
                  Dict (<[key := o]> (d_map s)) (<[key := now]> (d_lm s)), S n)
        | None =>
            Some ([(Updated now o, EraseAll key)],
                  Dict (<[key := o]> (d_map s)) (<[key := now]> (d_lm s)), S n)
        end
    end.

  (** dictionary.h 113-128. *)
  Definition dict_erase (clk : nat -> Z) (n : nat) (key : K) (s : dict)
    : option (logged K T P * dict * nat) :=
    let now := clk n in
    match d_map s !! key with
    | Some previous_object =>
        match d_lm s !! key with
        | None => None
        | Some previous_timestamp =>
            Some ([(Deleted now (get_key previous_object),
                    Restore key previous_object previous_timestamp)],
                  Dict (delete key (d_map s)) (<[key := now]> (d_lm s)), S n)
        end
    | None => Some ([], s, S n)
    end.

  (** dictionary.h 130-156, compiled under CURRENT_STORAGE_PATCH_SUPPORT. *)
  Definition dict_patch (clk : nat -> Z) (n : nat) (key : K) (p : P) (s : dict)
    : option (logged K T P * dict * nat) :=
    let now := clk n in
    match d_map s !! key with
    | Some previous_object =>
        match d_lm s !! key with
        | None => None
        | Some previous_timestamp =>
            Some ([(Patched now key p,
                    Restore key previous_object previous_timestamp)],
                  Dict (<[key := patch_with p previous_object]> (d_map s))
                       (<[key := now]> (d_lm s)), S n)
        end
    | None => Some ([], s, S n)
    end.

  Definition dict_step (clk : nat -> Z) (n : nat) (op : dict_op) (s : dict) :=
    match op with
    | DAdd o => dict_add clk n o s
    | DErase k => dict_erase clk n k s
    | DPatch k p => dict_patch clk n k p s
    end.

  (** Replay, dictionary.h 168-187. *)
  Definition dict_apply (e : mutation K T P) (s : dict) : dict :=
    match e with
    | Updated us o => Dict (<[get_key o := o]> (d_map s)) (<[get_key o := us]> (d_lm s))
    | Deleted us k => Dict (delete k (d_map s)) (<[k := us]> (d_lm s))
    | Patched us k p =>
        match d_map s !! k with
        | Some o => Dict (<[k := patch_with p o]> (d_map s)) (<[k := us]> (d_lm s))
        | None => s
        end
    end.

  (** The closures at dictionary.h 91-94, 98-101, 103-106, 121-124, 144-147. *)
  Definition dict_undo (u : undo K T) (s : dict) : dict :=
    match u with
    | Restore k o ts => Dict (<[k := o]> (d_map s)) (<[k := ts]> (d_lm s))
    | EraseTs k ts => Dict (delete k (d_map s)) (<[k := ts]> (d_lm s))
    | EraseAll k => Dict (delete k (d_map s)) (delete k (d_lm s))
    end.

  (** API, dictionary.h 60-80: Size, Empty, Has, operator[], LastModified;
      189-201 iteration. *)
  Definition dict_size (s : dict) : nat := size (d_map s).
  Definition dict_empty (s : dict) : bool := bool_decide (d_map s = ∅).
  Definition dict_has (s : dict) (k : K) : bool :=
    match d_map s !! k with Some _ => true | None => false end.
  Definition dict_get (s : dict) (k : K) : option T := d_map s !! k.
  Definition dict_last_modified (s : dict) (k : K) : option Z := d_lm s !! k.
  Definition dict_entries (s : dict) : list (K * T) := map_to_list (d_map s).
End Dictionary.
Arguments dict K T {_ _}.
Arguments dict_op K T P : clear implicits.

(* ------------------------------------------------------------------ *)
(** * Index maps used by the matrix containers *)

(** [forward_[row] = p] and [forward_.erase(row)], one_to_one.h 266-267, 271-272. *)
Definition flat_set {A} `{Countable A} (a : A) (i : nat) (f : gmap A nat) : gmap A nat :=
  <[a := i]> f.
Definition flat_erase {A} `{Countable A} (a : A) (f : gmap A nat) : gmap A nat :=
  delete a f.

(** [forward_[row][col] = p]: creates the inner map when absent; and
    [auto& m = forward_[row]; m.erase(col); if (m.empty()) forward_.erase(row)],
    one_to_many.h 266, 271-275, many_to_many.h 225-226, 230-239. *)
Definition nest_set {A B} `{Countable A} `{Countable B} (a : A) (b : B) (i : nat)
  (f : gmap A (gmap B nat)) : gmap A (gmap B nat) :=
  <[a := <[b := i]> (default ∅ (f !! a))]> f.
Definition nest_erase {A B} `{Countable A} `{Countable B} (a : A) (b : B)
  (f : gmap A (gmap B nat)) : gmap A (gmap B nat) :=
  let inner := delete b (default ∅ (f !! a)) in
  if decide (inner = ∅) then delete a f else <[a := inner]> f.

(** The fields common to the three matrix containers: one_to_one.h 281-286,
    one_to_many.h 285-290, many_to_many.h 248-253; plus the heap. *)
Record matrix (R C T FW TR : Type) `{Countable R} `{Countable C} := Matrix {
  x_map : gmap (R * C) nat;
  x_heap : gmap nat T;
  x_next : nat;
  x_fwd : FW;
  x_tr : TR;
  x_lm : gmap (R * C) Z
}.
Arguments Matrix {R C T FW TR _ _ _ _}.
Arguments x_map {R C T FW TR _ _ _ _}. Arguments x_heap {R C T FW TR _ _ _ _}.
Arguments x_next {R C T FW TR _ _ _ _}. Arguments x_fwd {R C T FW TR _ _ _ _}.
Arguments x_tr {R C T FW TR _ _ _ _}. Arguments x_lm {R C T FW TR _ _ _ _}.

(** Result of an API read that may dereference a stored pointer. *)
Inductive read (A : Type) := Val (a : A) | DanglingPointer.
Arguments Val {A}. Arguments DanglingPointer {A}.

Section Matrix.
  Context {R C T : Type} `{Countable R} `{Countable C}.
  Context (get_row : T -> R) (get_col : T -> C). (* sfinae::GetRow, sfinae::GetCol *)
  Notation key := (R * C)%type.
  Notation key_of o := (get_row o, get_col o).
  Notation ev := (mutation (R * C) T Empty_set).

  (** [placeholder = std::make_unique<T>(object)]: allocate the copy, then free
      what [map_[key]] owned before. *)
  Definition heap_replace (old : option nat) (i : nat) (o : T) (h : gmap nat T) : gmap nat T :=
    match old with
    | Some j => delete j (<[i := o]> h)
    | None => <[i := o]> h
    end.
  (** [map_.erase(key)]: frees the object. *)
  Definition heap_free (old : option nat) (h : gmap nat T) : gmap nat T :=
    match old with Some j => delete j h | None => h end.

  (** Dereference what an index map returned. *)
  Definition read_ptr (h : gmap nat T) (p : option nat) : read (option T) :=
    match p with
    | None => Val None
    | Some i => match h !! i with Some o => Val (Some o) | None => DanglingPointer end
    end.

  (** ** GenericOneToOne, container/one_to_one.h 40-287 *)
  Definition o2o := matrix R C T (gmap R nat) (gmap C nat).
  Definition o2o_init : o2o := Matrix ∅ ∅ 0 ∅ ∅ ∅.

  (** one_to_one.h 262-268. *)
  Definition o2o_do_update (us : Z) (k : key) (o : T) (s : o2o) : o2o :=
    let p := x_next s in
    Matrix (<[k := p]> (x_map s)) (heap_replace (x_map s !! k) p o (x_heap s)) (S p)
           (flat_set k.1 p (x_fwd s)) (flat_set k.2 p (x_tr s)) (<[k := us]> (x_lm s)).

  (** one_to_one.h 270-274. *)
  Definition o2o_do_erase_no_lm (k : key) (s : o2o) : o2o :=
    Matrix (delete k (x_map s)) (heap_free (x_map s !! k) (x_heap s)) (x_next s)
           (flat_erase k.1 (x_fwd s)) (flat_erase k.2 (x_tr s)) (x_lm s).

  (** Assigning or erasing one [last_modified_] slot. *)
  Definition x_set_lm {FW TR} (k : key) (us : Z) (s : matrix R C T FW TR) : matrix R C T FW TR :=
    Matrix (x_map s) (x_heap s) (x_next s) (x_fwd s) (x_tr s) (<[k := us]> (x_lm s)).
  Definition x_erase_lm {FW TR} (k : key) (s : matrix R C T FW TR) : matrix R C T FW TR :=
    Matrix (x_map s) (x_heap s) (x_next s) (x_fwd s) (x_tr s) (delete k (x_lm s)).

  (** one_to_one.h 276-279. *)
  Definition o2o_do_erase (us : Z) (k : key) (s : o2o) : o2o :=
    o2o_do_erase_no_lm k (x_set_lm k us s).

  Inductive o2o_op := OAdd (o : T) | OErase (k : key) | OEraseRow (r : R) | OEraseCol (c : C).

  (** The tail of Add, one_to_one.h 132-143.  [lm_cit] was looked up before the
      conflicts are erased; erasing them only assigns to existing slots of
      other keys, so the iterator still designates the slot of [key]. *)
  Definition o2o_add_tail (clk : nat -> Z) (n : nat) (o : T) (k : key) (s : o2o)
    (log : logged key T Empty_set) : option (logged key T Empty_set * o2o * nat) :=
    let now := clk n in
    match x_lm s !! k with
    | Some previous_timestamp =>
        Some (log ++ [(Updated now o, EraseTs k previous_timestamp)],
              o2o_do_update now k o s, S n)
    | None =>
        Some (log ++ [(Updated now o, EraseAll k)], o2o_do_update now k o s, S n)
    end.

  (** one_to_one.h 73-144. *)
  Definition o2o_add (clk : nat -> Z) (n : nat) (o : T) (s : o2o)
    : option (logged key T Empty_set * o2o * nat) :=
    let now := clk n in
    let row := get_row o in
    let col := get_col o in
    let k := (row, col) in
    match x_map s !! k with
    | Some p =>
        previous_object ← x_heap s !! p;
        previous_timestamp ← x_lm s !! k;
        Some ([(Updated now o, Restore k previous_object previous_timestamp)],
              o2o_do_update now k o s, S n)
    | None =>
        match x_fwd s !! row, x_tr s !! col with
        | Some pr, Some pc =>
            same_row ← x_heap s !! pr;
            same_col ← x_heap s !! pc;
            let key_same_row := (row, get_col same_row) in
            timestamp_same_row ← x_lm s !! key_same_row;
            let key_same_col := (get_row same_col, col) in
            timestamp_same_col ← x_lm s !! key_same_col;
            let s1 := o2o_do_erase now key_same_row s in
            let now1 := clk (S n) in
            (* the DELETE event reads the second object again, line 110 *)
            same_col' ← x_heap s1 !! pc;
            let s2 := o2o_do_erase now1 key_same_col s1 in
            o2o_add_tail clk (S (S n)) o k s2
              [(Deleted now (key_of same_row), Restore key_same_row same_row timestamp_same_row);
               (Deleted now1 (key_of same_col'), Restore key_same_col same_col' timestamp_same_col)]
        | None, None => o2o_add_tail clk n o k s []
        | fr, fc =>
            let p := match fr with Some p => p | None => default 0 fc end in
            conflicting ← x_heap s !! p;
            let ck := key_of conflicting in
            conflicting_timestamp ← x_lm s !! ck;
            o2o_add_tail clk (S n) o k (o2o_do_erase now ck s)
              [(Deleted now (key_of conflicting), Restore ck conflicting conflicting_timestamp)]
        end
    end.

  (** one_to_one.h 147-160. *)
  Definition o2o_erase (clk : nat -> Z) (n : nat) (k : key) (s : o2o)
    : option (logged key T Empty_set * o2o * nat) :=
    let now := clk n in
    match x_map s !! k with
    | Some p =>
        previous_object ← x_heap s !! p;
        previous_timestamp ← x_lm s !! k;
        Some ([(Deleted now (key_of previous_object), Restore k previous_object previous_timestamp)],
              o2o_do_erase now k s, S n)
    | None => Some ([], s, S n)
    end.

  (** one_to_one.h 163-177. *)
  Definition o2o_erase_row (clk : nat -> Z) (n : nat) (row : R) (s : o2o)
    : option (logged key T Empty_set * o2o * nat) :=
    let now := clk n in
    match x_fwd s !! row with
    | Some p =>
        previous_object ← x_heap s !! p;
        let k := (row, get_col previous_object) in
        previous_timestamp ← x_lm s !! k;
        Some ([(Deleted now (key_of previous_object), Restore k previous_object previous_timestamp)],
              o2o_do_erase now k s, S n)
    | None => Some ([], s, S n)
    end.

  (** one_to_one.h 179-193. *)
  Definition o2o_erase_col (clk : nat -> Z) (n : nat) (col : C) (s : o2o)
    : option (logged key T Empty_set * o2o * nat) :=
    let now := clk n in
    match x_tr s !! col with
    | Some p =>
        previous_object ← x_heap s !! p;
        let k := (get_row previous_object, col) in
        previous_timestamp ← x_lm s !! k;
        Some ([(Deleted now (key_of previous_object), Restore k previous_object previous_timestamp)],
              o2o_do_erase now k s, S n)
    | None => Some ([], s, S n)
    end.

  Definition o2o_step (clk : nat -> Z) (n : nat) (op : o2o_op) (s : o2o) :=
    match op with
    | OAdd o => o2o_add clk n o s
    | OErase k => o2o_erase clk n k s
    | OEraseRow r => o2o_erase_row clk n r s
    | OEraseCol c => o2o_erase_col clk n c s
    end.

  (** Replay, one_to_one.h 242-247. *)
  Definition o2o_apply (e : ev) (s : o2o) : o2o :=
    match e with
    | Updated us o => o2o_do_update us (key_of o) o s
    | Deleted us k => o2o_do_erase us k s
    | Patched _ _ p => match p with end
    end.

  (** one_to_one.h 85-87, 104-107, 110-113, 123-127, 134-135, 137-140, 155-157. *)
  Definition o2o_undo (u : undo key T) (s : o2o) : o2o :=
    match u with
    | Restore k o ts => o2o_do_update ts k o s
    | EraseTs k ts => o2o_do_erase ts k s
    | EraseAll k => o2o_do_erase_no_lm k (x_erase_lm k s)
    end.

  (** API shared by the three: Size, Empty, operator[], LastModified
      (one_to_one.h 68-69, 195-202, 223-230; one_to_many.h 70-74, 156-163,
      176-183; many_to_many.h 71-75, 123-130, 135-142); iteration over [map_]. *)
  Definition x_size {FW TR} (s : matrix R C T FW TR) : nat := size (x_map s).
  Definition x_get {FW TR} (s : matrix R C T FW TR) (k : key) : read (option T) :=
    read_ptr (x_heap s) (x_map s !! k).
  Definition x_has {FW TR} (s : matrix R C T FW TR) (k : key) : bool :=
    match x_map s !! k with Some _ => true | None => false end.
  Definition x_last_modified {FW TR} (s : matrix R C T FW TR) (k : key) : option Z :=
    x_lm s !! k.
  (** A view is what iterating yields: keys with the objects their pointers
      refer to ([None] for a dangling one). *)
  Definition x_elements {FW TR} (s : matrix R C T FW TR) : gmap key (option T) :=
    (λ i, x_heap s !! i) <$> x_map s.
  Definition flat_view {A} `{Countable A} (h : gmap nat T) (f : gmap A nat) : gmap A (option T) :=
    (λ i, h !! i) <$> f.
  Definition nest_view {A B} `{Countable A} `{Countable B} (h : gmap nat T)
    (f : gmap A (gmap B nat)) : gmap A (gmap B (option T)) :=
    flat_view h <$> f.

  (** one_to_one.h 206-221: GetEntryFromRow, GetEntryFromCol;
      DoesNotConflict 235-237; Rows() and Cols() 249-253. *)
  Definition o2o_from_row (s : o2o) (r : R) : read (option T) := read_ptr (x_heap s) (x_fwd s !! r).
  Definition o2o_from_col (s : o2o) (c : C) : read (option T) := read_ptr (x_heap s) (x_tr s !! c).
  Definition o2o_does_not_conflict (s : o2o) (k : key) : bool :=
    match x_fwd s !! k.1, x_tr s !! k.2 with None, None => true | _, _ => false end.
  Definition o2o_rows (s : o2o) : gmap R (option T) := flat_view (x_heap s) (x_fwd s).
  Definition o2o_cols (s : o2o) : gmap C (option T) := flat_view (x_heap s) (x_tr s).

  (** ** GenericOneToMany, container/one_to_many.h 40-291 *)
  Definition o2m := matrix R C T (gmap R (gmap C nat)) (gmap C nat).
  Definition o2m_init : o2m := Matrix ∅ ∅ 0 ∅ ∅ ∅.

  (** one_to_many.h 262-268. *)
  Definition o2m_do_update (us : Z) (k : key) (o : T) (s : o2m) : o2m :=
    let p := x_next s in
    Matrix (<[k := p]> (x_map s)) (heap_replace (x_map s !! k) p o (x_heap s)) (S p)
           (nest_set k.1 k.2 p (x_fwd s)) (flat_set k.2 p (x_tr s)) (<[k := us]> (x_lm s)).

  (** one_to_many.h 270-278. *)
  Definition o2m_do_erase_no_lm (k : key) (s : o2m) : o2m :=
    Matrix (delete k (x_map s)) (heap_free (x_map s !! k) (x_heap s)) (x_next s)
           (nest_erase k.1 k.2 (x_fwd s)) (flat_erase k.2 (x_tr s)) (x_lm s).

  (** one_to_many.h 280-283. *)
  Definition o2m_do_erase (us : Z) (k : key) (s : o2m) : o2m :=
    o2m_do_erase_no_lm k (x_set_lm k us s).

  Inductive o2m_op := MAdd (o : T) | MErase (k : key) | MEraseCol (c : C).

  (** one_to_many.h 109-120. *)
  Definition o2m_add_tail (clk : nat -> Z) (n : nat) (o : T) (k : key) (s : o2m)
    (log : logged key T Empty_set) : option (logged key T Empty_set * o2m * nat) :=
    let now := clk n in
    match x_lm s !! k with
    | Some previous_timestamp =>
        Some (log ++ [(Updated now o, EraseTs k previous_timestamp)],
              o2m_do_update now k o s, S n)
    | None =>
        Some (log ++ [(Updated now o, EraseAll k)], o2m_do_update now k o s, S n)
    end.

  (** one_to_many.h 78-121. *)
  Definition o2m_add (clk : nat -> Z) (n : nat) (o : T) (s : o2m)
    : option (logged key T Empty_set * o2m * nat) :=
    let now := clk n in
    let row := get_row o in
    let col := get_col o in
    let k := (row, col) in
    match x_map s !! k with
    | Some p =>
        previous_object ← x_heap s !! p;
        previous_timestamp ← x_lm s !! k;
        Some ([(Updated now o, Restore k previous_object previous_timestamp)],
              o2m_do_update now k o s, S n)
    | None =>
        match x_tr s !! col with
        | Some p =>
            conflicting ← x_heap s !! p;
            let ck := (get_row conflicting, col) in
            conflicting_timestamp ← x_lm s !! ck;
            o2m_add_tail clk (S n) o k (o2m_do_erase now ck s)
              [(Deleted now (key_of conflicting), Restore ck conflicting conflicting_timestamp)]
        | None => o2m_add_tail clk n o k s []
        end
    end.

  (** one_to_many.h 124-137. *)
  Definition o2m_erase (clk : nat -> Z) (n : nat) (k : key) (s : o2m)
    : option (logged key T Empty_set * o2m * nat) :=
    let now := clk n in
    match x_map s !! k with
    | Some p =>
        previous_object ← x_heap s !! p;
        previous_timestamp ← x_lm s !! k;
        Some ([(Deleted now (key_of previous_object), Restore k previous_object previous_timestamp)],
              o2m_do_erase now k s, S n)
    | None => Some ([], s, S n)
    end.

  (** one_to_many.h 140-154. *)
  Definition o2m_erase_col (clk : nat -> Z) (n : nat) (col : C) (s : o2m)
    : option (logged key T Empty_set * o2m * nat) :=
    let now := clk n in
    match x_tr s !! col with
    | Some p =>
        previous_object ← x_heap s !! p;
        let k := (get_row previous_object, col) in
        previous_timestamp ← x_lm s !! k;
        Some ([(Deleted now (key_of previous_object), Restore k previous_object previous_timestamp)],
              o2m_do_erase now k s, S n)
    | None => Some ([], s, S n)
    end.

  Definition o2m_step (clk : nat -> Z) (n : nat) (op : o2m_op) (s : o2m) :=
    match op with
    | MAdd o => o2m_add clk n o s
    | MErase k => o2m_erase clk n k s
    | MEraseCol c => o2m_erase_col clk n c s
    end.

  (** one_to_many.h 193-198. *)
  Definition o2m_apply (e : ev) (s : o2m) : o2m :=
    match e with
    | Updated us o => o2m_do_update us (key_of o) o s
    | Deleted us k => o2m_do_erase us k s
    | Patched _ _ p => match p with end
    end.

  (** one_to_many.h 90-92, 101-105, 111-117, 132-134, 149-151. *)
  Definition o2m_undo (u : undo key T) (s : o2m) : o2m :=
    match u with
    | Restore k o ts => o2m_do_update ts k o s
    | EraseTs k ts => o2m_do_erase ts k s
    | EraseAll k => o2m_do_erase_no_lm k (x_erase_lm k s)
    end.

  (** one_to_many.h 167-174 GetEntryFromCol, 188 DoesNotConflict, Rows(),
      Cols(), Row(row) 243-253. *)
  Definition o2m_from_col (s : o2m) (c : C) : read (option T) := read_ptr (x_heap s) (x_tr s !! c).
  Definition o2m_does_not_conflict (s : o2m) (k : key) : bool :=
    match x_tr s !! k.2 with None => true | Some _ => false end.
  Definition o2m_rows (s : o2m) : gmap R (gmap C (option T)) := nest_view (x_heap s) (x_fwd s).
  Definition o2m_cols (s : o2m) : gmap C (option T) := flat_view (x_heap s) (x_tr s).
  Definition o2m_row (s : o2m) (r : R) : gmap C (option T) :=
    flat_view (x_heap s) (default ∅ (x_fwd s !! r)).

  (** ** GenericManyToMany, container/many_to_many.h 40-254 *)
  Definition m2m := matrix R C T (gmap R (gmap C nat)) (gmap C (gmap R nat)).
  Definition m2m_init : m2m := Matrix ∅ ∅ 0 ∅ ∅ ∅.

  (** many_to_many.h 221-227. *)
  Definition m2m_do_update (us : Z) (k : key) (o : T) (s : m2m) : m2m :=
    let p := x_next s in
    Matrix (<[k := p]> (x_map s)) (heap_replace (x_map s !! k) p o (x_heap s)) (S p)
           (nest_set k.1 k.2 p (x_fwd s)) (nest_set k.2 k.1 p (x_tr s)) (<[k := us]> (x_lm s)).

  (** many_to_many.h 229-241. *)
  Definition m2m_do_erase_no_lm (k : key) (s : m2m) : m2m :=
    Matrix (delete k (x_map s)) (heap_free (x_map s !! k) (x_heap s)) (x_next s)
           (nest_erase k.1 k.2 (x_fwd s)) (nest_erase k.2 k.1 (x_tr s)) (x_lm s).

  (** many_to_many.h 243-246. *)
  Definition m2m_do_erase (us : Z) (k : key) (s : m2m) : m2m :=
    m2m_do_erase_no_lm k (x_set_lm k us s).

  Inductive m2m_op := NAdd (o : T) | NErase (k : key).

  (** many_to_many.h 77-104. *)
  Definition m2m_add (clk : nat -> Z) (n : nat) (o : T) (s : m2m)
    : option (logged key T Empty_set * m2m * nat) :=
    let now := clk n in
    let k := (get_row o, get_col o) in
    match x_map s !! k with
    | Some p =>
        previous_object ← x_heap s !! p;
        previous_timestamp ← x_lm s !! k;
        Some ([(Updated now o, Restore k previous_object previous_timestamp)],
              m2m_do_update now k o s, S n)
    | None =>
        match x_lm s !! k with
        | Some previous_timestamp =>
            Some ([(Updated now o, EraseTs k previous_timestamp)], m2m_do_update now k o s, S n)
        | None =>
            Some ([(Updated now o, EraseAll k)], m2m_do_update now k o s, S n)
        end
    end.

  (** many_to_many.h 107-120. *)
  Definition m2m_erase (clk : nat -> Z) (n : nat) (k : key) (s : m2m)
    : option (logged key T Empty_set * m2m * nat) :=
    let now := clk n in
    match x_map s !! k with
    | Some p =>
        previous_object ← x_heap s !! p;
        previous_timestamp ← x_lm s !! k;
        Some ([(Deleted now (key_of previous_object), Restore k previous_object previous_timestamp)],
              m2m_do_erase now k s, S n)
    | None => Some ([], s, S n)
    end.

  Definition m2m_step (clk : nat -> Z) (n : nat) (op : m2m_op) (s : m2m) :=
    match op with NAdd o => m2m_add clk n o s | NErase k => m2m_erase clk n k s end.

  (** many_to_many.h 147-152. *)
  Definition m2m_apply (e : ev) (s : m2m) : m2m :=
    match e with
    | Updated us o => m2m_do_update us (key_of o) o s
    | Deleted us k => m2m_do_erase us k s
    | Patched _ _ p => match p with end
    end.

  (** many_to_many.h 88-90, 94-100, 115-117. *)
  Definition m2m_undo (u : undo key T) (s : m2m) : m2m :=
    match u with
    | Restore k o ts => m2m_do_update ts k o s
    | EraseTs k ts => m2m_do_erase ts k s
    | EraseAll k => m2m_do_erase_no_lm k (x_erase_lm k s)
    end.

  (** many_to_many.h 196-212: Rows(), Cols(), Row(), Col(). *)
  Definition m2m_rows (s : m2m) : gmap R (gmap C (option T)) := nest_view (x_heap s) (x_fwd s).
  Definition m2m_cols (s : m2m) : gmap C (gmap R (option T)) := nest_view (x_heap s) (x_tr s).
  Definition m2m_row (s : m2m) (r : R) : gmap C (option T) :=
    flat_view (x_heap s) (default ∅ (x_fwd s !! r)).
  Definition m2m_col (s : m2m) (c : C) : gmap R (option T) :=
    flat_view (x_heap s) (default ∅ (x_tr s !! c)).
End Matrix.
Arguments o2o R C T {_ _ _ _}. Arguments o2m R C T {_ _ _ _}. Arguments m2m R C T {_ _ _ _}.
Arguments o2o_op R C T : clear implicits. Arguments o2m_op R C T : clear implicits.
Arguments m2m_op R C T : clear implicits.

(** A sequence of operations on one container, collecting what is journalled. *)
Fixpoint run_ops {OP S L} (step : nat -> OP -> S -> option (list L * S * nat))
  (n : nat) (ops : list OP) (s : S) : option (list L * S * nat) :=
  match ops with
  | [] => Some ([], s, n)
  | op :: rest =>
      match step n op s with
      | None => None
      | Some (l, s', n') =>
          match run_ops step n' rest s' with
          | None => None
          | Some (l', s'', n'') => Some (l ++ l', s'', n'')
          end
      end
  end.
