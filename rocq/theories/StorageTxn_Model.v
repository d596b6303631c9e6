(** Model of storage transactions: [storage/base.h] (MutationJournal),
    [storage/transaction_policy.h] (Synchronous), [storage/persister/stream.h]
    (StreamStreamPersisterImpl) and [storage/storage.h] (StorageImpl).

    Modelling decisions (SIMPL = simplification):
    - a storage has a family of fields indexed by [I]; each field is one of the
      containers of StorageContainers_Model.v with arbitrary key/object types;
    - user code is an arbitrary deterministic program [prog]: a tree of container
      operations, reads of everything the container API shows, clock readings,
      meta-field updates, ending in [return] or [throw];
    - transactions run under the publishing mutex of the stream
      (storage.h 389, 400, 410, 418), hence are atomic steps;
    - [current::time::Now()] is an oracle [clk] read at successive positions;
    - the stream is the list of its entries with their timestamps, and its head;
      [None] is an entry that is not a transaction (STREAM_RECORD_TYPE);
    - [Publish] throws InconsistentTimestampException when the timestamp is not
      after the head (blocks/persistence; see Persister_Model.v).
    - SIMPL: only failures of [Publish] due to timestamps are modelled. *)
From stdpp Require Import gmap strings.
From Coq Require Import ZArith.
From Verif Require Import StorageContainers_Model.

(** A dependent function update. *)
Definition supd {I : Type} `{EqDecision I} {X : I -> Type} (i : I) (x : X i)
  (f : ∀ j, X j) : ∀ j, X j :=
  λ j, match decide (i = j) with
       | left E => eq_rect i X x j E
       | right _ => f j
       end.

(** The interface of one storage field towards the journal and the replay. *)
Record field := Field {
  f_st : Type;    (* the container *)
  f_op : Type;    (* mutating API calls *)
  f_ev : Type;    (* mutations, storage.h 74-236 *)
  f_rb : Type;    (* rollback closures *)
  f_obs : Type;   (* everything the API shows *)
  f_init : f_st;
  f_step : (nat -> Z) -> nat -> f_op -> f_st -> option (list (f_ev * f_rb) * f_st * nat);
  f_apply : f_ev -> f_st -> f_st;
  f_undo : f_rb -> f_st -> f_st;
  f_show : f_st -> f_obs
}.

(** storage.h 74-288, the CURRENT_STORAGE_FIELD_ENTRY_... macros: the containers a field may be. *)
Inductive field_spec : Type :=
| FDictionary {K T P : Type} `{Countable K} (get_key : T -> K) (patch_with : P -> T -> T)
| FOneToOne {R C T : Type} `{Countable R} `{Countable C} (get_row : T -> R) (get_col : T -> C)
| FOneToMany {R C T : Type} `{Countable R} `{Countable C} (get_row : T -> R) (get_col : T -> C)
| FManyToMany {R C T : Type} `{Countable R} `{Countable C} (get_row : T -> R) (get_col : T -> C).

(** The API shows: the elements, the rows, the columns (each with the objects
    found behind the stored pointers) and the last-modified times. *)
Definition to_field (f : field_spec) : field :=
  match f with
  | @FDictionary K T P _ _ get_key patch_with =>
      Field (dict K T) (dict_op K T P) (mutation K T P) (undo K T) (gmap K T * gmap K Z)
            dict_init (dict_step get_key patch_with) (dict_apply get_key patch_with) dict_undo
            (λ s, (d_map s, d_lm s))
  | @FOneToOne R C T _ _ _ _ get_row get_col =>
      Field (o2o R C T) (o2o_op R C T) (mutation (R * C) T Empty_set) (undo (R * C) T)
            (gmap (R * C) (option T) * gmap R (option T) * gmap C (option T) * gmap (R * C) Z)
            o2o_init (o2o_step get_row get_col) (o2o_apply get_row get_col) o2o_undo
            (λ s, (x_elements s, o2o_rows s, o2o_cols s, x_lm s))
  | @FOneToMany R C T _ _ _ _ get_row get_col =>
      Field (o2m R C T) (o2m_op R C T) (mutation (R * C) T Empty_set) (undo (R * C) T)
            (gmap (R * C) (option T) * gmap R (gmap C (option T)) * gmap C (option T) * gmap (R * C) Z)
            o2m_init (o2m_step get_row get_col) (o2m_apply get_row get_col) o2m_undo
            (λ s, (x_elements s, o2m_rows s, o2m_cols s, x_lm s))
  | @FManyToMany R C T _ _ _ _ get_row get_col =>
      Field (m2m R C T) (m2m_op R C T) (mutation (R * C) T Empty_set) (undo (R * C) T)
            (gmap (R * C) (option T) * gmap R (gmap C (option T)) * gmap C (gmap R (option T)) * gmap (R * C) Z)
            m2m_init (m2m_step get_row get_col) (m2m_apply get_row get_col) m2m_undo
            (λ s, (x_elements s, m2m_rows s, m2m_cols s, x_lm s))
  end.

(** What user code may throw out of a transaction returning [A]
    (exceptions.h 44-65): a rollback with a value of the result type, a rollback
    with no value, anything else (a rollback with a value of another type
    included). *)
Inductive exn (A : Type) := RollbackWithValue (a : A) | RollbackWithNoValue | OtherException (what : nat).
Arguments RollbackWithValue {A}. Arguments RollbackWithNoValue {A}. Arguments OtherException {A}.

(** transaction_result.h, future.h: what the caller gets from the future.
    [Shutdown] is StorageInGracefulShutdownException. *)
Inductive result (A : Type) :=
| Committed (a : A)
| RolledBack (a : option A)
| ExceptionSet (e : exn A)
| Shutdown.
Arguments Committed {A}. Arguments RolledBack {A}. Arguments ExceptionSet {A}. Arguments Shutdown {A}.

(** What the future of a two-step transaction holds ([TransactionResult<void>]),
    and the values [f2] was called with. *)
Inductive result2 (A : Type) := Committed2 | RolledBack2 | Exception2 (e : exn A) | Shutdown2.
Arguments Committed2 {A}. Arguments RolledBack2 {A}. Arguments Exception2 {A}. Arguments Shutdown2 {A}.

Section Storage.
  Context {I : Type} `{EqDecision I} (F : I -> field).

  Notation fields := (∀ i, f_st (F i)).
  Notation view := (∀ i, f_obs (F i)).

  Definition show (fs : fields) : view := λ i, f_show (F i) (fs i).
  Definition init_fields : fields := λ i, f_init (F i).

  (** A persisted mutation: the [Variant] of base.h 178-191; a rollback closure. *)
  Definition sev := sigT (λ i, f_ev (F i)).
  Definition srb := sigT (λ i, f_rb (F i)).

  (** [entry.Call(fields_)], storage.h 343, 350; running one rollback closure. *)
  Definition sapply (e : sev) (fs : fields) : fields :=
    supd (projT1 e) (f_apply (F (projT1 e)) (projT2 e) (fs (projT1 e))) fs.
  Definition sundo (u : srb) (fs : fields) : fields :=
    supd (projT1 u) (f_undo (F (projT1 u)) (projT2 u) (fs (projT1 u))) fs.
  Definition sapply_all (es : list sev) (fs : fields) : fields :=
    fold_left (λ fs e, sapply e fs) es fs.

  (** storage/transaction.h 36-60, TransactionMeta and Transaction. *)
  Record meta := Meta { begin_us : Z; end_us : Z; meta_fields : gmap string string }.
  Record transaction := Transaction { t_meta : meta; t_mutations : list sev }.

  (** base.h 193-197. *)
  Record journal := Journal { j_meta : meta; j_commit : list sev; j_rollback : list srb }.

  (** base.h 215-221, Clear. *)
  Definition journal_clear (j : journal) : journal := Journal (Meta 0 0 ∅) [] [].

  (** base.h 199-203, LogMutation, for all the mutations one operation logs. *)
  Definition log_mutations (i : I) (l : list (f_ev (F i) * f_rb (F i))) (j : journal) : journal :=
    Journal (j_meta j)
            (j_commit j ++ map (λ p, existT i p.1) l)
            (j_rollback j ++ map (λ p, existT i p.2) l).

  (** base.h 204, 206. *)
  Definition before_transaction (now : Z) (j : journal) : journal :=
    Journal (Meta now (end_us (j_meta j)) (meta_fields (j_meta j))) (j_commit j) (j_rollback j).
  Definition after_transaction (now : Z) (j : journal) : journal :=
    Journal (Meta (begin_us (j_meta j)) now (meta_fields (j_meta j))) (j_commit j) (j_rollback j).

  (** base.h 208-213, Rollback: the closures from the last to the first. *)
  Definition journal_rollback (j : journal) (fs : fields) : journal * fields :=
    (journal_clear j, fold_left (λ fs u, sundo u fs) (rev (j_rollback j)) fs).

  (** base.h 242-248, SetTransactionMetaField, EraseTransactionMetaField. *)
  Definition set_meta (k v : string) (j : journal) : journal :=
    Journal (Meta (begin_us (j_meta j)) (end_us (j_meta j)) (<[k := v]> (meta_fields (j_meta j))))
            (j_commit j) (j_rollback j).
  Definition erase_meta (k : string) (j : journal) : journal :=
    Journal (Meta (begin_us (j_meta j)) (end_us (j_meta j)) (delete k (meta_fields (j_meta j))))
            (j_commit j) (j_rollback j).

  (** User code of a read-write transaction. *)
  Inductive prog (A : Type) : Type :=
  | Return (a : A)
  | Throw (e : exn A)
  | Do (i : I) (op : f_op (F i)) (k : prog A)
  | Read (k : view -> prog A)
  | GetNow (k : Z -> prog A)
  | SetMeta (key value : string) (k : prog A)
  | EraseMeta (key : string) (k : prog A).
  Arguments Return {A}. Arguments Throw {A}. Arguments Do {A}. Arguments Read {A}.
  Arguments GetNow {A}. Arguments SetMeta {A}. Arguments EraseMeta {A}.

  (** User code of a read-only transaction, which gets [const FIELDS&]
      (storage.h 412, 420). *)
  Inductive ro_prog (A : Type) : Type :=
  | RoReturn (a : A)
  | RoThrow (e : exn A)
  | RoRead (k : view -> ro_prog A)
  | RoGetNow (k : Z -> ro_prog A).
  Arguments RoReturn {A}. Arguments RoThrow {A}. Arguments RoRead {A}. Arguments RoGetNow {A}.

  Section Clock.
  Context (clk : nat -> Z).

  (** Running user code on the live fields with the journal attached. [None] is
      undefined behaviour inside a container. *)
  Fixpoint run_prog {A} (p : prog A) (n : nat) (fs : fields) (j : journal)
    : option ((A + exn A) * nat * fields * journal) :=
    match p with
    | Return a => Some (inl a, n, fs, j)
    | Throw e => Some (inr e, n, fs, j)
    | Do i op k =>
        match f_step (F i) clk n op (fs i) with
        | None => None
        | Some (log, s', n') => run_prog k n' (supd i s' fs) (log_mutations i log j)
        end
    | Read k => run_prog (k (show fs)) n fs j
    | GetNow k => run_prog (k (clk n)) (S n) fs j
    | SetMeta key v k => run_prog k n fs (set_meta key v j)
    | EraseMeta key k => run_prog k n fs (erase_meta key j)
    end.

  Fixpoint run_ro {A} (p : ro_prog A) (n : nat) (fs : fields) : (A + exn A) * nat :=
    match p with
    | RoReturn a => (inl a, n)
    | RoThrow e => (inr e, n)
    | RoRead k => run_ro (k (show fs)) n fs
    | RoGetNow k => run_ro (k (clk n)) (S n) fs
    end.

  (** The stream under the storage. *)
  Record stream := Stream { st_log : list (Z * option transaction); st_head : Z }.
  Definition stream_empty : stream := Stream [] (-1).

  (** A storage: storage.h 308-312, stream.h 216-229, transaction_policy.h 308-310.
      [s_next] is [next_replay_index_] of the replaying subscriber. *)
  Record storage := Storage {
    s_fields : fields; s_journal : journal; s_destructing : bool;
    s_master : bool; s_next : nat; s_last_applied : Z }.

  (** What one call does: it returns (the future holds a [result]), lets an
      exception out, ends the process, or runs into undefined behaviour. *)
  Inductive outcome (B : Type) :=
  | Finished (b : B) (n : nat) (st : stream) (s : storage)
  | Propagates (n : nat) (st : stream) (s : storage)
  | Exited
  | Undefined.
  Arguments Finished {B}. Arguments Propagates {B}. Arguments Exited {B}. Arguments Undefined {B}.

  (** stream.h (persister) 120-139 and transaction_policy.h 290-304: [None] is
      [std::exit(-1)]. *)
  Definition persist_journal (n : nat) (st : stream) (s : storage)
    : option (nat * stream * storage) :=
    let timestamp := clk n in
    let j := s_journal s in
    match j_commit j with
    | [] => Some (S n, st, Storage (s_fields s) (journal_clear j) (s_destructing s) (s_master s)
                                   (s_next s) (s_last_applied s))
    | _ :: _ =>
        if decide (timestamp > st_head st)%Z then
          Some (S n,
                Stream (st_log st ++ [(timestamp, Some (Transaction (j_meta j) (j_commit j)))]) timestamp,
                Storage (s_fields s) (journal_clear j) (s_destructing s) (s_master s)
                        (s_next s) timestamp)
        else None
    end.

  Definition with_run (s : storage) (fs : fields) (j : journal) : storage :=
    Storage fs j (s_destructing s) (s_master s) (s_next s) (s_last_applied s).

  (** [journal_.Rollback()] on the storage. *)
  Definition rollback (s : storage) : storage :=
    let (j, fs) := journal_rollback (s_journal s) (s_fields s) in with_run s fs j.

  (** transaction_policy.h 63-102, read-write, non-void; the check of
      storage.h 388-393 (throws in a follower) comes first. *)
  Definition rw_transaction {A} (f : prog A) (n : nat) (st : stream) (s : storage) : outcome (result A) :=
    if s_master s then
      if s_destructing s then Finished Shutdown n st s
      else
        match run_prog f (S n) (s_fields s) (before_transaction (clk n) (s_journal s)) with
        | None => Undefined
        | Some (inl a, n', fs, j) =>
            match persist_journal (S n') st (with_run s fs (after_transaction (clk n') j)) with
            | None => Exited
            | Some (n'', st', s') => Finished (Committed a) n'' st' s'
            end
        | Some (inr e, n', fs, j) =>
            let s' := rollback (with_run s fs j) in
            match e with
            | RollbackWithValue v => Finished (RolledBack (Some v)) n' st s'
            | RollbackWithNoValue => Finished (RolledBack None) n' st s'
            | OtherException _ => Finished (ExceptionSet e) n' st s'
            end
        end
    else Propagates n st s.

  (** transaction_policy.h 141-177, read-write, void: a rollback with a value
      is not caught by the first handler. *)
  Definition rw_void_transaction (f : prog unit) (n : nat) (st : stream) (s : storage)
    : outcome (result unit) :=
    if s_master s then
      if s_destructing s then Finished Shutdown n st s
      else
        match run_prog f (S n) (s_fields s) (before_transaction (clk n) (s_journal s)) with
        | None => Undefined
        | Some (inl a, n', fs, j) =>
            match persist_journal (S n') st (with_run s fs (after_transaction (clk n') j)) with
            | None => Exited
            | Some (n'', st', s') => Finished (Committed tt) n'' st' s'
            end
        | Some (inr e, n', fs, j) =>
            let s' := rollback (with_run s fs j) in
            match e with
            | RollbackWithNoValue => Finished (RolledBack (Some tt)) n' st s'
            | RollbackWithValue _ | OtherException _ => Finished (ExceptionSet e) n' st s'
            end
        end
    else Propagates n st s.

  (** transaction_policy.h 105-137 and 180-209, read-only. *)
  Definition ro_transaction {A} (f : ro_prog A) (n : nat) (st : stream) (s : storage) : outcome (result A) :=
    if s_destructing s then Finished Shutdown n st s
    else
      let (r, n') := run_ro f n (s_fields s) in
      match r with
      | inl a => Finished (Committed a) n' st s
      | inr (RollbackWithValue v) => Finished (RolledBack (Some v)) n' st s
      | inr RollbackWithNoValue => Finished (RolledBack None) n' st s
      | inr e => Finished (ExceptionSet e) n' st s
      end.
  Definition ro_void_transaction (f : ro_prog unit) (n : nat) (st : stream) (s : storage)
    : outcome (result unit) :=
    if s_destructing s then Finished Shutdown n st s
    else
      let (r, n') := run_ro f n (s_fields s) in
      match r with
      | inl a => Finished (Committed tt) n' st s
      | inr RollbackWithNoValue => Finished (RolledBack (Some tt)) n' st s
      | inr e => Finished (ExceptionSet e) n' st s
      end.

  (** The second step of a two-step transaction: it gets the value by move and
      may throw; the first argument counts its calls within the transaction. *)
  Definition second_step (A : Type) := nat -> A -> option (exn A).

  (** The three handlers of transaction_policy.h 228-249; [calls] are the calls
      of [f2] made so far. *)
  Definition two_step_handler {A} (f2 : second_step A) (e : exn A) (calls : list A)
    (n : nat) (st : stream) (s : storage) : outcome (result2 A * list A) :=
    let s' := rollback s in
    match e with
    | RollbackWithValue v =>
        match f2 (length calls) v with
        | None => Finished (RolledBack2, calls ++ [v]) n st s'
        | Some _ => Propagates n st s'
        end
    | RollbackWithNoValue => Finished (RolledBack2, calls) n st s'
    | OtherException _ => Finished (Exception2 e, calls) n st s'
    end.

  (** transaction_policy.h 213-251, read-write, two-step. *)
  Definition rw_two_step {A} (f1 : prog A) (f2 : second_step A) (n : nat) (st : stream) (s : storage)
    : outcome (result2 A * list A) :=
    if s_master s then
      if s_destructing s then Finished (Shutdown2, []) n st s
      else
        match run_prog f1 (S n) (s_fields s) (before_transaction (clk n) (s_journal s)) with
        | None => Undefined
        | Some (inl a, n', fs, j) =>
            match persist_journal (S n') st (with_run s fs (after_transaction (clk n') j)) with
            | None => Exited
            | Some (n'', st', s') =>
                match f2 0 a with
                | None => Finished (Committed2, [a]) n'' st' s'
                | Some e => two_step_handler f2 e [a] n'' st' s'
                end
            end
        | Some (inr e, n', fs, j) => two_step_handler f2 e [] n' st (with_run s fs j)
        end
    else Propagates n st s.

  (** transaction_policy.h 255-285, read-only, two-step. *)
  Definition ro_two_step {A} (f1 : ro_prog A) (f2 : second_step A) (n : nat) (st : stream) (s : storage)
    : outcome (result2 A * list A) :=
    if s_destructing s then Finished (Shutdown2, []) n st s
    else
      let handler e calls n' :=
        match e with
        | RollbackWithValue v =>
            match f2 (length calls) v with
            | None => Finished (RolledBack2, calls ++ [v]) n' st s
            | Some _ => Propagates n' st s
            end
        | RollbackWithNoValue => Finished (RolledBack2, calls) n' st s
        | OtherException _ => Finished (Exception2 e, calls) n' st s
        end in
      match run_ro f1 n (s_fields s) with
      | (inl a, n') =>
          match f2 0 a with
          | None => Finished (Committed2, [a]) n' st s
          | Some e => handler e [a] n'
          end
      | (inr e, n') => handler e [] n'
      end.

  (** stream.h (persister) 191-197. *)
  Definition apply_mutations (t : transaction) (us : Z) (s : storage) : storage :=
    Storage (sapply_all (t_mutations t) (s_fields s)) (s_journal s) (s_destructing s)
            (s_master s) (s_next s) us.

  (** stream.h (persister) 181-189: entries that are not transactions are skipped. *)
  Definition sync_replay (from_idx : nat) (st : stream) (s : storage) : storage :=
    fold_left (λ s e, match e.2 with Some t => apply_mutations t e.1 s | None => s end)
              (drop from_idx (st_log st)) s.

  Definition new_storage (master : bool) : storage :=
    Storage init_fields (Journal (Meta 0 0 ∅) [] []) false master 0 (-1).

  (** stream.h (persister) 76-88 and 90-101: the two constructors. *)
  Definition open_master (st : stream) : storage := sync_replay 0 st (new_storage true).
  Definition open_follower : storage := new_storage false.

  (** stream.h (persister) 60-64: the subscriber receives the entries of the
      stream in order (properties C10-C14), skipping those that are not
      transactions; one call handles the next transaction at or after
      [next_replay_index_]. *)
  Fixpoint next_transaction (l : list (Z * option transaction)) (k : nat) : option (nat * Z * transaction) :=
    match l with
    | [] => None
    | (us, Some t) :: _ => Some (k, us, t)
    | (_, None) :: rest => next_transaction rest (S k)
    end.
  Definition follower_step (st : stream) (s : storage) : option storage :=
    match next_transaction (drop (s_next s) (st_log st)) (s_next s) with
    | None => None
    | Some (index, us, t) =>
        let s' := apply_mutations t us s in
        Some (Storage (s_fields s') (s_journal s') (s_destructing s') (s_master s') (S index) (s_last_applied s'))
    end.

  (** stream.h (persister) 161-174. *)
  Definition become_master (st : stream) (s : storage) : storage :=
    let s' := sync_replay (s_next s) st s in
    Storage (s_fields s') (s_journal s') (s_destructing s') true (s_next s') (s_last_applied s').

  (** ** Histories: one stream, at most one master storage holding its publisher,
      and at most one following storage (followers do not interact). *)
  Record system := System {
    y_stream : stream; y_master : option storage; y_follower : option storage; y_pos : nat }.
  Definition system_init (pos : nat) : system := System stream_empty None None pos.

  Inductive event :=
  | RW {A : Type} (f : prog A)
  | RWVoid (f : prog unit)
  | RWTwoStep {A : Type} (f1 : prog A) (f2 : second_step A)
  | RO {A : Type} (f : ro_prog A)
  | ROVoid (f : ro_prog unit)
  | ROTwoStep {A : Type} (f1 : ro_prog A) (f2 : second_step A)
  | PublishOther        (* a record that is not a transaction, via PublisherUsed() *)
  | UpdateHead          (* via PublisherUsed() *)
  | GracefulShutdown    (* transaction_policy.h 287 *)
  | OpenMaster | CloseMaster | OpenFollower | CloseFollower
  | Replay              (* the follower handles one more transaction *)
  | FollowerRO {A : Type} (f : ro_prog A)
  | FollowerRW {A : Type} (f : prog A)
  | Flip.               (* FlipToMaster, once the previous master is gone *)

  (** The state after a call that did not end the process. *)
  Definition settle {B} (y : system) (o : outcome B) : option system :=
    match o with
    | Finished _ n st s | Propagates n st s => Some (System st (Some s) (y_follower y) n)
    | Exited | Undefined => None
    end.

  Definition on_master {B} (y : system) (call : nat -> stream -> storage -> outcome B) : option system :=
    match y_master y with
    | Some s => settle y (call (y_pos y) (y_stream y) s)
    | None => None
    end.

  (** [None]: the event does not apply, or the process ended. *)
  Definition step (ev : event) (y : system) : option system :=
    match ev with
    | RW f => on_master y (rw_transaction f)
    | RWVoid f => on_master y (rw_void_transaction f)
    | RWTwoStep f1 f2 => on_master y (rw_two_step f1 f2)
    | RO f => on_master y (ro_transaction f)
    | ROVoid f => on_master y (ro_void_transaction f)
    | ROTwoStep f1 f2 => on_master y (ro_two_step f1 f2)
    | PublishOther =>
        let us := clk (y_pos y) in
        let st := y_stream y in
        Some (System (if decide (us > st_head st)%Z then Stream (st_log st ++ [(us, None)]) us else st)
                     (y_master y) (y_follower y) (S (y_pos y)))
    | UpdateHead =>
        let us := clk (y_pos y) in
        let st := y_stream y in
        Some (System (if decide (us > st_head st)%Z then Stream (st_log st) us else st)
                     (y_master y) (y_follower y) (S (y_pos y)))
    | GracefulShutdown =>
        match y_master y with
        | Some s => Some (System (y_stream y)
                     (Some (Storage (s_fields s) (s_journal s) true (s_master s) (s_next s) (s_last_applied s)))
                     (y_follower y) (y_pos y))
        | None => None
        end
    | OpenMaster =>
        match y_master y with
        | Some _ => None
        | None => Some (System (y_stream y) (Some (open_master (y_stream y))) (y_follower y) (y_pos y))
        end
    | CloseMaster => Some (System (y_stream y) None (y_follower y) (y_pos y))
    | OpenFollower => Some (System (y_stream y) (y_master y) (Some open_follower) (y_pos y))
    | CloseFollower => Some (System (y_stream y) (y_master y) None (y_pos y))
    | Replay =>
        match y_follower y with
        | Some s =>
            match follower_step (y_stream y) s with
            | Some s' => Some (System (y_stream y) (y_master y) (Some s') (y_pos y))
            | None => None
            end
        | None => None
        end
    | FollowerRO f =>
        match y_follower y with
        | Some s =>
            match ro_transaction f (y_pos y) (y_stream y) s with
            | Finished _ n st s' | Propagates n st s' => Some (System st (y_master y) (Some s') n)
            | _ => None
            end
        | None => None
        end
    | FollowerRW f =>
        match y_follower y with
        | Some s =>
            match rw_transaction f (y_pos y) (y_stream y) s with
            | Finished _ n st s' | Propagates n st s' => Some (System st (y_master y) (Some s') n)
            | _ => None
            end
        | None => None
        end
    | Flip =>
        match y_master y, y_follower y with
        | None, Some s => Some (System (y_stream y) (Some (become_master (y_stream y) s)) None (y_pos y))
        | _, _ => None
        end
    end.

  Fixpoint run (evs : list event) (y : system) : option system :=
    match evs with
    | [] => Some y
    | ev :: rest => match step ev y with Some y' => run rest y' | None => None end
    end.
  End Clock.
End Storage.
