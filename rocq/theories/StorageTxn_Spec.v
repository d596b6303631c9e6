(** What a user expects of storage transactions. *)
From stdpp Require Import gmap strings.
From Coq Require Import ZArith.
From Verif Require Import StorageContainers_Model StorageTxn_Model.

(** A patch never changes the key of the object it patches. *)
Definition patches_keep_keys (f : field_spec) : Prop :=
  match f with
  | @FDictionary K T P _ _ get_key patch_with => ∀ p o, get_key (patch_with p o) = get_key o
  | _ => True
  end.

Section Spec.
  Context {I : Type} `{EqDecision I} (F : I -> field).
  Notation fields := (∀ i, f_st (F i)).

  (** Two storages show the same through the API: elements, rows, columns,
      last-modified times of every field. *)
  Definition same_view (fs gs : fields) : Prop := ∀ i, show F fs i = show F gs i.

  (** What user code does to the containers when it runs alone, with no journal:
      how it ends, the mutations in order, the meta fields set, the containers
      and the clock position left. *)
  Fixpoint alone_run {A} (clk : nat -> Z) (p : prog F A) (n : nat) (fs : fields) (mf : gmap string string)
    : option ((A + exn A) * list (sev F) * gmap string string * nat * fields) :=
    match p with
    | Return _ _ a => Some (inl a, [], mf, n, fs)
    | Throw _ _ e => Some (inr e, [], mf, n, fs)
    | Do _ _ i op k =>
        '(log, s', n1) ← f_step (F i) clk n op (fs i);
        '(r, ms, mf', n2, fs') ← alone_run clk k n1 (supd i s' fs) mf;
        Some (r, map (λ p, existT i p.1) log ++ ms, mf', n2, fs')
    | Read _ _ k => alone_run clk (k (show F fs)) n fs mf
    | GetNow _ _ k => alone_run clk (k (clk n)) (S n) fs mf
    | SetMeta _ _ key v k => alone_run clk k n fs (<[key := v]> mf)
    | EraseMeta _ _ key k => alone_run clk k n fs (delete key mf)
    end.

  (** The mutations held by a stream, in order. *)
  Definition mutations_in (log : list (Z * option (transaction F))) : list (sev F) :=
    flat_map (λ e, match e.2 with Some t => t_mutations F t | None => [] end) log.

  (** A storage rebuilt from a stream: an empty one, then every mutation. *)
  Definition rebuilt (log : list (Z * option (transaction F))) : fields :=
    sapply_all F (mutations_in log) (init_fields F).

  (** The timestamp of the last transaction in a stream. *)
  Definition last_transaction_us (log : list (Z * option (transaction F))) : Z :=
    fold_left (λ us e, match e.2 with Some _ => e.1 | None => us end) log (-1)%Z.

  Definition journal_is_empty (j : journal F) : Prop := j = Journal F (Meta 0 0 ∅) [] [].

  (** Histories that start with nothing at all. *)
  Definition reachable (clk : nat -> Z) (y : system F) : Prop :=
    ∃ pos evs, run F clk evs (system_init F pos) = Some y.
End Spec.
