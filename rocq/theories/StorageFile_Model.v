(** A storage whose stream persists to a file: [StorageImpl] of storage/storage.h over
    [StreamStreamPersisterImpl] of storage/persister/stream.h over a stream with the file persister of
    blocks/persistence/file.h.  This composes StorageTxn_Model.v (transactions and replay over a stream
    held as a list of entries) with FilePersister_Model.v (the bytes of the file).

    Modelling decisions (SIMPL = simplification):
    - stream entries are [option transaction] ([None]: a record of another type), with any [codec];
    - the live stream and its persister agree at every step (properties C01-C06, C10): the process is
      modelled by the storage system over its stream together with the persister the same calls went to;
    - the process may be stopped at any point between events ([Restart]), or killed while it appends
      (the [restart] function on a prefix of the bytes);
    - a restarted process has the stream only, and opens storages by further events. *)
From stdpp Require Import gmap strings.
From Coq Require Import ZArith.
From Verif Require Base Persister_Model FilePersister_Model.
From Verif Require Import StorageContainers_Model StorageTxn_Model.

Section File.
  Context {I : Type} `{EqDecision I} (F : I -> field).
  Notation E := (option (transaction F)).
  Context (C : Persister_Model.codec E) (sig : list N) (clk : nat -> Z).

  (** The persister calls made while the stream went from [st] to [st']: stream.h (persister) 120-139
      publishes through [StreamPublisherImpl], stream/stream_impl.h 134-156; one call per new entry, and a
      head update when the head moved with no new entry. *)
  Definition calls (st st' : stream F) : list (Persister_Model.pop E) :=
    map (λ e, Persister_Model.Publish e.2 e.1) (drop (length (st_log F st)) (st_log F st')) ++
    (if decide (length (st_log F st) = length (st_log F st') ∧ st_head F st ≠ st_head F st')
     then [Persister_Model.UpdateHead (st_head F st')] else []).

  Record process := Process { pr_system : system F; pr_file : FilePersister_Model.fp }.

  (** stream.h (persister) 181-189: the constructor iterates over the whole stream, deserialising every
      entry (an exception if one does not parse: no storage then); blocks/persistence/file.h 612-640. *)
  Definition read_back (s : FilePersister_Model.fp) : option (stream F) :=
    match FilePersister_Model.fp_query C s (FilePersister_Model.QIterate 0 Base.npos) with
    | FilePersister_Model.AEntries (Base.Ok l) => Some (Stream F (map (λ x, (x.1.2, x.2)) l) (FilePersister_Model.fp_head s))
    | _ => None
    end.

  (** A new process on a given file: file.h 166-255.  [None]: the file does not open, or an entry of it
      cannot be read. *)
  Definition start (file : list N) (pos : nat) : option process :=
    match FilePersister_Model.fp_open C sig file with
    | Base.Ok s => match read_back s with
                   | Some st => Some (Process (System F st None None pos) s)
                   | None => None
                   end
    | _ => None
    end.

  Inductive fevent := Ev (ev : event F) | Restart.

  Definition fstep (ev : fevent) (p : process) : option process :=
    match ev with
    | Ev ev =>
        match step F clk ev (pr_system p) with
        | Some y' => Some (Process y' (fst (FilePersister_Model.fp_run C (pr_file p)
                                              (calls (y_stream F (pr_system p)) (y_stream F y')))))
        | None => None
        end
    | Restart => start (FilePersister_Model.fp_file (pr_file p)) (y_pos F (pr_system p))
    end.

  Fixpoint frun (evs : list fevent) (p : process) : option process :=
    match evs with
    | [] => Some p
    | ev :: rest => match fstep ev p with Some p' => frun rest p' | None => None end
    end.
End File.
