(** Vocabulary for C66. *)
From stdpp Require Import gmap strings.
From Coq Require Import ZArith.
From Verif Require Base Codec Persister_Model FilePersister_Model FilePersister_Spec.
From Verif Require Import StorageContainers_Model StorageTxn_Model StorageTxn_Spec StorageFile_Model.

(** No strict prefix of the JSON of an entry is itself the JSON of an entry (true of JSON objects). *)
Definition prefixes_do_not_parse {E} (C : Persister_Model.codec E) : Prop :=
  ∀ e a b, b ≠ [] → Persister_Model.ser C e = a ++ b → Persister_Model.de C a = None.

Section Spec.
  Context {I : Type} `{EqDecision I} (F : I -> field).
  Context (C : Persister_Model.codec (option (transaction F))) (sig : list N) (clk : nat -> Z).

  (** Histories that start with no file, restarts included. *)
  Definition process_reachable (p : process F) : Prop :=
    ∃ pos evs p0, start F C sig [] pos = Some p0 ∧ frun F C sig clk evs p0 = Some p.

  (** What a storage opened as master by process [p] shows. *)
  Definition opened (p : process F) : ∀ i, f_st (F i) := s_fields F (open_master F (y_stream F (pr_system F p))).

  Definition file_of (p : process F) : list N := FilePersister_Model.fp_file (pr_file F p).
End Spec.
