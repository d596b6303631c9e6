(** What "complete records" of a byte stream are, and what a genuine line of a stream is. *)
From Verif Require Import Base Persister_Model Replicator_Model.
Local Open Scope list_scope.

Definition EOL (b : byte) : Prop := b = 10%N \/ b = 13%N.        (* \n or \r *)

(** [Records s ls r]: the text [s] consists of the records [ls], each ended by a \n or a \r, with any number of those in between,
    and of the incomplete record [r] at its end. *)
Inductive Records : bytes -> list bytes -> bytes -> Prop :=
| Rec_end r : Forall (fun b => ~ EOL b) r -> Records r [] r
| Rec_skip b s ls r : EOL b -> Records s ls r -> Records (b :: s) ls r
| Rec_line l b s ls r : l <> [] -> Forall (fun b => ~ EOL b) l -> EOL b -> Records s ls r -> Records (l ++ b :: s) (l :: ls) r.

(** Handing records over one by one until one of them throws. *)
Fixpoint hand_over {S X} (pass : S -> bytes -> S * option X) (s : S) (ls : list bytes) : S * option X :=
  match ls with
  | [] => (s, None)
  | l :: ls => match pass s l with (s', Some x) => (s', Some x) | (s', None) => hand_over pass s' ls end
  end.

Section Lines.
Context {E : Type}.
Variable W : wire E.

(** The line of an entry, and of a head. *)
Definition entry_line (i : N) (t : Z) (e : E) : bytes := ser_idx (w_codec W) (i, t) ++ [TAB] ++ ser (w_codec W) e.
Definition head_line (t : Z) : bytes := ser_ts W t.

(** A line which a stream with these contents may send: one of its entries, or a time not after its head. *)
Definition genuine (m : mp E) (l : bytes) : Prop :=
  (exists i t e, nth_error (mp_entries m) (N.to_nat i) = Some (t, e) /\ l = entry_line i t e) \/ (exists t, (t <= mp_head m)%Z /\ (0 <= t)%Z /\ l = head_line t).
(** A line which is neither: its first field is not the JSON of an index and a timestamp, nor that of a timestamp. *)
Definition garbage (l : bytes) : Prop :=
  forall f, (exists rest, Strings_Model.split (Strings_Model.sep_char TAB) false l = f :: rest) \/ (exists q, cut_at TAB l = Some (f, q)) \/ (cut_at TAB l = None /\ f = l) ->
    par_tsopt W f = None /\ par_ts W f = None /\ par_idx (w_codec W) f = None.

(** What the theorems assume about the JSON codecs, all of it true of what [JSON()] prints and [ParseJSON()] accepts. *)
Record wire_ok : Prop := {
  wk_idx : forall it, (0 <= snd it)%Z -> par_idx (w_codec W) (ser_idx (w_codec W) it) = Some it;
  wk_tsopt : forall it, (0 <= snd it)%Z -> par_tsopt W (ser_idx (w_codec W) it) = Some (snd it, Some (fst it));
  wk_tsopt_head : forall t, (0 <= t)%Z -> par_tsopt W (ser_ts W t) = Some (t, None);
  wk_ts : forall t, (0 <= t)%Z -> par_ts W (ser_ts W t) = Some t;
  wk_ts_idx : forall it, (0 <= snd it)%Z -> par_ts W (ser_idx (w_codec W) it) = Some (snd it);   (* the index is skipped *)
  wk_de : forall e, de (w_codec W) (ser (w_codec W) e) = Some e;
  wk_plain : forall b, b = TAB \/ EOL b -> (forall it, ~ In b (ser_idx (w_codec W) it)) /\ (forall t, ~ In b (ser_ts W t)) /\ (forall e, ~ In b (ser (w_codec W) e));
  wk_nonempty : (forall it, ser_idx (w_codec W) it <> []) /\ (forall t, ser_ts W t <> []) /\ (forall e, ser (w_codec W) e <> []) }.
End Lines.

(** ** Replication: the master's own life, and what the follower receives of it. *)
Section Replication.
Context {E : Type}.
Variable W : wire E.
Variable checked : bool.

(** The master, the follower, and the bytes of the record it is in the middle of receiving. *)
Record rsys := { master : mp E; follower : rep E; pending : bytes }.

Inductive replication_step : rsys -> rsys -> Prop :=
| rs_master s o :                                                  (* anything the users of the master do *)
    replication_step s {| master := fst (mp_step (w_codec W) (master s) o); follower := follower s; pending := pending s |}
| rs_chunk s chunk ls r f c :                                      (* some bytes arrive, completing the records [ls] *)
    Records (pending s ++ chunk) ls r -> Forall (fun l => genuine W (master s) l \/ garbage W l) ls ->
    pass_chunk (pass_entry W checked) (pending s) (follower s) chunk = (f, c, None) ->
    replication_step s {| master := master s; follower := f; pending := c |}
| rs_chunk_throws s chunk ls r f c x :                             (* the same, with an exception: the connection is given up, 301-316 *)
    Records (pending s ++ chunk) ls r -> Forall (fun l => genuine W (master s) l \/ garbage W l) ls ->
    pass_chunk (pass_entry W checked) (pending s) (follower s) chunk = (f, c, Some x) ->
    replication_step s {| master := master s; follower := f; pending := [] |}
| rs_disconnect s :                                                (* the connection breaks, 309-316 *)
    replication_step s {| master := master s; follower := follower s; pending := [] |}.

Inductive replication (s : rsys) : rsys -> Prop :=
| rs_here : replication s s
| rs_then s' s'' : replication s s' -> replication_step s' s'' -> replication s s''.

(** A follower which is (so far) a replica of the master, about to subscribe from its own size on (replicator.h 585-590). *)
Definition replica (m f : mp E) : Prop := (exists k, mp_entries f = firstn k (mp_entries m)) /\ (mp_head f <= mp_head m)%Z.
Definition started (s : rsys) : Prop :=
  (exists ops, master s = fst (mp_run (w_codec W) mp_init ops)) /\ replica (master s) (r_store (follower s)) /\
  r_next (follower s) = mp_size (r_store (follower s)) /\ pending s = [].
End Replication.
