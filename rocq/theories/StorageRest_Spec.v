(** What a user expects of the RESTful access to a storage, in terms of the table
    of resources a field is. *)
From stdpp Require Import gmap strings.
From Coq Require Import ZArith NArith.
From Verif Require Import StorageContainers_Model StorageTxn_Model StorageRest_Model.

(** Two keys of a field that cannot both hold an entry: none in a dictionary or a
    many-to-many matrix; a one-to-many matrix has one entry per column, a one-to-one
    matrix one entry per row and per column. *)
Definition competes (f : field_spec) : rkey f -> rkey f -> Prop :=
  match f with
  | @FDictionary K T P _ _ _ _ => λ _ _, False
  | @FOneToOne R C T _ _ _ _ _ _ => λ k k', k ≠ k' ∧ (k.1 = k'.1 ∨ k.2 = k'.2)
  | @FOneToMany R C T _ _ _ _ _ _ => λ k k', k ≠ k' ∧ k.2 = k'.2
  | @FManyToMany R C T _ _ _ _ _ _ => λ _ _, False
  end.

(** [get'] is the table [get] after storing [o]. *)
Definition stored (f : field_spec) (o : robj f) (get get' : rkey f -> option (robj f)) : Prop :=
  get' (rkey_of f o) = Some o ∧
  (∀ k, competes f k (rkey_of f o) → get' k = None) ∧
  (∀ k, k ≠ rkey_of f o → ¬ competes f k (rkey_of f o) → get' k = get k).

(** [get'] is the table [get] after removing the entry under [k]. *)
Definition removed (f : field_spec) (k : rkey f) (get get' : rkey f -> option (robj f)) : Prop :=
  get' k = None ∧ ∀ k', k' ≠ k → get' k' = get k'.

(** A resource exists and was modified after the time the client gave. *)
Definition stale {f : field_spec} (get : rkey f -> option (robj f)) (lm : rkey f -> option Z)
  (since : option Z) (k : rkey f) : Prop :=
  ∃ o t us, get k = Some o ∧ lm k = Some t ∧ since = Some us ∧ (us < t)%Z.

(** What a write asked for on a table must do. *)
Inductive verdict (f : field_spec) : Type :=
| Refuse (code : N)
| Store (o : robj f) (code : N)
| Remove (k : rkey f).
Arguments Refuse {f}. Arguments Store {f}. Arguments Remove {f}.

(** A write, once its text has been understood. *)
Inductive write (f : field_spec) : Type :=
| WPost (o : robj f) (overwrite : bool)
| WPut (since : option Z) (k : rkey f) (o : robj f)
| WPatch (since : option Z) (k : rkey f) (patch : robj f -> option (robj f))
| WDelete (since : option Z) (k : rkey f).
Arguments WPost {f}. Arguments WPut {f}. Arguments WPatch {f}. Arguments WDelete {f}.

Inductive expected {f : field_spec} (get : rkey f -> option (robj f)) (lm : rkey f -> option Z)
  : write f -> verdict f -> Prop :=
| exp_post_new o ow : get (rkey_of f o) = None → expected get lm (WPost o ow) (Store o 201)
| exp_post_overwrite o : expected get lm (WPost o true) (Store o 201)
| exp_post_conflict o o' : get (rkey_of f o) = Some o' → expected get lm (WPost o false) (Refuse 409)
| exp_put_wrong_key since k o : rkey_of f o ≠ k → expected get lm (WPut since k o) (Refuse 400)
| exp_put_stale since o : stale get lm since (rkey_of f o) →
    expected get lm (WPut since (rkey_of f o) o) (Refuse 412)
| exp_put_update since o o' : ¬ stale get lm since (rkey_of f o) → get (rkey_of f o) = Some o' →
    expected get lm (WPut since (rkey_of f o) o) (Store o 200)
| exp_put_create since o : get (rkey_of f o) = None →
    expected get lm (WPut since (rkey_of f o) o) (Store o 201)
| exp_patch_absent since k p : get k = None → expected get lm (WPatch since k p) (Refuse 404)
| exp_patch_stale since k p : stale get lm since k → expected get lm (WPatch since k p) (Refuse 412)
| exp_patch_bad since k p o : ¬ stale get lm since k → get k = Some o → p o = None →
    expected get lm (WPatch since k p) (Refuse 400)
| exp_patch_key since k p o o' : ¬ stale get lm since k → get k = Some o → p o = Some o' →
    rkey_of f o' ≠ k → expected get lm (WPatch since k p) (Refuse 400)
| exp_patch since p o o' : ¬ stale get lm since (rkey_of f o') → get (rkey_of f o') = Some o →
    p o = Some o' → expected get lm (WPatch since (rkey_of f o') p) (Store o' 200)
| exp_delete_stale since k : stale get lm since k → expected get lm (WDelete since k) (Refuse 412)
| exp_delete since k : ¬ stale get lm since k → expected get lm (WDelete since k) (Remove k).

(** The text of a request understood: [inl] is the code it is refused with. *)
Section Understood.
  Context {f : field_spec} (cfg : rest_cfg f) (dates : date_cfg).

  Definition since_of (q : request) : N + option Z :=
    match q_current_unmodified q, q_unmodified q with
    | Some h, _ => if decide (0 < read_i64 h)%Z then inr (Some (read_i64 h)) else inl 400%N
    | None, Some h => match d_parse dates h with Some us => inr (Some us) | None => inl 400%N end
    | None, None => inr None
    end.

  Definition understood (q : request) : N + write f :=
    match q_verb q with
    | POST =>
        match q_path_args q, c_parse_entry f cfg (q_body q), c_init_key f cfg with
        | [], Some o, Some init => inr (WPost (init o) (bool_decide (is_Some (q_query q !! "overwrite"%string))))
        | [], Some _, None => inl 405%N
        | _, _, _ => inl 400%N
        end
    | PUT =>
        match since_of q, url_key f q, c_parse_entry f cfg (q_body q) with
        | inr since, Some uk, Some o => inr (WPut since (c_parse_key f cfg uk) o)
        | _, _, _ => inl 400%N
        end
    | PATCH =>
        match since_of q, url_key f q with
        | inr since, Some uk => inr (WPatch since (c_parse_key f cfg uk) (c_patch f cfg (q_body q)))
        | _, _ => inl 400%N
        end
    | DELETE =>
        match since_of q, url_key f q with
        | inr since, Some uk => inr (WDelete since (c_parse_key f cfg uk))
        | _, _ => inl 400%N
        end
    | GET | OTHER_VERB => inl 405%N
    end.
End Understood.

(** Headers of a response about a resource last modified at [t]. *)
Definition dated (dates : date_cfg) (t : Z) : list (string * text) :=
  [("Last-Modified"%string, d_format dates t); ("X-Current-Last-Modified"%string, Dec.zdec t)].
