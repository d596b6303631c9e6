(** Model of the routing of blocks/http/impl/posix_server.h, with URLPathArgs and
    IsPathValidToRegister of blocks/url/url.h.

    A handler ([std::function]) is a value of an arbitrary type [H].  Not modelled: the mutex (each
    function below runs under it from start to end, so each is one atomic step), the
    Borrowed/Owned wrapping of the handlers (see the owned_borrowed model), messages printed to stderr. *)
From stdpp Require Import list gmap strings.
From Verif Require Base Url_Model.

Notation path := (list N) (only parsing).
Notation slash := (47%N) (only parsing).

(** posix_server.h, [handlers_]: std::map<std::string, std::map<size_t, Owned<std::function<void(Request)>>>>. *)
Notation table H := (gmap (list N) (gmap nat H)) (only parsing).

(** url.h 495-540, URLPathArgs: [base_path] and the vector [args_], which [add] extends at its end. *)
Record path_args := PathArgs { base_path : path; args_ : list path }.
(** 508-513, [begin()]/[end()] are reverse iterators over [args_]; [operator[]] (506) is [args_.at(size - 1 - index)]. *)
Definition iterate (a : path_args) : list path := reverse (args_ a).
Definition nth_arg (a : path_args) (i : nat) : option path :=
  if decide (i < length (args_ a)) then args_ a !! (length (args_ a) - 1 - i) else None.
(** 520-526, ComposeURLPathFromArgs. *)
Definition compose_from_args (a : path_args) : path :=
  let r := foldl (λ r c, r ++ [slash] ++ c) [] (iterate a) in
  if decide (r = []) then [slash] else r.
(** 528-535, ComposeURLPath. *)
Definition compose (a : path_args) : path :=
  let p := compose_from_args a in
  if decide (base_path a = [] ∨ base_path a = [slash]) then p
  else if decide (p = [slash]) then base_path a else base_path a ++ p.

(** ** FindHandler, posix_server.h 369-414 *)
(** 393-395: drop trailing slashes while the length is more than one.  [strip_rev] works on the reversed string. *)
Fixpoint strip_rev (r : path) : path :=
  match r with
  | c :: (_ :: _) as r' => if decide (c = slash) then strip_rev r' else r
  | _ => r
  end.
Definition strip (p : path) : path := reverse (strip_rev (reverse p)).
(** [rfind('/') + 1] (npos + 1 = 0): the number of characters up to and including the last slash. *)
Fixpoint after_last_slash (p : path) : nat :=
  match p with
  | [] => 0
  | c :: p' => match after_last_slash p' with
               | 0 => if decide (c = slash) then 1 else 0
               | S n => S (S n)
               end
  end.
(** 397-403, the two lookups. *)
Definition lookup_handler {H} (t : table H) (p : path) (n : nat) : option H := t !! p ≫= λ m, m !! n.
(** 392-411, the loop.  The remaining path becomes shorter on each iteration, so [fuel] of more than
    its length is not exhausted. *)
Fixpoint find_loop {H} (fuel : nat) (t : table H) (a : path_args) : option (H * path_args) :=
  match fuel with
  | 0 => None
  | S fuel =>
      let rem := strip (base_path a) in
      match lookup_handler t rem (length (args_ a)) with
      | Some h => Some (h, PathArgs rem (args_ a))
      | None =>
          if decide (rem = [slash]) then None
          else let i := after_last_slash rem in
               find_loop fuel t (PathArgs (take i rem) (args_ a ++ [Url_Model.decode_uri (drop i rem)]))
      end
  end.
(** 369-414. *)
Definition find_handler {H} (t : table H) (p : path) : option (H * path_args) :=
  match p with
  | c :: _ => if decide (c = slash) then find_loop (S (length p)) t (PathArgs p []) else None
  | [] => None
  end.

(** ** Registration *)
Inductive error := PathDoesNotStartWithSlash | PathEndsWithSlash | PathContainsInvalidCharacters
                 | HandlerAlreadyExists | HandlerDoesNotExist.
(** url.h 476-482, IsPathValidToRegister.  [isalnum] in the "C" locale. *)
Definition is_valid_char (c : N) : bool :=
  bool_decide (48 <= c ∧ c <= 57)%N || bool_decide (65 <= c ∧ c <= 90)%N || bool_decide (97 <= c ∧ c <= 122)%N
  || bool_decide (c ∈ (Base.bs "/-._~!$&'()*+,;=:@" : list N)).
Definition is_path_valid (p : path) : bool := forallb is_valid_char p.
(** posix_server.h 477-487, ValidateRoute; [None] is success. *)
Definition validate_route (p : path) : option error :=
  if decide (head p ≠ Some slash) then Some PathDoesNotStartWithSlash
  else if decide (p ≠ [slash] ∧ last p = Some slash) then Some PathEndsWithSlash
  else if is_path_valid p then None else Some PathContainsInvalidCharacters.

(** The mask is a uint16_t; [i] ranges over 0..MaxArgsCount = 15 and (mask & (1 << i)) == (1 << i) is [N.testbit]. *)
Definition counts : list nat := seq 0 16.
Definition selected (mask : N) (i : nat) : bool := N.testbit mask (N.of_nat i).

(** 501-520, step 1: the first offending count decides which exception is thrown. *)
Definition check_step {H} (t : table H) (p : path) (mask : N) (update : bool) (i : nat) : option error :=
  if selected mask i then
    match lookup_handler t p i with
    | None => if update then Some HandlerDoesNotExist else None
    | Some _ => if update then None else Some HandlerAlreadyExists
    end
  else None.
Fixpoint check_all {H} (t : table H) (p : path) (mask : N) (update : bool) (is : list nat) : option error :=
  match is with
  | [] => None
  | i :: is' => match check_step t p mask update i with Some e => Some e | None => check_all t p mask update is' end
  end.
(** 523-531, step 2. *)
Definition handlers_of {H} (t : table H) (p : path) : gmap nat H := default ∅ (t !! p).
Definition update_all {H} (t : table H) (p : path) (h : H) (mask : N) (is : list nat) : table H :=
  <[p := foldl (λ m i, if selected mask i then <[i := h]> m else m) (handlers_of t p) is]> t.

(** 489-539, DoRegisterHandler.  The scope entry returned is the mask to un-register upon its
    destruction, if any (495, 535: an empty entry). *)
Inductive outcome H := Done (t : table H) (scope : option (path * N)) | Throws (e : error) (t : table H).
Arguments Done {H}. Arguments Throws {H}.
Definition register {H} (t : table H) (p : path) (h : H) (mask : N) (update : bool) : outcome H :=
  if decide (mask = 0%N) then Done t None
  else match validate_route p with
       | Some e => Throws e t
       | None => match check_all t p mask update counts with
                 | Some e => Throws e t
                 | None => Done (update_all t p h mask counts) (if update then None else Some (p, mask))
                 end
       end.

(** 257-279, UnRegister. *)
Fixpoint unregister_loop {H} (t : table H) (p : path) (mask : N) (is : list nat) : outcome H :=
  match is with
  | [] => Done t None
  | i :: is' =>
      if selected mask i then
        match t !! p with
        | None => Throws HandlerDoesNotExist t
        | Some m => match m !! i with
                    | None => Throws HandlerDoesNotExist t
                    | Some _ => let m' := delete i m in
                                unregister_loop (if decide (m' = ∅) then delete p t else <[p := m']> t) p mask is'
                    end
        end
      else unregister_loop t p mask is'
  end.
Definition unregister {H} (t : table H) (p : path) (mask : N) : outcome H := unregister_loop t p mask counts.
(** 356-361, PathHandlersCount. *)
Definition path_handlers_count {H} (t : table H) : nat := size t.
