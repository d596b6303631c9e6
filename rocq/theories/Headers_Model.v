(** Model of [bricks/net/http/headers/headers.h] (struct Header, struct Headers).

    Header objects live in a heap of numbered cells, so that the raw pointers kept
    in [Headers::list] can be seen to be valid or dangling.  Simplifications: a cell number is
    never reused (so that a dangling pointer stays visible); [std::map] is an
    association list looked up by the equivalence of its comparator (its iteration
    order influences nothing here); assertions are not modelled. *)
From stdpp Require Import list gmap strings.
From Coq Require Import ZArith.
From Verif Require Base Strings_Model.

Notation str := (list N) (only parsing).

(** ** The comparator, headers.h 108-135 *)
(** [char] is signed.  (Numbers from 256 on are not bytes; they are left alone.) *)
Definition signed_char (b : N) : Z := if decide (128 <= b ∧ b < 256)%N then Z.of_N b - 256 else Z.of_N b.
(** 109-117, Canonical. *)
Definition canonical (c : N) : N :=
  if decide (c = 45)%N then 95%N                       (* '-' to '_' *)
  else if decide (65 <= c ∧ c <= 90)%N then (c + 32)%N (* 'A'..'Z' to lower case *)
  else c.
(** 118-134, operator(). *)
Fixpoint key_less (l r : str) : bool :=
  match l, r with
  | a :: l', b :: r' =>
      if decide (signed_char (canonical a) < signed_char (canonical b))%Z then true
      else if decide (signed_char (canonical b) < signed_char (canonical a))%Z then false
      else key_less l' r'
  | [], _ :: _ => true
  | _, [] => false
  end.
(** The equivalence [std::map] uses. *)
Definition key_equiv (l r : str) : bool := negb (key_less l r) && negb (key_less r l).

(** 138-145, IsCookieHeader. *)
Definition is_cookie_header (h : str) : bool :=
  key_equiv h (Base.bs "Cookie") || key_equiv h (Base.bs "Set-Cookie").

(** ** The objects *)
(** 86-103, struct Header. *)
Record header := Header { h_name : str; h_value : str }.
Record heap := Heap { cells : gmap nat header; next : nat }.
(** 167-175 and 394-405: [map] (unique_ptr, possibly null), [list], [cookies] (the values;
    cookie parameters are not modelled). *)
Record headers := Headers { hmap : list (str * option nat); hlist : list (str * option nat); cookies : list (str * str) }.
Definition no_headers : headers := Headers [] [] [].

(** [std::map::find]. *)
Fixpoint find {A} (k : str) (m : list (str * A)) : option A :=
  match m with
  | [] => None
  | (k', a) :: rest => if key_equiv k k' then Some a else find k rest
  end.
(** Assigning through [map[k]]; the key keeps its first spelling. *)
Fixpoint store {A} (k : str) (a : A) (m : list (str * A)) : list (str * A) :=
  match m with
  | [] => [(k, a)]
  | (k', a') :: rest => if key_equiv k k' then (k', a) :: rest else (k', a') :: store k a rest
  end.
Fixpoint erase {A} (k : str) (m : list (str * A)) : list (str * A) :=
  match m with
  | [] => []
  | (k', a) :: rest => if key_equiv k k' then rest else (k', a) :: erase k rest
  end.

Definition make_unique (x : header) (h : heap) : nat * heap :=
  (next h, Heap (<[next h := x]> (cells h)) (S (next h))).
Definition destroy (p : option nat) (h : heap) : heap :=
  match p with Some a => Heap (delete a (cells h)) (next h) | None => h end.

Inductive exn := CookieIsNotYourRegularHeader | HeaderNotFound (name : str).
(** What a call does: [Throws], or returns; [Undefined] is reading through a null or dangling pointer. *)
Inductive result (A : Type) := Returns (a : A) | Throws (e : exn) | Undefined.
Arguments Returns {A}. Arguments Throws {A}. Arguments Undefined {A}.

Definition deref (p : option nat) (h : heap) : option header := a ← p; cells h !! a.

(** The Header under [map[name]], created if absent: 206-212 and 288-295. *)
Definition placeholder (name : str) (h : heap) (x : headers) : nat * heap * headers :=
  match find name (hmap x) with
  | Some (Some a) => (a, h, x)
  | _ =>
      let '(a, h') := make_unique (Header name []) h in
      (a, h', Headers (store name (Some a) (hmap x)) (hlist x ++ [(name, Some a)]) (cookies x))
  end.
Definition update (a : nat) (f : header -> header) (h : heap) : heap :=
  Heap (alter f a (cells h)) (next h).

(** 202-222, Set: values are joined by ", ". *)
Definition set (name value : str) (h : heap) (x : headers) : result (heap * headers) :=
  if is_cookie_header name then Throws CookieIsNotYourRegularHeader else
  match name with
  | [] => Returns (h, x)
  | _ =>
      let '(a, h1, x1) := placeholder name h x in
      match value with
      | [] => Returns (h1, x1)
      | _ => Returns (update a (λ o, Header (h_name o)
               (match h_value o with [] => value | v => v ++ [44; 32]%N ++ value end)) h1, x1)
      end
  end.

(** 224-238, Remove: [e.first != header] compares exactly. *)
Definition remove (name : str) (h : heap) (x : headers) : result (heap * headers) :=
  if is_cookie_header name then Throws CookieIsNotYourRegularHeader else
  match find name (hmap x) with
  | None => Returns (h, x)
  | Some p => Returns (destroy p h, Headers (erase name (hmap x)) (filter (λ e, e.1 ≠ name) (hlist x)) (cookies x))
  end.

(** 287-296 followed by 100-103: [headers[name] = value]. *)
Definition assign (name value : str) (h : heap) (x : headers) : result (heap * headers) :=
  if is_cookie_header name then Throws CookieIsNotYourRegularHeader else
  let '(a, h1, x1) := placeholder name h x in
  Returns (update a (λ o, Header (h_name o) value) h1, x1).

(** 240-243, Has. *)
Definition has (name : str) (x : headers) : result bool :=
  if is_cookie_header name then Throws CookieIsNotYourRegularHeader else
  Returns (match find name (hmap x) with Some _ => true | None => false end).
(** 245-255, Get; 272-282, operator[] const (the name as first spelled, too). *)
Definition get (name : str) (h : heap) (x : headers) : result header :=
  if is_cookie_header name then Throws CookieIsNotYourRegularHeader else
  match find name (hmap x) with
  | None => Throws (HeaderNotFound name)
  | Some p => match deref p h with Some o => Returns o | None => Undefined end
  end.

(** 299-322: iterating over the list. *)
Definition iterate (h : heap) (x : headers) : result (list header) :=
  match mapM (λ e, deref e.2 h) (hlist x) with Some l => Returns l | None => Undefined end.

(** 177-185, DeepCopyFrom, into [x]. *)
Fixpoint copy_map (src : list (str * option nat)) (h : heap) (m : list (str * option nat))
  : option (heap * list (str * option nat)) :=
  match src with
  | [] => Some (h, m)
  | (k, p) :: rest =>
      match deref p h with
      | None => None
      | Some o =>
          let '(a, h1) := make_unique o h in
          (* assigning to the unique_ptr destroys what it owned *)
          let h2 := match find k m with Some old => destroy old h1 | None => h1 end in
          copy_map rest h2 (store k (Some a) m)
      end
  end.
Fixpoint copy_list (src : list (str * option nat)) (x : headers) : headers :=
  match src with
  | [] => x
  | (k, _) :: rest =>
      (* [map[h.first].get()]: null, and inserted, when absent *)
      let p := match find k (hmap x) with Some p => p | None => None end in
      let m := match find k (hmap x) with Some _ => hmap x | None => store k None (hmap x) end in
      copy_list rest (Headers m (hlist x ++ [(k, p)]) (cookies x))
  end.
Definition deep_copy_from (rhs : headers) (h : heap) (x : headers) : result (heap * headers) :=
  match copy_map (hmap rhs) h (hmap x) with
  | None => Undefined
  | Some (h', m) => Returns (h', copy_list (hlist rhs) (Headers m (hlist x) (cookies rhs)))
  end.
(** 187, the copy constructor; 189-192, operator= (which does not clear the target; the
    cookies assigned by DeepCopyFrom are set at the end, which makes no difference). *)
Definition copy_construct (rhs : headers) (h : heap) : result (heap * headers) := deep_copy_from rhs h no_headers.
Definition copy_assign (lhs rhs : headers) (h : heap) : result (heap * headers) := deep_copy_from rhs h lhs.

(** ** Cookies *)
(** 325-329, ApplyCookieHeader; [emplace] keeps what is there. *)
Definition emplace_cookie (kv : str * str) (cs : list (str * str)) : list (str * str) :=
  if existsb (λ c, bool_decide (c.1 = kv.1)) cs then cs else cs ++ [kv].
Definition apply_cookie_header (value : str) (cs : list (str * str)) : list (str * str) :=
  match Strings_Model.split_kv (Strings_Model.sep_char 61) (Strings_Model.sep_char 59) false value with
  | Base.Ok kvs => foldl (λ cs kv, emplace_cookie (Strings_Model.trim kv.1, Strings_Model.trim kv.2) cs) cs kvs
  | _ => cs
  end.
(** 330-336, SetHeaderOrCookie. *)
Definition set_header_or_cookie (name value : str) (h : heap) (x : headers) : result (heap * headers) :=
  if is_cookie_header name then Returns (h, Headers (hmap x) (hlist x) (apply_cookie_header value (cookies x)))
  else set name value h x.
(** 378-392, CookiesAsString. *)
Definition cookies_as_string (cs : list (str * str)) : str :=
  foldl (λ acc c, (match acc with [] => [] | _ => acc ++ [59; 32]%N end) ++ c.1 ++ [61]%N ++ c.2) [] cs.
(** 348-351, SetCookie. *)
Fixpoint set_cookie (name value : str) (cs : list (str * str)) : list (str * str) :=
  match cs with
  | [] => [(name, value)]
  | (k, v) :: rest => if decide (k = name) then (k, value) :: rest else (k, v) :: set_cookie name value rest
  end.
