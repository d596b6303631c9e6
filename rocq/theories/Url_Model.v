(** Model of /repo/blocks/url/url.h. *)
From Coq Require Import String.
From Verif Require Import Base Dec Strings_Model.
Local Open Scope list_scope.

(** [std::string::find(c, from)]; [None] is [npos]. *)
Fixpoint find_from (c : byte) (s : bytes) (i : nat) (from : nat) : option nat :=
  match s with
  | [] => None
  | b :: s' => if (Nat.leb from i && N.eqb b c)%bool then Some i else find_from c s' (S i) from
  end.
Definition find_char (c : byte) (s : bytes) (from : nat) : option nat := find_from c s 0 from.
(** [url.find("//")]. *)
Fixpoint find_dslash_from (s : bytes) (i : nat) : option nat :=
  match s with
  | a :: (b :: _) as s' => if (N.eqb a 47 && N.eqb b 47)%bool then Some i else find_dslash_from s' (S i)
  | _ => None
  end.
Definition find_double_slash (s : bytes) : option nat := find_dslash_from s 0.
(** [i < j] where either may be [npos], the largest [size_t]. *)
Definition before_opt (i j : option nat) : bool :=
  match i, j with
  | Some a, Some b => Nat.ltb a b
  | Some _, None => true
  | None, _ => false
  end.
(** [s.substr(pos, end - pos)] with [end] possibly [npos]. *)
Definition substr_to (s : bytes) (pos : nat) (e : option nat) : bytes :=
  match e with Some e => substr s pos (e - pos) | None => skipn pos s end.

(** [atoi]: white space, optional sign, digits; the value [mod 2^16] as the code stores it (url.h 130).
    Numbers outside [int] are undefined behaviour in C and are modelled as if they were not. *)
Fixpoint digits_of (s : bytes) : bytes :=
  match s with b :: s' => if is_digit b then b :: digits_of s' else [] | [] => [] end.
Fixpoint skip_spaces (s : bytes) : bytes :=
  match s with b :: s' => if is_space b then skip_spaces s' else s | [] => [] end.
Definition atoi16 (s : bytes) : N :=
  match skip_spaces s with
  | 45%N :: s' => (Z.to_N ((- Z.of_N (horner (digits_of s'))) mod 65536)%Z)
  | 43%N :: s' => (horner (digits_of s') mod 65536)%N
  | s' => (horner (digits_of s') mod 65536)%N
  end.

Definition beqs (a b : bytes) : bool := if list_eq_dec N.eq_dec a b then true else false.
Definition is_empty (s : bytes) : bool := match s with [] => true | _ => false end.

(** url.h 77-83 and 395-397: the fields of [URL].  [path] defaults to "/". *)
Record url := mkUrl {
  host : bytes; path : bytes; scheme : bytes; port : N; username : bytes; password : bytes;
  parameters_vector : list (bytes * bytes);
  query : list (bytes * bytes);        (** the [std::map], as a list with distinct keys *)
  fragment : bytes
}.

(** url.h 72-75, 80. *)
Definition kDefaultScheme : bytes := bs "http".
Definition kDefaultHost : bytes := bs "localhost".
(** url.h 174-183, [DefaultPortForScheme]. *)
Definition default_port_for_scheme (s : bytes) : N :=
  if beqs s (bs "http") then 80%N else if beqs s (bs "https") then 443%N else 0%N.
(** url.h 185-193, [DefaultSchemeForPort]. *)
Definition default_scheme_for_port (p : N) : bytes :=
  if N.eqb p 80 then bs "http" else if N.eqb p 443 then bs "https" else [].

(** The part filled in by url.h 88-144, [ParseURLWithoutParameters]: (host, path, scheme, port, username,
    password); [None]: EmptyURLException. *)
Definition parse_url_without_parameters (u : bytes) : option (bytes * bytes * bytes * N * bytes * bytes) :=
  if is_empty u then None
  else
    let '(sch, off) :=
      match find_double_slash u with
      | Some ds => if (Nat.eqb ds 0 || N.eqb (nth (ds - 1) u 0%N) 58)%bool
                   then ((if Nat.eqb ds 0 then [] else substr u 0 (ds - 1)), ds + 2)
                   else ([], 0)
      | None => ([], 0)
      end in
    let host_end := find_char 47 u off in
    let at_sign := find_char 64 u off in
    let '(user, pass, off2) :=
      match at_sign with
      | Some a =>
          if before_opt at_sign host_end then
            let colon := find_char 58 u off in
            match colon with
            | Some c => if Nat.ltb c a then (substr u off (c - off), substr u (c + 1) (a - (c + 1)), a + 1)
                        else (substr u off (a - off), [], a + 1)
            | None => (substr u off (a - off), [], a + 1)
            end
          else ([], [], off)
      | None => ([], [], off)
      end in
    let port_colon := find_char 58 u off2 in
    let '(h, p) :=
      match port_colon with
      | Some c => if before_opt port_colon host_end
                  then (substr u off2 (c - off2), atoi16 (skipn (c + 1) u))
                  else (substr_to u off2 host_end, 0%N)
      | None => (substr_to u off2 host_end, 0%N)
      end in
    let pth := match host_end with Some e => skipn e u | None => [] end in
    let pth := if is_empty pth then [47%N] else pth in
    Some (h, pth, sch, p, user, pass).

(** url.h 146-171, [URLWithoutParametersParser::ComposeURL]. *)
Definition compose_without_parameters (u : url) : bytes :=
  if is_empty (host u) then path u
  else
    let sch := if is_empty (scheme u) then (if N.ltb 0 (port u) then default_scheme_for_port (port u) else kDefaultScheme)
               else scheme u in
    let prt := if (N.ltb 0 (port u) && negb (N.eqb (port u) (default_port_for_scheme sch)))%bool then port u else 0%N in
    (if is_empty sch then kDefaultScheme else sch) ++ bs "://" ++
    (if is_empty (username u) then []
     else username u ++ (if is_empty (password u) then [] else [58%N] ++ password u) ++ [64%N]) ++
    host u ++
    (if N.ltb 0 prt then [58%N] ++ dec prt else []) ++
    path u.

(** url.h 230, [IsHexDigit]. *)
Definition is_hex_digit (c : byte) : bool :=
  ((N.leb 48 c && N.leb c 57) || (N.leb 97 c && N.leb c 102) || (N.leb 65 c && N.leb c 70))%N%bool.
(** The value of a hex digit, as [std::stoi(..., nullptr, 16)] reads it. *)
Definition hex_value (c : byte) : N :=
  if N.leb c 57 then (c - 48)%N else if N.leb c 70 then (c - 55)%N else (c - 87)%N.
(** url.h 232-237, [IsURIComponentSpecialCharacter] (the characters that are not escaped). *)
Definition is_unescaped (c : byte) : bool :=
  ((N.leb 97 c && N.leb c 122) || (N.leb 65 c && N.leb c 90) || (N.leb 48 c && N.leb c 57) ||
   existsb (N.eqb c) (bs "-_.~!'()"))%bool.
(** An uppercase hex digit of [printf]. *)
Definition hex_char (d : N) : byte := if N.ltb d 10 then (d + 48)%N else (d + 55)%N.

(** url.h 239-253, [DecodeURIComponent]. *)
Fixpoint decode_uri (s : bytes) : bytes :=
  match s with
  | [] => []
  | c :: rest =>
      if N.eqb c 43 then 32%N :: decode_uri rest
      else if N.eqb c 37 then
        match rest with
        | a :: b :: rest' => if (is_hex_digit a && is_hex_digit b)%bool
                             then (hex_value a * 16 + hex_value b)%N :: decode_uri rest'
                             else c :: decode_uri rest
        | _ => c :: decode_uri rest
        end
      else c :: decode_uri rest
  end.

(** url.h 255-267, [EncodeURIComponent], one character: [%02X] of [static_cast<int>(c)], where [char] is
    signed: a byte >= 0x80 is a negative [int], printed as 8 hex digits beginning with FFFFFF. *)
Definition encode_char (c : byte) : bytes :=
  if is_unescaped c then [c]
  else if N.eqb c 32 then bs "%20"
  else 37%N :: (if N.ltb c 128 then [] else bs "FFFFFF") ++ [hex_char (c / 16); hex_char (c mod 16)].
Definition encode_uri (s : bytes) : bytes := flat_map encode_char s.

(** url.h 269-280, [ComposeParameters]. *)
Definition param_text (p : bytes * bytes) : bytes := encode_uri (fst p) ++ [61%N] ++ encode_uri (snd p).
Definition compose_parameters (params : list (bytes * bytes)) (frag : bytes) : bytes :=
  match params with
  | [] => []
  | p :: ps => [63%N] ++ param_text p ++ flat_map (fun p => [38%N] ++ param_text p) ps
  end ++ (if is_empty frag then [] else [35%N] ++ frag).

(** url.h 284-285: [std::map(begin, end)] keeps the first pair of each key (the order of a map, by key, is
    not modelled: lookups only). *)
Fixpoint map_of_pairs (l : list (bytes * bytes)) (seen : list bytes) : list (bytes * bytes) :=
  match l with
  | [] => []
  | (k, v) :: l' => if existsb (beqs k) seen then map_of_pairs l' seen else (k, v) :: map_of_pairs l' (k :: seen)
  end.
(** url.h 286-295, [has], [get]. *)
Fixpoint lookup (m : list (bytes * bytes)) (k : bytes) : option bytes :=
  match m with [] => None | (k', v) :: m' => if beqs k' k then Some v else lookup m' k end.
Definition query_has (m : list (bytes * bytes)) (k : bytes) : bool := match lookup m k with Some _ => true | None => false end.
Definition query_get (m : list (bytes * bytes)) (k default : bytes) : bytes := match lookup m k with Some v => v | None => default end.

(** url.h 214-221: one chunk of the query string. *)
Definition split_param (chunk : bytes) : bytes * bytes :=
  match find_char 61 chunk 0 with
  | Some i => (substr chunk 0 i, skipn (i + 1) chunk)
  | None => (chunk, [])
  end.
(** url.h 200-227, [ExtractURLParametersFromURL]: (parameters_vector, query, fragment, parameters_start_index). *)
Definition extract_parameters (u : bytes) : list (bytes * bytes) * list (bytes * bytes) * bytes * nat :=
  let pound := find_char 35 u 0 in
  let frag := match pound with Some i => skipn (i + 1) u | None => [] end in
  let start := match pound with Some i => i | None => List.length u end in
  let qm := find_char 63 u 0 in
  match qm with
  | Some q =>
      if before_opt qm pound then
        let chunks := split (sep_char 38) false (substr u (q + 1) (start - (q + 1))) in
        let v := map (fun p => (decode_uri (fst p), decode_uri (snd p))) (map split_param chunks) in
        (v, map_of_pairs v [], frag, q)
      else ([], [], frag, start)
  | None => ([], [], frag, start)
  end.

(** url.h 403-407, [URL(const std::string&)]; [None]: EmptyURLException. *)
Definition parse_url (u : bytes) : option url :=
  let '(v, q, frag, start) := extract_parameters u in
  match parse_url_without_parameters (firstn start u) with
  | Some (h, pth, sch, prt, user, pass) => Some (mkUrl h pth sch prt user pass v q frag)
  | None => None
  end.
(** url.h 411-413, [URL::ComposeURL]. *)
Definition compose_url (u : url) : bytes :=
  compose_without_parameters u ++ compose_parameters (parameters_vector u) (fragment u).

(** url.h 415-438, [MakeURLWithDefaults]. *)
Definition with_defaults (u : url) : url :=
  let sch := if is_empty (scheme u)
             then if N.eqb (port u) 0 then kDefaultScheme
                  else let s := default_scheme_for_port (port u) in if is_empty s then kDefaultScheme else s
             else scheme u in
  mkUrl (if is_empty (host u) then kDefaultHost else host u) (path u) sch
        (if N.eqb (port u) 0 then default_port_for_scheme sch else port u)
        (username u) (password u) (parameters_vector u) (query u) (fragment u).

(** url.h 440-468, [MakeRedirectedURL]. *)
Definition redirected (src tgt : url) : url :=
  with_defaults (mkUrl (if is_empty (host tgt) then host src else host tgt) (path tgt)
                       (if is_empty (scheme tgt) then scheme src else scheme tgt)
                       (if is_empty (host tgt) then (if N.ltb 0 (port tgt) then port tgt else port src) else port tgt)
                       (username tgt) (password tgt) (parameters_vector tgt) (query tgt) (fragment tgt)).

(** url.h 471-473, [ParseQueryString]. *)
Definition parse_query_string (body : bytes) : option (list (bytes * bytes)) :=
  match parse_url (bs "/?" ++ body) with Some u => Some (query u) | None => None end.
