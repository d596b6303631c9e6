(** HTTP messages, as they are written by a client or a server. *)
From stdpp Require Import list strings.
From Coq Require Import ZArith.
From Verif Require Base Dec.

Notation str := (list N) (only parsing).
Definition crlf : str := [13; 10]%N.

(** Text without NUL, CR, LF; a word has no white space either and is not empty. *)
Definition plain (s : str) : Prop := Forall (λ c, c ≠ 0 ∧ c ≠ 13 ∧ c ≠ 10)%N s.
Definition word (s : str) : Prop := s ≠ [] ∧ Forall (λ c, c ≠ 0 ∧ c ≠ 32 ∧ ¬ (9 ≤ c ∧ c ≤ 13))%N s.
(** A header: no colon in the name, no blanks around the value. *)
Definition blank (c : N) : Prop := c = 32%N ∨ c = 9%N.
Definition header_ok (h : str * str) : Prop :=
  plain h.1 ∧ 58%N ∉ h.1 ∧ plain h.2 ∧ (∀ c, head h.2 = Some c → ¬ blank c) ∧ (∀ c, last h.2 = Some c → ¬ blank c).
Definition header_text (h : str * str) : str := h.1 ++ [58; 32]%N ++ h.2 ++ crlf.
(** The first line and the headers of a request; also those of a response, where the three parts of the first line are the version, the code and the reason. *)
Definition head_of_message (a b c : str) (hs : list (str * str)) : str :=
  a ++ [32%N] ++ b ++ [32%N] ++ c ++ crlf ++ concat (map header_text hs) ++ crlf.

(** Names are compared regardless of case, and of dash or underscore. *)
Definition fold_char (c : N) : N := if decide (65 ≤ c ∧ c ≤ 90)%N then (c + 32)%N else if decide (c = 95)%N then 45%N else c.
Definition same_name (a b : str) : Prop := map fold_char a = map fold_char b.
Definition content_length : str := Eval compute in Base.bs "Content-Length".
Definition transfer_encoding : str := Eval compute in Base.bs "Transfer-Encoding".
Definition chunked : str := Eval compute in Base.bs "chunked".
Definition method_override : str := Eval compute in Base.bs "X-HTTP-Method-Override".
Definition no_header (name : str) (hs : list (str * str)) : Prop := Forall (λ h, ¬ same_name h.1 name) hs.
