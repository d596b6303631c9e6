(** * Model of the groups of [NamedRegexCapturer], [bricks/strings/regex.h] 57-85

    Characters: 40 and 41 are the parentheses, 92 the backslash, 63 [?], 58 [:], 61 [=], 60 and 62 the angle brackets. std::regex matches as the comments in the code
    describe; what matches the transformed regular expression is left to it. *)
From stdpp Require Import list.

(** \w *)
Definition is_word (c : nat) : Prop := 48 <= c <= 57 ∨ 65 <= c <= 90 ∨ 97 <= c <= 122 ∨ c = 95.
Global Instance is_word_dec c : Decision (is_word c). Proof. unfold is_word. apply _. Defined.
Fixpoint word_prefix (l : list nat) : list nat := match l with c :: l => if decide (is_word c) then c :: word_prefix l else [] | [] => [] end.
(** 70: [(\?<(\w+)>)?], at what comes after the parenthesis: the name, if there is one *)
Definition name_at (l : list nat) : list nat :=
  match l with
  | 63 :: 60 :: l => match drop (length (word_prefix l)) l with 62 :: _ => word_prefix l | _ => [] end
  | _ => []
  end.
(** 70: [(?!\?:)(?!\?=)] *)
Definition not_a_group (l : list nat) : Prop := take 2 l = [63; 58] ∨ take 2 l = [63; 61].
Global Instance not_a_group_dec l : Decision (not_a_group l). Proof. unfold not_a_group. apply _. Defined.
(** 71-79: the matches from left to right; [skip] characters are in the last match; [escaped]: the character before is a backslash (72). The names of those that
    count, empty ones for groups without a name. *)
Fixpoint group_names (escaped : bool) (skip : nat) (l : list nat) : list (list nat) :=
  match l with
  | [] => []
  | c :: l =>
      match skip with
      | S skip => group_names (bool_decide (c = 92)) skip l
      | O =>
          if decide (c = 40 ∧ ¬ not_a_group l)
          then (if escaped then [] else [name_at l]) ++ group_names false (match name_at l with [] => 0 | n => 3 + length n end) l
          else group_names (bool_decide (c = 92)) 0 l
      end
  end.
(** 80: regex_replace: all matches, also those after a backslash *)
Fixpoint transformed (skip : nat) (l : list nat) : list nat :=
  match l with
  | [] => []
  | c :: l =>
      match skip with
      | S skip => transformed skip l
      | O => if decide (c = 40 ∧ ¬ not_a_group l) then 40 :: transformed (match name_at l with [] => 0 | n => 3 + length n end) l else c :: transformed 0 l
      end
  end.
(** 74-76: group_indexes[name]: the last one of a name *)
Fixpoint index_from (k : nat) (name : list nat) (names : list (list nat)) : option nat :=
  match names with
  | [] => None
  | n :: names => match index_from (S k) name names with Some i => Some i | None => if decide (n = name ∧ n ≠ []) then Some k else None end
  end.
Definition group_index (re : list nat) (name : list nat) : option nat := index_from 1 name (group_names false 0 re).
