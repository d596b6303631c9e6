(** A text editor: what an OT log means. *)
From stdpp Require Import list.
From Coq Require Import ZArith.
From Verif Require Import Json_Model.

Inductive edit := Insert (s : list N) | Retain (n : nat) | Delete (n : nat).

(** The text before the cursor and the text after it; or the cursor is beyond the end of the text. *)
Inductive editor := Cursor (before after : list N) | Beyond (text : list N).
Definition text_of (d : editor) : list N := match d with Cursor b a => b ++ a | Beyond t => t end.

(** Text is inserted before the cursor, deleted after it; the cursor may be moved beyond the end, but nothing can be done there. *)
Definition apply_edit (e : edit) (d : editor) : option editor :=
  match e, d with
  | Insert s, Cursor b a => Some (Cursor (b ++ s) a)
  | Retain n, Cursor b a => if decide (n ≤ length a) then Some (Cursor (b ++ take n a) (drop n a)) else Some (Beyond (b ++ a))
  | Delete n, Cursor b a => if decide (n ≤ length a) then Some (Cursor b (drop n a)) else None
  | Retain _, Beyond t => Some (Beyond t)
  | _, Beyond _ => None
  end.
Fixpoint apply_edits (es : list edit) (d : editor) : option editor :=
  match es with [] => Some d | e :: es' => match apply_edit e d with Some d' => apply_edits es' d' | None => None end end.

(** A session: the cursor is put at the beginning, the edits are applied. *)
Record session := Session { at_ms : Z; edits : list edit }.
Definition play (s : session) (text : list N) : option (list N) := option_map text_of (apply_edits (edits s) (Cursor [] text)).
(** The texts after each session. *)
Fixpoint play_all (ss : list session) (text : list N) : option (list (Z * list N)) :=
  match ss with
  | [] => Some []
  | s :: ss' => match play s text with
                | Some text' => option_map (cons (at_ms s, text')) (play_all ss' text')
                | None => None
                end
  end.

(** The log as it is written in JSON: {key: {"t": time, "o": [text to insert, +number to retain, -number to delete, ...]}, ...} *)
Inductive edit_json (decode : list N → option (list N)) : json → edit → Prop :=
| ej_insert bytes s : decode bytes = Some s → edit_json decode (JStr bytes) (Insert s)
| ej_retain n : (0 < n ≤ 2147483647) % Z → edit_json decode (JInt n) (Retain (Z.to_nat n))
| ej_delete n : (0 ≤ n ≤ 2147483647) % Z → edit_json decode (JInt (- n)) (Delete (Z.to_nat n)).
Inductive session_json (decode : list N → option (list N)) : json → session → Prop :=
| sj ms t js es : member [116%N] ms = Some (JInt t) → (0 ≤ t < 2 ^ 64)%Z → member [111%N] ms = Some (JArr js) →
    Forall2 (edit_json decode) js es → session_json decode (JObj ms) (Session t es).
Definition log_json (decode : list N → option (list N)) (j : json) (ss : list session) : Prop :=
  ∃ ms, j = JObj ms ∧ Forall2 (session_json decode) (map snd ms) ss.

(** How far the edits of a session can move the cursor. *)
Definition travel (e : edit) : Z := match e with Insert s => Z.of_nat (length s) | Retain n => Z.of_nat n | Delete _ => 0 end.
Definition moderate (s : session) : Prop := (foldr (λ e x, travel e + x) 0 (edits s) ≤ 2147483647)%Z.
