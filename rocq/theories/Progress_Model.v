(** * Model of [blocks/xterm/progress.h] and [blocks/xterm/vt100.h]

    What is written to the stream is a list of what a terminal acts on: characters (code points, each one column wide), backspaces, ends of lines and escape
    sequences; the bytes of the latter, and of UTF-8, are left out. The stream and the terminal are taken to be the caller's: nothing else writes there. *)
From Coq Require Import ZArith.
From stdpp Require Import list.
Local Open Scope Z_scope.

Inductive token := Char (c : Z) | Back | Newline | Up (n : Z) | Down (n : Z) | Sgr (code : Z).
Global Instance token_eq_dec : EqDecision token. Proof. solve_decision. Defined.

(** vt100.h 94-104, 129-137: up, down and operator<< of UD; moving by zero lines is no output at all. *)
Definition ud (down : Z) : list token := if decide (down < 0) then [Up (- down)] else if decide (0 < down) then [Down down] else [].
Definition up (d : Z) : list token := ud (- d).
Definition down (d : Z) : list token := ud d.
(** vt100.h 49: reset *)
Definition reset : token := Sgr 0.

(** 79-110: Status, as what has been put into it by operator<<: text, and colors and the like (vt100::E) *)
Inductive piece := Text (l : list Z) | Style (code : Z).
Definition status := list piece.
Definition oss_text (s : status) : list token := s ≫= λ p, match p with Text l => Char <$> l | Style c => [Sgr c] end.
Definition oss_text_with_no_vt100_escape_sequences (s : status) : list Z := s ≫= λ p, match p with Text l => l | Style _ => [] end.

(** 44-49: ProgressLine; current_status_length_ is a number of code points. *)
Record line := Line { current_status : list token; current_undecorated_status : list Z; current_status_length : nat }.
Definition new_line : line := Line [] [] 0.
(** 55-60: DoClearString *)
Definition do_clear_string (l : line) : list token :=
  let back := replicate (current_status_length l) Back in
  let forward := replicate (current_status_length l) (Char 32) in
  back ++ forward ++ back.
(** 135-164: DoUpdate; [up_] is the value of up_(), if there is an up_. What is printed, and the object after that. *)
Definition do_update (up_ : option Z) (l : line) (s : status) : list token * line :=
  let new_status := oss_text s in
  let undecorated := oss_text_with_no_vt100_escape_sequences s in
  if decide (new_status = current_status l) then ([], Line (current_status l) undecorated (current_status_length l)) else
  let new_status_length := length undecorated in
  (match up_ with
   | None => do_clear_string l ++ new_status ++ [reset]
   | Some n =>
       if decide (current_status_length l < new_status_length)%nat
       then up (n + 1) ++ new_status ++ [reset; Newline] ++ down n
       else up (n + 1) ++ new_status ++ [reset] ++ replicate (current_status_length l - new_status_length) (Char 32) ++ [Newline] ++ down n
   end, Line new_status undecorated new_status_length).
(** 115-123: ~ProgressLine of a line that is on its own *)
Definition destroy (l : line) : list token := if decide (current_status_length l = 0)%nat then [] else do_clear_string l.

(** A line on its own (no up_), updated with each of the statuses: all that is printed, and the object *)
Fixpoint run_line (l : line) (ss : list status) : list token * line :=
  match ss with [] => ([], l) | s :: ss => let '(o, l) := do_update None l s in let '(o', l) := run_line l ss in (o ++ o', l) end.

(** 166-184: MultilineProgress, with the lines it has given. The lines count from zero here and from one in the code. *)
Record multi := Multi { total_ : Z; lines : list line }.
Definition no_lines : multi := Multi 0 [].
Inductive op := Create | Update (i : nat) (s : status).
(** 68-72, 171-176: operator(): ++total_, and the end of line that the constructor prints. 174: up_ is total_ - index. *)
Definition step (m : multi) (o : op) : list token * multi :=
  match o with
  | Create => ([Newline], Multi (total_ m + 1) (lines m ++ [new_line]))
  | Update i s =>
      match lines m !! i with
      | None => ([], m)
      | Some l => let '(o, l) := do_update (Some (total_ m - (Z.of_nat i + 1))) l s in (o, Multi (total_ m) (<[i := l]> (lines m)))
      end
  end.
Fixpoint run (m : multi) (os : list op) : list token * multi :=
  match os with [] => ([], m) | o :: os => let '(p, m) := step m o in let '(q, m) := run m os in (p ++ q, m) end.

(** The same with threads. The mutex is held for what is printed only: creating a line is [ECount] (++total_, 172, 178) and then [ENewline] (72), and updating it is
    [ERead] (153: n = up_(), before the lock in 154) and then [EPrint]; [n] is in [reading]. A line is used by one thread. *)
Record threads := Threads { shared : multi; reading : list (option (Z * status)) }.
Inductive event := ECount | ENewline | ERead (i : nat) (s : status) | EPrint (i : nat).
Definition fire (t : threads) (e : event) : option (list token * threads) :=
  let m := shared t in
  match e with
  | ECount => Some ([], Threads (Multi (total_ m + 1) (lines m)) (reading t))
  | ENewline => if decide (Z.of_nat (length (lines m)) < total_ m) then Some ([Newline], Threads (Multi (total_ m) (lines m ++ [new_line])) (reading t ++ [None])) else None
  | ERead i s => match reading t !! i with Some None => Some ([], Threads m (<[i := Some (total_ m - (Z.of_nat i + 1), s)]> (reading t))) | _ => None end
  | EPrint i =>
      match reading t !! i, lines m !! i with
      | Some (Some (n, s)), Some l => let '(o, l) := do_update (Some n) l s in Some (o, Threads (Multi (total_ m) (<[i := l]> (lines m))) (<[i := None]> (reading t)))
      | _, _ => None
      end
  end.
Fixpoint fires (t : threads) (es : list event) : option (list token * threads) :=
  match es with
  | [] => Some ([], t)
  | e :: es => match fire t e with None => None | Some (o, t) => match fires t es with None => None | Some (o', t) => Some (o ++ o', t) end end
  end.
