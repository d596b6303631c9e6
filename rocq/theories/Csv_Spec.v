(** * CSV files: what is to be written, and what a cell is *)
From Verif Require Import Base Csv_Model.
Local Open Scope list_scope.

(** A line of a table: the cells with commas in between. *)
Fixpoint csv_line (cs : list bytes) : bytes :=
  match cs with [] => [] | [c] => c | c :: cs => c ++ COMMA :: csv_line cs end.
(** The end of a line, as of Unix or of DOS. *)
Definition eol (dos : bool) : bytes := if dos then [13; 10]%N else [10]%N.
(** A file of the given lines, each with its kind of line end; the last line may have none. *)
Fixpoint text (lines : list (bytes * bool)) (ended : bool) : bytes :=
  match lines with
  | [] => []
  | [(l, dos)] => l ++ (if ended then eol dos else [])
  | (l, dos) :: lines => l ++ eol dos ++ text lines ended
  end.
(** What may be in a cell of a file that is to be read back: something, but no comma and no line end. *)
Definition plain_cell (c : bytes) : Prop := c <> [] /\ ~ In 44%N c /\ ~ In 10%N c /\ ~ In 13%N c.
