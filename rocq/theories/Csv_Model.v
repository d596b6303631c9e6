(** * Model of [utils/csv/csv.h] *)
From Verif Require Import Base Strings_Model FilePersister_Model.
Local Open Scope list_scope.

Definition COMMA : byte := 44%N.
Definition CRET : byte := 13%N.

Inductive csv_error := FileNotFound | FileIsEmpty | NoHeader | ColumnMismatch.       (* csv.h 39-49, and the texts at 58, 62, 69, 80 *)

(** 64-66 and 72-74: a trailing carriage return is dropped. *)
Definition chomp (line : bytes) : bytes :=
  match line with
  | [] => line
  | _ => if N.eqb (List.last line 0%N) CRET then firstn (List.length line - 1) line else line
  end.
(** [current::strings::Split(line, ',')]: the default is to skip empty fields (split.h 289). *)
Definition cells (line : bytes) : list bytes := split (sep_char COMMA) false line.

Section Csv.
(** The type of the cells, and [current::FromString<T>], which does not fail (bricks/strings/util.h). *)
Context {T : Type} (from_string : bytes -> T).
Record csv := Csv { header : list bytes; data : list (list T) }.                     (* 52-53 *)

(** 71-83: the loop over the lines after the first. *)
Fixpoint read_rows (columns : nat) (lines : list bytes) (rows : list (list T)) : outcome csv_error (list (list T)) :=
  match lines with
  | [] => Ok rows
  | line :: lines =>
      let row := map from_string (cells (chomp line)) in
      if Nat.eqb (List.length row) columns then read_rows columns lines (rows ++ [row]) else Throw ColumnMismatch
  end.
(** 54-85, ReadFile; [None]: the file cannot be opened. *)
Definition read_file (file : option bytes) : outcome csv_error csv :=
  match file with
  | None => Throw FileNotFound
  | Some contents =>
      match lines_of contents with
      | [] => Throw FileIsEmpty
      | line :: lines =>
          let h := cells (chomp line) in
          if Nat.eqb (List.length h) 0 then Throw NoHeader
          else obind (read_rows (List.length h) lines []) (fun rows => Ok (Csv h rows))
      end
  end.
End Csv.
Arguments Csv {T}. Arguments header {T}. Arguments data {T}.
