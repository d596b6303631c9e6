(** Model of blocks/self_modifying_config/config.h 47-120 and of the two functions of bricks/file/file.h it uses.

    The directory is a map from file names to contents; who else writes to it is not modelled.  JSON is a pair of
    functions; the two exceptions of parsing become one ([SelfModifyingConfigParseJSONException] is thrown for both).  A
    write may go wrong in the ways of [write_way]; reading fails only if there is no such file. *)
From Coq Require Import String.
From stdpp Require Import gmap list.
From Coq Require Import NArith ZArith.
From Verif Require Import Date_Model.
Local Open Scope list_scope.

Notation text := (list N) (only parsing).
Notation files := (gmap (list N) (list N)).

(** JSON() and ParseJSON<config_t>(); [None]: an exception. *)
Record codec (T : Type) := Codec { to_json : T → text; parse_json : text → option T }.
Arguments to_json {T}.
Arguments parse_json {T}.

(** ** bricks/file/file.h *)
(** 79-97, ReadFileAsString; [None]: CannotReadFileException. *)
Definition read_file_as_string (fs : files) (name : text) : option text := fs !! name.
(** How writing a file goes: well; it cannot be opened; it is opened, and so emptied, but only the first bytes get
    written.  The stream is told to throw, but what it holds in its buffer is written by its destructor, and then the
    error is ignored: [silent]. *)
Inductive write_way := Written | CannotOpen | Short (k : nat) (silent : bool).
(** 115-127, WriteStringToFile: the files, and whether it throws FileException. *)
Definition write_string_to_file (w : write_way) (contents name : text) (fs : files) : files * bool :=
  match w with
  | Written => (<[name := contents]> fs, false)
  | CannotOpen => (fs, true)
  | Short k silent => (<[name := take k contents]> fs, negb silent)
  end.
(** The same in the steps of the operating system, for processes killed in between: 120, 121. *)
Inductive fs_step := Truncate (name : text) | Append (name : text) (byte : N).
Definition write_steps (contents name : text) : list fs_step := Truncate name :: map (Append name) contents.
Definition do_step (fs : files) (st : fs_step) : files :=
  match st with
  | Truncate name => <[name := []]> fs
  | Append name b => <[name := default [] (fs !! name) ++ [b]]> fs
  end.

(** ** blocks/self_modifying_config/config.h *)
Inductive error := ReadFile | ParseJSON | WriteFile (name : text).             (* exceptions.h 34-52 *)
(** 117-119. *)
Record object (T : Type) := Object { filename : text; config : T }.
Arguments Object {T}.
Arguments filename {T}.
Arguments config {T}.

(** 54-59. *)
Definition historical_filename (name : text) (now : Z) : text := name ++ format_date_time now (lit ".%Y%m%d-%H%M%S").

Section Config.
  Context {T : Type} (J : codec T).
  (** 76-95, Reload. *)
  Definition load (name : text) (fs : files) : error + T :=
    match read_file_as_string fs name with
    | None => inl ReadFile
    | Some contents => match parse_json J contents with Some c => inr c | None => inl ParseJSON end
    end.
  Definition reload (o : object T) (fs : files) : object T * option error :=
    match load (filename o) fs with inr c => (Object (filename o) c, None) | inl e => (o, Some e) end.
  (** 98-115, Update. *)
  Definition update (w1 w2 : write_way) (o : object T) (new_config : T) (now : Z) (fs : files) : object T * files * option error :=
    let new_filename := historical_filename (filename o) now in                (* 101 *)
    let '(fs, threw) := write_string_to_file w1 (to_json J (config o)) new_filename fs in (* 103 *)
    if threw : bool then (o, fs, Some (WriteFile new_filename))                (* 105 *)
    else
      let o := Object (filename o) new_config in                               (* 108 *)
      let '(fs, threw) := write_string_to_file w2 (to_json J (config o)) (filename o) fs in (* 111 *)
      (o, fs, if threw : bool then Some (WriteFile (filename o)) else None).   (* 113 *)
  (** 70-73, the constructor: no object if it throws. *)
  Definition construct (w1 w2 : write_way) (name : text) (now : Z) (fs : files) : error + object T * files :=
    match load name fs with
    | inl e => inl e
    | inr c => let '(o, fs, e) := update w1 w2 (Object name c) c now fs in
               match e with Some e => inl e | None => inr (o, fs) end
    end.
  (** The files after a constructor which throws. *)
  Definition construct_files (w1 w2 : write_way) (name : text) (now : Z) (fs : files) : files :=
    match load name fs with inl _ => fs | inr c => (update w1 w2 (Object name c) c now fs).1.2 end.
  (** What Update does to the files, step by step. *)
  Definition update_steps (o : object T) (new_config : T) (now : Z) : list fs_step :=
    write_steps (to_json J (config o)) (historical_filename (filename o) now) ++ write_steps (to_json J new_config) (filename o).
  (** The process is killed after [n] of these steps. *)
  Definition killed_in_update (n : nat) (o : object T) (new_config : T) (now : Z) (fs : files) : files :=
    foldl do_step fs (take n (update_steps o new_config now)).

  (** ** What a user does with one file: start the program, stop it, update and reload *)
  Inductive event := Start (now : Z) | Stop | Update (c : T) (now : Z) | Reload.
  Definition world : Type := option (object T) * files.
  (** All writes succeed; [None]: an exception, or the event is not possible. *)
  Definition step (name : text) (w : world) (e : event) : option world :=
    match e, w with
    | Start now, (None, fs) => match construct Written Written name now fs with inr (o, fs) => Some (Some o, fs) | inl _ => None end
    | Stop, (Some _, fs) => Some (None, fs)
    | Update c now, (Some o, fs) => match update Written Written o c now fs with (o, fs, None) => Some (Some o, fs) | _ => None end
    | Reload, (Some o, fs) => match reload o fs with (o, None) => Some (Some o, fs) | _ => None end
    | _, _ => None
    end.
  Fixpoint run (name : text) (es : list event) (w : world) : option world :=
    match es with [] => Some w | e :: es => match step name w e with Some w => run name es w | None => None end end.
End Config.
Arguments Start {T}.
Arguments Stop {T}.
Arguments Reload {T}.
