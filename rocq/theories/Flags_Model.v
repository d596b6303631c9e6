(** * Model of command line flags: [bricks/dflags/dflags.h]

    A program has registered flags (name and type); [ParseDFlags] goes through [argv], sets the flags and leaves the rest.
    Strings are lists of bytes without NUL.  Flags of type float and double are not modelled. *)
From Coq Require Import String.
From stdpp Require Import gmap list.
From Verif Require Import Base Dec.
Local Open Scope list_scope.

(** dflags.h 296-308: the type of a flag; the integers by signedness and width in bits. [KChar]: [int8_t] and [uint8_t], which
    are [signed char] and [unsigned char] for iostreams. *)
Inductive kind := KString | KBool | KInt (bits : Z) | KUInt (bits : Z) | KChar (signed : bool).
Inductive value := VString (s : bytes) | VBool (b : bool) | VInt (z : Z).
Global Instance kind_eq_dec : EqDecision kind. Proof. solve_decision. Defined.

(** ** The C++ library: [std::istringstream >> x], in the C locale *)
Definition is_space (b : N) : bool := ((b =? 32) || ((9 <=? b) && (b <=? 13)))%N.
Fixpoint skip_space (s : bytes) : bytes :=
  match s with b :: r => if is_space b then skip_space r else s | [] => [] end.
Fixpoint digits (s : bytes) : bytes :=
  match s with b :: r => if is_digit b then b :: digits r else [] | [] => [] end.
(** A sign, and the longest run of digits after it. *)
Definition sign_and_digits (s : bytes) : bool * bytes :=
  match s with
  | 45%N :: r => (true, digits r)
  | 43%N :: r => (false, digits r)
  | _ => (false, digits s)
  end.
(** A signed integer: out of range is a failure. *)
Definition read_int (bits : Z) (s : bytes) : option Z :=
  let '(neg, d) := sign_and_digits (skip_space s) in
  if decide (d = []) then None
  else
    let v := Z.of_N (horner d) in
    let v := if neg then (- v)%Z else v in
    if decide (- 2 ^ (bits - 1) ≤ v < 2 ^ (bits - 1))%Z then Some v else None.
(** An unsigned integer: the magnitude out of range is a failure; a minus sign negates modulo 2^bits. *)
Definition read_uint (bits : Z) (s : bytes) : option Z :=
  let '(neg, d) := sign_and_digits (skip_space s) in
  if decide (d = []) then None
  else
    let v := Z.of_N (horner d) in
    if decide (v < 2 ^ bits)%Z then Some (if neg then ((- v) mod 2 ^ bits)%Z else v) else None.
(** A character: its code. *)
Definition read_char (signed : bool) (s : bytes) : option Z :=
  match skip_space s with
  | [] => None
  | b :: _ => Some (let z := Z.of_N b in if (signed && (128 <=? z))%Z then (z - 256)%Z else z)
  end.

(** ** dflags.h *)
(** 129-140, [FromStringSupportingStringAndBool] for [bool]. *)
Definition parse_bool (s : bytes) : option bool :=
  if decide (s ∈ [bs "0"; bs "false"; bs "False"; bs "no"; bs "No"]) then Some false
  else if decide (s ∈ [bs "1"; bs "true"; bs "True"; bs "yes"; bs "Yes"]) then Some true
  else None.
(** 117-140, and 270-274 [ParseValue]; [None]: it calls [TerminateExecution(-1, ...)]. *)
Definition parse_value (k : kind) (s : bytes) : option value :=
  match k with
  | KString => Some (VString s)                                   (* 123-127 *)
  | KBool => VBool <$> parse_bool s
  | KInt bits => VInt <$> read_int bits s                         (* 117-121 *)
  | KUInt bits => VInt <$> read_uint bits s
  | KChar sg => VInt <$> read_char sg s
  end.

(** What [ParseDFlags] does to the program: exits with this code, or goes on with these values of the flags, and these
    parameters. *)
Inductive outcome := Exits (code : Z) | Continues (values : gmap bytes value) (params : list bytes).

(** 177-185: the dashes; [None]: too many of them. *)
Fixpoint dashes (count : nat) (s : bytes) : option bytes :=
  match s with
  | 45%N :: r => if decide (2 < S count) then None else dashes (S count) r
  | _ => Some s
  end.
(** 187-188: [strstr(flag, "=")]; the name, and what follows the equals sign. *)
Fixpoint split_eq (s : bytes) : bytes * option bytes :=
  match s with
  | [] => ([], None)
  | 61%N :: r => ([], Some r)
  | b :: r => let '(n, v) := split_eq r in (b :: n, v)
  end.

Section Parse.
  Context (registered : gmap bytes kind).

  (** 210: [ParseValue] *)
  Definition set_flag (name : bytes) (k : kind) (v : bytes) (go : gmap bytes value → outcome) (st : gmap bytes value) : outcome :=
    match parse_value k v with None => Exits (-1) | Some x => go (<[name := x]> st) end.

  (** 175-216: the loop over the arguments after the first. *)
  Fixpoint parse_args (args : list bytes) (params : list bytes) (st : gmap bytes value) : outcome :=
    match args with
    | [] => Continues st params                                    (* 218-219 *)
    | a :: rest =>
        match a with
        | 45%N :: _ =>                                              (* 176 *)
            match dashes 0 a with
            | None => Exits (-1)                                    (* 182-184 *)
            | Some flag =>
                let '(name, v) := split_eq flag in                  (* 187-188 *)
                if decide (name = bs "help") then Exits 0           (* 189-190 *)
                else match registered !! name with
                     | None => Exits (-1)                           (* 193-194 *)
                     | Some k =>
                         match v with
                         | Some v => set_flag name k v (parse_args rest params) st     (* 204, equals_sign + 1 *)
                         | None =>
                             match rest with
                             | [] =>
                                 if decide (k = KBool) then set_flag name k (bs "1") (parse_args rest params) st  (* 197-202 *)
                                 else Exits (-1)                    (* 207-209 *)
                             | next :: rest' =>
                                 if decide (k = KBool ∧ parse_bool next = None)
                                 then set_flag name k (bs "1") (parse_args rest params) st                        (* 197-202 *)
                                 else set_flag name k next (parse_args rest' params) st                           (* 204, ++i *)
                             end
                         end
                     end
            end
        | _ => parse_args rest (params ++ [a]) st                   (* 214 *)
        end
    end.

  (** 167-220, [ParseFlags]; [called] is [parse_flags_called_]; [argv] has at least the name of the program. *)
  Definition parse_flags (called : bool) (argv : list bytes) (st : gmap bytes value) : outcome :=
    if called then Exits (-1)                                       (* 168-170 *)
    else match argv with
         | [] => Exits (-1)                                         (* not a process *)
         | arg0 :: args => parse_args args [arg0] st                (* 172 *)
         end.
End Parse.
