(** Model of utils/operational_transformation/ot.h: replaying the log of a collaborative text editor.
    The document is a rapidjson DOM (Json_Model.json).  The conversion of UTF-8 to wide characters is a parameter. *)
From stdpp Require Import list.
From Coq Require Import ZArith.
From Verif Require Import Json_Model.
From Verif Require Base.

(** Undefined: an iterator beyond the end of the rope is made, or an int overflows. *)
Inductive failure := OTParseException | RangeError (* of std::wstring_convert *) | AssertionFailed (* of rapidjson *).
Inductive run A := Done (a : A) | Threw (e : failure) | Undefined.
Arguments Done {A}. Arguments Threw {A}. Arguments Undefined {A}.
Definition bind {A B} (r : run A) (k : A → run B) : run B := match r with Done a => k a | Threw e => Threw e | Undefined => Undefined end.

Definition int_max : Z := 2147483647.
Definition is_int32 (z : Z) : bool := bool_decide (- 2147483648 ≤ z ≤ int_max)%Z.

(** 94-113, one iteration of the inner loop: an element of the array, with the rope and the caret. *)
Definition element_step (decode : list N → option (list N)) (e : json) (rope : list N) (caret : Z) : run (list N * Z) :=
  match e with
  | JStr bytes =>                                          (* 96-100 *)
      match decode bytes with
      | None => Threw RangeError
      | Some s =>
          if bool_decide (0 ≤ caret ≤ Z.of_nat (length rope))%Z then
            let caret' := (caret + Z.of_nat (length s))%Z in
            if bool_decide (caret' ≤ int_max)%Z
            then Done (take (Z.to_nat caret) rope ++ s ++ drop (Z.to_nat caret) rope, caret') else Undefined
          else Undefined
      end
  | JInt z =>                                              (* 105-110; GetInt requires an int *)
      if is_int32 z then
        if bool_decide (z > 0)%Z then
          if bool_decide (caret + z ≤ int_max)%Z then Done (rope, (caret + z)%Z) else Undefined
        else
          let n := (- z)%Z in
          if bool_decide (n ≤ int_max ∧ 0 ≤ caret ∧ caret + n ≤ Z.of_nat (length rope))%Z
          then Done (take (Z.to_nat caret) rope ++ drop (Z.to_nat (caret + n)) rope, caret) else Undefined
      else Threw AssertionFailed
  | JDouble _ => Threw AssertionFailed                     (* 105 *)
  | _ => Threw OTParseException                            (* 102-104 *)
  end.
Fixpoint elements (decode : list N → option (list N)) (es : list json) (rope : list N) (caret : Z) : run (list N) :=
  match es with
  | [] => Done rope
  | e :: es' => bind (element_step decode e rope caret) (λ '(rope', caret'), elements decode es' rope' caret')
  end.

(** 68-89, the checks of one member of the document: its timestamp and the array of elements. *)
Definition entry (inner : json) : run (Z * list json) :=
  match inner with
  | JObj ms =>
      match member [116%N] ms with                         (* "t" *)
      | None => Threw OTParseException
      | Some t =>
          match member [111%N] ms with                     (* "o" *)
          | None => Threw OTParseException
          | Some o =>
              match t with
              | JInt z => if is_uint64 t then match o with JArr es => Done (z, es) | _ => Threw OTParseException end
                          else Threw OTParseException
              | _ => Threw OTParseException
              end
          end
      end
  | _ => Threw OTParseException
  end.
(** 115, std::chrono::microseconds(timestamp * 1000): uint64_t, then the signed representation of microseconds. *)
Definition microseconds (t : Z) : Z := wrap 64 true (t * 1000).

Section processor.
(** The user's processor: its state, ProcessSnapshot (called with the time and the rope, returns whether to go on), and GenerateOutput
    (called with the rope, and whether the return is early). *)
Context {P R : Type} (process : P → Z → list N → P * bool) (generate : P → list N → bool → R).
(** 67-119, the loop. *)
Fixpoint replay (decode : list N → option (list N)) (ms : list (list N * json)) (p : P) (rope : list N) : run R :=
  match ms with
  | [] => Done (generate p rope false)                     (* 121 *)
  | (_, inner) :: ms' =>
      bind (entry inner) (λ '(t, es),
        bind (elements decode es rope 0) (λ rope',
          let '(p', go_on) := process p (microseconds t) rope' in
          if go_on : bool then replay decode ms' p' rope' else Done (generate p' rope' true)))
  end.
(** 49-122, OT(json, processor), from the parsed document. *)
Definition ot (decode : list N → option (list N)) (document : json) (p : P) : run R :=
  match document with JObj ms => replay decode ms p [] | _ => Threw OTParseException end.
End processor.

(** 124-137, OT(json): all snapshots processed, the final text returned (as wide characters). *)
Definition ot_text (decode : list N → option (list N)) (document : json) : run (list N) :=
  ot (λ (p : unit) _ _, (p, true)) (λ _ rope _, rope) decode document tt.
