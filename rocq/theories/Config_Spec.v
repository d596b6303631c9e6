(** What the self-modifying config promises, without the code. *)
From Coq Require Import String.
From stdpp Require Import gmap list.
From Coq Require Import NArith ZArith.
From Verif Require Import Date_Spec Config_Model.
Local Open Scope list_scope.
Local Open Scope Z_scope.

(** ".20150816-235959": the suffix of the name of a saved config. *)
Definition stamp (s : Z) : list N :=
  let d := day_after (Z.to_nat (s / 86400)) in
  str "." ++ decimal 4 (year d) ++ decimal 2 (month d) ++ decimal 2 (day_of_month d) ++
  str "-" ++ decimal 2 (s mod 86400 / 3600) ++ decimal 2 (s mod 3600 / 60) ++ decimal 2 (s mod 60).
(** The name of the config saved at a time. *)
Definition saved_as (name : list N) (now : Z) : list N := name ++ stamp (second_of now).

(** The order in which files are listed. *)
Inductive listed_before : list N → list N → Prop :=
| listed_shorter c s : listed_before [] (c :: s)
| listed_smaller c d s t : (c < d)%N → listed_before (c :: s) (d :: t)
| listed_equal c s t : listed_before s t → listed_before (c :: s) (c :: t).

(** A program is running or not, the config in force, and the configs saved so far with their times. *)
Record expected (T : Type) := Expected { running : bool; current : T; saved : list (Z * T) }.
Arguments Expected {T}.
Arguments running {T}.
Arguments current {T}.
Arguments saved {T}.
Definition expect {T} (x : expected T) (e : event) : option (expected T) :=
  match e, running x with
  | Start now, false => Some (Expected true (current x) (saved x ++ [(now, current x)]))
  | Stop, true => Some (Expected false (current x) (saved x))
  | Update c now, true => Some (Expected true c (saved x ++ [(now, current x)]))
  | Reload, true => Some x
  | _, _ => None
  end.
Fixpoint expect_all {T} (x : expected T) (es : list event) : option (expected T) :=
  match es with [] => Some x | e :: es => match expect x e with Some x => expect_all x es | None => None end end.
Definition times {T} (es : list (@event T)) : list Z :=
  omap (λ e, match e with Start now | Update _ now => Some now | _ => None end) es.

(** Parsing a JSON gives the value it was made of. *)
Definition faithful {T} (J : codec T) : Prop := ∀ c, parse_json J (to_json J c) = Some c.
(** No beginning of a JSON is a JSON. *)
Definition no_beginning_parses {T} (J : codec T) : Prop := ∀ c k, (k < length (to_json J c))%nat → parse_json J (take k (to_json J c)) = None.
Definition not_silent (w : write_way) : Prop := match w with Short _ true => False | _ => True end.
