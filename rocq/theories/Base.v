(** Shared vocabulary of all models: byte strings, outcomes, [std::lower_bound]-style search.
    Nothing here models a particular file of /repo except where a comment says so. *)
From Coq Require Import Ascii String.
From Coq Require Export List Arith NArith ZArith Lia Bool.
From Coq Require Export ZifyBool ZifyNat ZifyN.
Export ListNotations.

(** A byte is an [N] (meant to be < 256); a C++ [std::string] is a list of bytes. *)
Notation byte := N (only parsing).
Notation bytes := (list N) (only parsing).

Definition bytes_ok (s : bytes) : Prop := Forall (fun b => (b < 256)%N) s.

(** [bs "abc"] is the byte list of a literal; used to write constants of the code readably. *)
Fixpoint bs (s : String.string) : bytes :=
  match s with
  | EmptyString => []
  | String c s' => N_of_ascii c :: bs s'
  end.
Arguments bs !s.

Definition ch (c : ascii) : byte := N_of_ascii c.

(** Result of a C++ call: returns, throws, or has undefined behaviour. *)
Inductive outcome (X A : Type) : Type :=
| Ok (a : A)
| Throw (x : X)
| UB.
Arguments Ok {X A} a.
Arguments Throw {X A} x.
Arguments UB {X A}.

Definition obind {X A B} (m : outcome X A) (f : A -> outcome X B) : outcome X B :=
  match m with Ok a => f a | Throw x => Throw x | UB => UB end.

Definition omap_list {A B} (f : A -> option B) : list A -> option (list B) :=
  fix go l := match l with
              | [] => Some []
              | a :: l' => match f a, go l' with Some b, Some r => Some (b :: r) | _, _ => None end
              end.

(** [static_cast<uint64_t>(-1)], the "no such index"/"to the end" sentinel. *)
Definition npos : N := (2 ^ 64 - 1)%N.

(** libstdc++'s [std::lower_bound]/[std::upper_bound] loop: [before i] is the comparison that says
    "element [i] is still before the sought position".  [fuel] bounds the number of halvings and is
    always [S len] at the call sites. *)
Fixpoint bsearch (fuel : nat) (before : nat -> bool) (first len : nat) : nat :=
  match fuel with
  | O => first
  | S f =>
      match len with
      | O => first
      | S _ =>
          let half := Nat.div2 len in
          let mid := first + half in
          if before mid then bsearch f before (S mid) (len - half - 1)
          else bsearch f before first half
      end
  end.

Lemma bsearch_spec : forall fuel before first len k,
  len < fuel ->
  first <= k <= first + len ->
  (forall i, first <= i < first + len -> before i = (i <? k)) ->
  bsearch fuel before first len = k.
Proof.
  induction fuel as [|f IH]; intros before first len k Hf Hk Hb; [lia|].
  cbn [bsearch]. destruct len as [|n]; [lia|].
  set (half := Nat.div2 (S n)).
  assert (Hh : half < S n) by (apply Nat.lt_div2; lia).
  assert (Hm : before (first + half) = (first + half <? k)) by (apply Hb; lia).
  rewrite Hm. destruct (Nat.ltb_spec (first + half) k) as [Hlt|Hge].
  - apply IH; [lia|lia|]. intros i Hi. apply Hb. lia.
  - apply IH; [lia|lia|]. intros i Hi. apply Hb. lia.
Qed.

(** ** Small list facts used everywhere. *)
Lemma Forall_snoc {A} (P : A -> Prop) l x : Forall P (l ++ [x]) <-> Forall P l /\ P x.
Proof.
  rewrite Forall_app. split; intros [H1 H2]; split; auto.
  now inversion H2.
Qed.

Lemma nth_error_snoc_last {A} (l : list A) x : nth_error (l ++ [x]) (length l) = Some x.
Proof. rewrite nth_error_app2 by lia. now rewrite Nat.sub_diag. Qed.

Lemma nth_error_snoc_lt {A} (l : list A) x i : i < length l -> nth_error (l ++ [x]) i = nth_error l i.
Proof. intros H. now rewrite nth_error_app1. Qed.

Lemma list_snoc_cases {A} (l : list A) : l = [] \/ exists l' x, l = l' ++ [x].
Proof.
  induction l as [|a l IH]; [now left|right].
  destruct IH as [->|(l' & x & ->)]; [now exists [], a|now exists (a :: l'), x].
Qed.

Lemma firstn_S_nth_error {A} (l : list A) n x :
  nth_error l n = Some x -> firstn (S n) l = firstn n l ++ [x].
Proof.
  revert n; induction l as [|a l IH]; intros [|n] H; cbn in *; try discriminate.
  - now inversion H.
  - now rewrite (IH n H).
Qed.

(** Keep [N]/[Z] arithmetic folded under [cbn]/[simpl] so that [lia] recognises it. *)
#[global] Arguments N.add : simpl never.
#[global] Arguments N.sub : simpl never.
#[global] Arguments N.mul : simpl never.
#[global] Arguments N.div : simpl never.
#[global] Arguments N.modulo : simpl never.
#[global] Arguments N.leb : simpl never.
#[global] Arguments N.ltb : simpl never.
#[global] Arguments N.eqb : simpl never.
#[global] Arguments N.of_nat : simpl never.
#[global] Arguments N.to_nat : simpl never.
#[global] Arguments N.pow : simpl never.
#[global] Arguments N.max : simpl never.
#[global] Arguments Z.add : simpl never.
#[global] Arguments Z.sub : simpl never.
#[global] Arguments Z.mul : simpl never.
#[global] Arguments Z.leb : simpl never.
#[global] Arguments Z.ltb : simpl never.
#[global] Arguments Z.eqb : simpl never.
#[global] Arguments Z.max : simpl never.
#[global] Arguments Z.of_nat : simpl never.
