(** A concrete instance of [codec], used to show that the hypotheses of the persister theorems are
    satisfiable: [JSON(idxts_t)] as printed by typesystem/serialization/json
    ([{"index":7,"us":100}]) with a parser for exactly that form, and entries that are natural numbers
    printed in decimal. *)
From Coq Require Import Ascii String.
From Verif Require Import Base Dec Persister_Model.

(** What the persister theorems assume about the JSON codecs (all true of JSON texts produced by
    rapidjson's compact writer: control characters are escaped, idxts_t is an object). *)
Record codec_ok {E} (C : codec E) : Prop := {
  ok_idx : forall it, (-1 <= snd it)%Z -> par_idx C (ser_idx C it) = Some it;
  ok_idx_tab : forall it, ~ In TAB (ser_idx C it);
  ok_idx_nl : forall it, ~ In NL (ser_idx C it);
  ok_par_nil : par_idx C [] = None;                          (* empty text is not JSON *)
  ok_par_hash : forall r, par_idx C (HASH :: r) = None;      (* no JSON text starts with '#' *)
  ok_de : forall e, de C (ser C e) = Some e;
  ok_ser_nl : forall e, ~ In NL (ser C e)
}.

Definition P1 : bytes := bs "{""index"":".
Definition P2 : bytes := bs ",""us"":".
Definition P3 : bytes := bs "}".

Fixpoint strip (p s : bytes) : option bytes :=
  match p, s with
  | [], _ => Some s
  | a :: p', b :: s' => if N.eqb a b then strip p' s' else None
  | _ :: _, [] => None
  end.

Fixpoint span (f : byte -> bool) (s : bytes) : bytes * bytes :=
  match s with
  | [] => ([], [])
  | b :: s' => if f b then let r := span f s' in (b :: fst r, snd r) else ([], s)
  end.

Definition json_idx (it : idxts) : bytes := P1 ++ dec (fst it) ++ P2 ++ zdec (snd it) ++ P3.

Definition parse_json_idx (s : bytes) : option idxts :=
  match strip P1 s with
  | None => None
  | Some s1 =>
      let r1 := span is_digit s1 in
      match undec (fst r1), strip P2 (snd r1) with
      | Some i, Some s2 =>
          let r2 := span is_num s2 in
          match zundec (fst r2), strip P3 (snd r2) with
          | Some t, Some [] => Some (i, t)
          | _, _ => None
          end
      | _, _ => None
      end
  end.

Definition demo_codec : codec N := {|
  ser_idx := json_idx; par_idx := parse_json_idx; ser := dec; de := undec |}.

Lemma strip_app p s : strip p (p ++ s) = Some s.
Proof. induction p as [|a p IH]; cbn; [reflexivity|]. now rewrite N.eqb_refl. Qed.

Lemma span_app f p c s : Forall (fun b => f b = true) p -> f c = false -> span f (p ++ c :: s) = (p, c :: s).
Proof.
  intros Hp Hc. induction Hp as [|b p Hb _ IH]; cbn; [now rewrite Hc|].
  rewrite Hb, IH. reflexivity.
Qed.

Lemma parse_json_idx_ok it : parse_json_idx (json_idx it) = Some it.
Proof.
  destruct it as [i t]. unfold parse_json_idx, json_idx; cbn [fst snd].
  rewrite strip_app. change P2 with (44%N :: tl P2). cbn [app].
  rewrite span_app by (apply dec_is_digit || reflexivity). cbn [fst snd].
  rewrite undec_dec. change (44%N :: tl P2 ++ zdec t ++ P3) with (P2 ++ zdec t ++ P3).
  change (44%N :: tl P2) with P2.
  rewrite strip_app. change P3 with (125%N :: []).
  rewrite span_app by (apply zdec_is_num || reflexivity). cbn [fst snd].
  rewrite zundec_zdec. reflexivity.
Qed.

Lemma not_in_forall (b : N) (p : N -> bool) l : Forall (fun x => p x = true) l -> p b = false -> ~ In b l.
Proof. intros H Hb Hin. rewrite Forall_forall in H. specialize (H b Hin). congruence. Qed.

Lemma json_idx_not_in b it : (is_num b || existsb (N.eqb b) (P1 ++ P2 ++ P3) = false)%bool -> ~ In b (json_idx it).
Proof.
  intros H Hin. apply orb_false_iff in H. destruct H as [H1 H2].
  assert (Hnot : ~ In b (P1 ++ P2 ++ P3)).
  { intros Hi. rewrite <- not_true_iff_false in H2. apply H2. apply existsb_exists. exists b. now rewrite N.eqb_refl. }
  unfold json_idx in Hin. rewrite !in_app_iff in Hin. rewrite !in_app_iff in Hnot.
  assert (~ In b (dec (fst it))).
  { apply (not_in_forall b is_digit); [apply dec_is_digit|]. unfold is_num in H1. now apply orb_false_iff in H1. }
  assert (~ In b (zdec (snd it))) by (apply (not_in_forall b is_num); [apply zdec_is_num|exact H1]).
  tauto.
Qed.

Lemma demo_codec_ok : codec_ok demo_codec.
Proof.
  split; cbn [demo_codec ser_idx par_idx ser de].
  - intros it _. apply parse_json_idx_ok.
  - intros it. apply json_idx_not_in. reflexivity.
  - intros it. apply json_idx_not_in. reflexivity.
  - reflexivity.
  - intros r. reflexivity.
  - apply undec_dec.
  - intros e. apply (not_in_forall NL is_digit); [apply dec_is_digit|reflexivity].
Qed.
