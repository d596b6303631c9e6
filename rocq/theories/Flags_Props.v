(** * C86: command line flags *)
From Coq Require Import String.
From Verif Require Import Base Dec Flags_Model Flags_Spec Flags_Proofs.
From stdpp Require Import gmap list.
Local Open Scope list_scope.

(** The program goes on after [ParseDFlags] exactly if the command line has a meaning and every text is one of a value of
    the type of its flag; then the flags have these values, and the parameters that are left are these. *)
Theorem C86_meaning_of_a_command_line reg arg0 args st st' params' :
  parse_flags reg false (arg0 :: args) st = Continues st' params' ↔
  ∃ sets params, command reg args sets params ∧ params' = arg0 :: params ∧ assign reg sets st = Some st'.
Proof.
  unfold parse_flags. split.
  - intros H. apply (parse_sound _ (length args)) in H as (sets & ps & H1 & -> & H2); [|lia]. eauto.
  - intros (sets & ps & H1 & -> & H2). pose proof (parse_complete _ _ _ _ [] H1) as P. rewrite app_nil_r in P.
    rewrite P by discriminate. rewrite H2. done.
Qed.

(** A command line has at most one meaning. *)
Theorem C86_unambiguous reg args sets1 ps1 sets2 ps2 :
  command reg args sets1 ps1 → command reg args sets2 ps2 → sets1 = sets2 ∧ ps1 = ps2.
Proof. apply command_unique. Qed.

(** A flag that is set more than once has the last of the values; one that is not set has its default. *)
Theorem C86_last_one_wins reg sets st st' n :
  assign reg sets st = Some st' →
  st' !! n = match last (filter (λ p : list N * list N, p.1 = n) sets) with
             | None => st !! n
             | Some (_, s) => k ← reg !! n; parse_value k s
             end.
Proof. apply assign_lookup. Qed.

(** It exits with code 0 exactly if help is asked for, where a flag is expected, and nothing before it was wrong; in all
    the other cases in which it exits the code is -1. *)
Theorem C86_help_and_errors reg arg0 args st c :
  parse_flags reg false (arg0 :: args) st = Exits c →
  c = (-1)%Z ∨
  (c = 0%Z ∧ ∃ pre a v post sets ps st',
     args = pre ++ a :: post ∧ command reg pre sets ps ∧ assign reg sets st = Some st' ∧ flag_arg a (bs "help") v).
Proof. unfold parse_flags. intros H. by apply (parse_exits _ (length args)) in H; [|lia]. Qed.

Theorem C86_help_is_given reg arg0 pre a v post sets ps st st' :
  command reg pre sets ps → assign reg sets st = Some st' → flag_arg a (bs "help") v →
  parse_flags reg false (arg0 :: pre ++ a :: post) st = Exits 0.
Proof.
  intros H1 H2 H3. unfold parse_flags. rewrite (parse_complete _ _ _ _ (a :: post) H1).
  - rewrite H2, (parse_flag_arg _ _ _ _ _ _ _ H3). done.
  - intros w [= <-] W. apply bool_word_dash in W. by apply flag_arg_dash in H3.
Qed.

(** A second call ends the program. *)
Theorem C86_called_once reg argv st : parse_flags reg true argv st = Exits (-1).
Proof. done. Qed.

(** Every flag can be set to every text, also an empty one and one with dashes, spaces and equals signs in it, in any order,
    as ["--name=text"]; and the parameters that do not begin with a dash are kept, in order. *)
Theorem C86_everything_can_be_said reg sets params :
  names_ok reg → (∀ n s, (n, s) ∈ sets → is_Some (reg !! n) ∧ n ≠ bs "help") → (∀ a, a ∈ params → head a ≠ Some 45%N) →
  command reg (map (λ p : list N * list N, bs "--" ++ p.1 ++ bs "=" ++ p.2) sets ++ params) sets params.
Proof.
  intros Hok Hs Hp. induction sets as [|[n s] r IH]; cbn -[bs].
  - clear Hs. induction params as [|a r IH]; [constructor|]. constructor.
    + apply Hp. left.
    + apply IH. intros x Hx. apply Hp. by right.
  - destruct (Hs n s) as [[k Hk] Hh]; [left|]. destruct (Hok _ _ Hk) as [H1 H2].
    eapply command_equals; [|done|done|].
    + split; [|done]. exists (bs "--"). split; [by right|]. done.
    + apply IH. intros m t H. apply (Hs m t). by right.
Qed.

(** As ["--name" "text"] too, unless the flag is a boolean one; then the text must be one of a boolean. *)
Theorem C86_separate_values reg a n s k args sets params :
  a = bs "--" ++ n ∨ a = bs "-" ++ n →
  names_ok reg → reg !! n = Some k → n ≠ bs "help" → (k = KBool → bool_word s) →
  command reg args sets params → command reg (a :: s :: args) ((n, s) :: sets) params.
Proof.
  intros Ha Hok Hk Hh Hb C. destruct (Hok _ _ Hk) as [H1 H2]. eapply command_space; eauto.
  split; [|done]. rewrite app_nil_r. destruct Ha as [->| ->]; eexists; split; try done; auto.
Qed.

(** The text of a value is read as this value: any string, the words for true and false, any integer in range. *)
Theorem C86_values_are_read k s v : text_of k s v → parse_value k s = Some v.
Proof. apply text_of_parse. Qed.

(** What is read is in range, and it is the number that the text begins with. *)
Theorem C86_numbers_in_range bits s z :
  parse_value (KInt bits) s = Some (VInt z) →
  (- 2 ^ (bits - 1) ≤ z < 2 ^ (bits - 1))%Z ∧
  ∃ sp sg d r, s = sp ++ sg ++ d ++ r ∧ Forall (λ b, is_space b = true) sp ∧ d ≠ [] ∧ Forall (λ b, is_digit b = true) d ∧
    ((sg = bs "-" ∧ z = (- Z.of_N (horner d))%Z) ∨ ((sg = [] ∨ sg = bs "+") ∧ z = Z.of_N (horner d))).
Proof.
  cbn [parse_value]. destruct (read_int bits s) as [x|] eqn:E; [|discriminate]. cbn. intros [= <-].
  apply read_int_prefix in E as (sp & sg & d & r & H1 & H2 & H3 & H4 & H5 & H6). split; [done|]. by exists sp, sg, d, r.
Qed.

(** What comes after the number is ignored: ["--n=12abc"] sets [n] to 12, and ["--n=1.5"] to 1. *)
Theorem C86_garbage_rejected_refuted :
  ¬ ∀ s z, parse_value (KInt 32) s = Some (VInt z) → zundec s = Some z.
Proof.
  intros H. assert (zundec (bs "12abc") = Some 12%Z) as X; [|vm_compute in X; discriminate].
  apply H. vm_compute. reflexivity.
Qed.

(** A negative number for an unsigned flag is not an error: ["--n=-1"] sets [n] to 4294967295. *)
Theorem C86_negative_rejected_refuted :
  ¬ ∀ s z, parse_value (KUInt 32) s = Some (VInt z) → head s ≠ Some 45%N.
Proof. intros H. apply (H (bs "-1") 4294967295%Z); vm_compute; reflexivity. Qed.

(** A flag of type int8 or uint8 is set to the code of the first character: ["--n=5"] sets [n] to 53. *)
Theorem C86_small_integers_refuted :
  ¬ ∀ sg z, (0 ≤ z < 128)%Z → parse_value (KChar sg) (zdec z) = Some (VInt z).
Proof. intros H. specialize (H true 5%Z ltac:(lia)). vm_compute in H. discriminate. Qed.

(** A program with a string, a boolean and an integer flag. *)
Definition C86_flags : gmap (list N) kind :=
  <[bs "name" := KString]> (<[bs "verbose" := KBool]> (<[bs "n" := KInt 32]> ∅)).
Definition C86_argv : list (list N) :=
  map bs ["./main"; "foo"; "--name=a=b -c"; "-verbose"; "bar"; "--n"; "-7"; "--n=42"; "--verbose"; "no"; "--name"; "--n"]%string.
Example C86_holds_on :
  names_ok C86_flags ∧
  match parse_flags C86_flags false C86_argv (<[bs "n" := VInt 1]> ∅) with
  | Continues st ps =>
      (st !! bs "name", st !! bs "verbose", st !! bs "n", ps) =
      (Some (VString (bs "--n")), Some (VBool false), Some (VInt 42), [bs "./main"; bs "foo"; bs "bar"])
  | Exits _ => False
  end ∧
  text_of (KInt 32) (bs "-7") (VInt (-7)) ∧
  parse_flags C86_flags false (map bs ["./main"; "--verbose"; "--help"]%string) ∅ = Exits 0 ∧
  parse_flags C86_flags false (map bs ["./main"; "---n=5"]%string) ∅ = Exits (-1) ∧
  parse_flags C86_flags false (map bs ["./main"; "--n"]%string) ∅ = Exits (-1) ∧
  parse_flags C86_flags false (map bs ["./main"; "--m=5"]%string) ∅ = Exits (-1) ∧
  parse_flags C86_flags false (map bs ["./main"; "--n=2147483648"]%string) ∅ = Exits (-1).
Proof.
  split.
  { intros n k H. unfold C86_flags in H. rewrite !lookup_insert_Some, lookup_empty in H.
    assert (n = bs "name" ∨ n = bs "verbose" ∨ n = bs "n") as [-> |[->| ->]] by naive_solver;
      (split; [apply (bool_decide_unpack _); vm_compute; exact I|vm_compute; discriminate]). }
  repeat split; try (vm_compute; reflexivity).
  change (bs "-7") with (zdec (-7)). constructor. lia.
Qed.
Print Assumptions C86_meaning_of_a_command_line.
Print Assumptions C86_numbers_in_range.
