(** * C92: CSV<T>::ReadFile *)
From Coq Require Import String.
From Verif Require Import Base Strings_Model Strings_Props Persister_Model FilePersister_Model FilePersister_Spec FilePersister_Proofs Csv_Model Csv_Spec.
Local Open Scope list_scope.

Lemma chomp_cr l : chomp (l ++ [CRET]) = l.
Proof.
  unfold chomp. destruct (l ++ [CRET]) eqn:E; [now destruct l|]. rewrite <- E, last_last. change (N.eqb CRET CRET) with true. cbv iota.
  rewrite app_length. cbn [List.length]. replace (List.length l + 1 - 1)%nat with (List.length l) by lia. now rewrite firstn_app, firstn_all, Nat.sub_diag, app_nil_r.
Qed.
Lemma chomp_plain l : ~ In CRET l -> chomp l = l.
Proof.
  intros H. unfold chomp. destruct l as [|x l]; [reflexivity|]. destruct (N.eqb_spec (List.last (x :: l) 0%N) CRET) as [E|E]; [|reflexivity].
  exfalso. apply H. rewrite <- E, (app_removelast_last 0%N (l := x :: l)) by discriminate. rewrite last_last. apply in_or_app. right. now left.
Qed.
Lemma csv_line_join cs : csv_line cs = join cs [COMMA].
Proof.
  induction cs as [|c cs IH]; [reflexivity|]. rewrite join_cons. destruct cs as [|d cs]; [cbn; now rewrite app_nil_r|].
  change (csv_line (c :: d :: cs)) with (c ++ COMMA :: csv_line (d :: cs)). rewrite IH, join_cons. reflexivity.
Qed.
Lemma cells_line cs : Forall plain_cell cs -> cells (csv_line cs) = cs.
Proof.
  intros H. destruct cs as [|c cs]; [reflexivity|]. unfold cells. rewrite csv_line_join, C42_skip_drops_empty_fields, C42_split_inverts_join.
  - induction H as [|x l (Hx & _) _ IH]; [reflexivity|]. cbn. destruct x; [congruence|]. cbn. now rewrite IH.
  - discriminate.
  - eapply Forall_impl; [|exact H]. intros x (_ & Hx & _). exact Hx.
Qed.
Lemma in_line x cs : In x (csv_line cs) -> x = COMMA \/ exists c, In c cs /\ In x c.
Proof.
  induction cs as [|c cs IH]; [now left|]. destruct cs as [|d cs]; [cbn; eauto|].
  change (csv_line (c :: d :: cs)) with (c ++ COMMA :: csv_line (d :: cs)). intros [H|[H|H]]%in_app_or.
  - right. exists c. split; [now left|exact H].
  - now left.
  - destruct (IH H) as [?|(e & I & J)]; [now left|]. right. exists e. split; [now right|exact J].
Qed.
Lemma line_no x cs : x <> COMMA -> (forall c, In c cs -> ~ In x c) -> ~ In x (csv_line cs).
Proof. intros H G [I|(c & I & J)]%in_line; [auto|now apply (G c)]. Qed.
Lemma line_nonempty cs : Forall plain_cell cs -> cs <> [] -> csv_line cs <> [].
Proof.
  intros H N E. pose proof (cells_line cs H) as K. rewrite E in K. cbn in K. now rewrite K in N.
Qed.

Lemma text_lines ls ended :
  Forall (fun l => ~ In NL (fst l) /\ ~ In CRET (fst l)) ls -> (ended = true \/ fst (List.last ls ([1%N], true)) <> []) ->
  map chomp (lines_of (text ls ended)) = map fst ls.
Proof.
  intros H E. induction H as [|(l, dos) ls (H1 & H2) _ IH]; [reflexivity|]. cbn [fst] in *.
  assert (L : forall s, map chomp (lines_of (l ++ eol dos ++ s)) = l :: map chomp (lines_of s)).
  { intros s. destruct dos; cbn [eol].
    - change (l ++ [13; 10]%N ++ s) with (l ++ CRET :: NL :: s). replace (l ++ CRET :: NL :: s) with ((l ++ [CRET]) ++ NL :: s) by now rewrite <- app_assoc.
      rewrite lines_of_line; [cbn [map]; now rewrite chomp_cr|]. intros I. apply in_app_or in I as [I|[I|[]]]; [now apply H1|discriminate].
    - change (l ++ [10]%N ++ s) with (l ++ NL :: s). rewrite lines_of_line by exact H1. cbn [map]. now rewrite chomp_plain. }
  destruct ls as [|p ls].
  - cbn [text]. destruct ended.
    + rewrite <- (app_nil_r (eol dos)). rewrite L. reflexivity.
    + destruct E as [E|E]; [discriminate|]. cbn in E. rewrite app_nil_r. cbn [map fst].
      replace (lines_of l) with [l]; [cbn; now rewrite chomp_plain|]. clear -H1 E. induction l as [|b l IH]; [congruence|]. cbn.
      destruct (N.eqb_spec b NL); [exfalso; apply H1; now left|]. destruct l as [|c l]; [reflexivity|].
      rewrite <- IH; [reflexivity| |discriminate]. intros I. apply H1. now right.
  - change (text ((l, dos) :: p :: ls) ended) with (l ++ eol dos ++ text (p :: ls) ended). rewrite L. cbn [map fst] in *. f_equal. apply IH.
    destruct E as [E|E]; [now left|right]. exact E.
Qed.

Lemma read_rows_spec {T} (fs : bytes -> T) n ls acc :
  read_rows fs n ls acc =
    if forallb (fun l => Nat.eqb (List.length (cells l)) n) (map chomp ls) then Ok (acc ++ map (map fs) (map cells (map chomp ls))) else Throw ColumnMismatch.
Proof.
  revert acc. induction ls as [|l ls IH]; intros acc; cbn; [now rewrite app_nil_r|]. rewrite map_length. destruct (Nat.eqb _ n); cbn; [|reflexivity].
  rewrite IH. destruct (forallb _ _); [|reflexivity]. now rewrite <- app_assoc.
Qed.

(** What is read is a table: every row has as many cells as there are columns, and there is a column. *)
Theorem C92_rectangular {T} (from_string : bytes -> T) file c : read_file from_string file = Ok c ->
  header c <> [] /\ Forall (fun row => List.length row = List.length (header c)) (data c).
Proof.
  destruct file as [f|]; [|discriminate]. cbn. destruct (lines_of f) as [|l ls]; [discriminate|].
  destruct (Nat.eqb_spec (List.length (cells (chomp l))) 0) as [|N]; [discriminate|]. rewrite read_rows_spec.
  destruct (forallb _ _) eqn:F; [|discriminate]. cbn. intros [= <-]. cbn. split.
  - intros E. now rewrite E in N.
  - rewrite Forall_forall. intros r I. apply in_map_iff in I as (x & <- & I). apply in_map_iff in I as (y & <- & I).
    rewrite forallb_forall in F. specialize (F y I). apply Nat.eqb_eq in F. now rewrite map_length.
Qed.

(** A table of cells that are not empty and have no commas and no line ends in them is read back exactly: with any mixture of line ends, with
    or without one at the end of the file.  If rows are longer or shorter than the header, or blank, there is an exception. *)
Theorem C92_reads_what_was_written {T} (from_string : bytes -> T) (h : list bytes) (dos : bool) (rows : list (list bytes * bool)) (ended : bool) :
  h <> [] -> Forall plain_cell h -> Forall (fun r => Forall plain_cell (fst r)) rows ->
  ended = true \/ fst (List.last ((h, dos) :: rows) ([], true)) <> [] ->
  read_file from_string (Some (text (map (fun r => (csv_line (fst r), snd r)) ((h, dos) :: rows)) ended)) =
    if forallb (fun r => Nat.eqb (List.length (fst r)) (List.length h)) rows
    then Ok (Csv h (map (map from_string) (map fst rows)))
    else Throw ColumnMismatch.
Proof.
  intros N Hh Hr E. set (all := (h, dos) :: rows) in *.
  assert (P : Forall (fun r => Forall plain_cell (fst r)) all) by (constructor; assumption).
  assert (G : map chomp (lines_of (text (map (fun r => (csv_line (fst r), snd r)) all) ended)) = map csv_line (map fst all)).
  { rewrite text_lines; [now rewrite !map_map| |].
    - apply Forall_forall. intros x I. apply in_map_iff in I as (r & <- & I). rewrite Forall_forall in P. specialize (P r I). rewrite Forall_forall in P.
      cbn [fst]. split; apply line_no; try discriminate; intros c J; now apply P.
    - destruct E as [E|E]; [now left|right]. assert (A : all <> []) by discriminate. clear -E P A. induction P as [|r l Hr' _ IH]; [congruence|].
      destruct l as [|r' l]; [|apply IH; [exact E|discriminate]]. cbn in *. now apply line_nonempty. }
  unfold read_file. destruct (lines_of _) as [|l ls] eqn:L; [discriminate G|]. cbn [map] in G. injection G as G1 G2.
  rewrite G1, cells_line by exact Hh. destruct (Nat.eqb_spec (List.length h) 0) as [Z|_]; [now destruct h|].
  rewrite read_rows_spec, G2. 
  assert (C : map cells (map csv_line (map fst rows)) = map fst rows).
  { clear -Hr. induction Hr as [|r rows H _ IH]; [reflexivity|]. cbn. now rewrite cells_line, IH. }
  replace (forallb (fun l => Nat.eqb (List.length (cells l)) (List.length h)) (map csv_line (map fst rows)))
    with (forallb (fun r => Nat.eqb (List.length (fst r)) (List.length h)) rows).
  2: { clear -Hr. induction Hr as [|r rows H _ IH]; [reflexivity|]. cbn. now rewrite cells_line, IH. }
  destruct (forallb _ _); [|reflexivity]. cbn. now rewrite C.
Qed.
(** The other exceptions. *)
Theorem C92_exceptions {T} (from_string : bytes -> T) :
  read_file from_string None = Throw FileNotFound /\ read_file from_string (Some []) = Throw FileIsEmpty /\
  forall dos rest, read_file from_string (Some (eol dos ++ rest)) = Throw NoHeader.
Proof. repeat split. intros [|] rest; reflexivity. Qed.

Example C92_example :
  read_file (fun s => s) (Some (bs "x,y" ++ [13; 10]%N ++ bs "1,two words" ++ [10]%N ++ bs "-3,4")) =
    Ok (Csv [bs "x"; bs "y"] [[bs "1"; bs "two words"]; [bs "-3"; bs "4"]]).
Proof. reflexivity. Qed.
Example C92_example_hypotheses :
  let h := [bs "x"; bs "y"] in let rows := [([bs "1"; bs "two words"], false); ([bs "-3"; bs "4"], true)] in
  text (map (fun r => (csv_line (fst r), snd r)) ((h, true) :: rows)) false = bs "x,y" ++ [13; 10]%N ++ bs "1,two words" ++ [10]%N ++ bs "-3,4" /\
  h <> [] /\ Forall plain_cell h /\ Forall (fun r => Forall plain_cell (fst r)) rows.
Proof.
  cbv zeta. split; [reflexivity|]. split; [discriminate|].
  split; repeat constructor; try discriminate; cbn; intros H; repeat (destruct H as [H|H]; try discriminate H); exact H.
Qed.

(** Cells are attributed to columns: refuted where cells are empty.  Of a table of three columns with an empty cell, a row of which can be read
    only if it has a fourth cell, which comes out under the wrong name. *)
Theorem C92_empty_cells_refuted :
  read_file (fun s => s) (Some (bs "a,b,c" ++ [10]%N ++ bs "1,,3" ++ [10]%N)) = Throw ColumnMismatch /\
  read_file (fun s => s) (Some (bs "a,b,c" ++ [10]%N ++ bs "1,,3,4" ++ [10]%N)) = Ok (Csv [bs "a"; bs "b"; bs "c"] [[bs "1"; bs "3"; bs "4"]]) /\
  read_file (fun s => s) (Some (bs "a,,c" ++ [10]%N ++ bs "1,2" ++ [10]%N)) = Ok (Csv [bs "a"; bs "c"] [[bs "1"; bs "2"]]).
Proof. repeat split. Qed.

Print Assumptions C92_rectangular.
Print Assumptions C92_reads_what_was_written.
Print Assumptions C92_exceptions.
Print Assumptions C92_empty_cells_refuted.
