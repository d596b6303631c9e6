(** Property C48 (compact_tsv/compact_tsv.h). *)
From Coq Require Import String.
From Verif Require Import Base CompactTSV_Model CompactTSV_Proofs.
Local Open Scope list_scope.

Lemma cell_view_string D c s : cell_ok D c s -> view_string D c = Some s.
Proof. intros (p & pre & post & -> & HD & Hp). cbn. eapply read_at; [exact HD|congruence|lia]. Qed.
Lemma cell_view_cstr D c s : cell_ok D c s -> Forall (fun b => b <> 0%N) s -> view_cstr D c = Some s.
Proof.
  intros (p & pre & post & -> & HD & Hp) Hs. cbn. rewrite HD, <- Hp, skipn_app, skipn_all2, Nat.sub_diag by lia. cbn [app skipn].
  clear - Hs. induction Hs as [|b s Hb _ IH]; [reflexivity|]. cbn [app until_nul]. destruct (N.eqb_spec b 0); [contradiction|]. now rewrite IH.
Qed.
Lemma new_ok par n : n <= 254 -> tsv_new par n = Ok (mkPacker n true (resize [] n []) [] []) /\ packer_ok (mkPacker n true (resize [] n []) [] []).
Proof.
  intros H. unfold tsv_new, check. destruct (Nat.leb_spec n 254); [|lia]. cbn [negb]. rewrite andb_false_r. split; [reflexivity|].
  split; [intros s o []|]. cbn [current_ dim_ first_]. split; [|auto]. unfold resize. rewrite app_length, firstn_length, repeat_length. cbn [List.length]. lia.
Qed.

(** The total size of what packing may write for a table (9 bytes of bookkeeping per cell, 1 per row). *)
Definition table_size (rows : list (list bytes)) : nat :=
  list_sum (map (fun row => 1 + list_sum (map (fun cell => 9 + List.length cell) row)) rows).

(** C48: if the assertions hold while packing (they are checked by the paranoic build), the packed string is
    the same in all builds and [Unpack], in any build, passes the same rows in the same order to the callback,
    as strings or (pointer, length) pairs, and as null-terminated strings if no cell contains a null character. *)
Theorem C48_unpack_inverts_pack :
  forall dim rows data, tsv_pack true dim rows = Ok data ->
    forall paranoic,
    tsv_pack paranoic dim rows = Ok data /\
    exists out, tsv_unpack paranoic data = Ok out /\
      map (map (view_string data)) out = map (map Some) rows /\
      (Forall (Forall (Forall (fun b => b <> 0%N))) rows -> map (map (view_cstr data)) out = map (map Some) rows).
Proof.
  intros dim rows data H par. unfold tsv_pack in *.
  destruct (tsv_new true dim) as [p| |] eqn:Hn; cbn [obind] in H; try discriminate.
  assert (Hdim : dim <= 254).
  { unfold tsv_new, check in Hn. destruct (Nat.leb_spec dim 254); [assumption|discriminate]. }
  destruct (new_ok true dim Hdim) as [Hn' Hp]. rewrite Hn in Hn'. injection Hn' as ->.
  destruct (tsv_rows true _ rows) as [p'| |] eqn:Hr; cbn [obind] in H; try discriminate. injection H as <-.
  split.
  { rewrite (proj1 (new_ok par dim Hdim)). cbn [obind]. now rewrite (rows_any par _ _ _ Hr). }
  destruct (rows_ok par _ _ _ Hr Hp) as (_ & _ & Hun).
  destruct (Hun _ eq_refl 0 [] (S (List.length (data_ p')))) as (out & Hout & HF); cbn [data_ first_ List.length] in *; auto; [lia|].
  exists out. split; [exact Hout|]. clear Hout Hun Hr. split.
  - induction HF as [|R row out rows HR HF IH]; [reflexivity|]. cbn [map]. f_equal; [|exact IH]. clear -HR.
    induction HR as [|c s R row Hc _ IH]; [reflexivity|]. cbn [map]. f_equal; [now apply cell_view_string|exact IH].
  - induction HF as [|R row out rows HR HF IH]; intros Hnul; [reflexivity|]. inversion Hnul as [|? ? Hnul1 Hnul2]; subst.
    cbn [map]. f_equal; [|auto]. clear -HR Hnul1.
    induction HR as [|c s R row Hc _ IH]; [reflexivity|]. inversion Hnul1; subst. cbn [map]. f_equal; [now apply cell_view_cstr|auto].
Qed.
Print Assumptions C48_unpack_inverts_pack.

(** C48: within the documented limits (1..254 columns, cells shorter than 64K, a total below 4G) all
    assertions hold, whether the number of columns is given to the constructor or not. *)
Theorem C48_within_limits_packs :
  forall n dim rows, 1 <= n <= 254 -> (dim = 0 \/ dim = n) ->
    Forall (fun row => List.length row = n /\ Forall (fun cell => (N.of_nat (List.length cell) < 2 ^ 16)%N) row) rows ->
    (N.of_nat (table_size rows) < 2 ^ 32)%N ->
    exists data, tsv_pack true dim rows = Ok data.
Proof.
  intros n dim rows Hn Hd Hrows Hb. unfold tsv_pack.
  assert (Hsize : rows_cost rows = table_size rows).
  { unfold table_size, list_sum. clear. induction rows as [|r rows IH]; [reflexivity|]. cbn [map fold_right].
    change (rows_cost (r :: rows)) with (row_cost r + rows_cost rows). rewrite IH. f_equal. unfold row_cost. f_equal. clear.
    induction r as [|s r IH]; [reflexivity|]. cbn [map fold_right]. change (cells_cost (s :: r)) with (9 + List.length s + cells_cost r). now rewrite IH. }
  destruct (new_ok true dim ltac:(lia)) as [-> Hp]. cbn [obind].
  destruct (rows_succeed n rows _ Hp) as [p' ->]; auto.
  - cbn [data_ List.length]. rewrite Hsize. exact Hb.
  - cbn [obind]. eauto.
Qed.
Print Assumptions C48_within_limits_packs.

(** The hypotheses are met, sharing happens (the equal cell in the second row is not stored again), and one
    build survives a wrong row that the other does not. *)
Definition demo_rows : list (list bytes) := [[bs "a"; bs "xyz"]; [bs "xyz"; bs "xyz"]; [bs ""; bs "xyz"]].
Example C48_demo : tsv_pack true 0 demo_rows =
  Ok [255; 1; 0; 97; 0; 0; 1; 0; 0; 0; 255; 3; 0; 120; 121; 122; 0; 1; 11; 0; 0; 0; 254; 0; 11; 0; 0; 0; 254; 255; 0; 0; 0; 0; 30; 0; 0; 0; 254]%N.
Proof. vm_compute. reflexivity. Qed.
Example C48_demo_limits : 1 <= 2 <= 254 /\ Forall (fun row => List.length row = 2 /\ Forall (fun cell => (N.of_nat (List.length cell) < 2 ^ 16)%N) row) demo_rows /\
  (N.of_nat (table_size demo_rows) < 2 ^ 32)%N.
Proof. split; [lia|]. split; [|reflexivity]. repeat constructor. Qed.
Example C48_wrong_width : tsv_pack true 2 [[bs "a"]] = Throw tt.
Proof. reflexivity. Qed.
