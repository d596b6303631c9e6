From Verif Require Import Base CompactTSV_Model.

Lemma beqb_spec a b : reflect (a = b) (beqb a b).
Proof. unfold beqb. destruct (list_eq_dec N.eq_dec a b); constructor; assumption. Qed.

Lemma le_bytes_length n x : length (le_bytes n x) = n.
Proof. revert x; induction n as [|n IH]; intros x; cbn; [reflexivity|]. now rewrite IH. Qed.
Lemma le_value_bytes n : forall x, (x < 256 ^ N.of_nat n)%N -> le_value (le_bytes n x) = x.
Proof.
  induction n as [|n IH]; intros x H; cbn [le_bytes le_value].
  - change (256 ^ N.of_nat 0)%N with 1%N in H. lia.
  - rewrite IH.
    + pose proof (N.div_mod x 256). lia.
    + apply N.div_lt_upper_bound; [lia|]. rewrite Nat2N.inj_succ, N.pow_succ_r' in H. exact H.
Qed.

Lemma read_app pre s post : read (pre ++ s ++ post) (length pre) (length s) = Some s.
Proof.
  unfold read. rewrite !app_length. destruct (Nat.leb_spec (length pre + length s) (length pre + (length s + length post))); [|lia].
  rewrite skipn_app, skipn_all2, Nat.sub_diag by lia. cbn [app skipn].
  now rewrite firstn_app, firstn_all, Nat.sub_diag, firstn_O, app_nil_r.
Qed.
Lemma read_at D pre s post p n : D = pre ++ s ++ post -> p = length pre -> n = length s -> read D p n = Some s.
Proof. intros -> -> ->. apply read_app. Qed.

(** The string [s] is stored at offset [o] of [d]. *)
Definition stored (d : bytes) (s : bytes) (o : N) : Prop :=
  (0 < o < 2 ^ 32)%N /\ (N.of_nat (length s) < 2 ^ 16)%N /\
  exists pre post, d = pre ++ le_bytes 2 (N.of_nat (length s)) ++ s ++ [0%N] ++ post /\ length pre = N.to_nat o.
Definition offs_ok (d : bytes) (m : list (bytes * N)) : Prop := forall s o, In (s, o) m -> stored d s o.
Lemma stored_app d s o x : stored d s o -> stored (d ++ x) s o.
Proof.
  intros (H1 & H2 & pre & post & -> & H3). split; [exact H1|]. split; [exact H2|]. exists pre, (post ++ x).
  split; [|exact H3]. now rewrite <- !app_assoc.
Qed.
Lemma offs_ok_app d m x : offs_ok d m -> offs_ok (d ++ x) m.
Proof. intros H s o Hin. apply stored_app, H, Hin. Qed.
Lemma find_offset_in m s : find_offset m s <> 0%N -> In (s, find_offset m s) m.
Proof.
  induction m as [|[k o] m IH]; cbn [find_offset]; [congruence|].
  destruct (beqb_spec k s) as [->|]; intros H; [now left|right; auto].
Qed.

Lemma get_offset_ok d m s o d1 m1 : get_offset_of true d m s = Ok (o, d1, m1) -> offs_ok d m ->
  stored d1 s o /\ offs_ok d1 m1 /\ exists seg, d1 = d ++ seg /\
    (seg = [] \/ seg = storage :: le_bytes 2 (N.of_nat (length s)) ++ s ++ [0%N] /\ (N.of_nat (length s) < 2 ^ 16)%N).
Proof.
  unfold get_offset_of. cbv zeta. destruct (N.eqb_spec (find_offset m s) 0) as [H0|H0]; intros H Hm.
  - unfold store_string, check in H. cbv zeta in H. cbn [andb] in H.
    destruct (N.eqb_spec (N.of_nat (length s) mod 2 ^ 16) (N.of_nat (length s))) as [Hl|]; [|discriminate]. cbn [negb] in H.
    assert (Hlen : (N.of_nat (length s) < 2 ^ 16)%N) by (rewrite <- Hl; apply N.mod_lt; discriminate).
    rewrite Hl in H. rewrite (firstn_all2 (n := S (N.to_nat (N.of_nat (length s))))) in H by (rewrite app_length; cbn; lia).
    destruct (still_small _) eqn:Hs; [|discriminate]. cbn [negb obind] in H.
    unfold still_small in Hs. apply N.ltb_lt in Hs. rewrite !app_length, le_bytes_length in Hs. cbn [length] in Hs.
    rewrite N.mod_small in H by (rewrite app_length; cbn [length]; lia).
    injection H as <- <- <-.
    assert (Hst : stored ((d ++ [storage]) ++ le_bytes 2 (N.of_nat (length s)) ++ s ++ [0%N]) s (N.of_nat (length (d ++ [storage])))).
    { split; [rewrite app_length; cbn [length]; lia|]. split; [exact Hlen|]. exists (d ++ [storage]), []. split; [reflexivity|lia]. }
    split; [exact Hst|]. split.
    + intros s' o' [[= <- <-]|Hin]; [exact Hst|]. rewrite <- app_assoc. apply stored_app, Hm, Hin.
    + eexists. split; [now rewrite <- app_assoc|]. right. split; [reflexivity|exact Hlen].
  - injection H as <- <- <-. split; [apply Hm, find_offset_in, H0|]. split; [exact Hm|]. exists []. rewrite app_nil_r. auto.
Qed.

(** A dispatcher cell holds the string. *)
Definition cell_ok (D : bytes) (c : option (nat * N)) (s : bytes) : Prop :=
  exists p pre post, c = Some (p, N.of_nat (length s)) /\ D = pre ++ s ++ [0%N] ++ post /\ length pre = p.

Lemma update_zip (L R : list (option (nat * N))) i v : length L = i ->
  update (L ++ R) i v = L ++ Some v :: tl R.
Proof.
  intros <-. unfold update, resize, dispatcher_row in *.
  assert (E : (if Nat.ltb (length L) (length (L ++ R)) then L ++ R else firstn (S (length L)) (L ++ R) ++ repeat None (S (length L) - length (L ++ R))) =
    L ++ match R with [] => [None] | _ => R end).
  { rewrite app_length. destruct R as [|x R].
    - rewrite app_nil_r. destruct (Nat.ltb_spec (length L) (length L + length (@nil (option (nat * N))))) as [H|H]; cbn [length] in *; [lia|].
      rewrite firstn_all2 by lia. replace (S (length L) - (length L + 0)) with 1 by lia. reflexivity.
    - destruct (Nat.ltb_spec (length L) (length L + length (x :: R))) as [H|H]; cbn [length] in *; [reflexivity|lia]. }
  cbv zeta. rewrite E. rewrite firstn_app, firstn_all, Nat.sub_diag, firstn_O, app_nil_r. f_equal.
  rewrite skipn_app, skipn_all2 by lia. replace (S (length L) - length L) with 1 by lia. destruct R; reflexivity.
Qed.

Section Unpack.
Variable paranoic : bool.
Variable D : bytes.

Lemma check_true {A} (k : outcome unit A) : check paranoic true k = k.
Proof. unfold check. destruct paranoic; reflexivity. Qed.

Lemma unpack_storage fuel pre s post dim row : D = pre ++ storage :: le_bytes 2 (N.of_nat (length s)) ++ s ++ [0%N] ++ post ->
  (N.of_nat (length s) < 2 ^ 16)%N ->
  unpack_loop paranoic D (S fuel) (length pre) dim row = unpack_loop paranoic D fuel (length pre + length (storage :: le_bytes 2 (N.of_nat (length s)) ++ s ++ [0%N])) dim row.
Proof.
  intros HD Hs. assert (HL : length D = length pre + (4 + length s + length post)).
  { rewrite HD. rewrite app_length. cbn [length]. rewrite !app_length, le_bytes_length. cbn [length]. lia. }
  cbn [unpack_loop]. destruct (Nat.eqb_spec (length pre) (length D)) as [|_]; [lia|].
  destruct (Nat.ltb_spec (length pre) (length D)) as [_|]; [|lia]. rewrite check_true.
  rewrite (read_at D pre [storage] (le_bytes 2 (N.of_nat (length s)) ++ s ++ [0%N] ++ post)) by (auto; exact HD).
  rewrite N.eqb_refl.
  rewrite (read_at D (pre ++ [storage]) (le_bytes 2 (N.of_nat (length s))) (s ++ [0%N] ++ post)).
  - rewrite le_value_bytes by (change (256 ^ N.of_nat 2)%N with (2 ^ 16)%N; exact Hs).
    destruct (Nat.leb_spec (S (length pre) + 2 + N.to_nat (N.of_nat (length s)) + 1) (length D)); [|lia]. rewrite check_true.
    f_equal. cbn [length]. rewrite !app_length, le_bytes_length. cbn [length]. lia.
  - rewrite HD, <- app_assoc. reflexivity.
  - rewrite app_length. cbn [length]. lia.
  - now rewrite le_bytes_length.
Qed.

Lemma unpack_update fuel pre i o s post dim L R : D = pre ++ (N.of_nat i :: le_bytes 4 o) ++ post -> i < 254 -> length L = i ->
  stored D s o ->
  exists x, cell_ok D x s /\
  unpack_loop paranoic D (S fuel) (length pre) dim (L ++ R) = unpack_loop paranoic D fuel (length pre + 5) dim (L ++ x :: tl R).
Proof.
  intros HD Hi HLi (Ho & Hs & pre' & post' & HD' & Hpre'). assert (HL : length D = length pre + (5 + length post)).
  { rewrite HD. rewrite app_length. cbn [length app]. rewrite !app_length, le_bytes_length. lia. }
  exists (Some (N.to_nat o + 2, N.of_nat (length s))). split.
  { exists (N.to_nat o + 2), (pre' ++ le_bytes 2 (N.of_nat (length s))), post'. split; [reflexivity|]. split; [rewrite HD'; now rewrite <- !app_assoc|].
    rewrite app_length, le_bytes_length. lia. }
  cbn [unpack_loop]. destruct (Nat.eqb_spec (length pre) (length D)) as [|_]; [lia|].
  destruct (Nat.ltb_spec (length pre) (length D)) as [_|]; [|lia]. rewrite check_true.
  rewrite (read_at D pre [N.of_nat i] (le_bytes 4 o ++ post)) by (auto; exact HD).
  destruct (N.eqb_spec (N.of_nat i) storage) as [E|_]; [unfold storage in E; lia|].
  destruct (N.eqb_spec (N.of_nat i) row_done) as [E|_]; [unfold row_done in E; lia|].
  rewrite (read_at D (pre ++ [N.of_nat i]) (le_bytes 4 o) post).
  - rewrite le_value_bytes by (change (256 ^ N.of_nat 4)%N with (2 ^ 32)%N; lia).
    rewrite (read_at D pre' (le_bytes 2 (N.of_nat (length s))) (s ++ [0%N] ++ post') (N.to_nat o) 2 HD' (eq_sym Hpre') (eq_sym (le_bytes_length _ _))).
    rewrite le_value_bytes by (change (256 ^ N.of_nat 2)%N with (2 ^ 16)%N; exact Hs).
    rewrite Nat2N.id, update_zip by exact HLi. f_equal. lia.
  - rewrite HD, <- app_assoc. reflexivity.
  - rewrite app_length. cbn [length]. lia.
  - now rewrite le_bytes_length.
Qed.
End Unpack.

Lemma cells_ok paranoic first : forall row i cur d m cur' d' m',
  pack_cells true first i row cur d m = Ok (cur', d', m') -> length row = length cur -> i + length row <= 254 -> offs_ok d m ->
  cur' = row /\ offs_ok d' m' /\ (exists seg, d' = d ++ seg) /\
  forall D post, D = d' ++ post -> forall dim L R fuel, length L = i -> length D - length d < fuel ->
    (if first then R = [] else Forall2 (cell_ok D) R cur) ->
    exists fuel' R', length D - length d' < fuel' /\ Forall2 (cell_ok D) R' row /\
      unpack_loop paranoic D fuel (length d) dim (L ++ R) = unpack_loop paranoic D fuel' (length d') dim (L ++ R').
Proof.
  induction row as [|cell row IH]; intros i cur d m cur' d' m' H Hlen Hi Hm; destruct cur as [|c cur]; try discriminate.
  - cbn in H. injection H as <- <- <-. split; [reflexivity|]. split; [exact Hm|]. split; [exists []; now rewrite app_nil_r|].
    intros D post -> dim L R fuel HL Hf HR. exists fuel, R. split; [exact Hf|]. split; [|reflexivity]. destruct first; [subst R; constructor|exact HR].
  - cbn [length] in Hlen, Hi. cbn [pack_cells] in H. destruct (Nat.leb_spec 256 i) as [|_]; [lia|].
    destruct (negb (beqb cell c) || first)%bool eqn:Hcond.
    + destruct (get_offset_of true d m cell) as [[[o d1] m1]| |] eqn:Hg; [|discriminate..]. cbn [obind] in H.
      destruct (pack_cells true first (S i) row cur (d1 ++ [N.of_nat i] ++ le_bytes 4 o) m1) as [[[cur2 d2] m2]| |] eqn:Hp; [|discriminate..].
      cbn [obind] in H. injection H as <- <- <-.
      destruct (get_offset_ok _ _ _ _ _ _ Hg Hm) as (Hst & Hm1 & seg1 & Hd1 & Hseg1).
      destruct (IH _ _ _ _ _ _ _ Hp ltac:(lia) ltac:(lia) (offs_ok_app _ _ _ Hm1)) as (-> & Hm2 & (seg2 & Hd2) & Hun).
      split; [reflexivity|]. split; [exact Hm2|]. split.
      { eexists. rewrite Hd2, Hd1, <- !app_assoc. reflexivity. }
      intros D post HD dim L R fuel HL Hf HR.
      set (dd := d1 ++ [N.of_nat i] ++ le_bytes 4 o) in *.
      assert (Hdd : length dd = length d1 + 5) by (unfold dd; rewrite !app_length, le_bytes_length; reflexivity).
      assert (HDdd : D = dd ++ (seg2 ++ post)) by (rewrite HD, Hd2, <- app_assoc; reflexivity).
      assert (Hlen2 : length D = length dd + length (seg2 ++ post)) by (rewrite HDdd, app_length; reflexivity).
      assert (H1 : exists fuel1, length D - length d1 < fuel1 /\ unpack_loop paranoic D fuel (length d) dim (L ++ R) = unpack_loop paranoic D fuel1 (length d1) dim (L ++ R)).
      { destruct Hseg1 as [->|[-> Hs]].
        - rewrite app_nil_r in Hd1. subst d1. eauto.
        - destruct fuel as [|fuel1]; [lia|]. exists fuel1. rewrite Hd1, app_length. cbn [length]. split.
          + pose proof (f_equal (@length N) Hd1) as Hll. rewrite app_length in Hll. cbn [length] in Hll. lia.
          + rewrite <- unpack_storage with (post := ([N.of_nat i] ++ le_bytes 4 o) ++ seg2 ++ post) (s := cell); [reflexivity| |exact Hs].
            rewrite HDdd. unfold dd. rewrite Hd1. rewrite <- !app_assoc. cbn [app]. rewrite <- !app_assoc. reflexivity. }
      destruct H1 as (fuel1 & Hf1 & ->). destruct fuel1 as [|fuel2]; [lia|].
      destruct (unpack_update paranoic D fuel2 d1 i o cell (seg2 ++ post) dim L R) as (x & Hx & ->).
      { rewrite HDdd. unfold dd. rewrite <- !app_assoc. reflexivity. }
      { lia. } { exact HL. }
      { rewrite HDdd. unfold dd. rewrite <- app_assoc. now apply stored_app. }
      destruct (Hun D post HD dim (L ++ [x]) (tl R) fuel2) as (fuel' & R' & Hf' & HR' & E).
      { rewrite app_length. cbn [length]. lia. } { lia. }
      { destruct first; [subst R; reflexivity|]. inversion HR; subst. assumption. }
      exists fuel', (x :: R'). split; [exact Hf'|]. split; [now constructor|].
      rewrite <- Hdd. rewrite <- !app_assoc in E. exact E.
    + apply orb_false_iff in Hcond as [Hc ->]. apply negb_false_iff in Hc. destruct (beqb_spec cell c) as [<-|]; [|discriminate].
      destruct (pack_cells true false (S i) row cur d m) as [[[cur2 d2] m2]| |] eqn:Hp; [|discriminate..].
      cbn [obind] in H. injection H as <- <- <-.
      destruct (IH _ _ _ _ _ _ _ Hp ltac:(lia) ltac:(lia) Hm) as (-> & Hm2 & Hseg & Hun).
      split; [reflexivity|]. split; [exact Hm2|]. split; [exact Hseg|].
      intros D post HD dim L R fuel HL Hf HR. inversion HR as [|x ? R0 ? Hx HR0]; subst.
      destruct (Hun _ post eq_refl dim (L ++ [x]) R0 fuel) as (fuel' & R' & Hf' & HR' & E).
      { rewrite app_length. cbn [length]. lia. } { lia. } { assumption. }
      exists fuel', (x :: R'). split; [exact Hf'|]. split; [now constructor|]. rewrite <- !app_assoc in E. exact E.
Qed.

(** State of the packer between rows. *)
Definition packer_ok (p : packer) : Prop :=
  offs_ok (data_ p) (offsets_ p) /\ length (current_ p) = dim_ p /\ dim_ p <= 254 /\ (dim_ p = 0 -> first_ p = true).

Lemma row_ok paranoic p row p' : tsv_row true p row = Ok p' -> packer_ok p ->
  packer_ok p' /\ first_ p' = false /\ current_ p' = row /\ dim_ p' = length row /\ 0 < length row /\ (exists seg, data_ p' = data_ p ++ seg) /\
  forall D post, D = data_ p' ++ post -> forall dim R fuel, (dim = 0 \/ dim = length row) -> length D - length (data_ p) < fuel ->
    (if first_ p then R = [] else Forall2 (cell_ok D) R (current_ p)) ->
    exists fuel' R', length D - length (data_ p') < fuel' /\ Forall2 (cell_ok D) R' row /\
      unpack_loop paranoic D fuel (length (data_ p)) dim R =
      obind (unpack_loop paranoic D fuel' (length (data_ p')) (length row) R') (fun r => Ok (R' :: r)).
Proof.
  intros H (Hm & Hcur & Hdim & Hfirst). unfold tsv_row in H. cbv zeta in H.
  unfold check at 1 in H. cbn [andb] in H. destruct (Nat.eqb_spec (length row) 0) as [|Hne]; [discriminate|]. cbn [negb] in H.
  assert (Hk : exists cur0, length row = length cur0 /\ length row <= 254 /\ (first_ p = false -> cur0 = current_ p) /\
    exists cur' d' m', pack_cells true (first_ p) 0 row cur0 (data_ p) (offsets_ p) = Ok (cur', d', m') /\
      p' = mkPacker (length row) false cur' (d' ++ [row_done]) m').
  { destruct (Nat.eqb_spec (dim_ p) 0) as [H0|H0].
    - unfold check at 1 in H. cbn [andb] in H. destruct (Nat.leb_spec (length row) 254) as [Hle|]; [|discriminate]. cbn [negb] in H.
      exists (resize [] (length row) (current_ p)). split.
      + unfold resize. rewrite app_length, firstn_length, repeat_length. lia.
      + split; [exact Hle|]. split; [intros E; rewrite (Hfirst H0) in E; discriminate|].
        destruct (pack_cells true (first_ p) 0 row _ (data_ p) (offsets_ p)) as [[[cur' d'] m']| |]; [|discriminate..].
        cbn [obind] in H. unfold check in H. destruct (_ && _)%bool; [discriminate|]. injection H as <-. eauto 6.
    - unfold check at 1 in H. cbn [andb] in H. destruct (Nat.eqb_spec (length row) (dim_ p)) as [Hle|]; [|discriminate]. cbn [negb] in H.
      exists (current_ p). split; [congruence|]. split; [lia|]. split; [reflexivity|].
      destruct (pack_cells true (first_ p) 0 row _ (data_ p) (offsets_ p)) as [[[cur' d'] m']| |]; [|discriminate..].
      cbn [obind] in H. unfold check in H. destruct (_ && _)%bool; [discriminate|]. injection H as <-. rewrite Hle. eauto 6. }
  destruct Hk as (cur0 & Hl0 & Hl1 & Hc0 & cur' & d' & m' & Hp & ->). cbn [data_ first_ current_ dim_ offsets_] in *.
  destruct (cells_ok paranoic _ _ _ _ _ _ _ _ _ Hp Hl0 ltac:(lia) Hm) as (-> & Hm' & (seg & Hseg) & Hun).
  split.
  { split; [now apply offs_ok_app|]. cbn [current_ dim_ first_]. split; [reflexivity|]. split; [exact Hl1|]. intros E; lia. }
  split; [reflexivity|]. split; [reflexivity|]. split; [reflexivity|]. split; [lia|]. split; [eexists; rewrite Hseg, <- app_assoc; reflexivity|].
  intros D post HD dim R fuel Hdm Hf HR.
  destruct (Hun D ([row_done] ++ post) ltac:(rewrite HD, <- app_assoc; reflexivity) dim [] R fuel eq_refl Hf) as (fuel' & R' & Hf' & HR' & E).
  { destruct (first_ p); [exact HR|]. rewrite Hc0 by reflexivity. exact HR. }
  cbn [app] in E. rewrite E. destruct fuel' as [|fuel1]; [lia|]. exists fuel1, R'.
  assert (HL : length D = length d' + S (length post)) by (rewrite HD, !app_length; cbn [length]; lia).
  split; [rewrite app_length; cbn [length]; lia|]. split; [exact HR'|].
  assert (HlR : length R' = length row) by (clear - HR'; induction HR'; cbn; congruence).
  cbn [unpack_loop]. destruct (Nat.eqb_spec (length d') (length D)) as [|_]; [lia|].
  destruct (Nat.ltb_spec (length d') (length D)) as [_|]; [|lia]. rewrite check_true.
  rewrite (read_at D d' [row_done] post) by (auto; rewrite HD, <- app_assoc; reflexivity).
  change (row_done =? storage)%N with false. rewrite N.eqb_refl. cbv iota.
  destruct (Nat.eqb_spec (length R') 0) as [|_]; [lia|]. cbn [negb]. rewrite check_true, HlR.
  replace (length (d' ++ [row_done])) with (S (length d')) by (rewrite app_length; cbn; lia).
  destruct (Nat.eqb_spec dim 0) as [|Hd0]; [reflexivity|]. destruct Hdm as [|Hdm]; [lia|]. rewrite Hdm, Nat.eqb_refl, check_true. reflexivity.
Qed.

Lemma rows_ok paranoic : forall rows p p', tsv_rows true p rows = Ok p' -> packer_ok p ->
  packer_ok p' /\ (exists seg, data_ p' = data_ p ++ seg) /\
  forall D, D = data_ p' -> forall dim R fuel, (dim = 0 \/ dim = dim_ p) -> length D - length (data_ p) < fuel ->
    (if first_ p then R = [] /\ dim = 0 else Forall2 (cell_ok D) R (current_ p)) ->
    exists out, unpack_loop paranoic D fuel (length (data_ p)) dim R = Ok out /\ Forall2 (Forall2 (cell_ok D)) out rows.
Proof.
  induction rows as [|row rows IH]; intros p p' H Hp; cbn [tsv_rows] in H.
  - injection H as <-. split; [exact Hp|]. split; [exists []; now rewrite app_nil_r|].
    intros D -> dim R fuel _ Hf _. exists []. split; [|constructor]. destruct fuel; [lia|]. cbn [unpack_loop]. now rewrite Nat.eqb_refl.
  - destruct (tsv_row true p row) as [p1| |] eqn:Hr; [|discriminate..]. cbn [obind] in H.
    destruct (row_ok paranoic _ _ _ Hr Hp) as (Hp1 & Hf1 & Hc1 & Hd1 & Hpos & (seg1 & Hs1) & Hun).
    destruct (IH _ _ H Hp1) as (Hp' & (seg2 & Hs2) & Hun').
    split; [exact Hp'|]. split; [eexists; rewrite Hs2, Hs1, <- app_assoc; reflexivity|].
    intros D HD dim R fuel Hdim Hf HR.
    destruct (Hun D seg2 ltac:(congruence) dim R fuel) as (fuel1 & R1 & Hf' & HR1 & E).
    { destruct Hdim as [|Hdim]; [now left|]. destruct (first_ p) eqn:Hfp; [now left|]. right. destruct Hp as (_ & Hcd & _ & Hz).
      unfold tsv_row in Hr. cbv zeta in Hr. unfold check at 1 in Hr. destruct (true && _)%bool; [discriminate|].
      destruct (Nat.eqb_spec (dim_ p) 0) as [E0|_]; [specialize (Hz E0); congruence|].
      unfold check at 1 in Hr. cbn [andb] in Hr. destruct (Nat.eqb_spec (length row) (dim_ p)); [congruence|discriminate]. }
    { exact Hf. }
    { destruct (first_ p); [apply HR|exact HR]. }
    rewrite E. destruct (Hun' D HD (length row) R1 fuel1) as (out & -> & Hout).
    { right. congruence. } { exact Hf'. } { rewrite Hf1, Hc1. exact HR1. }
    exists (R1 :: out). split; [reflexivity|]. now constructor.
Qed.

(** All checks passed: the build kind makes no difference. *)
Lemma check_any {A} c (k : outcome unit A) v : check true c k = Ok v -> c = true /\ k = Ok v.
Proof. unfold check. destruct c; cbn; [auto|discriminate]. Qed.
Lemma store_any par d s v : store_string true d s = Ok v -> store_string par d s = Ok v.
Proof.
  unfold store_string. cbv zeta. intros H. apply check_any in H as [-> H]. rewrite check_true. apply check_any in H as [-> H].
  now rewrite check_true.
Qed.
Lemma get_any par d m s v : get_offset_of true d m s = Ok v -> get_offset_of par d m s = Ok v.
Proof.
  unfold get_offset_of. cbv zeta. destruct (_ =? 0)%N; [|auto]. destruct (store_string true d s) eqn:E; cbn; try discriminate.
  intros H. now rewrite (store_any par _ _ _ E).
Qed.
Lemma cells_any par first : forall row i cur d m v, pack_cells true first i row cur d m = Ok v -> pack_cells par first i row cur d m = Ok v.
Proof.
  induction row as [|cell row IH]; intros i [|c cur] d m v H; cbn [pack_cells] in *; auto.
  destruct (256 <=? i); [discriminate|]. destruct (_ || _)%bool.
  - destruct (get_offset_of true d m cell) as [[[o d1] m1]| |] eqn:E; cbn [obind] in H; try discriminate.
    rewrite (get_any par _ _ _ _ E). cbn [obind].
    destruct (pack_cells true _ _ row _ _ _) as [[[? ?] ?]| |] eqn:E2; cbn [obind] in H; try discriminate.
    rewrite (IH _ _ _ _ _ E2). exact H.
  - destruct (pack_cells true _ _ row _ _ _) as [[[? ?] ?]| |] eqn:E2; cbn [obind] in H; try discriminate.
    rewrite (IH _ _ _ _ _ E2). exact H.
Qed.
Lemma row_any par p row v : tsv_row true p row = Ok v -> tsv_row par p row = Ok v.
Proof.
  unfold tsv_row. cbv zeta. intros H. apply check_any in H as [-> H]. rewrite check_true.
  destruct (Nat.eqb (dim_ p) 0); apply check_any in H as [-> H]; rewrite check_true;
  (destruct (pack_cells true _ _ row _ _ _) as [[[? ?] ?]| |] eqn:E; cbn [obind] in H; try discriminate;
   rewrite (cells_any par _ _ _ _ _ _ _ E); cbn [obind]; apply check_any in H as [-> H]; rewrite check_true; exact H).
Qed.
Lemma rows_any par : forall rows p v, tsv_rows true p rows = Ok v -> tsv_rows par p rows = Ok v.
Proof.
  induction rows as [|r rows IH]; intros p v H; cbn [tsv_rows] in *; [exact H|].
  destruct (tsv_row true p r) eqn:E; cbn [obind] in H; try discriminate. rewrite (row_any par _ _ _ E). cbn [obind]. auto.
Qed.

(** Within the limits all checks pass. *)
Definition cell_cost (s : bytes) : nat := 9 + length s.
Definition cells_cost (r : list bytes) : nat := fold_right (fun s n => cell_cost s + n) 0 r.
Definition row_cost (r : list bytes) : nat := 1 + cells_cost r.
Definition rows_cost (r : list (list bytes)) : nat := fold_right (fun s n => row_cost s + n) 0 r.

Lemma cells_succeed first : forall row i cur d m, length row = length cur -> i + length row <= 254 ->
  Forall (fun s => (N.of_nat (length s) < 2 ^ 16)%N) row ->
  (N.of_nat (length d + cells_cost row) < 2 ^ 32)%N ->
  exists cur' d' m', pack_cells true first i row cur d m = Ok (cur', d', m') /\ length d' <= length d + cells_cost row.
Proof.
  induction row as [|cell row IH]; intros i [|c cur] d m Hlen Hi Hs Hb; try discriminate.
  - cbn [pack_cells]. eexists _, _, _. split; [reflexivity|]. lia.
  - cbn [length fold_right] in *. inversion Hs as [|? ? Hs1 Hs2]; subst. cbn [pack_cells]. destruct (Nat.leb_spec 256 i) as [|_]; [lia|].
    change (cells_cost (cell :: row)) with (9 + length cell + cells_cost row) in *.
    destruct (_ || _)%bool.
    + assert (Hg : exists o d1 m1, get_offset_of true d m cell = Ok (o, d1, m1) /\ length d1 <= length d + 4 + length cell).
      { unfold get_offset_of. cbv zeta. destruct (_ =? 0)%N; [|exists (find_offset m cell), d, m; split; [reflexivity|lia]].
        unfold store_string, check. cbv zeta. cbn [andb]. rewrite N.mod_small by exact Hs1. rewrite N.eqb_refl. cbn [negb].
        assert (HL : length ((d ++ [storage]) ++ le_bytes 2 (N.of_nat (length cell)) ++ firstn (S (N.to_nat (N.of_nat (length cell)))) (cell ++ [0%N])) = length d + 4 + length cell).
        { rewrite firstn_all2 by (rewrite app_length; cbn; lia). rewrite !app_length, le_bytes_length. cbn [length]. lia. }
        unfold still_small. rewrite HL. destruct (N.ltb_spec (N.of_nat (length d + 4 + length cell)) (2 ^ 32)) as [_|]; [|lia].
        cbn [negb obind fst snd]. eexists _, _, _. split; [reflexivity|]. rewrite HL. lia. }
      destruct Hg as (o & d1 & m1 & -> & Hd1). cbn [obind].
      destruct (IH (S i) cur (d1 ++ [N.of_nat i] ++ le_bytes 4 o) m1 ltac:(lia) ltac:(lia) Hs2) as (cur' & d' & m' & -> & Hd').
      { rewrite !app_length, le_bytes_length. cbn [length]. lia. }
      cbn [obind]. eexists _, _, _. split; [reflexivity|]. rewrite !app_length, le_bytes_length in Hd'. cbn [length] in Hd'. lia.
    + destruct (IH (S i) cur d m ltac:(lia) ltac:(lia) Hs2 ltac:(lia)) as (cur' & d' & m' & -> & Hd').
      cbn [obind]. eexists _, _, _. split; [reflexivity|]. lia.
Qed.

Lemma rows_succeed n : forall rows p, packer_ok p -> (dim_ p = 0 \/ dim_ p = n) -> 1 <= n <= 254 ->
  Forall (fun r => length r = n /\ Forall (fun s => (N.of_nat (length s) < 2 ^ 16)%N) r) rows ->
  (N.of_nat (length (data_ p) + rows_cost rows) < 2 ^ 32)%N ->
  exists p', tsv_rows true p rows = Ok p'.
Proof.
  induction rows as [|row rows IH]; intros p Hp Hdim Hn Hrows Hb; cbn [tsv_rows]; [eauto|].
  inversion Hrows as [|? ? [Hl Hs] Hrows']; subst. change (rows_cost (row :: rows)) with (row_cost row + rows_cost rows) in Hb. unfold row_cost in Hb at 1.
  assert (Hr : exists p1, tsv_row true p row = Ok p1 /\ length (data_ p1) <= length (data_ p) + row_cost row /\ dim_ p1 = length row).
  { unfold tsv_row. cbv zeta. unfold check at 1. cbn [andb]. destruct (Nat.eqb_spec (length row) 0) as [|_]; [lia|]. cbn [negb].
    assert (Hcur : forall cur, length row = length cur -> exists p1,
      obind (pack_cells true (first_ p) 0 row cur (data_ p) (offsets_ p)) (fun '(cur', d', m') =>
      check true (still_small (d' ++ [row_done])) (Ok (mkPacker (length row) false cur' (d' ++ [row_done]) m'))) = Ok p1 /\
      length (data_ p1) <= length (data_ p) + row_cost row /\ dim_ p1 = length row).
    { intros cur Hc. destruct (cells_succeed (first_ p) row 0 cur (data_ p) (offsets_ p) Hc ltac:(lia) Hs ltac:(lia)) as (cur' & d' & m' & -> & Hd').
      cbn [obind]. unfold check, still_small. rewrite app_length. cbn [length].
      destruct (N.ltb_spec (N.of_nat (length d' + 1)) (2 ^ 32)) as [_|]; [|lia]. cbn [negb andb].
      eexists. split; [reflexivity|]. cbn [data_ dim_]. rewrite app_length. cbn [length]. unfold row_cost. split; [lia|reflexivity]. }
    destruct Hp as (_ & Hc & Hd & _).
    destruct (Nat.eqb_spec (dim_ p) 0) as [H0|H0].
    - unfold check at 1. cbn [andb]. destruct (Nat.leb_spec (length row) 254) as [_|]; [|lia]. cbn [negb]. apply Hcur.
      unfold resize. rewrite app_length, firstn_length, repeat_length. lia.
    - unfold check at 1. cbn [andb]. destruct (Nat.eqb_spec (length row) (dim_ p)) as [E|]; [|lia]. cbn [negb]. rewrite <- E. apply Hcur. congruence. }
  destruct Hr as (p1 & Hr & Hd1 & Hdim1). rewrite Hr. cbn [obind].
  apply IH; auto.
  - eapply (row_ok true); eassumption.
  - unfold row_cost in *. lia.
Qed.
