From Coq Require Import String.
From Verif Require Import Base Dec Strings_Model Strings_Props Url_Model.
Local Open Scope list_scope.
Local Notation length := List.length.

Lemma beqs_spec a b : reflect (a = b) (beqs a b).
Proof. unfold beqs. destruct (list_eq_dec N.eq_dec a b); constructor; assumption. Qed.
Lemma is_empty_spec s : reflect (s = []) (is_empty s).
Proof. destruct s; constructor; congruence. Qed.

(** ** find *)
Lemma find_from_ge c : forall s i from, from <= i -> ~ In c s -> find_from c s i from = None.
Proof.
  induction s as [|b s IH]; intros i from Hf Hn; [reflexivity|]. cbn [find_from].
  destruct (N.eqb_spec b c) as [->|]; [destruct Hn; now left|]. rewrite andb_false_r. apply IH; [lia|]. intros H; apply Hn; now right.
Qed.
Lemma find_from_hit c : forall mid i from post, from <= i -> ~ In c mid -> find_from c (mid ++ c :: post) i from = Some (i + length mid).
Proof.
  induction mid as [|b s IH]; intros i from post Hf Hn; cbn [find_from app].
  - rewrite N.eqb_refl. destruct (Nat.leb_spec from i); [|lia]. cbn. f_equal. lia.
  - destruct (N.eqb_spec b c) as [->|]; [destruct Hn; now left|]. rewrite andb_false_r, IH; [f_equal; cbn; lia|lia|]. intros H; apply Hn; now right.
Qed.
Lemma find_from_skip c : forall pre s i from, from = i + length pre -> find_from c (pre ++ s) i from = find_from c s from from.
Proof.
  induction pre as [|b pre IH]; intros s i from ->; cbn [app find_from].
  - cbn [List.length]. now rewrite Nat.add_0_r.
  - destruct (Nat.leb_spec (i + length (b :: pre)) i) as [H|_]; [cbn in H; lia|]. cbn [andb]. apply IH. cbn. lia.
Qed.
Lemma find_hit c pre mid post from : from = length pre -> ~ In c mid -> find_char c (pre ++ mid ++ c :: post) from = Some (length pre + length mid).
Proof. intros -> H. unfold find_char. rewrite find_from_skip by reflexivity. apply find_from_hit; [apply le_n|exact H]. Qed.
Lemma find_none c pre mid from : from = length pre -> ~ In c mid -> find_char c (pre ++ mid) from = None.
Proof. intros -> H. unfold find_char. rewrite find_from_skip by reflexivity. apply find_from_ge; [apply le_n|exact H]. Qed.
Lemma find_from_bound c : forall s i from r, find_from c s i from = Some r -> i <= r < i + length s.
Proof.
  induction s as [|b s IH]; intros i from r H; cbn [find_from] in H; [discriminate|]. cbn [List.length].
  destruct (_ && _)%bool; [injection H as <-; lia|]. apply IH in H. lia.
Qed.
(** [c] does not occur in [mid]: its first occurrence is not before the end of [mid]. *)
Lemma find_not_before c pre mid post from e : from = length pre -> e = length pre + length mid -> ~ In c mid ->
  before_opt (find_char c (pre ++ mid ++ post) from) (Some e) = false.
Proof.
  intros -> -> H. unfold find_char. rewrite find_from_skip by reflexivity. generalize (le_n (length pre)). generalize (length pre) at 2 3 5.
  induction mid as [|b mid IH]; intros i Hi; cbn [app List.length].
  - destruct (find_from c post i (length pre)) as [r|] eqn:E; [|reflexivity]. apply find_from_bound in E. cbn. apply Nat.ltb_ge. lia.
  - cbn [find_from]. destruct (N.eqb_spec b c) as [->|]; [destruct H; now left|]. rewrite andb_false_r.
    replace (i + S (length mid)) with (S i + length mid) by lia. apply IH; [|lia]. intros Hin; apply H; now right.
Qed.
Lemma find_dslash pre : forall i rest, ~ In 47%N pre -> find_dslash_from (pre ++ 58%N :: 47%N :: 47%N :: rest) i = Some (i + length pre + 1).
Proof.
  induction pre as [|b pre IH]; intros i rest H; cbn [app List.length].
  - cbn [find_dslash_from]. change (58 =? 47)%N with false. change (47 =? 47)%N with true. cbn [andb]. f_equal. lia.
  - assert (Hb : N.eqb b 47 = false) by (apply N.eqb_neq; intros ->; apply H; now left).
    assert (Hpre : ~ In 47%N pre) by (intros Hin; apply H; now right).
    specialize (IH (S i) rest Hpre). cbn [find_dslash_from]. rewrite Hb. cbn [andb].
    destruct (pre ++ 58%N :: 47%N :: 47%N :: rest) as [|y l] eqn:E; [destruct pre; discriminate|]. rewrite IH. f_equal. lia.
Qed.
Lemma substr_mid pre mid post p n : p = length pre -> n = length mid -> substr (pre ++ mid ++ post) p n = mid.
Proof.
  intros -> ->. unfold substr. rewrite skipn_app, skipn_all, Nat.sub_diag. cbn [app skipn].
  now rewrite firstn_app, firstn_all, Nat.sub_diag, firstn_O, app_nil_r.
Qed.
Lemma skipn_pre (pre post : bytes) p : p = length pre -> skipn p (pre ++ post) = post.
Proof. intros ->. now rewrite skipn_app, skipn_all, Nat.sub_diag. Qed.

(** ** Encoding *)
Lemma hex_char_ok d : (d < 16)%N -> is_hex_digit (hex_char d) = true /\ hex_value (hex_char d) = d.
Proof.
  intros H. unfold is_hex_digit, hex_value, hex_char. destruct (N.ltb_spec d 10).
  - destruct (N.leb_spec 48 (d + 48)); [|lia]. destruct (N.leb_spec (d + 48) 57); [|lia]. split; [reflexivity|lia].
  - destruct (N.leb_spec (d + 55) 57); [lia|]. destruct (N.leb_spec 65 (d + 55)); [|lia]. destruct (N.leb_spec (d + 55) 70); [|lia].
    split; [now rewrite !orb_true_r|lia].
Qed.
Lemma decode_pct a b rest : is_hex_digit a = true -> is_hex_digit b = true ->
  decode_uri (37%N :: a :: b :: rest) = (hex_value a * 16 + hex_value b)%N :: decode_uri rest.
Proof. intros Ha Hb. cbn [decode_uri]. change (37 =? 43)%N with false. change (37 =? 37)%N with true. cbn iota. now rewrite Ha, Hb. Qed.
Lemma decode_plain c rest : c <> 43%N -> c <> 37%N -> decode_uri (c :: rest) = c :: decode_uri rest.
Proof. intros H1 H2. cbn [decode_uri]. destruct (N.eqb_spec c 43); [contradiction|]. destruct (N.eqb_spec c 37); [contradiction|]. reflexivity. Qed.

Definition special : bytes := bs "/?#&=%+ ".
Lemma unescaped_plain c : is_unescaped c = true -> ~ In c special.
Proof.
  unfold special. intros H Hin. cbn in Hin. decompose [or] Hin; subst; try contradiction; vm_compute in H; discriminate.
Qed.
Lemma hex_plain a : is_hex_digit a = true -> ~ In a special.
Proof.
  unfold special. intros H Hin. cbn in Hin. decompose [or] Hin; subst; try contradiction; vm_compute in H; discriminate.
Qed.

(** What decoding makes of an encoded character. *)
Definition mangled (c : byte) : bytes :=
  if N.ltb c 128 then [c] else [255%N; 70%N; 70%N; 70%N; 70%N; hex_char (c / 16); hex_char (c mod 16)].
Lemma decode_encode_char c rest : (c < 256)%N -> decode_uri (encode_char c ++ rest) = mangled c ++ decode_uri rest.
Proof.
  intros Hc. unfold encode_char, mangled.
  assert (Hd : (c / 16 < 16)%N) by (apply N.div_lt_upper_bound; lia). assert (Hm : (c mod 16 < 16)%N) by (apply N.mod_lt; lia).
  destruct (hex_char_ok _ Hd) as [H1 H2]. destruct (hex_char_ok _ Hm) as [H3 H4].
  destruct (is_unescaped c) eqn:Hu.
  - assert (Hlt : (c < 128)%N).
    { unfold is_unescaped in Hu. destruct (N.ltb_spec c 128); [assumption|]. exfalso.
      cbn [bs existsb] in Hu. 
      destruct (N.leb_spec c 122); [lia|]. destruct (N.leb_spec c 90); [lia|]. destruct (N.leb_spec c 57); [lia|]. rewrite !andb_false_r in Hu. cbn [orb] in Hu.
      repeat (apply orb_true_iff in Hu as [Hu|Hu]; [apply N.eqb_eq in Hu; subst; vm_compute in H; congruence|]). discriminate. }
    destruct (N.ltb_spec c 128); [|lia]. cbn [app]. apply decode_plain; intros ->; vm_compute in Hu; discriminate.
  - destruct (N.eqb_spec c 32) as [->|Hne]; [reflexivity|].
    destruct (N.ltb_spec c 128) as [Hlt|Hge].
    + cbn [app]. rewrite decode_pct, H2, H4 by assumption. f_equal. pose proof (N.div_mod c 16). lia.
    + assert (Hplain : forall a, is_hex_digit a = true -> a <> 43%N /\ a <> 37%N).
      { intros a Ha. apply hex_plain in Ha. unfold special in Ha. cbn in Ha. split; intros ->; apply Ha; tauto. }
      change ((37%N :: bs "FFFFFF" ++ [hex_char (c / 16); hex_char (c mod 16)]) ++ rest) with
        (37%N :: 70%N :: 70%N :: 70%N :: 70%N :: 70%N :: 70%N :: hex_char (c / 16) :: hex_char (c mod 16) :: rest).
      rewrite decode_pct by reflexivity. do 4 rewrite decode_plain by discriminate. rewrite !decode_plain by (apply Hplain; assumption). reflexivity.
Qed.
Lemma decode_encode s : bytes_ok s -> decode_uri (encode_uri s) = flat_map mangled s.
Proof.
  unfold encode_uri. induction 1 as [|c s Hc _ IH]; [reflexivity|]. cbn [flat_map]. now rewrite decode_encode_char, IH.
Qed.
Lemma mangled_ascii s : Forall (fun c => (c < 128)%N) s -> flat_map mangled s = s.
Proof. induction 1 as [|c s Hc _ IH]; [reflexivity|]. cbn [flat_map]. unfold mangled at 1. destruct (N.ltb_spec c 128); [|lia]. now rewrite IH. Qed.
Lemma decode_encode_ascii s : Forall (fun c => (c < 128)%N) s -> decode_uri (encode_uri s) = s.
Proof. intros H. rewrite decode_encode, mangled_ascii; auto. eapply Forall_impl; [|exact H]. intros; cbn in *; lia. Qed.

(** ** Characters of an encoding: only unescaped ones, '%', and hex digits. *)
Lemma encode_chars s c : bytes_ok s -> In c (encode_uri s) -> c = 37%N \/ ~ In c special.
Proof.
  intros Hs Hin. unfold encode_uri in Hin. apply in_flat_map in Hin as (x & Hx & Hin).
  unfold bytes_ok in Hs. rewrite Forall_forall in Hs. specialize (Hs x Hx). unfold encode_char in Hin.
  assert (Hd : (x / 16 < 16)%N) by (apply N.div_lt_upper_bound; lia). assert (Hm : (x mod 16 < 16)%N) by (apply N.mod_lt; lia).
  destruct (is_unescaped x) eqn:Hu; [destruct Hin as [<-|[]]; right; now apply unescaped_plain|].
  destruct (N.eqb x 32).
  - cbn in Hin. destruct Hin as [<-|[<-|[<-|[]]]]; auto; right; apply hex_plain; reflexivity.
  - destruct Hin as [<-|Hin]; [now left|right]. apply hex_plain. apply in_app_iff in Hin as [Hin|[<-|[<-|[]]]].
    + destruct (N.ltb x 128); [contradiction|]. cbn in Hin. decompose [or] Hin; subst; try contradiction; reflexivity.
    + now apply hex_char_ok. + now apply hex_char_ok.
Qed.
Lemma encode_no s c : bytes_ok s -> In c special -> c <> 37%N -> ~ In c (encode_uri s).
Proof. intros Hs Hc Hne Hin. destruct (encode_chars s c Hs Hin); contradiction. Qed.

(** ** Parameters *)
Definition pair_ascii (p : bytes * bytes) : Prop := Forall (fun c => (c < 128)%N) (fst p) /\ Forall (fun c => (c < 128)%N) (snd p).
Lemma ascii_ok s : Forall (fun c => (c < 128)%N) s -> bytes_ok s.
Proof. apply Forall_impl. intros; cbn in *; lia. Qed.
Lemma param_text_no c p : pair_ascii p -> In c special -> c <> 37%N -> c <> 61%N -> ~ In c (param_text p).
Proof.
  intros [H1 H2] Hc Hn Hn' Hin. unfold param_text in Hin. apply in_app_iff in Hin as [Hin|[Hin|Hin]].
  - revert Hin. apply encode_no; auto using ascii_ok.
  - congruence.
  - revert Hin. apply encode_no; auto using ascii_ok.
Qed.
Lemma split_param_text p : pair_ascii p ->
  (fun p => (decode_uri (fst p), decode_uri (snd p))) (split_param (param_text p)) = p.
Proof.
  intros [H1 H2]. unfold split_param, param_text.
  assert (Hno : ~ In 61%N (encode_uri (fst p))) by (apply encode_no; [now apply ascii_ok|vm_compute; tauto|discriminate]).
  change (encode_uri (fst p) ++ [61%N] ++ encode_uri (snd p)) with ([] ++ encode_uri (fst p) ++ 61%N :: encode_uri (snd p)).
  rewrite (find_hit 61 [] (encode_uri (fst p)) (encode_uri (snd p)) 0 eq_refl Hno). cbn [List.length Nat.add app fst snd].
  change (encode_uri (fst p) ++ 61%N :: encode_uri (snd p)) with ([] ++ encode_uri (fst p) ++ 61%N :: encode_uri (snd p)) at 1.
  rewrite substr_mid by reflexivity.
  replace (encode_uri (fst p) ++ 61%N :: encode_uri (snd p)) with ((encode_uri (fst p) ++ [61%N]) ++ encode_uri (snd p)) by now rewrite <- app_assoc.
  rewrite skipn_pre by (rewrite app_length; reflexivity).
  rewrite !decode_encode_ascii by assumption. now destruct p.
Qed.
Lemma params_as_join p ps : param_text p ++ flat_map (fun p => [38%N] ++ param_text p) ps = join (map param_text (p :: ps)) [38%N].
Proof.
  cbn [map]. unfold join. cbn [join_loop]. rewrite join_loop_acc. cbn [app]. f_equal.
  induction ps as [|q ps IH]; [reflexivity|]. cbn [map flat_map]. now rewrite IH.
Qed.
Lemma params_split ps : ps <> [] -> Forall pair_ascii ps -> split (sep_char 38) false (join (map param_text ps) [38%N]) = map param_text ps.
Proof.
  intros Hne H. rewrite C42_skip_drops_empty_fields, C42_split_inverts_join.
  - clear. induction ps as [|p ps IH]; [reflexivity|]. cbn [map filter]. rewrite IH. unfold param_text at 1. rewrite !app_length. cbn [List.length].
    destruct (Nat.eqb_spec (length (encode_uri (fst p)) + (1 + length (encode_uri (snd p)))) 0); [lia|]. reflexivity.
  - destruct ps; [congruence|discriminate].
  - apply Forall_map. eapply Forall_impl; [|exact H]. intros p Hp. apply param_text_no; [exact Hp|vm_compute; tauto|discriminate|discriminate].
Qed.
Lemma params_parse ps : Forall pair_ascii ps ->
  map (fun p => (decode_uri (fst p), decode_uri (snd p))) (map split_param (map param_text ps)) = ps.
Proof. induction 1 as [|p ps Hp _ IH]; [reflexivity|]. cbn [map]. rewrite IH. f_equal. exact (split_param_text p Hp). Qed.
Lemma params_no c ps : Forall pair_ascii ps -> In c special -> c <> 37%N -> c <> 61%N -> c <> 38%N -> ~ In c (join (map param_text ps) [38%N]).
Proof.
  intros H Hc H1 H2 H3. destruct ps as [|p ps]; [intros []|]. rewrite <- params_as_join. inversion H as [|? ? Hp Hps]; subst.
  intros Hin. apply in_app_iff in Hin as [Hin|Hin]; [revert Hin; now apply param_text_no|].
  apply in_flat_map in Hin as (q & Hq & [Hin|Hin]); [congruence|]. rewrite Forall_forall in Hps. revert Hin. apply param_text_no; auto.
Qed.

Lemma extract_ok base ps frag : ~ In 63%N base -> ~ In 35%N base -> Forall pair_ascii ps ->
  extract_parameters (base ++ compose_parameters ps frag) = (ps, map_of_pairs ps [], frag, length base).
Proof.
  intros Hq Hp Hps. unfold extract_parameters.
  set (F := if is_empty frag then [] else [35%N] ++ frag).
  assert (HF : F = [] /\ frag = [] \/ F = 35%N :: frag).
  { unfold F. destruct (is_empty_spec frag); [left|right]; auto. }
  destruct ps as [|p ps].
  - unfold compose_parameters. fold F. cbn [app]. destruct HF as [[-> ->]| ->].
    + rewrite app_nil_r. change (find_char 35 base 0) with (find_char 35 ([] ++ base) 0). rewrite find_none by auto.
      change (find_char 63 base 0) with (find_char 63 ([] ++ base) 0). rewrite find_none by auto. reflexivity.
    + change (find_char 35 (base ++ 35%N :: frag) 0) with (find_char 35 ([] ++ base ++ 35%N :: frag) 0). rewrite find_hit by auto. cbn [List.length Nat.add].
      replace (skipn (length base + 1) (base ++ 35%N :: frag)) with frag.
      2:{ symmetry. replace (base ++ 35%N :: frag) with ((base ++ [35%N]) ++ frag) by now rewrite <- app_assoc. apply skipn_pre. now rewrite app_length. }
      pose proof (find_not_before 63 [] base (35%N :: frag) 0 (length base) eq_refl eq_refl Hq) as Hb. cbn [app] in Hb.
      destruct (find_char 63 (base ++ 35%N :: frag) 0); [rewrite Hb|]; reflexivity.
  - assert (Hcp : compose_parameters (p :: ps) frag = 63%N :: join (map param_text (p :: ps)) [38%N] ++ F).
    { unfold compose_parameters. fold F. rewrite <- params_as_join, <- !app_assoc. reflexivity. }
    rewrite Hcp. clear Hcp. set (J := join (map param_text (p :: ps)) [38%N]) in *.
    assert (HJ : ~ In 35%N J) by (apply params_no; [exact Hps|vm_compute; tauto|discriminate..]).
    assert (Hqm : find_char 63 (base ++ 63%N :: J ++ F) 0 = Some (length base)).
    { change (base ++ 63%N :: J ++ F) with ([] ++ base ++ 63%N :: J ++ F). rewrite find_hit by auto. reflexivity. }
    rewrite Hqm.
    assert (Hv : forall n, n = length J -> map (fun p => (decode_uri (fst p), decode_uri (snd p))) (map split_param (split (sep_char 38) false (substr (base ++ 63%N :: J ++ F) (length base + 1) n))) = p :: ps).
    { intros n ->. replace (base ++ 63%N :: J ++ F) with ((base ++ [63%N]) ++ J ++ F) by now rewrite <- app_assoc.
      rewrite substr_mid by (rewrite ?app_length; reflexivity). unfold J. rewrite params_split by (auto; discriminate). now apply params_parse. }
    destruct HF as [[-> ->]| ->].
    + rewrite app_nil_r in *.
      assert (Hpd : find_char 35 (base ++ 63%N :: J) 0 = None).
      { change (base ++ 63%N :: J) with ([] ++ base ++ 63%N :: J). apply find_none; [reflexivity|]. intros Hin. apply in_app_iff in Hin as [Hin|[Hin|Hin]]; [contradiction|discriminate|contradiction]. }
      rewrite Hpd. cbn [before_opt]. rewrite Hv by (rewrite app_length; cbn [List.length]; lia). reflexivity.
    + assert (Hpd : find_char 35 (base ++ 63%N :: J ++ 35%N :: frag) 0 = Some (length base + 1 + length J)).
      { replace (base ++ 63%N :: J ++ 35%N :: frag) with ([] ++ (base ++ 63%N :: J) ++ 35%N :: frag) by (cbn [app]; now rewrite <- app_assoc).
        rewrite find_hit; [f_equal; cbn [List.length]; rewrite app_length; cbn [List.length]; lia|reflexivity|].
        intros Hin. apply in_app_iff in Hin as [Hin|[Hin|Hin]]; [contradiction|discriminate|contradiction]. }
      rewrite Hpd. cbn [before_opt]. destruct (Nat.ltb_spec (length base) (length base + 1 + length J)) as [_|]; [|lia].
      rewrite Hv by lia.
      replace (skipn (length base + 1 + length J + 1) (base ++ 63%N :: J ++ 35%N :: frag)) with frag; [reflexivity|].
      symmetry. replace (base ++ 63%N :: J ++ 35%N :: frag) with ((base ++ [63%N] ++ J ++ [35%N]) ++ frag) by (rewrite <- !app_assoc; reflexivity).
      apply skipn_pre. rewrite !app_length. cbn. lia.
Qed.

Lemma lookup_map_of_pairs ps : forall seen k, ~ In k seen -> lookup (map_of_pairs ps seen) k = lookup ps k.
Proof.
  induction ps as [|[k' v] ps IH]; intros seen k Hk; [reflexivity|]. cbn [map_of_pairs lookup].
  destruct (existsb (beqs k') seen) eqn:E.
  - apply existsb_exists in E as (x & Hx & Ex). destruct (beqs_spec k' x) as [->|]; [|discriminate].
    rewrite IH by exact Hk. destruct (beqs_spec x k) as [->|]; [contradiction|reflexivity].
  - cbn [lookup]. destruct (beqs_spec k' k) as [->|Hne]; [reflexivity|]. apply IH. intros [->|Hin]; contradiction.
Qed.

(** ** The part without parameters *)
Lemma digits_of_app d rest : Forall (fun b => is_digit b = true) d -> match rest with b :: _ => is_digit b = false | [] => True end -> digits_of (d ++ rest) = d.
Proof.
  induction 1 as [|b d Hb _ IH]; intros Hr; cbn [app digits_of].
  - destruct rest as [|b r]; [reflexivity|]. cbn. now rewrite Hr.
  - rewrite Hb, IH; auto.
Qed.
Lemma atoi16_dec n rest : (n < 65536)%N -> match rest with b :: _ => is_digit b = false | [] => True end -> atoi16 (dec n ++ rest) = n.
Proof.
  intros Hn Hr. unfold atoi16. destruct (dec_head_digit n) as (b & r & E & Hb).
  assert (Hsk : skip_spaces (dec n ++ rest) = dec n ++ rest).
  { rewrite E. cbn [app skip_spaces]. unfold is_digit in Hb. apply andb_true_iff in Hb as [Hb1 Hb2]. apply N.leb_le in Hb1, Hb2.
    unfold is_space. destruct (N.eqb_spec b 32); [lia|]. destruct (N.leb_spec b 13); [lia|]. now rewrite andb_false_r. }
  rewrite Hsk.
  assert (Hdef : (horner (digits_of (dec n ++ rest)) mod 65536)%N = n).
  { rewrite digits_of_app by (auto; apply dec_is_digit). rewrite horner_dec. now apply N.mod_small. }
  rewrite E in *. cbn [app] in *.
  assert (b <> 45%N /\ b <> 43%N) as [H1 H2] by (split; intros ->; vm_compute in Hb; discriminate).
  destruct b as [|pb]; [exact Hdef|]. repeat (destruct pb as [pb|pb|]; try exact Hdef; try congruence).
Qed.

Definition without (l : bytes) (s : bytes) : Prop := forall c, In c l -> ~ In c s.
Lemma without_in l s c : without l s -> In c l -> ~ In c s.
Proof. intros H; exact (H c). Qed.

Lemma parse_full sch U user pass h P prt pth off :
  sch <> [] -> ~ In 47%N sch -> off = length sch + 3 ->
  (U = [] /\ user = [] /\ pass = [] \/
   U = user ++ [64%N] /\ pass = [] /\ without (bs "/:@") user \/
   U = user ++ [58%N] ++ pass ++ [64%N] /\ without (bs "/:@") user /\ without (bs "/@") pass) ->
  h <> [] -> without (bs "/:@") h ->
  (P = [] /\ prt = 0%N \/ P = 58%N :: dec prt /\ (prt < 65536)%N) ->
  parse_url_without_parameters (sch ++ bs "://" ++ U ++ h ++ P ++ 47%N :: pth) = Some (h, 47%N :: pth, sch, prt, user, pass).
Proof.
  intros Hsne Hs Hoff HU Hh Hhw HP.
  set (A := sch ++ bs "://"). set (u := sch ++ bs "://" ++ U ++ h ++ P ++ 47%N :: pth).
  assert (HA : length A = off) by (unfold A; rewrite app_length; cbn; lia).
  assert (Hu : u = A ++ U ++ h ++ P ++ 47%N :: pth) by (unfold u, A; rewrite <- app_assoc; reflexivity).
  unfold parse_url_without_parameters. fold u.
  destruct (is_empty_spec u) as [E|_]; [exfalso; unfold u in E; destruct sch; [congruence|discriminate]|].
  assert (Hds : find_double_slash u = Some (length sch + 1)).
  { unfold find_double_slash, u. change (bs "://" ++ U ++ h ++ P ++ 47%N :: pth) with (58%N :: 47%N :: 47%N :: U ++ h ++ P ++ 47%N :: pth). now rewrite find_dslash. }
  rewrite Hds. replace (length sch + 1 - 1) with (length sch) by lia.
  assert (Hnth : nth (length sch) u 0%N = 58%N) by (unfold u; rewrite app_nth2, Nat.sub_diag by lia; reflexivity).
  rewrite Hnth. destruct (Nat.eqb_spec (length sch + 1) 0) as [|_]; [lia|]. cbn [orb]. change (58 =? 58)%N with true. cbn iota.
  assert (Hsub : substr u 0 (length sch) = sch) by (change u with ([] ++ u); unfold u; now rewrite substr_mid).
  rewrite Hsub. replace (length sch + 1 + 2) with off by lia.
  (* characters *)
  assert (HPw : forall c, In c (bs "/@") -> ~ In c P).
  { intros c Hc Hin. destruct HP as [[-> _]|[-> _]]; [contradiction|]. destruct Hin as [<-|Hin]; [vm_compute in Hc; intuition discriminate|].
    pose proof (dec_is_digit prt) as Hd. rewrite Forall_forall in Hd. specialize (Hd c Hin).
    vm_compute in Hc. destruct Hc as [<-|[<-|[]]]; vm_compute in Hd; discriminate. }
  assert (HPd : ~ In 58%N (tl P)).
  { destruct HP as [[-> _]|[-> _]]; [intros []|]. cbn [tl]. intros Hin. pose proof (dec_is_digit prt) as Hd. rewrite Forall_forall in Hd. specialize (Hd _ Hin). vm_compute in Hd. discriminate. }
  assert (HU47 : ~ In 47%N U).
  { intros Hin. destruct HU as [(-> & _)|[(-> & _ & Hw)|(-> & Hw & Hw')]].
    - contradiction.
    - apply in_app_iff in Hin as [Hin|[Hin|[]]]; [|discriminate]. revert Hin. apply Hw. vm_compute. tauto.
    - apply in_app_iff in Hin as [Hin|[Hin|Hin]]; [revert Hin; apply Hw; vm_compute; tauto|discriminate|].
      change (In 47%N (pass ++ [64%N])) in Hin. apply in_app_iff in Hin as [Hin|Hin]; [revert Hin; apply Hw'; vm_compute; tauto|]. destruct Hin as [Hin|[]]. discriminate. }
  assert (Hh47 : ~ In 47%N h) by (apply Hhw; vm_compute; tauto).
  assert (Hh58 : ~ In 58%N h) by (apply Hhw; vm_compute; tauto).
  assert (Hh64 : ~ In 64%N h) by (apply Hhw; vm_compute; tauto).
  assert (HP47 : ~ In 47%N P) by (apply HPw; vm_compute; tauto).
  assert (HP64 : ~ In 64%N P) by (apply HPw; vm_compute; tauto).
  set (e := off + length U + length h + length P).
  assert (Hhe : find_char 47 u off = Some e).
  { rewrite Hu. replace (A ++ U ++ h ++ P ++ 47%N :: pth) with (A ++ (U ++ h ++ P) ++ 47%N :: pth) by now rewrite <- !app_assoc.
    rewrite find_hit; [f_equal; rewrite !app_length; unfold e; lia|congruence|]. rewrite !in_app_iff. tauto. }
  rewrite Hhe.
  (* user and password *)
  assert (Huser : (match find_char 64 u off with
      | Some a =>
          if before_opt (find_char 64 u off) (Some e) then
            match find_char 58 u off with
            | Some c => if Nat.ltb c a then (substr u off (c - off), substr u (c + 1) (a - (c + 1)), a + 1)
                        else (substr u off (a - off), [], a + 1)
            | None => (substr u off (a - off), [], a + 1)
            end
          else ([], [], off)
      | None => ([], [], off)
      end) = (user, pass, off + length U)).
  { destruct HU as [(-> & -> & ->)|[(-> & -> & Hw)|(-> & Hw & Hw')]].
    - assert (Hb : before_opt (find_char 64 u off) (Some e) = false).
      { rewrite Hu. cbn [app]. replace (A ++ h ++ P ++ 47%N :: pth) with (A ++ (h ++ P) ++ 47%N :: pth) by now rewrite <- !app_assoc.
        apply find_not_before; [congruence|unfold e; rewrite app_length; cbn [List.length]; lia|]. rewrite in_app_iff. tauto. }
      rewrite Hb. cbn [List.length]. rewrite Nat.add_0_r. destruct (find_char 64 u off); reflexivity.
    - assert (Hat : find_char 64 u off = Some (off + length user)).
      { rewrite Hu. rewrite <- !app_assoc. change ([64%N] ++ h ++ P ++ 47%N :: pth) with (64%N :: h ++ P ++ 47%N :: pth).
        rewrite find_hit; [f_equal; lia|congruence|]. apply Hw. vm_compute. tauto. }
      rewrite Hat. cbn [before_opt]. destruct (Nat.ltb_spec (off + length user) e) as [_|Hbad]; [|unfold e in Hbad; rewrite app_length in Hbad; cbn in Hbad; lia].
      assert (Hc : before_opt (find_char 58 u off) (Some (off + length user)) = false).
      { rewrite Hu. rewrite <- !app_assoc. apply find_not_before; [congruence|lia|]. apply Hw. vm_compute. tauto. }
      assert (Hsub1 : substr u off (off + length user - off) = user) by (rewrite Hu, <- !app_assoc; apply substr_mid; lia).
      rewrite Hsub1, app_length. cbn [List.length].
      destruct (find_char 58 u off) as [c|]; [cbn [before_opt] in Hc; rewrite Hc|]; f_equal; lia.
    - assert (Hat : find_char 64 u off = Some (off + length user + 1 + length pass)).
      { rewrite Hu. replace (A ++ (user ++ [58%N] ++ pass ++ [64%N]) ++ h ++ P ++ 47%N :: pth) with
          (A ++ (user ++ [58%N] ++ pass) ++ 64%N :: h ++ P ++ 47%N :: pth) by now rewrite <- !app_assoc.
        rewrite find_hit; [f_equal; rewrite !app_length; cbn [List.length]; lia|congruence|].
        intros Hin. apply in_app_iff in Hin as [Hin|[Hin|Hin]]; [revert Hin; apply Hw; vm_compute; tauto|discriminate|revert Hin; apply Hw'; vm_compute; tauto]. }
      rewrite Hat. cbn [before_opt].
      destruct (Nat.ltb_spec (off + length user + 1 + length pass) e) as [_|Hbad]; [|unfold e in Hbad; rewrite !app_length in Hbad; cbn in Hbad; lia].
      assert (Hc : find_char 58 u off = Some (off + length user)).
      { rewrite Hu. rewrite <- !app_assoc. cbn [app]. rewrite find_hit; [f_equal; lia|congruence|]. apply Hw. vm_compute. tauto. }
      rewrite Hc. destruct (Nat.ltb_spec (off + length user) (off + length user + 1 + length pass)) as [_|]; [|lia].
      assert (Hsub1 : substr u off (off + length user - off) = user) by (rewrite Hu, <- !app_assoc; apply substr_mid; lia).
      assert (Hsub2 : substr u (off + length user + 1) (off + length user + 1 + length pass - (off + length user + 1)) = pass).
      { rewrite Hu. replace (A ++ (user ++ [58%N] ++ pass ++ [64%N]) ++ h ++ P ++ 47%N :: pth) with
          ((A ++ user ++ [58%N]) ++ pass ++ ([64%N] ++ h ++ P ++ 47%N :: pth)) by now rewrite <- !app_assoc.
        apply substr_mid; [rewrite !app_length; cbn [List.length]; lia|lia]. }
      rewrite Hsub1, Hsub2, !app_length. cbn [List.length]. f_equal. lia. }
  cbv zeta. rewrite Huser.
  (* port *)
  set (o2 := off + length U).
  assert (HAU : length (A ++ U) = o2) by (rewrite app_length; unfold o2; lia).
  assert (Hu2 : u = (A ++ U) ++ h ++ P ++ 47%N :: pth) by (rewrite Hu, <- !app_assoc; reflexivity).
  assert (Hpath : skipn e u = 47%N :: pth).
  { rewrite Hu. replace (A ++ U ++ h ++ P ++ 47%N :: pth) with ((A ++ U ++ h ++ P) ++ 47%N :: pth) by now rewrite <- !app_assoc.
    apply skipn_pre. rewrite !app_length. unfold e. lia. }
  assert (Hhost : (match find_char 58 u o2 with
      | Some c => if before_opt (find_char 58 u o2) (Some e)
                  then (substr u o2 (c - o2), atoi16 (skipn (c + 1) u))
                  else (substr_to u o2 (Some e), 0%N)
      | None => (substr_to u o2 (Some e), 0%N)
      end) = (h, prt)).
  { destruct HP as [[-> ->]|[-> Hprt]].
    - assert (Hb : before_opt (find_char 58 u o2) (Some e) = false).
      { rewrite Hu2. apply find_not_before; [congruence|rewrite HAU; unfold e, o2; cbn [List.length]; lia|exact Hh58]. }
      rewrite Hb. assert (Hsb : substr_to u o2 (Some e) = h).
      { cbn [substr_to]. rewrite Hu2. apply substr_mid; [congruence|unfold e, o2; cbn [List.length]; lia]. }
      rewrite Hsb. destruct (find_char 58 u o2); reflexivity.
    - assert (Hc : find_char 58 u o2 = Some (o2 + length h)).
      { rewrite Hu2. cbn [app]. rewrite find_hit; [now rewrite HAU|congruence|exact Hh58]. }
      rewrite Hc. cbn [before_opt]. destruct (Nat.ltb_spec (o2 + length h) e) as [_|Hbad]; [|unfold e, o2 in Hbad; cbn in Hbad; lia].
      replace (substr u o2 (o2 + length h - o2)) with h.
      2:{ symmetry. rewrite Hu2. apply substr_mid; [congruence|lia]. }
      replace (skipn (o2 + length h + 1) u) with (dec prt ++ 47%N :: pth).
      2:{ symmetry. rewrite Hu2. replace ((A ++ U) ++ h ++ (58%N :: dec prt) ++ 47%N :: pth) with (((A ++ U) ++ h ++ [58%N]) ++ dec prt ++ 47%N :: pth) by (rewrite <- !app_assoc; reflexivity).
          apply skipn_pre. rewrite app_length, HAU, app_length. cbn [List.length]. lia. }
      rewrite atoi16_dec; [reflexivity|exact Hprt|reflexivity]. }
  rewrite Hhost, Hpath. reflexivity.
Qed.
