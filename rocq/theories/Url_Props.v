(** Properties C39, C40, C41 (blocks/url/url.h). *)
From Coq Require Import String.
From Verif Require Import Base Dec Strings_Model Strings_Props Url_Model Url_Proofs.
Local Open Scope list_scope.

(** ** C39 *)
Definition ascii_only (s : bytes) : Prop := Forall (fun c => (c < 128)%N) s.

(** C39: decoding inverts encoding -- exactly for ASCII strings.  (The full claim, for all bytes, is false:
    [EncodeURIComponent] prints a byte >= 0x80 as a negative int.) *)
Theorem C39_decode_inverts_encode_partial :
  forall s, bytes_ok s -> (decode_uri (encode_uri s) = s <-> ascii_only s).
Proof.
  intros s Hs. split; [|apply decode_encode_ascii]. rewrite decode_encode by exact Hs.
  assert (Hlen : forall l, List.length l <= List.length (flat_map mangled l) /\ (List.length l = List.length (flat_map mangled l) -> ascii_only l)).
  { induction l as [|c l [IH1 IH2]]; [split; [apply le_n|constructor]|]. cbn [flat_map List.length]. rewrite app_length. unfold mangled at 1 3.
    destruct (N.ltb_spec c 128); cbn [List.length]; split; [lia| |lia|lia]. intros H1. constructor; [assumption|]. apply IH2. lia. }
  intros H. apply Hlen. now rewrite H.
Qed.
Print Assumptions C39_decode_inverts_encode_partial.

Theorem C39_non_ascii_refuted :
  encode_uri [233%N] = bs "%FFFFFFE9" /\ decode_uri (encode_uri [233%N]) = 255%N :: bs "FFFFE9".
Proof. vm_compute. auto. Qed.
Print Assumptions C39_non_ascii_refuted.

(** Text in which the characters with a meaning in a URL occur only as the percent signs of escapes. *)
Inductive escaped : bytes -> Prop :=
| Esc_nil : escaped []
| Esc_plain c s : ~ In c (bs "/?#&=%+ ") -> escaped s -> escaped (c :: s)
| Esc_pct a b s : is_hex_digit a = true -> is_hex_digit b = true -> escaped s -> escaped (37%N :: a :: b :: s).

(** C39: for every string (non-ASCII ones too) the encoding has this form. *)
Theorem C39_encoding_is_escaped : forall s, bytes_ok s -> escaped (encode_uri s).
Proof.
  intros s. unfold encode_uri. induction 1 as [|c s Hc _ IH]; [constructor|]. cbn [flat_map]. unfold encode_char.
  assert (Hd : (c / 16 < 16)%N) by (apply N.div_lt_upper_bound; lia). assert (Hm : (c mod 16 < 16)%N) by (apply N.mod_lt; lia).
  destruct (is_unescaped c) eqn:Hu; [constructor; [now apply unescaped_plain|exact IH]|].
  destruct (N.eqb c 32); [now apply Esc_pct|].
  destruct (hex_char_ok _ Hd) as [H1 _]. destruct (hex_char_ok _ Hm) as [H2 _].
  destruct (N.ltb c 128); cbn [app]; [now apply Esc_pct|]. apply Esc_pct; [reflexivity|reflexivity|].
  repeat (apply Esc_plain; [apply hex_plain; reflexivity|]). repeat (apply Esc_plain; [now apply hex_plain|]). exact IH.
Qed.
Print Assumptions C39_encoding_is_escaped.

Example C39_demo : encode_uri (bs "a b&c=d/e?") = bs "a%20b%26c%3Dd%2Fe%3F" /\ decode_uri (bs "x+%2B%zz%4") = bs "x +%zz%4".
Proof. vm_compute. auto. Qed.

(** ** C40 *)
(** The value a query gives for a key: that of the first pair with the key. *)
Definition first_value (ps : list (bytes * bytes)) (k : bytes) (r : option bytes) : Prop :=
  match r with
  | None => Forall (fun p => fst p <> k) ps
  | Some v => exists before after, ps = before ++ (k, v) :: after /\ Forall (fun p => fst p <> k) before
  end.
Lemma lookup_first ps k : first_value ps k (lookup ps k).
Proof.
  induction ps as [|[k' v] ps IH]; [constructor|]. cbn [lookup]. destruct (beqs_spec k' k) as [->|Hne].
  - exists [], ps. split; [reflexivity|constructor].
  - unfold first_value in *. destruct (lookup ps k) as [w|].
    + destruct IH as (b & a & -> & Hb). exists ((k', v) :: b), a. split; [reflexivity|]. now constructor.
    + now constructor.
Qed.

(** C40: parameters and fragment appended to a URL without any parse back: the same pairs in the same order,
    the same fragment, the rest of the URL untouched, and lookups find the first pair of a key. *)
Theorem C40_parameters_round_trip :
  forall base ps frag, ~ In 63%N base -> ~ In 35%N base -> Forall (fun p => ascii_only (fst p) /\ ascii_only (snd p)) ps ->
    exists q, extract_parameters (base ++ compose_parameters ps frag) = (ps, q, frag, List.length base) /\
      forall k default, first_value ps k (lookup q k) /\
        query_has q k = existsb (fun p => beqs (fst p) k) ps /\
        query_get q k default = match lookup q k with Some v => v | None => default end.
Proof.
  intros base ps frag H1 H2 H3. exists (map_of_pairs ps []). split; [now apply extract_ok|]. intros k default.
  rewrite lookup_map_of_pairs by (intros []). split; [apply lookup_first|]. split; [|unfold query_get; now rewrite lookup_map_of_pairs by (intros [])].
  unfold query_has. rewrite lookup_map_of_pairs by (intros []). clear. induction ps as [|[k' v] ps IH]; [reflexivity|]. cbn [lookup existsb fst].
  destruct (beqs k' k); [reflexivity|exact IH].
Qed.
Print Assumptions C40_parameters_round_trip.

(** C40 for a whole URL object that is parsed from "/" and the parameters (the way [ParseQueryString] reads
    the body of a form). *)
Theorem C40_form_body_round_trip :
  forall ps, Forall (fun p => ascii_only (fst p) /\ ascii_only (snd p)) ps ->
    exists u, parse_url (bs "/" ++ compose_parameters ps []) = Some u /\ parameters_vector u = ps /\ path u = bs "/" /\ host u = [] /\
      (ps <> [] -> forall k, exists q, parse_query_string (tl (compose_parameters ps [])) = Some q /\ first_value ps k (lookup q k)).
Proof.
  intros ps H.
  assert (E : extract_parameters (bs "/" ++ compose_parameters ps []) = (ps, map_of_pairs ps [], [], 1)).
  { apply (extract_ok (bs "/")); auto; cbn; intuition discriminate. }
  unfold parse_url at 1. rewrite E.
  change (firstn 1 (bs "/" ++ compose_parameters ps [])) with (bs "/").
  change (parse_url_without_parameters (bs "/")) with (Some (([] : bytes), bs "/", ([] : bytes), 0%N, ([] : bytes), ([] : bytes))).
  eexists. split; [reflexivity|]. cbn [parameters_vector path host]. repeat split; auto.
  intros Hne k. exists (map_of_pairs ps []). split; [|rewrite lookup_map_of_pairs by (intros []); apply lookup_first].
  unfold parse_query_string. replace (bs "/?" ++ tl (compose_parameters ps [])) with (bs "/" ++ compose_parameters ps []) by (destruct ps; [congruence|reflexivity]).
  unfold parse_url. rewrite E. reflexivity.
Qed.
Print Assumptions C40_form_body_round_trip.

Example C40_demo : forall u, parse_url (bs "http://h/p?a=1&b=%26x&a=2&&c#f?g") = Some u ->
  parameters_vector u = [(bs "a", bs "1"); (bs "b", bs "&x"); (bs "a", bs "2"); (bs "c", [])] /\ fragment u = bs "f?g" /\
  lookup (query u) (bs "a") = Some (bs "1").
Proof. vm_compute. intros u [= <-]. auto. Qed.

(** ** C41 *)
(** No character of [l] occurs in [s]. *)
Definition free_of (l s : bytes) : Prop := forall c, In c l -> ~ In c s.
(** A URL with a host whose parts contain no reserved characters. *)
Definition plain_url (u : url) : Prop :=
  host u <> [] /\ free_of (bs "/:@?#") (host u) /\
  free_of (bs "/?#") (scheme u) /\
  free_of (bs "/:@?#") (username u) /\ free_of (bs "/@?#") (password u) /\ (username u = [] -> password u = []) /\
  (exists p, path u = 47%N :: p) /\ free_of (bs "?#") (path u) /\
  (port u < 65536)%N /\
  Forall (fun p => ascii_only (fst p) /\ ascii_only (snd p)) (parameters_vector u).
(** The scheme a URL is composed with, and the port it leaves implicit. *)
Definition effective_scheme (u : url) (s : bytes) : Prop :=
  (scheme u <> [] /\ s = scheme u) \/ (scheme u = [] /\ s = (if N.eqb (port u) 443 then bs "https" else bs "http")).
Definition implicit_port (s : bytes) (p : N) : Prop := (s = bs "http" /\ p = 80%N) \/ (s = bs "https" /\ p = 443%N).

Lemma free_sub l1 l2 s : (forall c, In c l1 -> In c l2) -> free_of l2 s -> free_of l1 s.
Proof. intros H1 H2 c Hc. apply H2, H1, Hc. Qed.
Ltac free_chars := intros c Hc; cbn in *; intuition.

(** C41: composing and parsing gives the URL back, up to spelling out the scheme and leaving out the port that
    the scheme implies; both are the same URL after [MakeURLWithDefaults], and composing again gives the same text. *)
Theorem C41_parse_inverts_compose :
  forall u, plain_url u ->
    exists u', parse_url (compose_url u) = Some u' /\
      host u' = host u /\ path u' = path u /\ username u' = username u /\ password u' = password u /\
      parameters_vector u' = parameters_vector u /\ fragment u' = fragment u /\
      (forall k, first_value (parameters_vector u) k (lookup (query u') k)) /\
      effective_scheme u (scheme u') /\
      (implicit_port (scheme u') (port u) -> port u' = 0%N) /\ (~ implicit_port (scheme u') (port u) -> port u' = port u) /\
      scheme (with_defaults u') = scheme (with_defaults u) /\ port (with_defaults u') = port (with_defaults u) /\
      compose_url u' = compose_url u.
Proof.
  intros u (Hh & Hhw & Hsw & Huw & Hpw & Hup & (p & Hp) & Hpth & Hport & Hps).
  set (sc := if is_empty (scheme u) then (if N.ltb 0 (port u) then default_scheme_for_port (port u) else kDefaultScheme) else scheme u).
  set (sch := if is_empty sc then kDefaultScheme else sc).
  set (prt := if (N.ltb 0 (port u) && negb (N.eqb (port u) (default_port_for_scheme sc)))%bool then port u else 0%N).
  set (U := if is_empty (username u) then [] else username u ++ (if is_empty (password u) then [] else [58%N] ++ password u) ++ [64%N]).
  set (P := if N.ltb 0 prt then [58%N] ++ dec prt else []).
  assert (Hbase : compose_without_parameters u = sch ++ bs "://" ++ U ++ host u ++ P ++ path u).
  { unfold compose_without_parameters. destruct (is_empty_spec (host u)); [contradiction|]. reflexivity. }
  assert (Hscheme : effective_scheme u sch /\ sch <> [] /\ free_of (bs "/?#") sch).
  { unfold effective_scheme, sch, sc. destruct (is_empty_spec (scheme u)) as [Es|Es].
    - unfold default_scheme_for_port. destruct (N.ltb_spec 0 (port u)).
      + destruct (N.eqb_spec (port u) 80) as [E|]; [rewrite E; cbn [is_empty bs]; split; [right; auto|split; [discriminate|]]; free_chars; subst; try discriminate; intuition discriminate|].
        destruct (N.eqb_spec (port u) 443) as [E|]; cbn [is_empty bs kDefaultScheme]; (split; [right; auto|split; [discriminate|]]; free_chars; subst; intuition discriminate).
      + assert (Ep : port u = 0%N) by lia. rewrite Ep. cbn [is_empty bs kDefaultScheme]. split; [right; auto|split; [discriminate|]]; free_chars; subst; intuition discriminate.
    - destruct (is_empty_spec (scheme u)); [contradiction|]. split; [left; auto|]. split; [assumption|exact Hsw]. }
  destruct Hscheme as (Heff & Hsne & Hsfree).
  assert (Hie : is_empty sch = false) by (clear - Hsne; clearbody sch; now destruct sch).
  assert (Hprt : prt = 0%N \/ (prt < 65536)%N) by (unfold prt; destruct (_ && _)%bool; auto).
  assert (HPno : forall c, In c (bs "/?#@") -> ~ In c P).
  { intros c Hc Hin. unfold P in Hin. destruct (N.ltb 0 prt); [|contradiction]. destruct Hin as [<-|Hin]; [vm_compute in Hc; intuition discriminate|].
    pose proof (dec_is_digit prt) as Hd. rewrite Forall_forall in Hd. specialize (Hd c Hin). vm_compute in Hc. decompose [or] Hc; subst; try contradiction; vm_compute in Hd; discriminate. }
  assert (Hno : forall c, In c (bs "?#") -> ~ In c (compose_without_parameters u)).
  { intros c Hc. rewrite Hbase, !in_app_iff.
    assert (HU : ~ In c U).
    { unfold U. destruct (is_empty (username u)); [intros []|]. rewrite !in_app_iff. intros [Hin|[Hin|[Hin|[]]]].
      - revert Hin. apply Huw. vm_compute in Hc |- *. tauto.
      - destruct (is_empty (password u)); [contradiction|]. destruct Hin as [Hin|Hin]; [subst; vm_compute in Hc; intuition discriminate|].
        revert Hin. apply Hpw. vm_compute in Hc |- *. tauto.
      - subst. vm_compute in Hc. intuition discriminate. }
    assert (H1 : ~ In c sch) by (apply Hsfree; vm_compute in Hc |- *; tauto).
    assert (H2 : ~ In c (host u)) by (apply Hhw; vm_compute in Hc |- *; tauto).
    assert (H3 : ~ In c P) by (apply HPno; vm_compute in Hc |- *; tauto).
    assert (H4 : ~ In c (bs "://")) by (intros Hin; vm_compute in Hc, Hin; decompose [or] Hc; subst; try contradiction; intuition discriminate).
    pose proof (Hpth c Hc). tauto. }
  assert (Hparse : parse_url_without_parameters (compose_without_parameters u) = Some (host u, path u, sch, prt, username u, password u)).
  { rewrite Hbase, Hp. apply (parse_full sch U (username u) (password u) (host u) P prt p (List.length sch + 3)); auto.
    - apply Hsfree. vm_compute. tauto.
    - unfold U. destruct (is_empty_spec (username u)) as [E|E]; [left; auto|right].
      destruct (is_empty_spec (password u)) as [E'|E']; [left|right].
      + split; [reflexivity|]. split; [exact E'|]. intros c Hc. apply Huw. vm_compute in Hc |- *. tauto.
      + split; [now rewrite <- app_assoc|]. split; intros c Hc; [apply Huw|apply Hpw]; vm_compute in Hc |- *; tauto.
    - intros c Hc. apply Hhw. vm_compute in Hc |- *. tauto.
    - unfold P. destruct (N.ltb_spec 0 prt); [right|left]; (split; [reflexivity|lia]). }
  unfold parse_url, compose_url. rewrite (extract_ok _ _ _ (Hno 63%N ltac:(vm_compute; tauto)) (Hno 35%N ltac:(vm_compute; tauto)) Hps).
  rewrite firstn_app, firstn_all, Nat.sub_diag, firstn_O, app_nil_r, Hparse.
  eexists. split; [reflexivity|]. cbn [host path username password parameters_vector fragment query scheme port].
  do 6 (split; [reflexivity|]). split; [intros k; rewrite lookup_map_of_pairs by (intros []); apply lookup_first|].
  split; [exact Heff|].
  assert (Hdp : forall s, default_port_for_scheme s = 80%N /\ s = bs "http" \/ default_port_for_scheme s = 443%N /\ s = bs "https" \/
                         default_port_for_scheme s = 0%N /\ s <> bs "http" /\ s <> bs "https").
  { intros s. unfold default_port_for_scheme. destruct (beqs_spec s (bs "http")); [auto|]. destruct (beqs_spec s (bs "https")); auto. }
  assert (Hscsch : (sc = sch) \/ (sc = [] /\ sch = bs "http" /\ (port u <> 0)%N /\ (port u <> 80)%N /\ (port u <> 443)%N)).
  { unfold sch. destruct (is_empty_spec sc) as [E|E]; [right|now left]. split; [exact E|]. split; [reflexivity|].
    unfold sc in E. destruct (is_empty_spec (scheme u)) as [|Ne]; [|contradiction]. destruct (N.ltb_spec 0 (port u)); [|discriminate].
    unfold default_scheme_for_port in E. destruct (N.eqb_spec (port u) 80); [discriminate|]. destruct (N.eqb_spec (port u) 443); [discriminate|]. lia. }
  assert (Hprt1 : implicit_port sch (port u) -> prt = 0%N).
  { intros Hi. unfold prt. destruct Hscsch as [Esc|(_ & Es & H0 & H80 & H443)].
    - rewrite Esc. destruct Hi as [[E1 E2]|[E1 E2]]; rewrite E1, E2; reflexivity.
    - destruct Hi as [[_ E]|[E E']]; lia. }
  assert (Hprt2 : ~ implicit_port sch (port u) -> prt = port u).
  { intros Hi. unfold prt. destruct (N.ltb_spec 0 (port u)); cbn [andb]; [|lia].
    destruct (N.eqb_spec (port u) (default_port_for_scheme sc)) as [E|]; cbn [negb]; [|reflexivity]. exfalso. apply Hi. unfold implicit_port.
    destruct Hscsch as [Esc|(Esc & _)].
    - rewrite Esc in E. destruct (Hdp sch) as [[A B]|[[A B]|[A _]]]; [left|right|lia]; (split; [exact B|congruence]).
    - rewrite Esc in E. change (default_port_for_scheme []) with 0%N in E. lia. }
  split; [exact Hprt1|]. split; [exact Hprt2|].
  assert (Hdec : implicit_port sch (port u) \/ ~ implicit_port sch (port u)).
  { clear. clearbody sch. unfold implicit_port. destruct (beqs_spec sch (bs "http")) as [E1|E1], (N.eq_dec (port u) 80) as [E2|E2]; try tauto;
    destruct (beqs_spec sch (bs "https")) as [E3|E3], (N.eq_dec (port u) 443) as [E4|E4]; try tauto;
    right; intros [[? ?]|[? ?]]; congruence. }
  assert (Hws : scheme (with_defaults u) = sch).
  { clear. unfold with_defaults, sch, sc. cbn [scheme]. destruct (is_empty_spec (scheme u)) as [E|E].
    - destruct (N.eqb_spec (port u) 0) as [->|]; [reflexivity|]. destruct (N.ltb_spec 0 (port u)); [reflexivity|lia].
    - destruct (is_empty_spec (scheme u)); [contradiction|reflexivity]. }
  split; [rewrite Hws; unfold with_defaults; cbn [scheme]; rewrite Hie; reflexivity|].
  assert (Hprt_or : port u = 0%N \/ prt = port u \/ (prt = 0%N /\ port u = default_port_for_scheme sch)).
  { destruct Hdec as [Hi|Hi]; [|right; left; auto]. right; right. split; [auto|]. destruct Hi as [[E1 E2]|[E1 E2]]; rewrite E1, E2; reflexivity. }
  split.
  { change (port (with_defaults u)) with (if N.eqb (port u) 0 then default_port_for_scheme (scheme (with_defaults u)) else port u). rewrite Hws.
    unfold with_defaults. cbn [scheme port]. rewrite Hie.
    destruct Hprt_or as [E|[E|[E E']]].
    - rewrite E. unfold prt. rewrite E. reflexivity.
    - rewrite E. reflexivity.
    - rewrite E, <- E'. destruct (N.eqb_spec (port u) 0) as [Ez|]; [now rewrite Ez|reflexivity]. }
  f_equal. rewrite Hbase. unfold compose_without_parameters. cbn [host path scheme port username password].
  destruct (is_empty_spec (host u)); [contradiction|]. rewrite Hie. cbv zeta. unfold U, P.
  assert (Hsame : (if (N.ltb 0 prt && negb (N.eqb prt (default_port_for_scheme sch)))%bool then prt else 0%N) = prt).
  { destruct (N.ltb_spec 0 prt) as [H0|H0]; cbn [andb]; [|lia]. destruct (N.eqb_spec prt (default_port_for_scheme sch)) as [E|]; [|reflexivity]. exfalso.
    destruct Hdec as [Hi|Hi]; [rewrite (Hprt1 Hi) in H0; lia|]. rewrite (Hprt2 Hi) in *. apply Hi. unfold implicit_port.
    destruct (Hdp sch) as [[A B]|[[A B]|[A _]]]; [left|right|lia]; (split; [exact B|congruence]). }
  rewrite Hsame, ?Hie. reflexivity.
Qed.
Print Assumptions C41_parse_inverts_compose.

(** C41 without a host: only path, parameters and fragment are composed, and they parse back, provided the path
    has no "//". *)
Theorem C41_relative_url_round_trip :
  forall u p, host u = [] -> path u = 47%N :: p -> free_of (bs "?#") (path u) ->
    (forall a b, path u <> a ++ [47; 47]%N ++ b) ->
    Forall (fun p => ascii_only (fst p) /\ ascii_only (snd p)) (parameters_vector u) ->
    exists u', parse_url (compose_url u) = Some u' /\
      host u' = [] /\ path u' = path u /\ parameters_vector u' = parameters_vector u /\ fragment u' = fragment u /\
      scheme u' = [] /\ port u' = 0%N /\ username u' = [] /\ password u' = [].
Proof.
  intros u p Hh Hp Hq Hds Hps. unfold parse_url, compose_url.
  assert (Hb : compose_without_parameters u = path u) by (unfold compose_without_parameters; now rewrite Hh).
  rewrite Hb, (extract_ok _ _ _ (Hq 63%N ltac:(vm_compute; tauto)) (Hq 35%N ltac:(vm_compute; tauto)) Hps).
  rewrite firstn_app, firstn_all, Nat.sub_diag, firstn_O, app_nil_r.
  assert (Hpar : parse_url_without_parameters (path u) = Some ([], path u, [], 0%N, [], [])).
  { unfold parse_url_without_parameters.
    assert (Hnd : find_double_slash (path u) = None).
    { unfold find_double_slash. generalize 0. revert Hds. generalize (path u). clear. intros s.
      induction s as [|a s IH]; intros H i; [reflexivity|]. destruct s as [|b s]; [reflexivity|]. change (find_dslash_from (a :: b :: s) i) with (if (N.eqb a 47 && N.eqb b 47)%bool then Some i else find_dslash_from (b :: s) (S i)).
      destruct (N.eqb_spec a 47) as [->|]; cbn [andb].
      - destruct (N.eqb_spec b 47) as [->|]; [exfalso; apply (H [] s); reflexivity|]. apply IH. intros x y E. apply (H (47%N :: x) y). now rewrite E.
      - apply IH. intros x y E. apply (H (a :: x) y). now rewrite E. }
    rewrite Hnd, Hp. cbn [is_empty].
    assert (Hhe : find_char 47 (47%N :: p) 0 = Some 0) by reflexivity. rewrite Hhe.
    assert (Hz : forall o, before_opt o (Some 0) = false) by (intros [n|]; reflexivity).
    rewrite Hz. replace (match find_char 64 (47%N :: p) 0 with Some _ | _ => ([] : bytes, [] : bytes, 0) end) with ([] : bytes, [] : bytes, 0) by now destruct (find_char 64 (47%N :: p) 0).
    rewrite Hz. cbn [substr_to]. change (substr (47%N :: p) 0 (0 - 0)) with ([] : bytes).
    replace (match find_char 58 (47%N :: p) 0 with Some _ | _ => ([] : bytes, 0%N) end) with ([] : bytes, 0%N) by now destruct (find_char 58 (47%N :: p) 0).
    reflexivity. }
  rewrite Hpar. eexists. split; [reflexivity|]. cbn. repeat split; auto.
Qed.
Print Assumptions C41_relative_url_round_trip.

(** Without that condition it is false: a relative URL whose path contains "://" is read as one with a host. *)
Theorem C41_relative_path_with_scheme_refuted :
  exists u u', host u = [] /\ path u = bs "/go://x/y" /\ parse_url (compose_url u) = Some u' /\ host u' = bs "x" /\ path u' = bs "/y".
Proof. exists (mkUrl [] (bs "/go://x/y") [] 0 [] [] [] [] []). eexists. vm_compute. auto. Qed.
Print Assumptions C41_relative_path_with_scheme_refuted.

Definition demo_url : url := mkUrl (bs "example.com") (bs "/a//b:c@d") (bs "") 443 (bs "me") (bs "pw:1") [(bs "k", bs "v w"); (bs "", bs "=&")] [] (bs "f#?").
Example C41_demo : compose_url demo_url = bs "https://me:pw:1@example.com/a//b:c@d?k=v%20w&=%3D%26#f#?".
Proof. vm_compute. reflexivity. Qed.
Example C41_demo_hypotheses : plain_url demo_url.
Proof.
  unfold plain_url, demo_url; cbn [host path scheme port username password parameters_vector].
  split; [discriminate|].
  repeat match goal with
  | |- _ /\ _ => split
  | |- free_of _ _ => intros c Hc Hin; vm_compute in Hc, Hin; decompose [or] Hc; subst; try contradiction; intuition discriminate
  end; try discriminate; try reflexivity; [eexists; reflexivity|].
  repeat constructor.
Qed.
