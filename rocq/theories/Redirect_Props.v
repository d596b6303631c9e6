(** Property C69: the HTTP client and redirects. *)
From Coq Require Import String.
From Verif Require Import Base Dec Strings_Model Url_Model Url_Props Redirect_Model Redirect_Spec.
From Coq Require Import Lia.
Local Open Scope list_scope.

Lemma beqs_spec a b : beqs a b = true <-> a = b.
Proof. unfold beqs. destruct (list_eq_dec N.eq_dec a b); split; congruence. Qed.
Lemma existsb_beqs x l : existsb (beqs x) l = true <-> In x l.
Proof.
  rewrite existsb_exists. split.
  - intros (y & Hy & E%beqs_spec). now subst.
  - intros H. exists x. split; [exact H|]. now apply beqs_spec.
Qed.
Lemma is_empty_spec s : is_empty s = true <-> s = [].
Proof. destruct s; cbn; split; congruence. Qed.

(** C69/C41. The path of a parsed URL is never empty: it begins with a slash. *)
Lemma find_from_nth c s : forall i from k, find_from c s i from = Some k -> i <= k /\ nth_error s (k - i) = Some c.
Proof.
  induction s as [|b s IH]; intros i from k; cbn; [discriminate|].
  destruct ((from <=? i) && (b =? c)%N)%bool eqn:E.
  - intros [= ->]. apply andb_true_iff in E as [_ E%N.eqb_eq]. subst. rewrite Nat.sub_diag. split; [lia|reflexivity].
  - intros H. destruct (IH _ _ _ H) as [Hle Hn]. split; [lia|]. replace (k - i) with (S (k - S i)) by lia. exact Hn.
Qed.
Theorem C41_path_begins_with_slash : forall s u, parse_url s = Some u -> exists p, path u = 47%N :: p.
Proof.
  intros s u. unfold parse_url. destruct (extract_parameters s) as [[[v q] frag] start].
  unfold parse_url_without_parameters. generalize (firstn start s). clear s. intros s.
  destruct (is_empty s); [discriminate|].
  match goal with |- context [match ?e with (x, y) => _ end] => destruct e as [sch off] end.
  match goal with |- context [match ?e with (x, y) => _ end] => destruct e as [[user pass] off2] end.
  match goal with |- context [match ?e with (x, y) => _ end] => destruct e as [h p] end.
  intros [= <-]. cbn.
  destruct (find_char 47 s off) as [k|] eqn:Ek; [|eexists; reflexivity].
  destruct (find_from_nth _ _ _ _ _ Ek) as [_ Hn]. rewrite Nat.sub_0_r in Hn.
  apply nth_error_split in Hn as (l1 & l2 & -> & <-). rewrite skipn_app, skipn_all, Nat.sub_diag. cbn. now exists l2.
Qed.

(** C41. MakeURLWithDefaults fills in what is missing and nothing else: an empty host becomes localhost, an empty scheme https when the port is 443 and http
    otherwise, a zero port the one of an http or https scheme; everything given is kept. *)
Theorem C41_defaults_fill_only_what_is_missing :
  forall u, let w := with_defaults u in
    (host u <> [] -> host w = host u) /\ (host u = [] -> host w = bs "localhost") /\
    (scheme u <> [] -> scheme w = scheme u) /\
    (scheme u = [] -> scheme w = if N.eqb (port u) 443 then bs "https" else bs "http") /\
    (port u <> 0%N -> port w = port u) /\
    (port u = 0%N -> scheme w = bs "http" -> port w = 80%N) /\ (port u = 0%N -> scheme w = bs "https" -> port w = 443%N) /\
    path w = path u /\ username w = username u /\ password w = password u /\
    parameters_vector w = parameters_vector u /\ query w = query u /\ fragment w = fragment u.
Proof.
  intros u w. subst w. unfold with_defaults. cbn [host path scheme port username password parameters_vector query fragment].
  set (sch := if is_empty (scheme u) then _ else _).
  assert (S1 : scheme u <> [] -> sch = scheme u).
  { intros H. subst sch. destruct (is_empty (scheme u)) eqn:E; [|reflexivity]. apply is_empty_spec in E. congruence. }
  assert (S2 : scheme u = [] -> sch = if N.eqb (port u) 443 then bs "https" else bs "http").
  { intros H. subst sch. rewrite H. cbn [is_empty]. unfold default_scheme_for_port. destruct (N.eqb_spec (port u) 0) as [->|]; [reflexivity|].
    destruct (N.eqb_spec (port u) 80) as [->|]; [reflexivity|]. now destruct (N.eqb_spec (port u) 443). }
  clearbody sch. repeat split.
  - intros H. destruct (is_empty (host u)) eqn:E; [|reflexivity]. apply is_empty_spec in E. congruence.
  - intros ->. reflexivity.
  - exact S1.
  - exact S2.
  - intros H. now apply N.eqb_neq in H as ->.
  - intros -> ->. reflexivity.
  - intros -> ->. reflexivity.
Qed.
Example C41_defaults_demo :
  with_defaults (mkUrl [] (bs "/x") [] 443 [] [] [] [] []) = mkUrl (bs "localhost") (bs "/x") (bs "https") 443 [] [] [] [] [].
Proof. reflexivity. Qed.

Lemma redirect_test (r : reply) :
  (Z.leb 300 (code r) && Z.leb (code r) 399 && negb (is_empty (location_of r)))%bool = true <-> redirects r.
Proof.
  unfold redirects. rewrite !andb_true_iff, !Z.leb_le, negb_true_iff.
  split; intros H; [destruct H as [H1 H2]; split; [lia|]|destruct H as [H1 H2]; split; [lia|]].
  - intros E. rewrite E in H2. discriminate.
  - destruct (location_of r); [congruence|reflexivity].
Qed.

Section Loop.
  Context (server : list sent -> reply) (a : ask).

  Lemma loop_visits : forall fuel u urls after log e log',
    client_loop fuel server a u urls after log = Some (e, log') ->
    ~ In (compose_url u) urls ->
    exists us, visited server a u log us /\ log' = log ++ map (request_to a) us /\
      NoDup (map compose_url us) /\ (forall x, In x (map compose_url us) -> ~ In x urls) /\
      (a_allow_redirects a = false -> length us = 1) /\
      exists l v, us = l ++ [v] /\
      match e with
      | Responded c final => c = code (server log') /\ ~ redirects (server log') /\
          final = match l with [] => after | _ => compose_url v end
      | RedirectNotAllowed => a_allow_redirects a = false /\ redirects (server log')
      | RedirectLoop => redirects (server log') /\ exists t, parse_url (location_of (server log')) = Some t /\
          In (compose_url (redirected v t)) (map compose_url us ++ urls)
      | BadURL => redirects (server log') /\ parse_url (location_of (server log')) = None
      end.
  Proof.
    induction fuel as [|fuel IH]; intros u urls after log e log'; [discriminate|]. cbn [client_loop]. intros H Hu.
    destruct (existsb (beqs (compose_url u)) urls) eqn:El; [exfalso; now apply Hu, existsb_beqs|].
    assert (Hone : forall x, In x (map compose_url [u]) -> ~ In x urls) by (intros x [<-|[]]; exact Hu).
    assert (Hnd1 : NoDup (map compose_url [u])) by (constructor; [intros []|constructor]).
    set (lg := log ++ [request_to a u]) in *. set (r := server lg) in *.
    destruct (Z.leb 300 (code r) && Z.leb (code r) 399 && negb (is_empty (location_of r)))%bool eqn:Er.
    - apply redirect_test in Er. destruct (a_allow_redirects a) eqn:Ea.
      + destruct (parse_url (location_of r)) as [t|] eqn:Et.
        * destruct (existsb (beqs (compose_url (redirected u t))) (compose_url u :: urls)) eqn:El2.
          -- destruct fuel as [|fuel]; [discriminate|]. cbn [client_loop] in H. rewrite El2 in H. injection H as <- <-.
             exists [u]. split; [constructor|]. split; [reflexivity|]. split; [exact Hnd1|]. split; [exact Hone|]. split; [discriminate|].
             exists [], u. split; [reflexivity|]. split; [exact Er|]. exists t. split; [exact Et|]. now apply existsb_beqs in El2.
          -- assert (Hn2 : ~ In (compose_url (redirected u t)) (compose_url u :: urls)).
             { intros Hin. apply existsb_beqs in Hin. congruence. }
             destruct (IH _ _ _ _ _ _ H Hn2) as (us & Hv & -> & Hnd & Hout & _ & l & v & -> & He).
             exists (u :: l ++ [v]). split; [eapply visited_more; [exact Er|exact Et|exact Hv]|].
             split; [unfold lg; rewrite <- app_assoc; reflexivity|]. split; [|split; [|split]].
             ++ cbn [map]. constructor; [|exact Hnd]. intros Hin. apply (Hout _ Hin). now left.
             ++ intros x [<-|Hx]; [exact Hu|]. intros Hin. apply (Hout _ Hx). now right.
             ++ congruence.
             ++ exists (u :: l), v. split; [reflexivity|]. destruct e as [c f| | |]; try exact He.
                ** destruct He as (H1 & H2 & ->). split; [exact H1|]. split; [exact H2|]. destruct l; [|reflexivity].
                   inversion Hv; subst; reflexivity || match goal with H : visited _ _ _ _ [] |- _ => inversion H end.
                ** destruct He as (H1 & t' & H2 & H3). split; [exact H1|]. exists t'. split; [exact H2|].
                   cbn [map app]. rewrite in_app_iff in H3. destruct H3 as [H3|[H3|H3]].
                   --- right. apply in_or_app. now left.
                   --- now left.
                   --- right. apply in_or_app. now right.
        * injection H as <- <-. exists [u]. split; [constructor|]. split; [reflexivity|]. split; [exact Hnd1|]. split; [exact Hone|]. split; [discriminate|].
          exists [], u. split; [reflexivity|]. split; [exact Er|exact Et].
      + injection H as <- <-. exists [u]. split; [constructor|]. split; [reflexivity|]. split; [exact Hnd1|]. split; [exact Hone|]. split; [reflexivity|].
        exists [], u. split; [reflexivity|]. split; [reflexivity|exact Er].
    - injection H as <- <-. exists [u]. split; [constructor|]. split; [reflexivity|]. split; [exact Hnd1|]. split; [exact Hone|]. split; [reflexivity|].
      exists [], u. split; [reflexivity|]. split; [reflexivity|]. split; [|reflexivity].
      intros Hr. apply redirect_test in Hr. unfold r in Er. congruence.
  Qed.
End Loop.

(** C69. Whatever the other side answers: the client sends one request per URL it
    visits, each URL after the first is where the reply to the previous request sent it,
    no URL is visited twice, with redirects disallowed there is exactly one request; it returns
    the code of the first reply that is no redirect, with the URL it came from, and throws
    otherwise for the reason stated. *)
Theorem C69_follows_redirects :
  forall server a fuel e log, client_go fuel server a = Some (e, log) ->
    (parse_url (a_url a) = None /\ e = BadURL /\ log = []) \/
    exists u us, parse_url (a_url a) = Some u /\ visited server a u [] us /\
      log = map (request_to a) us /\ NoDup (map compose_url us) /\
      (a_allow_redirects a = false -> length us = 1) /\
      exists l v, us = l ++ [v] /\
      match e with
      | Responded c final => c = code (server log) /\ ~ redirects (server log) /\
          final = match l with [] => a_url a | _ => compose_url v end
      | RedirectNotAllowed => a_allow_redirects a = false /\ redirects (server log)
      | RedirectLoop => redirects (server log) /\ exists t, parse_url (location_of (server log)) = Some t /\
          In (compose_url (redirected v t)) (map compose_url us)
      | BadURL => redirects (server log) /\ parse_url (location_of (server log)) = None
      end.
Proof.
  intros server a fuel e log. unfold client_go. destruct (parse_url (a_url a)) as [u|] eqn:Eu.
  - intros H. right. destruct (loop_visits server a _ _ _ _ _ _ _ H (fun x => x)) as (us & Hv & -> & Hnd & _ & Hone & l & v & -> & He).
    exists u, (l ++ [v]). split; [reflexivity|]. split; [exact Hv|]. split; [reflexivity|]. split; [exact Hnd|]. split; [exact Hone|].
    exists l, v. split; [reflexivity|]. destruct e; try exact He.
    destruct He as (H1 & t & H2 & H3). rewrite app_nil_r in H3. eauto.
  - intros [= <- <-]. now left.
Qed.

(* ------------------------------------------------------------------ *)
(** ** Termination *)

(** All the URLs that can come up. *)
Definition schemes_of (u0 : url) (ts : list url) : list bytes := bs "http" :: bs "https" :: map scheme (u0 :: ts).
Definition hosts_of (u0 : url) (ts : list url) : list bytes := bs "localhost" :: map host (u0 :: ts).
Definition ports_of (u0 : url) (ts : list url) : list N := [0; 80; 443]%N ++ map port (u0 :: ts).
Definition candidates (u0 : url) (ts : list url) : list url :=
  u0 :: flat_map (fun t => flat_map (fun s => flat_map (fun h => map (fun p =>
    mkUrl h (path t) s p (username t) (password t) (parameters_vector t) (query t) (fragment t))
    (ports_of u0 ts)) (hosts_of u0 ts)) (schemes_of u0 ts)) ts.

Lemma with_defaults_scheme u l : In (bs "http") l -> In (bs "https") l -> In (scheme u) l -> In (scheme (with_defaults u)) l.
Proof.
  intros H1 H2 H3. unfold with_defaults. cbn [scheme]. destruct (is_empty (scheme u)); [|exact H3].
  destruct (port u =? 0)%N; [exact H1|]. unfold default_scheme_for_port.
  destruct (port u =? 80)%N; [exact H1|]. destruct (port u =? 443)%N; [exact H2|exact H1].
Qed.

Lemma redirected_candidate u0 ts u t : In t ts ->
  In (scheme u) (schemes_of u0 ts) -> In (host u) (hosts_of u0 ts) -> In (port u) (ports_of u0 ts) ->
  In (redirected u t) (candidates u0 ts) /\
  In (scheme (redirected u t)) (schemes_of u0 ts) /\ In (host (redirected u t)) (hosts_of u0 ts) /\ In (port (redirected u t)) (ports_of u0 ts).
Proof.
  intros Ht Hs Hh Hp.
  assert (Hst : In (scheme t) (schemes_of u0 ts)) by (do 3 right; now apply in_map).
  assert (Hht : In (host t) (hosts_of u0 ts)) by (do 2 right; now apply in_map).
  assert (Hpt : In (port t) (ports_of u0 ts)) by (do 4 right; now apply in_map).
  assert (H : In (scheme (redirected u t)) (schemes_of u0 ts) /\ In (host (redirected u t)) (hosts_of u0 ts) /\ In (port (redirected u t)) (ports_of u0 ts)).
  { unfold redirected. split; [|split].
    - apply with_defaults_scheme; [now left|right; now left|]. cbn. destruct (is_empty (scheme t)); assumption.
    - cbn -[hosts_of]. destruct (is_empty _); [now left|]. destruct (is_empty (host t)); assumption.
    - unfold with_defaults. cbn [port]. match goal with |- In (if ?c then _ else _) _ => destruct c end.
      + unfold default_port_for_scheme. destruct (beqs _ _); [right; now left|]. destruct (beqs _ _); [do 2 right; now left|now left].
      + destruct (is_empty (host t)); [destruct (0 <? port t)%N|]; assumption. }
  split; [|exact H]. right. apply in_flat_map. exists t. split; [exact Ht|].
  apply in_flat_map. exists (scheme (redirected u t)). split; [apply H|].
  apply in_flat_map. exists (host (redirected u t)). split; [apply H|].
  apply in_map_iff. exists (port (redirected u t)). split; [reflexivity|apply H].
Qed.

Lemma loop_ends server a u0 ts : (forall log t, parse_url (location_of (server log)) = Some t -> In t ts) ->
  forall fuel u urls after log,
    In u (candidates u0 ts) -> In (scheme u) (schemes_of u0 ts) -> In (host u) (hosts_of u0 ts) -> In (port u) (ports_of u0 ts) ->
    NoDup urls -> incl urls (map compose_url (candidates u0 ts)) ->
    S (length (candidates u0 ts)) <= fuel + length urls ->
    exists x, client_loop fuel server a u urls after log = Some x.
Proof.
  intros Hts. induction fuel as [|fuel IH]; intros u urls after log Hu Hs Hh Hp Hnd Hin Hf.
  - exfalso. pose proof (NoDup_incl_length Hnd Hin) as Hl. rewrite map_length in Hl. lia.
  - cbn [client_loop]. destruct (existsb (beqs (compose_url u)) urls) eqn:El; [eauto|].
    match goal with |- exists x, (if ?c then _ else _) = _ => destruct c end; [|eauto].
    destruct (a_allow_redirects a); [|eauto].
    destruct (parse_url _) as [t|] eqn:Et; [|eauto].
    destruct (redirected_candidate u0 ts u t (Hts _ _ Et) Hs Hh Hp) as (H1 & H2 & H3 & H4).
    apply IH; try assumption.
    + constructor; [|exact Hnd]. intros H. apply existsb_beqs in H. congruence.
    + intros x [<-|Hx]; [now apply in_map|now apply Hin].
    + cbn [length]. lia.
Qed.

(** C69. If the other side only ever redirects to one of finitely many locations, then
    the client ends after a number of requests bounded in advance, whichever way the
    other side picks them. *)
Theorem C69_ends_partial :
  forall (a : ask) (locations : list bytes), exists bound, forall server,
    (forall log, In (location_of (server log)) locations) ->
    exists e log, client_go bound server a = Some (e, log) /\ length log <= bound.
Proof.
  intros a locations. unfold client_go. destruct (parse_url (a_url a)) as [u|].
  2:{ exists 1. intros server _. exists BadURL, []. split; [reflexivity|cbn; lia]. }
  set (ts := flat_map (fun l => match parse_url l with Some t => [t] | None => [] end) locations).
  exists (S (length (candidates u ts))). intros server Hloc.
  assert (Hts : forall log t, parse_url (location_of (server log)) = Some t -> In t ts).
  { intros log t E. apply in_flat_map. exists (location_of (server log)). split; [apply Hloc|]. rewrite E. now left. }
  destruct (loop_ends server a u ts Hts (S (length (candidates u ts))) u [] (a_url a) []) as [[e log] E].
  - now left.
  - right. right. now left.
  - right. now left.
  - do 3 right. now left.
  - constructor.
  - intros x [].
  - cbn [length]. lia.
  - exists e, log. split; [exact E|].
    revert E. generalize (S (length (candidates u ts))). intros fuel.
    assert (Hlen : forall fuel u urls after log0 e log, client_loop fuel server a u urls after log0 = Some (e, log) -> length log <= fuel + length log0).
    { clear. induction fuel as [|fuel IH]; intros u urls after log0 e log; [discriminate|]. cbn [client_loop].
      destruct (existsb _ _); [intros [= <- <-]; lia|].
      assert (Hl : length (log0 ++ [request_to a u]) = S (length log0)) by (rewrite app_length; cbn; lia).
      match goal with |- (if ?c then _ else _) = _ -> _ => destruct c end; [|intros [= <- <-]; lia].
      destruct (a_allow_redirects a); [|intros [= <- <-]; lia].
      destruct (parse_url _); [|intros [= <- <-]; lia]. intros E%IH. lia. }
    intros E. apply Hlen in E. cbn in E. lia.
Qed.

(* ------------------------------------------------------------------ *)
(** ** Where a redirect goes *)

Lemma port_of_served u : served_at u (port_of u).
Proof.
  unfold served_at, standard_port, port_of. destruct (N.eqb_spec (port u) 0) as [E|E]; split; try congruence.
  - intros _. unfold default_port_for_scheme. split; intros H.
    + rewrite H. reflexivity.
    + destruct (beqs (scheme u) (bs "http")); [reflexivity|].
      destruct (beqs (scheme u) (bs "https")) eqn:E2; [apply beqs_spec in E2; congruence|reflexivity].
Qed.

Lemma port_of_with_defaults w : port_of (with_defaults w) = port_of w.
Proof.
  unfold port_of, with_defaults. cbn [port scheme].
  destruct (N.eqb_spec (port w) 0) as [E|E].
  - destruct (is_empty (scheme w)) eqn:Es.
    + apply is_empty_spec in Es. rewrite Es. reflexivity.
    + unfold default_port_for_scheme. destruct (beqs (scheme w) (bs "http")); [reflexivity|].
      destruct (beqs (scheme w) (bs "https")); reflexivity.
  - destruct (N.eqb_spec (port w) 0); [contradiction|reflexivity].
Qed.

Lemma is_empty_false (s : bytes) : s <> [] -> is_empty s = false.
Proof. destruct s; [congruence|reflexivity]. Qed.

(** C69. A redirect to a full URL goes there: to its host and its port (the standard one
    of its scheme when it names none), for its path and parameters. *)
Theorem C69_absolute_redirect :
  forall u t, plain_url t -> exists t',
    parse_url (compose_url t) = Some t' /\
    forall a, let s := request_to a (redirected u t') in
      to_host s = host t /\ served_at t (to_port s) /\
      s_target s = path t ++ compose_parameters (parameters_vector t) (fragment t).
Proof.
  intros u t Ht. pose proof Ht as (Hh & _). destruct (C41_parse_inverts_compose t Ht)
    as (t' & E & Eh & Ep & _ & _ & Ev & Ef & _ & Hsch & Hi & Hni & _ & _ & _).
  exists t'. split; [exact E|]. intros a s.
  assert (Hs0 : scheme t' <> []).
  { destruct Hsch as [[H ->]|[_ ->]]; [exact H|]. destruct (port t =? 443)%N; discriminate. }
  split; [|split].
  - cbn. rewrite Eh, (is_empty_false (host t)) by exact Hh. now rewrite (is_empty_false (host t)).
  - cbn [s request_to to_port]. unfold redirected. rewrite port_of_with_defaults. unfold port_of. cbn [port scheme].
    rewrite Eh, (is_empty_false (host t)) by exact Hh. rewrite (is_empty_false (scheme t')) by exact Hs0.
    unfold served_at, standard_port. split.
    + intros Hp. assert (Hd : {implicit_port (scheme t') (port t)} + {~ implicit_port (scheme t') (port t)}).
      { unfold implicit_port. destruct (list_eq_dec N.eq_dec (scheme t') (bs "http")), (list_eq_dec N.eq_dec (scheme t') (bs "https")),
          (N.eq_dec (port t) 80), (N.eq_dec (port t) 443); (left; tauto) || (right; tauto). }
      destruct Hd as [Hd|Hd].
      * rewrite (Hi Hd), N.eqb_refl. destruct Hd as [[-> ->]|[-> ->]]; reflexivity.
      * rewrite (Hni Hd). destruct (N.eqb_spec (port t) 0); [contradiction|reflexivity].
    + intros Hp. assert (Hd : ~ implicit_port (scheme t') (port t)) by (unfold implicit_port; rewrite Hp; intros [[_ ?]|[_ ?]]; discriminate).
      rewrite (Hni Hd), Hp, N.eqb_refl. split; intros Hsc.
      * destruct Hsch as [[_ ->]|[Hc _]]; [|rewrite Hc in Hsc; discriminate]. rewrite Hsc. reflexivity.
      * unfold default_port_for_scheme. destruct (beqs (scheme t') (bs "http")); [reflexivity|].
        destruct (beqs (scheme t') (bs "https")) eqn:E2; [|reflexivity]. apply beqs_spec in E2. exfalso.
        destruct Hsch as [[_ Hx]|[_ Hx]]; [congruence|]. rewrite Hp in Hx. cbn in Hx. rewrite Hx in E2. discriminate.
  - cbn. now rewrite Ep, Ev, Ef.
Qed.

(** C69. A redirect to a path stays with the host and the port of the request. *)
Theorem C69_relative_redirect :
  forall u t p, host u <> [] -> host t = [] -> path t = 47%N :: p -> free_of (bs "?#") (path t) ->
    (forall a b, path t <> a ++ [47; 47]%N ++ b) ->
    Forall (fun p => ascii_only (fst p) /\ ascii_only (snd p)) (parameters_vector t) ->
    exists t', parse_url (compose_url t) = Some t' /\
    forall a, let s := request_to a (redirected u t') in
      to_host s = to_host (request_to a u) /\ to_port s = to_port (request_to a u) /\
      s_target s = path t ++ compose_parameters (parameters_vector t) (fragment t).
Proof.
  intros u t p Hu Hh Hp Hq Hds Hps.
  destruct (C41_relative_url_round_trip t p Hh Hp Hq Hds Hps) as (t' & E & Eh & Ep & Ev & Ef & Es & Eprt & _ & _).
  exists t'. split; [exact E|]. intros a s. split; [|split].
  - cbn. rewrite Eh. cbn. now rewrite (is_empty_false (host u)).
  - cbn [s request_to to_port]. unfold redirected. rewrite port_of_with_defaults. unfold port_of. cbn [port scheme].
    rewrite Eh, Es, Eprt. reflexivity.
  - cbn. now rewrite Ep, Ev, Ef.
Qed.

(** C69. Every request asks for a path, with the method, headers and body given. *)
Theorem C69_requests_are_the_same :
  forall server a fuel e log, client_go fuel server a = Some (e, log) ->
    Forall (fun s => s_method s = a_method a /\ s_headers s = a_headers a /\ s_body s = a_body a /\
                     s_host_header s = to_host s /\ exists p, s_target s = 47%N :: p) log.
Proof.
  intros server a fuel e log H. destruct (C69_follows_redirects _ _ _ _ _ H) as [(_ & _ & ->)|(u & us & Eu & Hv & -> & _)]; [constructor|].
  apply Forall_map. assert (Hpath : exists p, path u = 47%N :: p) by (eapply C41_path_begins_with_slash; exact Eu).
  clear Eu H. generalize dependent u. generalize (@nil sent). intros lg u Hv.
  induction Hv as [u lg|u lg t us Hr Et Hv IH]; intros [p Hp]; constructor.
  - cbn. rewrite Hp. repeat split. eexists. reflexivity.
  - constructor.
  - cbn. rewrite Hp. repeat split. eexists. reflexivity.
  - apply IH. cbn. eapply C41_path_begins_with_slash. exact Et.
Qed.

(* ------------------------------------------------------------------ *)
(** ** Concrete cases *)

(** From http://h/a to /b?x=1, to https://g:8443/c, to http://h/a: a loop. *)
Definition rd_server (log : list sent) : reply :=
  match length log with
  | 1 => Reply 302 [(bs "Location", bs "/b?x=1")]
  | 2 => Reply 301 [(bs "Server", bs "x"); (bs "Location", bs "https://g:8443/c")]
  | _ => Reply 307 [(bs "Location", bs "http://h/a")]
  end.
Definition rd_ask : ask := Ask (bs "GET") (bs "http://h/a") [(bs "Authorization", bs "secret")] [] true.
Example C69_example :
  exists l, client_go 10 rd_server rd_ask = Some (RedirectLoop, l) /\
    map (fun s => (to_host s, to_port s, s_target s)) l =
    [(bs "h", 80%N, bs "/a"); (bs "h", 80%N, bs "/b?x=1"); (bs "g", 8443%N, bs "/c")].
Proof. eexists. split; vm_compute; reflexivity. Qed.
Example C69_example_finite : forall log, In (location_of (rd_server log)) [bs "/b?x=1"; bs "https://g:8443/c"; bs "http://h/a"].
Proof. intros log. unfold rd_server. destruct (length log) as [|[|[|n]]]; vm_compute; auto. Qed.

(** A path relative to the page (no leading slash) is taken for a host. *)
Theorem C69_relative_page_refuted :
  ~ (forall u loc t a, host u <> [] -> parse_url loc = Some t ->
       (forall c, In c (bs ":/@") -> ~ In c loc) -> to_host (request_to a (redirected u t)) = host u).
Proof.
  intros H. specialize (H (mkUrl (bs "h") (bs "/dir/page1") (bs "http") 0 [] [] [] [] []) (bs "page2")).
  specialize (H _ rd_ask ltac:(discriminate) eq_refl). vm_compute in H. discriminate H.
  intros c Hc Hin. decompose [or] Hc; subst; try contradiction; intuition discriminate.
Qed.

(** A location that only has a query makes the client throw. *)
Theorem C69_query_location_refuted :
  exists server a l, client_go 10 server a = Some (BadURL, l) /\ length l = 1 /\ location_of (server l) = bs "?page=2".
Proof. exists (fun _ => Reply 302 [(bs "Location", bs "?page=2")]), rd_ask. eexists. vm_compute. auto. Qed.

(** The credentials given for one host are sent to whichever host it redirects to. *)
Theorem C69_headers_to_another_host_refuted :
  ~ (forall server a fuel e l s, client_go fuel server a = Some (e, l) -> In s l ->
       (exists s0, hd_error l = Some s0 /\ to_host s <> to_host s0) ->
       forall v, ~ In (bs "Authorization", v) (s_headers s)).
Proof.
  intros H. eapply (H rd_server rd_ask 10 _ _ (Sent (bs "g") 8443 (bs "GET") (bs "/c") (bs "g") [(bs "Authorization", bs "secret")] []));
    [vm_compute; reflexivity|right; right; left; reflexivity| |left; reflexivity].
  eexists. split; [reflexivity|]. discriminate.
Qed.

(** The fragment of a URL is sent to the server. *)
Theorem C69_fragment_sent_refuted :
  ~ (forall a u, ~ In 35%N (path u) -> ~ In 35%N (s_target (request_to a u))).
Proof.
  intros H. apply (H rd_ask (mkUrl (bs "h") (bs "/a") (bs "http") 0 [] [] [] [] (bs "f"))).
  - cbn. intuition discriminate.
  - vm_compute. auto.
Qed.

(** The name of a header is compared with case: a [location] is not followed. *)
Theorem C69_location_case_refuted :
  exists server a l f, client_go 10 server a = Some (Responded 302 f, l) /\ length l = 1 /\ a_allow_redirects a = true /\
    reply_headers (server l) = [(bs "location", bs "/b")].
Proof. exists (fun _ => Reply 302 [(bs "location", bs "/b")]), rd_ask. eexists _, _. vm_compute. auto. Qed.

(** A server with infinitely many locations keeps the client busy for ever: there is no
    limit on the number of redirects. *)
Definition rd_endless (log : list sent) : reply := Reply 302 [(bs "Location", 47%N :: dec (N.of_nat (length log)))].
Lemma digits_no_slash n a b : 47%N :: dec n <> a ++ [47; 47]%N ++ b.
Proof.
  intros E. destruct a as [|x a].
  - injection E as E. destruct (dec_head_digit n) as (d & r & Ed & Hd). rewrite Ed in E. injection E as -> _. discriminate.
  - injection E as _ E. assert (Hin : In 47%N (dec n)) by (rewrite E; apply in_or_app; right; now left).
    pose proof (dec_is_digit n) as Hd. rewrite Forall_forall in Hd. specialize (Hd _ Hin). discriminate.
Qed.
Lemma rd_next n : parse_url (47%N :: dec n) = Some (mkUrl [] (47%N :: dec n) [] 0 [] [] [] [] []).
Proof.
  set (t := mkUrl [] (47%N :: dec n) [] 0 [] [] [] [] []).
  assert (Hf : free_of (bs "?#") (path t)).
  { intros c Hc Hin. assert (Hd : c = 47%N \/ is_digit c = true).
    { destruct Hin as [<-|Hin]; [now left|right]. pose proof (dec_is_digit n) as Hd. rewrite Forall_forall in Hd. now apply Hd. }
    vm_compute in Hc. destruct Hc as [<-|[<-|[]]]; destruct Hd; discriminate. }
  assert (Hq : find_char 35 (47%N :: dec n) 0 = None /\ find_char 63 (47%N :: dec n) 0 = None).
  { assert (Hno : forall c, In c (bs "?#") -> find_char c (47%N :: dec n) 0 = None).
    { intros c Hc. destruct (find_char c _ _) as [k|] eqn:E; [|reflexivity]. destruct (find_from_nth _ _ _ _ _ E) as [_ Hn].
      apply nth_error_In in Hn. now destruct (Hf c Hc). }
    split; apply Hno; vm_compute; auto. }
  destruct (C41_relative_url_round_trip t (dec n) eq_refl eq_refl Hf (digits_no_slash n) ltac:(constructor))
    as (t' & E & E1 & E2 & E3 & E4 & E5 & E6 & E7 & E8).
  assert (Ec : compose_url t = 47%N :: dec n) by (unfold compose_url; cbn; now rewrite app_nil_r). rewrite Ec in E. rewrite E.
  assert (Eq : query t' = []).
  { revert E. unfold parse_url, extract_parameters. destruct Hq as [-> ->].
    destruct (parse_url_without_parameters _) as [[[[[[? ?] ?] ?] ?] ?]|]; [|discriminate]. now intros [= <-]. }
  destruct t'. cbn in *. subst. reflexivity.
Qed.
Theorem C69_endless_redirects_refuted :
  ~ (forall server a, exists fuel x, client_go fuel server a = Some x).
Proof.
  intros H. destruct (H rd_endless rd_ask) as (fuel & x & E). revert E. unfold client_go.
  destruct (parse_url (a_url rd_ask)) as [u0|] eqn:Eu; [|vm_compute in Eu; discriminate].
  assert (Hu0 : u0 = mkUrl (bs "h") (bs "/a") (bs "http") 0 [] [] [] [] []) by (vm_compute in Eu; injection Eu as <-; reflexivity).
  set (page := fun n => mkUrl (bs "h") (47%N :: dec n) (bs "http") 80 [] [] [] [] []).
  assert (Hpage : forall n, compose_url (page n) = bs "http://h/" ++ dec n).
  { intros n. unfold compose_url, page. cbn. now rewrite app_nil_r. }
  assert (Hgo : forall fuel u urls after log, host u = bs "h" -> scheme u = bs "http" -> port u = 0%N \/ port u = 80%N ->
    ~ In (compose_url u) urls ->
    (forall n, (N.of_nat (length log) < n)%N -> ~ In (compose_url (page n)) (compose_url u :: urls)) ->
    client_loop fuel rd_endless rd_ask u urls after log = None).
  { induction fuel0 as [|fuel0 IH]; intros u urls after log Hh Hs Hp Hn Hf; [reflexivity|]. cbn [client_loop].
    destruct (existsb (beqs (compose_url u)) urls) eqn:El; [exfalso; now apply Hn, existsb_beqs|].
    assert (Hloc : location_of (rd_endless (log ++ [request_to rd_ask u])) = 47%N :: dec (N.of_nat (S (length log)))).
    { unfold rd_endless. rewrite app_length, Nat.add_comm. reflexivity. }
    rewrite Hloc, rd_next. cbn [code rd_endless a_allow_redirects rd_ask is_empty negb]. cbn [Z.leb andb Z.compare Pos.compare Pos.compare_cont].
    assert (Hnext : redirected u (mkUrl [] (47%N :: dec (N.of_nat (S (length log)))) [] 0 [] [] [] [] []) = page (N.of_nat (S (length log)))).
    { unfold redirected, page, with_defaults. cbn [host path scheme port username password parameters_vector query fragment is_empty]. rewrite Hh, Hs.
      destruct Hp as [-> | ->]; reflexivity. }
    rewrite Hnext. apply IH; [reflexivity|reflexivity|now right| |].
    - apply Hf. lia.
    - intros n Hlt. rewrite app_length in Hlt. cbn [length] in Hlt. intros [E|Hin].
      + rewrite !Hpage in E. apply app_inv_head in E. apply dec_inj in E. lia.
      + apply (Hf n); [lia|exact Hin]. }
  rewrite Hgo; [discriminate|now rewrite Hu0|now rewrite Hu0|left; now rewrite Hu0|intros []|].
  intros n Hlt [E|[]]. rewrite Hpage, Hu0 in E.
  destruct (dec_head_digit n) as (d & r & Ed & Hd). rewrite Ed in E. vm_compute in E. injection E as <- _. discriminate.
Qed.

Print Assumptions C41_path_begins_with_slash.
Print Assumptions C69_follows_redirects.
Print Assumptions C69_ends_partial.
Print Assumptions C69_absolute_redirect.
Print Assumptions C69_relative_redirect.
Print Assumptions C69_requests_are_the_same.
Print Assumptions C69_relative_page_refuted.
Print Assumptions C69_query_location_refuted.
Print Assumptions C69_headers_to_another_host_refuted.
Print Assumptions C69_fragment_sent_refuted.
Print Assumptions C69_location_case_refuted.
Print Assumptions C69_endless_redirects_refuted.
Print Assumptions C41_defaults_fill_only_what_is_missing.
