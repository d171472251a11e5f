(** C95: where the server listens and where it sends browsers. *)
From Verif Require Import Base BaseLemmas Time Utf8 Url UrlLemmas Oracles Config State Http Server SpecServer SpecLinks Reach Counters Listen SpecListen
  ListenLemmas Scenario Runs Cases.
Local Open Scope N_scope.

(** A server that starts listens where its configuration says, once for each
    kind, and nowhere else, at addresses nobody else listens at; over HTTPS with a
    certificate for this machine.  It does not start without its socket or its certificate. *)
Theorem C95_listens_as_told sys c ls w :
  net_laws sys -> server_setup sys c = Val (ls, w) ->
  as_told sys (c_http_listen c) (plain_ones ls) /\ as_told sys (c_https_listen c) (secure_ones ls)
  /\ NoDup (map l_addr ls)
  /\ (forall l cert, In l ls -> l_cert l = Some cert -> certified sys cert)
  /\ n_sock sys = None /\ (secure_ones ls <> [] -> n_tls sys = None).
Proof. exact (setup_listens sys c ls w). Qed.
Print Assumptions C95_listens_as_told.

(** It ends with an error rather than a panic, and starts if it can. *)
Theorem C95_starts_if_possible sys c :
  server_setup sys c <> Panic
  /\ ((forall held, incl (n_held sys) held -> can_listen sys held (c_http_listen c) /\ can_listen sys held (c_https_listen c)) ->
      (c_https_listen c <> None -> n_tls sys = None /\ forall names, exists key, n_cert sys names = inl key) ->
      n_sock sys = None ->
      exists ls w, server_setup sys c = Val (ls, w)).
Proof.
  split; [exact (setup_never_panics sys c)|]. intros L K S. apply (setup_succeeds sys c L); [|exact S].
  intros N. split; [exact (proj1 (K N))|exact (proj2 (K N) _)].
Qed.
Print Assumptions C95_starts_if_possible.

(** The ports and the key it shows ([info]) are those of its listeners, for ever:
    no reload changes them. *)
Theorem C95_shows_its_ports O sys e c ls w0 lbs w :
  config_from_path O e = Val c -> server_setup sys c = Val (ls, w0) -> run O w0 lbs = Some (SNext w) ->
  reachable O w
  /\ w_http w = port_shown (plain_ones ls) /\ w_https w = port_shown (secure_ones ls)
  /\ (forall l names key, In l ls -> l_cert l = Some (names, key) -> w_pubkey w = Some (key_text key)).
Proof.
  intros C S R. assert (reachable O w0) as R0 by (eapply setup_reachable; eassumption).
  destruct (run_ports _ _ _ _ R0 R) as (P1 & P2 & P3). destruct (setup_ports _ _ _ _ S) as (Q1 & Q2 & Q3).
  split; [exact (run_reachable _ _ _ _ R0 R)|]. rewrite P1, P2, P3. auto.
Qed.
Print Assumptions C95_shows_its_ports.

(** Browsers are served over exactly the protocols listened for. *)
Theorem C95_serves_browsers O sys e c ls w0 lbs w https bytes :
  config_from_path O e = Val c -> server_setup sys c = Val (ls, w0) -> run O w0 lbs = Some (SNext w) -> w_alive w = true ->
  (exists w', step O w (LHttpConn https bytes) = SNext w') <-> exists l, In l ls /\ (is_https l <-> https = true).
Proof. exact (only_listeners O sys e c ls w0 lbs w https bytes). Qed.
Print Assumptions C95_serves_browsers.

(** The full claim: the redirect URI in an authorisation URL leads back to a
    listener that speaks its protocol.  It is proved for redirect URIs that are
    written plainly and whose kind of server was switched on at the start, ... *)
Theorem C95_comes_back_partial O sys e c ls w0 lbs w t1 n u t2 :
  scheme_law O -> config_from_path O e = Val c -> server_setup sys c = Val (ls, w0) ->
  run O w0 lbs = Some (SNext w) -> w_trace w = t1 ++ OAuthUrl n u :: t2 ->
  exists c' act r,
    config_at t1 = Some c' /\ lookup n (c_accounts c') = Some act
    /\ redirect_link O act (port_shown (plain_ones ls)) (port_shown (secure_ones ls)) r
    /\ In ($"redirect_uri", url_to_str r) (raw_pairs u)
    /\ (plainly (a_redirect_uri act) -> kind_on ls (u_scheme r) -> comes_back ls r).
Proof. exact (url_comes_back O sys e c ls w0 lbs w t1 n u t2). Qed.
Print Assumptions C95_comes_back_partial.

(** ... which it was if the configuration is still the one it was started with
    and the scheme is written in lower case. *)
Theorem C95_comes_back_unless_reloaded_partial O sys e c ls w0 lbs w t1 n u t2 act :
  scheme_law O -> config_from_path O e = Val c -> server_setup sys c = Val (ls, w0) ->
  run O w0 lbs = Some (SNext w) -> w_trace w = t1 ++ OAuthUrl n u :: t2 ->
  config_at t1 = Some c -> lookup n (c_accounts c) = Some act ->
  (exists rest, a_redirect_uri act = $"http:" ++ rest \/ a_redirect_uri act = $"https:" ++ rest) ->
  plainly (a_redirect_uri act) ->
  exists r, In ($"redirect_uri", url_to_str r) (raw_pairs u) /\ comes_back ls r.
Proof. exact (started_comes_back O sys e c ls w0 lbs w t1 n u t2 act). Qed.
Print Assumptions C95_comes_back_unless_reloaded_partial.

(** * A machine for the cases *)

(** Addresses are given as the port on the loopback interface; port 0 gets the
    first port above 8079 and all that are taken. *)
Definition above (held : list addr) : N := fold_right (fun a m => N.max m (ad_port a + 1)) 8080 held.

Definition addr_eqb (a b : addr) : bool := str_eqb (ad_ip a) (ad_ip b) && (ad_port a =? ad_port b).

Definition toy_bind (held : list addr) (a : addr) : N + str :=
  if ad_port a =? 0 then inl (above held)
  else if existsb (addr_eqb a) held then inr $"Address already in use" else inl (ad_port a).

Definition toy_resolve (s : str) : list addr + str :=
  match split_first ":"%char s with
  | Some (h, p) => match digits_val 0 p with
                   | Some n => inl [mkAddr h (Z.to_N n)]
                   | None => inr $"invalid port value"
                   end
  | None => inr $"invalid socket address"
  end.

Definition toy_net (held : list addr) : net :=
  mkNet toy_resolve held toy_bind (Some $"host") (fun _ => inl $"key") None None.

Lemma above_held held a : In a held -> ad_port a < above held.
Proof.
  induction held as [|b held IH]; intros I; [destruct I|].
  change (above (b :: held)) with (N.max (above held) (ad_port b + 1)).
  destruct I as [->|I]; [|specialize (IH I)]; lia.
Qed.

Lemma toy_net_laws held : net_laws (toy_net held).
Proof.
  intros hd a p. cbn. unfold toy_bind. destruct (ad_port a =? 0) eqn:Z.
  - intros [= <-]. apply N.eqb_eq in Z. split; [|split; [congruence|]].
    + clear. induction hd as [|b hd IH]; [discriminate|].
      change (above (b :: hd)) with (N.max (above hd) (ad_port b + 1)). lia.
    + intros I. apply above_held in I. cbn in I. lia.
  - destruct (existsb (addr_eqb a) hd) eqn:X; [discriminate|]. intros [= <-]. apply N.eqb_neq in Z.
    split; [exact Z|]. split; [reflexivity|]. intros I.
    assert (existsb (addr_eqb a) hd = true) as Y; [|congruence]. apply existsb_exists. eexists. split; [exact I|].
    unfold addr_eqb. cbn. rewrite N.eqb_refl. destruct (str_eqb (ad_ip a) (ad_ip a)) eqn:W; [reflexivity|].
    assert (str_eqb (ad_ip a) (ad_ip a) = true) by (apply str_eqb_eq; reflexivity). congruence.
Qed.

Lemma lower_colon c : ascii_lower c = ":"%char -> c = ":"%char.
Proof. destruct c as [[] [] [] [] [] [] [] []]; vm_compute; congruence. Qed.

Lemma split_first_parts c s a b : split_first c s = Some (a, b) -> s = a ++ c :: b /\ ~ In c a.
Proof.
  revert a b. induction s as [|d s IH]; intros a b E; cbn in E; [discriminate E|].
  destruct (Ascii.eqb d c) eqn:Q.
  - injection E as <- <-. apply Ascii.eqb_eq in Q as ->. split; [reflexivity|intros []].
  - destruct (split_first c s) as [[a' b']|]; [|discriminate E]. injection E as <- <-.
    destruct (IH _ _ eq_refl) as (-> & NI). split; [reflexivity|]. intros [X|X]; [|exact (NI X)].
    subst. rewrite Ascii.eqb_refl in Q. discriminate Q.
Qed.

Lemma toy_scheme s u : toy_url s = Some u -> ~ In ":"%char (u_scheme u) /\ begins_with (u_scheme u ++ $":") s.
Proof.
  unfold toy_url. destruct (toy_url_parse s) as [u'|] eqn:H; [|discriminate].
  destruct (forallb (between 0 127) (url_to_str u')); [|discriminate]. intros [= ->].
  unfold toy_url_parse in H. destruct (split_first ":"%char s) as [[sch r0]|] eqn:SF; [|discriminate H].
  destruct (split_first_parts _ _ _ _ SF) as (-> & NI).
  destruct (starts_with $"//" r0); [|discriminate H].
  repeat match type of H with
         | (let '(_, _) := ?x in _) = _ => destruct x
         end.
  match type of H with match ?x with _ => _ end = _ => destruct x as [|c h] end; [discriminate H|].
  injection H as <-. cbn [u_scheme]. split.
  - intros I. apply in_map_iff in I as (x & X & I). apply lower_colon in X as ->. exact (NI I).
  - exists (map ascii_lower r0). rewrite map_app, <- app_assoc. reflexivity.
Qed.

Lemma toy_scheme_law : scheme_law toy.
Proof. intros s u P _. exact (toy_scheme s u P). Qed.

(** * Cases *)

(** HTTP at any port, HTTPS at a port of its own; one port is taken by somebody else. *)
Definition conf_ports : str := $"https_listen = " ++ q ++ $"127.0.0.1:4443" ++ q ++ $"; " ++ conf1.
Definition busy : net := toy_net [mkAddr $"127.0.0.1" 8080].

Definition setup_of (sys : net) (s : str) : list listener * world :=
  match server_setup sys (conf_of s) with Val r => r | _ => ([], start s) end.

Definition links (w : world) : list (str * url) :=
  flat_map (fun o => match o with OAuthUrl n u => [(n, u)] | _ => [] end) (w_trace w).

Example C95_case :
  net_laws busy /\ config_from_path toy (env_file conf_ports) = Val (conf_of conf_ports)
  /\ server_setup busy (conf_of conf_ports) = Val (setup_of busy conf_ports)
  /\ map l_addr (fst (setup_of busy conf_ports)) = [mkAddr $"127.0.0.1" 8081; mkAddr $"127.0.0.1" 4443]
  /\ map l_cert (fst (setup_of busy conf_ports))
     = [None; Some ([$"localhost"; $"127.0.0.1"; $"::1"; $"host"], $"key")].
Proof. split; [apply toy_net_laws|]. compute_all. Qed.

(** The port asked for is taken: the server ends. *)
Example C95_case_taken :
  server_setup (toy_net [mkAddr $"127.0.0.1" 4443]) (conf_of conf_ports) = Err $"Address already in use".
Proof. vm_compute. reflexivity. Qed.

(** Both at the same port: neither can the server start. *)
Example C95_case_same :
  server_setup (toy_net []) (conf_of ($"http_listen = " ++ q ++ $"127.0.0.1:4443" ++ q ++ $"; " ++ conf_ports))
  = Err $"Address already in use".
Proof. vm_compute. reflexivity. Qed.

Lemma busy_can_listen held told :
  In told [Some $"127.0.0.1:0"; None] -> can_listen busy held told.
Proof.
  intros [<-|[<-|[]]] s E; [|discriminate E]. injection E as <-.
  exists [mkAddr $"127.0.0.1" 0], (mkAddr $"127.0.0.1" 0), (above held). split; [vm_compute; reflexivity|].
  split; [left; reflexivity|reflexivity].
Qed.

Example C95_case_possible :
  (forall held, incl (n_held busy) held -> can_listen busy held (c_http_listen (conf_of conf1))
                                           /\ can_listen busy held (c_https_listen (conf_of conf1)))
  /\ n_tls busy = None /\ (forall names, exists key, n_cert busy names = inl key) /\ n_sock busy = None.
Proof.
  split; [|split; [reflexivity|split; [intros; eexists; reflexivity|reflexivity]]]. intros held _. split; apply busy_can_listen; vm_compute; left; reflexivity.
Qed.

(** The URL handed out for account a has the HTTP server's port in it. *)
Definition w_ports : world := after (snd (setup_of busy conf_ports)) (ask $"showtoken:withurl a" 1000 1).

Example C95_case_url :
  scheme_law toy
  /\ run toy (snd (setup_of busy conf_ports)) (ask $"showtoken:withurl a" 1000 1) = Some (SNext w_ports)
  /\ map (fun p => (fst p, lookup $"redirect_uri" (raw_pairs (snd p)))) (links w_ports)
     = [($"a", Some $"http://localhost:8081/")]
  /\ (exists act, lookup $"a" (c_accounts (conf_of conf_ports)) = Some act /\ plainly (a_redirect_uri act)
                  /\ exists rest, a_redirect_uri act = $"http:" ++ rest)
  /\ kind_on (fst (setup_of busy conf_ports)) $"http" /\ w_alive w_ports = true.
Proof.
  split; [exact toy_scheme_law|]. split; [apply after_run; vm_compute; reflexivity|]. split; [vm_compute; reflexivity|].
  split.
  - eexists. split; [vm_compute; reflexivity|]. split; [|exists $"//localhost/"; reflexivity].
    intros c I. cbn [a_redirect_uri] in I.
    repeat (destruct I as [<-|I]; [vm_compute; split; intros X; discriminate X|]). destruct I.
  - split; [|vm_compute; reflexivity]. exists (mkListener (mkAddr $"127.0.0.1" 8081) None).
    split; [vm_compute; left; reflexivity|]. right. split; [|reflexivity]. intros X. apply X. reflexivity.
Qed.

(** * Where the full claim fails *)

(** A server started without HTTP is given a configuration that needs it: the
    configuration is accepted, but nothing listens, and the browser is sent to port 80. *)
Definition conf_secure : str :=
  $"http_listen = none; " ++ conf_account $"a" ($"redirect_uri = " ++ q ++ $"https://localhost/" ++ q ++ $"; ").

Definition reloaded : list label :=
  main (reload_env conf1 1000) :: many 3 0 (tick (sec 1000)) ++ ask $"showtoken:withurl a" 1010 1.

Definition w_reloaded : world := after (snd (setup_of busy conf_secure)) reloaded.

Definition last_link (w : world) : str * url := List.last (links w) ([], mkUrl [] [] None None [] None None).
Definition before_link (w : world) : list obs := List.removelast (w_trace w).
Definition back (r : str) : url :=
  match toy_url r with Some u => u | None => mkUrl [] [] None None [] None None end.

Theorem C95_comes_back_refuted :
  exists O sys e c ls w0 lbs w t1 n u t2 c' act r,
    scheme_law O /\ net_laws sys /\ config_from_path O e = Val c /\ server_setup sys c = Val (ls, w0)
    /\ run O w0 lbs = Some (SNext w) /\ w_trace w = t1 ++ OAuthUrl n u :: t2
    /\ config_at t1 = Some c' /\ lookup n (c_accounts c') = Some act
    /\ c_http_listen c' <> None /\ a_redirect_uri act = $"http://localhost/"
    /\ redirect_link O act (port_shown (plain_ones ls)) (port_shown (secure_ones ls)) r
    /\ In ($"redirect_uri", url_to_str r) (raw_pairs u) /\ ~ comes_back ls r.
Proof.
  exists toy, busy, (env_file conf_secure), (conf_of conf_secure), (fst (setup_of busy conf_secure)),
    (snd (setup_of busy conf_secure)), reloaded, w_reloaded, (before_link w_reloaded), $"a", (snd (last_link w_reloaded)), [],
    (conf_of conf1). eexists. exists (back $"http://localhost/").
  split; [exact toy_scheme_law|]. split; [apply toy_net_laws|]. split; [vm_compute; reflexivity|]. split; [vm_compute; reflexivity|].
  split; [apply after_run; vm_compute; reflexivity|]. split; [vm_compute; reflexivity|]. split; [vm_compute; reflexivity|].
  split; [vm_compute; reflexivity|]. split; [vm_compute; discriminate|]. split; [vm_compute; reflexivity|]. split.
  - exists (back $"http://localhost/"), None. split; [vm_compute; reflexivity|]. split.
    + right. split; [|vm_compute; reflexivity]. intros ((rest & B) & _). vm_compute in B. discriminate B.
    + split; [reflexivity|]. split; [reflexivity|]. split; [reflexivity|]. split; [|split; [reflexivity|split; reflexivity]].
      right. split; [vm_compute; reflexivity|]. intros [(_ & X)|(_ & X)]; discriminate X.
  - split; [vm_compute; auto 8|]. intros (l & I & P & _). vm_compute in I. destruct I as [<-|[]]. vm_compute in P. discriminate P.
Qed.
Print Assumptions C95_comes_back_refuted.

(** The URL parser drops spaces around a URL, the test for "https" does not: the
    browser is sent to the HTTP server's port to speak TLS there. *)
Definition trimming : oracles :=
  mkOracles (fun s => toy_url (drop_while (Ascii.eqb " "%char) s)) (o_sha256 toy) (o_encrypt toy) (o_decrypt toy) (o_json toy) (o_fmt_time toy).

Definition conf_blank : str := conf_account $"a" ($"redirect_uri = " ++ q ++ $" https://localhost/" ++ q ++ $"; ").

Definition blank_of : config :=
  match config_from_path trimming (env_file conf_blank) with Val c => c | _ => conf_of conf1 end.

Definition blank_setup : list listener * world :=
  match server_setup busy blank_of with Val r => r | _ => ([], start conf1) end.

Definition w_blank : world :=
  match run trimming (snd blank_setup) (ask $"showtoken:withurl a" 1000 1) with Some (SNext w) => w | _ => start conf1 end.

Theorem C95_comes_back_blank_refuted :
  exists O sys e c ls w0 lbs w t1 n u t2 act r,
    scheme_law O /\ net_laws sys /\ config_from_path O e = Val c /\ server_setup sys c = Val (ls, w0)
    /\ run O w0 lbs = Some (SNext w) /\ w_trace w = t1 ++ OAuthUrl n u :: t2
    /\ config_at t1 = Some c /\ lookup n (c_accounts c) = Some act
    /\ u_scheme r = $"https" /\ plain_ones ls <> [] /\ secure_ones ls <> []
    /\ redirect_link O act (port_shown (plain_ones ls)) (port_shown (secure_ones ls)) r
    /\ In ($"redirect_uri", url_to_str r) (raw_pairs u) /\ ~ comes_back ls r.
Proof.
  exists trimming, busy, (env_file conf_blank), blank_of, (fst blank_setup), (snd blank_setup), (ask $"showtoken:withurl a" 1000 1),
    w_blank, (before_link w_blank), $"a", (snd (last_link w_blank)), [].
  eexists. exists (back $"https://localhost:8081/").
  split.
  { intros s u P PL. apply (toy_scheme s u). cbn [trimming o_url_parse] in P. destruct s as [|c s]; [exact P|].
    cbn [drop_while] in P. destruct (Ascii.eqb " "%char c) eqn:E; [|exact P]. exfalso. apply Ascii.eqb_eq in E. subst c.
    destruct (PL _ (or_introl eq_refl)) as (X & _). vm_compute in X. apply X. reflexivity. }
  split; [apply toy_net_laws|]. split; [vm_compute; reflexivity|]. split; [vm_compute; reflexivity|].
  split; [vm_compute; reflexivity|]. split; [vm_compute; reflexivity|]. split; [vm_compute; reflexivity|].
  split; [vm_compute; reflexivity|]. split; [vm_compute; reflexivity|]. split; [vm_compute; discriminate|]. split; [vm_compute; discriminate|].
  split.
  - exists (back $"https://localhost/"), (Some 8081). split; [vm_compute; reflexivity|]. split.
    + right. split; [|vm_compute; reflexivity]. intros ((rest & B) & _). vm_compute in B. discriminate B.
    + split; [reflexivity|]. split; [reflexivity|]. split; [reflexivity|]. split; [|split; [reflexivity|split; reflexivity]].
      right. split; [vm_compute; reflexivity|]. intros [(_ & X)|(_ & X)]; discriminate X.
  - split; [vm_compute; auto 8|]. intros (l & I & P & K & K'). vm_compute in I. destruct I as [<-|[<-|[]]].
    + apply (K' eq_refl). reflexivity.
    + vm_compute in P. discriminate P.
Qed.
Print Assumptions C95_comes_back_blank_refuted.
