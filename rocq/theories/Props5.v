(** C42-C52: configuration files, authorisation URLs and browser requests. *)
From Verif Require Import Base BaseLemmas Time Utf8 Base64 Url UrlLemmas Json Oracles ConfigLex ConfigParse Config Dump
  State Http Timers Server SpecGrammar SpecConfig SpecLex SpecBlocks SpecHttp SpecServer SpecLinks
  LexLemmas ConfigParseProofs ConfigLemmas Lexing Blocks Tops Reads HttpLemmas Reach Own Trace Pend Links RefreshOrigin
  Scenario Runs Cases.
From Coq Require Import Permutation.

(** * C42 *)

Theorem C42_time_values t d :
  time_lexeme t -> (time_str_to_duration t = Val d <-> time_value t d).
Proof. exact (time_value_iff t d). Qed.
Print Assumptions C42_time_values.

Theorem C42_rejected s n c u :
  decimal s n -> time_unit c u ->
  ((exists m, time_str_to_duration (s ++ [c]) = Err m) <-> (2 ^ 64 <= n * u)%Z).
Proof. exact (time_rejected_iff s n c u). Qed.
Print Assumptions C42_rejected.

Theorem C42_lexeme t : time_lexeme t -> lex t = Some [TkTime t].
Proof. exact (lex_time t). Qed.
Print Assumptions C42_lexeme.

(** 90m are 5400 seconds; 2^64 seconds are refused. *)
Example C42_case :
  time_lexeme $"90m" /\ time_value $"90m" (5400 * 10 ^ 9)
  /\ time_str_to_duration $"90m" = Val (5400 * 10 ^ 9)%Z
  /\ time_lexeme $"18446744073709551616s"
  /\ time_str_to_duration $"18446744073709551616s" = Err $"Invalid time: number too large to fit in target type".
Proof.
  assert (decimal $"90" 90) as D90.
  { change 90%Z with (10 * 9 + 0)%Z. change $"90" with (["9"%char] ++ ["0"%char]). apply dec_more; [constructor|]; split; (lia || reflexivity). }
  split; [exists $"90", 90%Z, "m"%char, 60%Z; repeat split; [exact D90|constructor]|].
  split; [exists $"90", 90%Z, "m"%char, 60%Z; repeat split; [exact D90|constructor]|].
  split; [vm_compute; reflexivity|]. split; [|vm_compute; reflexivity].
  exists $"18446744073709551616", 18446744073709551616%Z, "s"%char, 1%Z. split; [reflexivity|]. split; [|constructor].
  repeat (match goal with |- decimal ?s ?v =>
    let n := eval vm_compute in (v / 10)%Z in let d := eval vm_compute in (v mod 10)%Z in
    let r := eval vm_compute in (removelast s) in let c := eval vm_compute in (last s "0"%char) in
    match r with
    | [] => change (decimal [c] v); constructor
    | _ => change (decimal (r ++ [c]) (10 * n + d)); apply dec_more
    end end); split; (lia || reflexivity).
Qed.

(** * C43 *)

Theorem C43_string_lexeme v r ts :
  lex r = Some ts -> lex (quote_string v ++ r) = Some (TkString (quote_string v) :: ts).
Proof. exact (lex_quote v r ts). Qed.
Print Assumptions C43_string_lexeme.

Theorem C43_string_value v : unescape_str (quote_string v) = v.
Proof. exact (unescape_quote v). Qed.
Print Assumptions C43_string_value.

Theorem C43_lexemes_are_strings s ts l :
  lex s = Some ts -> In (TkString l) ts ->
  exists v, l = quote_string v /\ forall v', l = quote_string v' -> v' = v.
Proof. exact (lexed_strings s ts l). Qed.
Print Assumptions C43_lexemes_are_strings.

Example C43_case :
  let v := [dquote; "a"%char; bslash] in
  quote_string v = [dquote; bslash; dquote; "a"%char; bslash; bslash; dquote]
  /\ lex (quote_string v ++ $" ;") = Some [TkString (quote_string v); TkSemi].
Proof. cbv zeta. compute_all. Qed.

(** * C44 *)

Theorem C44_lexer s ts : lex s = Some ts <-> lexes s ts.
Proof. exact (lex_iff s ts). Qed.
Print Assumptions C44_lexer.

Theorem C44_parser ts l : parse_tokens ts = Some l <-> g_toplevels ts l.
Proof. exact (parse_tokens_grammar ts l). Qed.
Print Assumptions C44_parser.

Theorem C44_unambiguous ts l l' : g_toplevels ts l -> g_toplevels ts l' -> l = l'.
Proof. exact (grammar_unique ts l l'). Qed.
Print Assumptions C44_unambiguous.

Example C44_case :
  exists ts,
    lex ($"account " ++ q ++ $"a" ++ q ++ $" { scopes = []; // none" ++ [nl] ++ $"refresh_retry = 5s; }") = Some ts
    /\ parse_tokens ts = Some [TLAccount (quote_string $"a") [FScopes []; FRefreshRetry $"5s"]]
    /\ lex $"http_listen = 5" = Some [TkKw KwHttpListen; TkEq; TkInt $"5"]
    /\ parse_tokens [TkKw KwHttpListen; TkEq; TkInt $"5"] = None.
Proof. eexists. compute_all. Qed.

(** * C45 *)

Theorem C45_account_block O name fs act :
  Forall field_ok fs -> (from_fields O name fs = Val act <-> block_means O name fs act).
Proof. exact (from_fields_iff O name fs act). Qed.
Print Assumptions C45_account_block.

Theorem C45_order_irrelevant O name fs fs' act :
  Forall field_ok fs -> Permutation fs fs' ->
  from_fields O name fs = Val act -> from_fields O name fs' = Val act.
Proof. exact (from_fields_perm O name fs fs' act). Qed.
Print Assumptions C45_order_irrelevant.

(** The hypothesis on the fields holds for whatever comes from a text. *)
Theorem C45_fields_of_text s toks l n fs :
  lexes s toks -> g_toplevels toks l -> In (TLAccount n fs) l -> Forall field_ok fs.
Proof. exact (text_fields_ok s toks l n fs). Qed.
Print Assumptions C45_fields_of_text.

Definition case_fields : list field :=
  [FClientId (quote_string $"id"); FTokenUri (quote_string $"https://t.example/");
   FScopes [quote_string $"s1"; quote_string $"s2"]; FAuthUri (quote_string $"https://a.example/");
   FRefreshRetry $"5m"].

Example C45_case :
  Forall field_ok case_fields
  /\ (exists act, from_fields toy $"n" case_fields = Val act /\ a_scopes act = [$"s1"; $"s2"]
                  /\ a_redirect_uri act = $"http://localhost/" /\ a_refresh_retry act = Some (300 * 10 ^ 9)%Z)
  /\ (forall act, from_fields toy $"n" (FClientId (quote_string $"id") :: case_fields) <> Val act)
  /\ (forall act, from_fields toy $"n" (tl case_fields) <> Val act).
Proof.
  split.
  - apply Forall_cons; [exists $"id"; reflexivity|].
    apply Forall_cons; [exists $"https://t.example/"; reflexivity|].
    apply Forall_cons; [repeat constructor; eexists; reflexivity|].
    apply Forall_cons; [exists $"https://a.example/"; reflexivity|].
    apply Forall_cons; [|apply Forall_nil].
    exists $"5", 5%Z, "m"%char, 60%Z. split; [reflexivity|]. split; [|constructor]. constructor. split; [lia|reflexivity].
  - split; [eexists; compute_all|]. split; intros act; vm_compute; discriminate.
Qed.

(** * C46 *)

Theorem C46_accepted_means O h s c : config_from_str O h s = Val c -> reads_as O s c.
Proof. exact (reads_sound O h s c). Qed.
Print Assumptions C46_accepted_means.

Theorem C46_meaningful_accepted O h s c :
  reads_as O s c ->
  exists l, Permutation (c_accounts c) l /\ config_from_str O h s = Val (with_accounts c l).
Proof. exact (reads_complete O h s c). Qed.
Print Assumptions C46_meaningful_accepted.

(** Options may be permuted freely, account blocks as long as the last block of
    each name stays the last. *)
Theorem C46_order_irrelevant O h ts ts' c :
  Forall top_ok ts -> Permutation ts ts' ->
  (forall name fs, last_block name ts fs <-> last_block name ts' fs) ->
  config_of_toplevels O h ts = Val c ->
  exists l, Permutation (c_accounts c) l /\ config_of_toplevels O h ts' = Val (with_accounts c l).
Proof. exact (config_perm O h ts ts' c). Qed.
Print Assumptions C46_order_irrelevant.

(** With different account names, everything may be permuted. *)
Theorem C46_order_irrelevant_distinct O h ts ts' c :
  Forall top_ok ts -> Permutation ts ts' -> NoDup (flat_map block_names ts) ->
  config_of_toplevels O h ts = Val c ->
  exists l, Permutation (c_accounts c) l /\ config_of_toplevels O h ts' = Val (with_accounts c l).
Proof. exact (config_perm_distinct O h ts ts' c). Qed.
Print Assumptions C46_order_irrelevant_distinct.

Theorem C46_items_of_text s toks l : lexes s toks -> g_toplevels toks l -> Forall top_ok l.
Proof. exact (text_items_ok s toks l). Qed.
Print Assumptions C46_items_of_text.

Example C46_case :
  let h := fun _ : str => 0%N in
  (exists c, config_from_str toy h (conf_account $"a" [] ++ $"refresh_retry = 5m; https_listen = none;") = Val c
             /\ c_refresh_retry c = Some (300 * 10 ^ 9)%Z /\ c_https_listen c = None
             /\ c_http_listen c = Some $"127.0.0.1:0" /\ c_auth_notify_interval c = (900 * 10 ^ 9)%Z)
  /\ (forall c, config_from_str toy h (conf_account $"a" [] ++ $"refresh_retry = 5m; refresh_retry = 5m;") <> Val c)
  /\ (forall c, config_from_str toy h (conf_account $"a" [] ++ $"https_listen = none; http_listen = none;") <> Val c).
Proof.
  cbv zeta. split; [eexists; compute_all|]. split; intros c; vm_compute; discriminate.
Qed.

(** * C47 *)

(** Redirects written with a lower-case scheme.  Missing: schemes in other
    letter case, for which the property is false (below). *)
Theorem C47_redirects_receivable_partial O h s c :
  config_from_str O h s = Val c ->
  ~ (c_http_listen c = None /\ c_https_listen c = None)
  /\ c_accounts c <> []
  /\ forall name act, In (name, act) (c_accounts c) ->
       (forall r, a_redirect_uri act = $"https:" ++ r -> c_https_listen c <> None)
       /\ (forall r, a_redirect_uri act = $"http:" ++ r -> c_http_listen c <> None).
Proof. exact (accepted_servers O h s c). Qed.
Print Assumptions C47_redirects_receivable_partial.

Example C47_case :
  exists c act,
    config_from_str toy (fun _ => 0%N)
      (conf_account $"a" ($"redirect_uri = " ++ q ++ $"https://localhost/r" ++ q ++ $";") ++ $"http_listen = none;") = Val c
    /\ In ($"a", act) (c_accounts c) /\ a_redirect_uri act = $"https:" ++ $"//localhost/r"
    /\ c_https_listen c = Some $"127.0.0.1:0".
Proof. do 2 eexists. split; [vm_compute; reflexivity|]. split; [left; reflexivity|]. compute_all. Qed.

Theorem C47_upper_case_scheme_refuted :
  exists s c act u,
    config_from_str toy (fun _ => 0%N) s = Val c /\ In ($"a", act) (c_accounts c)
    /\ o_url_parse toy (a_redirect_uri act) = Some u
    /\ u_scheme u = $"https" /\ c_https_listen c = None.
Proof.
  exists (conf_account $"a" ($"redirect_uri = " ++ q ++ $"HTTPS://localhost/r" ++ q ++ $";") ++ $"https_listen = none;").
  do 3 eexists. split; [vm_compute; reflexivity|]. split; [left; reflexivity|]. split; [vm_compute; reflexivity|]. compute_all.
Qed.
Print Assumptions C47_upper_case_scheme_refuted.

(** * C48 *)

(** The hint of an account block never reaches the URL, unless auth_uri itself
    carries it. *)
Theorem C48_login_hint_dropped O name fs act t hp hsp cvr st u conf v :
  block_means O name fs act -> In (FLoginHint t) fs ->
  auth_link O act hp hsp cvr st u -> o_url_parse O (a_auth_uri act) = Some conf ->
  In ($"login_hint", v) (raw_pairs u) -> In ($"login_hint", v) (raw_pairs conf).
Proof. exact (hint_dropped O name fs act t hp hsp cvr st u conf v). Qed.
Print Assumptions C48_login_hint_dropped.

(** An account whose auth_uri carries a hint of its own; the one of the block is not in the URL. *)
Definition hinted : list field :=
  [FAuthUri (quote_string $"https://auth.example/a?login_hint=you"); FClientId (quote_string $"id");
   FLoginHint (quote_string $"me@x"); FTokenUri (quote_string $"https://token.example/t")].

Example C48_case :
  exists act u conf,
    block_means toy $"a" hinted act /\ In (FLoginHint (quote_string $"me@x")) hinted
    /\ auth_link toy act (Some 8080%N) None $"cvr" $"st" u /\ o_url_parse toy (a_auth_uri act) = Some conf
    /\ In ($"login_hint", $"you") (raw_pairs u) /\ ~ In ($"login_hint", $"me@x") (raw_pairs u).
Proof.
  do 3 eexists. split; [apply from_fields_iff; [repeat constructor; eexists; reflexivity|vm_compute; reflexivity]|].
  split; [right; right; left; reflexivity|].
  split; [apply auth_url_link; do 2 eexists; split; [vm_compute; reflexivity|]; split; [vm_compute; reflexivity|reflexivity]|].
  split; [vm_compute; reflexivity|]. split; [vm_compute; left; reflexivity|].
  intros I. vm_compute in I. repeat (destruct I as [I|I]; [discriminate I|]). exact I.
Qed.

Definition hint_conf : str := conf_account $"a" ($"login_hint = " ++ q ++ $"me@x" ++ q ++ $";").
Definition hint_ask : list label := ask $"showtoken:withurl a" 5 2.

Theorem C48_login_hint_passed_on_refuted :
  exists w n u,
    reachable toy w /\ In (OAuthUrl n u) (w_trace w)
    /\ (exists toks l fs, lexes hint_conf toks /\ g_toplevels toks l /\ In (TLAccount (quote_string n) fs) l
                          /\ In (FLoginHint (quote_string $"me@x")) fs)
    /\ hd_error (w_trace w) = Some (OConfig (conf_of hint_conf))
    /\ forall v, ~ In ($"login_hint", v) (raw_pairs u).
Proof.
  exists (after (start hint_conf) hint_ask), $"a". eexists. split; [reach_after|].
  split; [vm_compute; right; right; left; reflexivity|]. split.
  { do 3 eexists. split; [apply lex_iff; vm_compute; reflexivity|].
    split; [apply parse_tokens_grammar; vm_compute; reflexivity|]. split; [left; reflexivity|].
    vm_compute. auto 10. }
  split; [vm_compute; reflexivity|].
  intros v I. vm_compute in I. repeat (destruct I as [I|I]; [discriminate|]). exact I.
Qed.
Print Assumptions C48_login_hint_passed_on_refuted.

(** * C49 *)

Theorem C49_authorisation_urls O w t1 n u t2 :
  reachable O w -> w_trace w = t1 ++ OAuthUrl n u :: t2 ->
  exists t0 req wu c act bs bv,
    t1 = t0 ++ [OClient req]
    /\ (req = $"refresh:" ++ wu ++ $" " ++ n \/ req = $"showtoken:" ++ wu ++ $" " ++ n)
    /\ config_at t0 = Some c /\ lookup n (c_accounts c) = Some act
    /\ auth_link O act (w_http w) (w_https w) (b64_encode bv) (b64_encode bs) u.
Proof. exact (issued_link O w t1 n u t2). Qed.
Print Assumptions C49_authorisation_urls.

(** Reading a query as UTF-8 makes no difference where it is valid. *)
Theorem C49_query_is_text u :
  Forall (fun p => utf8_valid (fst p) = true /\ utf8_valid (snd p) = true) (raw_pairs u) ->
  query_pairs u = raw_pairs u.
Proof. exact (query_is_raw u). Qed.
Print Assumptions C49_query_is_text.

Definition rich_conf : str :=
  $"account " ++ q ++ $"a" ++ q ++ $" { auth_uri = " ++ q ++ $"https://auth.example/a?x=y" ++ q
  ++ $"; client_id = " ++ q ++ $"i d&" ++ q ++ $"; scopes = [" ++ q ++ $"s1" ++ q ++ $", " ++ q ++ $"s2" ++ q
  ++ $"]; auth_uri_fields = { " ++ q ++ $"k" ++ q ++ $": " ++ q ++ $"1" ++ q ++ $", "
  ++ q ++ $"k" ++ q ++ $": " ++ q ++ $"%=2" ++ q ++ $" }; token_uri = "
  ++ q ++ $"https://token.example/t" ++ q ++ $"; }".

Example C49_case :
  exists w u t1 t2,
    reachable toy w /\ w_trace w = t1 ++ OAuthUrl $"a" u :: t2
    /\ map fst (raw_pairs u)
       = [$"x"; $"access_type"; $"code_challenge"; $"code_challenge_method"; $"client_id"; $"redirect_uri";
          $"response_type"; $"state"; $"scope"; $"k"; $"k"]
    /\ lookup $"client_id" (raw_pairs u) = Some $"i d&" /\ lookup $"scope" (raw_pairs u) = Some $"s1 s2"
    /\ lookup $"redirect_uri" (raw_pairs u) = Some $"http://localhost:8080/"
    /\ In ($"k", $"%=2") (raw_pairs u).
Proof.
  exists (after (start rich_conf) hint_ask). do 3 eexists. split; [reach_after|].
  split; [eapply (split_at _ 2); vm_compute; reflexivity|].
  compute_all. vm_compute. auto 20.
Qed.

(** * C50 *)

Theorem C50_alphabet bs c :
  In c (b64_encode bs) ->
  In c $"ABCDEFGHIJKLMNOPQRSTUVWXYZabcdefghijklmnopqrstuvwxyz0123456789-_".
Proof. exact (b64_in_alphabet bs c). Qed.
Print Assumptions C50_alphabet.

Theorem C50_lengths bs :
  (List.length bs = 8 -> List.length (b64_encode bs) = 11)
  /\ (List.length bs = 64 -> List.length (b64_encode bs) = 86 /\ 43 <= 86 <= 128).
Proof. exact (b64_lengths bs). Qed.
Print Assumptions C50_lengths.

Theorem C50_injective bs bs' : b64_encode bs = b64_encode bs' -> bs = bs'.
Proof. exact (b64_encode_inj bs bs'). Qed.
Print Assumptions C50_injective.

Theorem C50_survives_encoding bs :
  form_encode (b64_encode bs) = b64_encode bs /\ form_decode (b64_encode bs) = b64_encode bs.
Proof. exact (b64_survives bs). Qed.
Print Assumptions C50_survives_encoding.

Example C50_case :
  b64_encode (map ascii_of_N [251; 255; 0; 1; 2; 3; 4; 5]%N) = $"-_8AAQIDBAU".
Proof. vm_compute. reflexivity. Qed.

(** * C51 *)

Theorem C51_browser_requests O https s u :
  parse_get O https s = Some u <-> get_request O https s u.
Proof. exact (parse_get_iff O https s u). Qed.
Print Assumptions C51_browser_requests.

Definition crlf : str := [cr; nl].

Example C51_case :
  let first := $"GET /x?y HTTP/1.1" ++ crlf in
  (exists u, parse_get toy false (first ++ $"hOsT:  localhost:99" ++ crlf ++ $"A: b" ++ crlf ++ crlf ++ $"junk") = Some u
             /\ url_to_str u = $"http://localhost:99/x?y")
  /\ parse_get toy false (first ++ $"Host: a" ++ crlf ++ $"Host: a" ++ crlf ++ crlf) = None
  /\ parse_get toy false (first ++ crlf) = None
  /\ parse_get toy false ($"POST / HTTP/1.1" ++ crlf ++ $"Host: a" ++ crlf ++ crlf) = None.
Proof. cbv zeta. split; [eexists; compute_all|]. compute_all. Qed.

(** * C52 *)

Theorem C52_refresh_requests O w t1 uri pairs r t2 :
  reachable O w -> w_trace w = t1 ++ OPost uri pairs r :: t2 ->
  (lookup $"grant_type" pairs = Some $"refresh_token"
   /\ exists n rt ta tb c act,
        t1 = ta ++ tb /\ config_at ta = Some c /\ lookup n (c_accounts c) = Some act
        /\ uri = a_token_uri act
        /\ pairs = [($"client_id", a_client_id act); ($"refresh_token", rt); ($"grant_type", $"refresh_token")]
                   ++ match a_client_secret act with Some x => [($"client_secret", x)] | None => [] end
        /\ since (gives_refresh O rt) ta n act)
  \/ (lookup $"grant_type" pairs = Some $"authorization_code" /\ lookup $"refresh_token" pairs = None).
Proof. exact (refresh_post O w t1 uri pairs r t2). Qed.
Print Assumptions C52_refresh_requests.

Example C52_case :
  exists uri pairs r t1 t2,
    let w := after w_refreshing [LTick 5 (Scenario.posted (PRBody $"Tnew") (tick (sec 1022)))] in
    reachable toy w /\ w_trace w = t1 ++ OPost uri pairs r :: t2
    /\ lookup $"grant_type" pairs = Some $"refresh_token"
    /\ uri = $"https://token.example/t" /\ lookup $"refresh_token" pairs = Some $"r"
    /\ lookup $"client_secret" pairs = Some $"secret".
Proof.
  do 5 eexists. cbv zeta. split; [unfold w_refreshing, w_auth; reach_after|].
  split; [eapply (split_at _ 10); vm_compute; reflexivity|]. compute_all.
Qed.
