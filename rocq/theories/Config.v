(** Configuration: /repo/src/config.rs. *)
From Verif Require Import Base Time Url Oracles ConfigLex ConfigParse.
Local Open Scope Z_scope.

(** config.rs:344-357 *)
Record account := mkAccount {
  a_name : str;
  a_auth_uri : str;
  a_auth_uri_fields : list (str * str);
  a_client_id : str;
  a_client_secret : option str;
  a_redirect_uri : str;
  a_refresh_at_least : option Z;
  a_refresh_before_expiry : option Z;
  a_refresh_retry : option Z;
  a_scopes : list str;
  a_token_uri : str;
}.

(** config.rs:32-45 *)
Record config := mkConfig {
  c_accounts : list (str * account);
  c_auth_notify_cmd : option str;
  c_auth_notify_interval : Z;
  c_error_notify_cmd : option str;
  c_http_listen : option str;
  c_https_listen : option str;
  c_transient_error_if_cmd : option str;
  c_refresh_at_least : option Z;
  c_refresh_before_expiry : option Z;
  c_refresh_retry : option Z;
  c_token_event_cmd : option str;
}.

(** config.rs:18-30 *)
Definition refresh_before_expiry_default : Z := from_secs 90.
Definition refresh_at_least_default : Z := from_secs (90 * 60).
Definition refresh_retry_default : Z := from_secs 40.
Definition auth_notify_interval_default : Z := from_secs (15 * 60).
Definition listen_default : str := $"127.0.0.1:0".

(** [str::parse::<u64>] on digit strings (signs cannot occur in a TIME lexeme).
    (config.rs:607) *)
Fixpoint digits_val (acc : Z) (s : str) : option Z :=
  match s with
  | [] => Some acc
  | c :: s' =>
      if is_digit c
      then digits_val (acc * 10 + (Z.of_N (N_of_ascii c) - 48)) s'
      else None
  end.

(** config.rs:607 with the messages of [ParseIntError]. *)
Definition parse_u64 (s : str) : outcome Z :=
  match s with
  | [] => Err $"cannot parse integer from empty string"
  | _ =>
      match digits_val 0 s with
      | None => Err $"invalid digit found in string"
      | Some n =>
          if n <? two64 then Val n
          else Err $"number too large to fit in target type"
      end
  end.

(** [u64::checked_mul]. (config.rs:609-611) *)
Definition checked_mul (a b : Z) : outcome Z :=
  if a * b <? two64 then Val (a * b) else Err $"Number too big".

(** config.rs:600-616 ([inner]) *)
Definition time_inner (t : str) : outcome Z :=
  let last_char_idx := List.length (filter is_digit t) in
  num <- parse_u64 (firstn last_char_idx t) ;;
  match rev t with
  | [] => Panic
  | c :: _ =>
      secs <- (if Ascii.eqb c "d"%char then checked_mul num 86400
               else if Ascii.eqb c "h"%char then checked_mul num 3600
               else if Ascii.eqb c "m"%char then checked_mul num 60
               else if Ascii.eqb c "s"%char then Val num
               else Panic) ;;
      Val (from_secs secs)
  end.

(** config.rs:599-618 *)
Definition time_str_to_duration (t : str) : outcome Z :=
  match time_inner t with
  | Err e => Err ($"Invalid time: " ++ e)
  | o => o
  end.

(** config.rs:629-644: the loop of [unescape_str]; the argument is [us[i..]],
    the loop runs while more than the closing quote is left. *)
Fixpoint unescape_go (s : str) : str :=
  match s with
  | c :: ((d :: s2) as s1) =>
      if Ascii.eqb c bslash then d :: unescape_go s2 else c :: unescape_go s1
  | _ => []
  end.

(** config.rs:622-646 *)
Definition unescape_str (us : str) : str :=
  match us with
  | [] => []
  | _ :: s => unescape_go s
  end.

(** config.rs:243-289: error if already assigned.  Error texts in this file omit
    the line and column of [error_at_span] (config.rs:649-668): Located.v adds
    them. *)
Definition dup_err (name : str) : str :=
  $"Mustn't specify '" ++ name ++ $"' more than once".

(** config.rs:243-257; the line and column are in Located.v. *)
Definition check_not_assigned {T} (name : str) (v : option T) : outcome unit :=
  match v with None => Val tt | Some _ => Err (dup_err name) end.

(** config.rs:259-273. *)
Definition check_not_assigned_str {T} (name lexeme : str) (v : option T) : outcome str :=
  match v with None => Val (unescape_str lexeme) | Some _ => Err (dup_err name) end.

(** config.rs:275-289. *)
Definition check_not_assigned_time {T} (name lexeme : str) (v : option T) : outcome str :=
  match v with None => Val lexeme | Some _ => Err (dup_err name) end.

(** config.rs:291-317 *)
Definition check_not_assigned_uri {T} (O : oracles) (name lexeme : str) (v : option T)
    : outcome str :=
  match v with
  | Some _ => Err (dup_err name)
  | None =>
      let s := unescape_str lexeme in
      match o_url_parse O s with
      | Some x =>
          if str_eqb (u_scheme x) $"http" || str_eqb (u_scheme x) $"https"
          then Val s
          else Err $"not a valid HTTP or HTTPS URI"
      | None => Err $"Invalid URI"
      end
  end.

(** config.rs:319-333 *)
Definition check_assigned {T} (name : str) (v : option T) : outcome T :=
  match v with Some x => Val x | None => Err (name ++ $" not specified") end.

(** The mutable variables of [Account::from_fields] (config.rs:366-376). *)
Record field_acc := mkFacc {
  f_auth_uri : option str;
  f_auth_uri_fields : option (list (str * str));
  f_client_id : option str;
  f_client_secret : option str;
  f_login_hint : option str;
  f_redirect_uri : option str;
  f_refresh_at_least : option Z;
  f_refresh_before_expiry : option Z;
  f_refresh_retry : option Z;
  f_scopes : option (list str);
  f_token_uri : option str;
}.

(** config.rs:366-376. *)
Definition facc0 : field_acc :=
  mkFacc None None None None None None None None None None None.

(** Body of the loop at config.rs:378-471. *)
Definition field_step (O : oracles) (a : field_acc) (f : field) : outcome field_acc :=
  let 'mkFacc au auf ci cs lh ru ral rbe rr sc tu := a in
  match f with
  | FAuthUri s =>
      x <- check_not_assigned_uri O $"auth_uri" s au ;;
      Val (mkFacc (Some x) auf ci cs lh ru ral rbe rr sc tu)
  | FAuthUriFields l =>
      _ <- check_not_assigned $"auth_uri_fields" auf ;;
      Val (mkFacc au (Some (map (fun kv => (unescape_str (fst kv), unescape_str (snd kv))) l))
             ci cs lh ru ral rbe rr sc tu)
  | FClientId s =>
      x <- check_not_assigned_str $"client_id" s ci ;;
      Val (mkFacc au auf (Some x) cs lh ru ral rbe rr sc tu)
  | FClientSecret s =>
      x <- check_not_assigned_str $"client_secret" s cs ;;
      Val (mkFacc au auf ci (Some x) lh ru ral rbe rr sc tu)
  | FLoginHint s =>
      x <- check_not_assigned_str $"login_hint" s lh ;;
      Val (mkFacc au auf ci cs (Some x) ru ral rbe rr sc tu)
  | FRedirectUri s =>
      x <- check_not_assigned_uri O $"redirect_uri" s ru ;;
      Val (mkFacc au auf ci cs lh (Some x) ral rbe rr sc tu)
  | FRefreshAtLeast t =>
      x <- check_not_assigned_time $"refresh_at_least" t ral ;;
      d <- time_str_to_duration x ;;
      Val (mkFacc au auf ci cs lh ru (Some d) rbe rr sc tu)
  | FRefreshBeforeExpiry t =>
      x <- check_not_assigned_time $"refresh_before_expiry" t rbe ;;
      d <- time_str_to_duration x ;;
      Val (mkFacc au auf ci cs lh ru ral (Some d) rr sc tu)
  | FRefreshRetry t =>
      x <- check_not_assigned_time $"refresh_retry" t rr ;;
      d <- time_str_to_duration x ;;
      Val (mkFacc au auf ci cs lh ru ral rbe (Some d) sc tu)
  | FScopes l =>
      _ <- check_not_assigned $"scopes" sc ;;
      Val (mkFacc au auf ci cs lh ru ral rbe rr (Some (map unescape_str l)) tu)
  | FTokenUri s =>
      x <- check_not_assigned_uri O $"token_uri" s tu ;;
      Val (mkFacc au auf ci cs lh ru ral rbe rr sc (Some x))
  end.

(** config.rs:378-471: the loop. *)
Fixpoint fields_loop (O : oracles) (a : field_acc) (fs : list field) : outcome field_acc :=
  match fs with
  | [] => Val a
  | f :: fs' => a' <- field_step O a f ;; fields_loop O a' fs'
  end.

(** config.rs:491. *)
Definition default_redirect_uri : str := $"http://localhost/".

(** [unwrap_or], [unwrap_or_else], [unwrap_or_default], config.rs:230-233, 488-495. *)
Definition opt_default {A} (d : A) (o : option A) : A :=
  match o with Some x => x | None => d end.

(** config.rs:473-497 *)
Definition fields_finish (name : str) (a : field_acc) : outcome account :=
  auth_uri <- check_assigned $"auth_uri" (f_auth_uri a) ;;
  client_id <- check_assigned $"client_id" (f_client_id a) ;;
  token_uri <- check_assigned $"token_uri" (f_token_uri a) ;;
  if match f_login_hint a, f_auth_uri_fields a with
     | Some _, Some l => existsb (fun kv => str_eqb (fst kv) $"login_hint") l
     | _, _ => false
     end
  then Err $"Both the 'login_hint' attribute and a 'auth_uri_fields' field with the name 'login_hint' are specified. The 'login_hint' attribute is deprecated so remove it."
  else
    Val (mkAccount name auth_uri (opt_default [] (f_auth_uri_fields a)) client_id
           (f_client_secret a) (opt_default default_redirect_uri (f_redirect_uri a))
           (f_refresh_at_least a) (f_refresh_before_expiry a) (f_refresh_retry a)
           (opt_default [] (f_scopes a)) token_uri).

(** config.rs:360-498 *)
Definition from_fields (O : oracles) (name : str) (fs : list field) : outcome account :=
  a <- fields_loop O facc0 fs ;; fields_finish name a.

(** The mutable variables of [Config::from_str] (config.rs:70-80). *)
Record top_acc := mkTacc {
  t_accounts : list (str * account);
  t_auth_notify_cmd : option str;
  t_auth_notify_interval : option Z;
  t_error_notify_cmd : option str;
  t_http_listen : option (option str);
  t_https_listen : option (option str);
  t_transient_error_if_cmd : option str;
  t_refresh_at_least : option Z;
  t_refresh_before_expiry : option Z;
  t_refresh_retry : option Z;
  t_token_event_cmd : option str;
}.

(** config.rs:70-80. *)
Definition tacc0 : top_acc :=
  mkTacc [] None None None None None None None None None None.

(** Body of the loop at config.rs:83-195. *)
Definition top_step (O : oracles) (a : top_acc) (t : toplevel) : outcome top_acc :=
  let 'mkTacc acts anc ani enc hl hsl tei ral rbe rr tec := a in
  match t with
  | TLAccount n fs =>
      let act_name := unescape_str n in
      act <- from_fields O act_name fs ;;
      Val (mkTacc (map_insert act_name act acts) anc ani enc hl hsl tei ral rbe rr tec)
  | TLAuthErrorCmd =>
      Err $"'auth_error_cmd' has been renamed to 'error_notify_cmd'"
  | TLAuthNotifyCmd s =>
      x <- check_not_assigned_str $"auth_notify_cmd" s anc ;;
      Val (mkTacc acts (Some x) ani enc hl hsl tei ral rbe rr tec)
  | TLAuthNotifyInterval s =>
      x <- check_not_assigned_time $"auth_notify_interval" s ani ;;
      d <- time_str_to_duration x ;;
      Val (mkTacc acts anc (Some d) enc hl hsl tei ral rbe rr tec)
  | TLErrorNotifyCmd s =>
      x <- check_not_assigned_str $"error_notify_cmd" s enc ;;
      Val (mkTacc acts anc ani (Some x) hl hsl tei ral rbe rr tec)
  | TLHttpListen s =>
      x <- check_not_assigned_str $"http_listen" s hl ;;
      Val (mkTacc acts anc ani enc (Some (Some x)) hsl tei ral rbe rr tec)
  | TLHttpListenNone =>
      _ <- check_not_assigned $"http_listen" hl ;;
      Val (mkTacc acts anc ani enc (Some None) hsl tei ral rbe rr tec)
  | TLHttpsListen s =>
      x <- check_not_assigned_str $"https_listen" s hsl ;;
      Val (mkTacc acts anc ani enc hl (Some (Some x)) tei ral rbe rr tec)
  | TLHttpsListenNone =>
      _ <- check_not_assigned $"https_listen" hsl ;;
      Val (mkTacc acts anc ani enc hl (Some None) tei ral rbe rr tec)
  | TLTransientErrorIfCmd s =>
      x <- check_not_assigned_str $"transient_error_if_cmd" s tei ;;
      Val (mkTacc acts anc ani enc hl hsl (Some x) ral rbe rr tec)
  | TLRefreshAtLeast s =>
      x <- check_not_assigned_time $"refresh_at_least" s ral ;;
      d <- time_str_to_duration x ;;
      Val (mkTacc acts anc ani enc hl hsl tei (Some d) rbe rr tec)
  | TLRefreshBeforeExpiry s =>
      x <- check_not_assigned_time $"refresh_before_expiry" s rbe ;;
      d <- time_str_to_duration x ;;
      Val (mkTacc acts anc ani enc hl hsl tei ral (Some d) rr tec)
  | TLRefreshRetry s =>
      x <- check_not_assigned_time $"refresh_retry" s rr ;;
      d <- time_str_to_duration x ;;
      Val (mkTacc acts anc ani enc hl hsl tei ral rbe (Some d) tec)
  | TLTokenEventCmd s =>
      x <- check_not_assigned_str $"token_event_cmd" s tec ;;
      Val (mkTacc acts anc ani enc hl hsl tei ral rbe rr (Some x))
  end.

(** config.rs:83-195: the loop. *)
Fixpoint tops_loop (O : oracles) (a : top_acc) (ts : list toplevel) : outcome top_acc :=
  match ts with
  | [] => Val a
  | t :: ts' => a' <- top_step O a t ;; tops_loop O a' ts'
  end.

(** config.rs:208-224: the redirect check for one account. *)
Definition redirect_check (hl hsl : option (option str)) (p : str * account) : outcome unit :=
  let '(n, act) := p in
  if starts_with $"https" (a_redirect_uri act) then
    match hsl with
    | Some None => Err ($"Account " ++ n ++ $" has an 'https' redirect but the HTTPS server is set to 'none'")
    | _ => Val tt
    end
  else if starts_with $"http" (a_redirect_uri act) then
    match hl with
    | Some None => Err ($"Account " ++ n ++ $" has an 'http' redirect but the HTTP server is set to 'none'")
    | _ => Val tt
    end
  else Val tt.

(** config.rs:208-224: the loop. *)
Fixpoint redirect_checks (hl hsl : option (option str)) (l : list (str * account)) : outcome unit :=
  match l with
  | [] => Val tt
  | p :: l' => _ <- redirect_check hl hsl p ;; redirect_checks hl hsl l'
  end.

(** config.rs:200-239; [h] fixes the iteration order of [accounts]. *)
Definition tops_finish (h : str -> N) (a : top_acc) : outcome config :=
  let accounts := hsort (fun p => h (fst p)) (t_accounts a) in
  match t_http_listen a, t_https_listen a with
  | Some None, Some None =>
      Err $"Cannot set both http_listen and https_listen to 'none'"
  | _, _ =>
      match accounts with
      | [] => Err $"Must specify at least one account"
      | _ =>
          _ <- redirect_checks (t_http_listen a) (t_https_listen a) accounts ;;
          Val (mkConfig accounts (t_auth_notify_cmd a)
                 (opt_default auth_notify_interval_default (t_auth_notify_interval a))
                 (t_error_notify_cmd a)
                 (opt_default (Some listen_default) (t_http_listen a))
                 (opt_default (Some listen_default) (t_https_listen a))
                 (t_transient_error_if_cmd a) (t_refresh_at_least a)
                 (t_refresh_before_expiry a) (t_refresh_retry a) (t_token_event_cmd a))
      end
  end.

(** config.rs:70-239. *)
Definition config_of_toplevels (O : oracles) (h : str -> N) (ts : list toplevel)
    : outcome config :=
  a <- tops_loop O tacc0 ts ;; tops_finish h a.

(** config.rs:58-240, up to the place that error texts name: what the server runs
    is [from_str] of Located.v.  The text of syntax errors is not modelled. *)
Definition config_from_str (O : oracles) (h : str -> N) (input : str) : outcome config :=
  match lex input with
  | None => Err $"syntax error"
  | Some toks =>
      match parse_tokens toks with
      | None => Err $"syntax error"
      | Some ts => config_of_toplevels O h ts
      end
  end.

(** config.rs:506-519 *)
Definition secure_eq (a b : account) : bool :=
  str_eqb (a_name a) (a_name b)
  && str_eqb (a_auth_uri a) (a_auth_uri b)
  && list_eqb (pair_eqb str_eqb str_eqb) (a_auth_uri_fields a) (a_auth_uri_fields b)
  && str_eqb (a_client_id a) (a_client_id b)
  && opt_eqb str_eqb (a_client_secret a) (a_client_secret b)
  && str_eqb (a_redirect_uri a) (a_redirect_uri b)
  && list_eqb str_eqb (a_scopes a) (a_scopes b)
  && str_eqb (a_token_uri a) (a_token_uri b).

(** config.rs:583-592 *)
Record account_dump := mkAdump {
  ad_auth_uri : str;
  ad_auth_uri_fields : list (str * str);
  ad_client_id : str;
  ad_client_secret : option str;
  ad_redirect_uri : str;
  ad_scopes : list str;
  ad_token_uri : str;
}.

(** config.rs:521-531 *)
Definition account_dump_of (a : account) : account_dump :=
  mkAdump (a_auth_uri a) (a_auth_uri_fields a) (a_client_id a) (a_client_secret a)
    (a_redirect_uri a) (a_scopes a) (a_token_uri a).

(** config.rs:537-545 *)
Definition secure_restorable (a : account) (d : account_dump) : bool :=
  str_eqb (a_auth_uri a) (ad_auth_uri d)
  && list_eqb (pair_eqb str_eqb str_eqb) (a_auth_uri_fields a) (ad_auth_uri_fields d)
  && str_eqb (a_client_id a) (ad_client_id d)
  && opt_eqb str_eqb (a_client_secret a) (ad_client_secret d)
  && str_eqb (a_redirect_uri a) (ad_redirect_uri d)
  && list_eqb str_eqb (a_scopes a) (ad_scopes d)
  && str_eqb (a_token_uri a) (ad_token_uri d).

(** [Option::is_some], config.rs:552, 554. *)
Definition is_some {A} (o : option A) : bool := match o with Some _ => true | None => false end.

(** config.rs:547-562.  [to_lowercase] is Unicode-aware in the code; no
    non-ASCII character lowercases to one of "h", "t", "p", "s", so ASCII
    lowercasing decides the prefix test. *)
Definition account_redirect_uri (O : oracles) (a : account) (http_port https_port : option N)
    : outcome url :=
  if negb (is_some http_port || is_some https_port) then Panic
  else
    u <- ok_or $"invalid redirect URI" (o_url_parse O (a_redirect_uri a)) ;;
    if is_some https_port && starts_with $"https" (map ascii_lower (a_redirect_uri a))
    then ok_or $"Cannot set https port" (set_port u https_port)
    else ok_or $"Cannot set http port" (set_port u http_port).

(** [Option::or], config.rs:566, 572, 578. *)
Definition opt_or {A} (a b : option A) : option A :=
  match a with Some x => Some x | None => b end.

(** config.rs:564-580 *)
Definition act_refresh_at_least (a : account) (c : config) : Z :=
  opt_default refresh_at_least_default (opt_or (a_refresh_at_least a) (c_refresh_at_least c)).
Definition act_refresh_before_expiry (a : account) (c : config) : Z :=
  opt_default refresh_before_expiry_default
    (opt_or (a_refresh_before_expiry a) (c_refresh_before_expiry c)).
Definition act_refresh_retry (a : account) (c : config) : Z :=
  opt_default refresh_retry_default (opt_or (a_refresh_retry a) (c_refresh_retry c)).
