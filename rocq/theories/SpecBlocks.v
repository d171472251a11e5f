(** Specification: what the account blocks and options of pizauth.conf mean
    (pizauth.conf.5), in terms of the syntax trees of SpecGrammar.v.
    Independent of config.rs's way of collecting them. *)
From Verif Require Import Base Url Oracles ConfigLex ConfigParse Config SpecConfig SpecGrammar SpecLex.
Local Open Scope Z_scope.

(** The duration, in nanoseconds, a time such as [90m] stands for; there is
    none if the number of seconds does not fit 64 bits. *)
Definition time_value (t : str) (d : Z) : Prop :=
  exists s n c u, t = s ++ [c] /\ decimal s n /\ time_unit c u
    /\ n * u < 2 ^ 64 /\ d = n * u * 10 ^ 9.

(** * Account blocks *)

Definition field_name (f : field) : str :=
  match f with
  | FAuthUri _ => $"auth_uri"
  | FAuthUriFields _ => $"auth_uri_fields"
  | FClientId _ => $"client_id"
  | FClientSecret _ => $"client_secret"
  | FLoginHint _ => $"login_hint"
  | FRedirectUri _ => $"redirect_uri"
  | FRefreshAtLeast _ => $"refresh_at_least"
  | FRefreshBeforeExpiry _ => $"refresh_before_expiry"
  | FRefreshRetry _ => $"refresh_retry"
  | FScopes _ => $"scopes"
  | FTokenUri _ => $"token_uri"
  end.

(** An optional entry [K t] of [l]: if present, [t] means the value. *)
Definition optional {E T V} (K : T -> E) (means : T -> V -> Prop) (l : list E) (o : option V) : Prop :=
  match o with
  | Some v => exists t, In (K t) l /\ means t v
  | None => ~ exists t, In (K t) l
  end.

(** The same with a default. *)
Definition default {E T V} (K : T -> E) (means : T -> V -> Prop) (d : V) (l : list E) (v : V) : Prop :=
  (exists t, In (K t) l /\ means t v) \/ ((~ exists t, In (K t) l) /\ v = d).

Definition quoted (t v : str) : Prop := t = quote_string v.
Definition quoted_list (t v : list str) : Prop := t = map quote_string v.
Definition quoted_pairs (t v : list (str * str)) : Prop :=
  t = map (fun kv => (quote_string (fst kv), quote_string (snd kv))) v.
Definition quoted_uri (O : oracles) (t v : str) : Prop := t = quote_string v /\ http_uri O v.

(** What the block [fs] says about the account. *)
Record block_means (O : oracles) (name : str) (fs : list field) (act : account) : Prop := {
  bm_once : NoDup (map field_name fs);
  bm_name : a_name act = name;
  bm_auth_uri : In (FAuthUri (quote_string (a_auth_uri act))) fs /\ http_uri O (a_auth_uri act);
  bm_client_id : In (FClientId (quote_string (a_client_id act))) fs;
  bm_token_uri : In (FTokenUri (quote_string (a_token_uri act))) fs /\ http_uri O (a_token_uri act);
  bm_secret : optional FClientSecret quoted fs (a_client_secret act);
  bm_redirect : default FRedirectUri (quoted_uri O) $"http://localhost/" fs (a_redirect_uri act);
  bm_at_least : optional FRefreshAtLeast time_value fs (a_refresh_at_least act);
  bm_before : optional FRefreshBeforeExpiry time_value fs (a_refresh_before_expiry act);
  bm_retry : optional FRefreshRetry time_value fs (a_refresh_retry act);
  bm_scopes : default FScopes quoted_list [] fs (a_scopes act);
  bm_uri_fields : default FAuthUriFields quoted_pairs [] fs (a_auth_uri_fields act);
  bm_no_clash : ~ ((exists t, In (FLoginHint t) fs)
                   /\ exists v, In ($"login_hint", v) (a_auth_uri_fields act));
}.

(** * The whole file *)

(** The option a top-level entry sets; account blocks set none. *)
Definition option_names (t : toplevel) : list str :=
  match t with
  | TLAccount _ _ => []
  | TLAuthErrorCmd => [$"auth_error_cmd"]
  | TLAuthNotifyCmd _ => [$"auth_notify_cmd"]
  | TLAuthNotifyInterval _ => [$"auth_notify_interval"]
  | TLErrorNotifyCmd _ => [$"error_notify_cmd"]
  | TLHttpListen _ | TLHttpListenNone => [$"http_listen"]
  | TLHttpsListen _ | TLHttpsListenNone => [$"https_listen"]
  | TLTransientErrorIfCmd _ => [$"transient_error_if_cmd"]
  | TLRefreshAtLeast _ => [$"refresh_at_least"]
  | TLRefreshBeforeExpiry _ => [$"refresh_before_expiry"]
  | TLRefreshRetry _ => [$"refresh_retry"]
  | TLTokenEventCmd _ => [$"token_event_cmd"]
  end.

(** An address to listen on: written out, [none], or the default. *)
Definition listen_means (K : str -> toplevel) (none : toplevel) (ts : list toplevel) (o : option str) : Prop :=
  match o with
  | None => In none ts
  | Some a => In (K (quote_string a)) ts
              \/ (~ (exists s, In (K s) ts) /\ ~ In none ts /\ a = $"127.0.0.1:0")
  end.

(** The block for [name] that counts: the last one. *)
Definition last_block (name : str) (ts : list toplevel) (fs : list field) : Prop :=
  exists before after, ts = before ++ TLAccount (quote_string name) fs :: after
    /\ ~ exists fs', In (TLAccount (quote_string name) fs') after.

Record config_means (O : oracles) (ts : list toplevel) (c : config) : Prop := {
  cm_no_old_name : ~ In TLAuthErrorCmd ts;
  cm_once : NoDup (flat_map option_names ts);
  cm_blocks : forall n fs, In (TLAccount n fs) ts ->
    exists name act, n = quote_string name /\ block_means O name fs act;
  cm_unique : NoDup (map fst (c_accounts c));
  cm_accounts : forall name act, In (name, act) (c_accounts c) <->
    exists fs, last_block name ts fs /\ block_means O name fs act;
  cm_some_account : exists n fs, In (TLAccount n fs) ts;
  cm_auth_notify_cmd : optional TLAuthNotifyCmd quoted ts (c_auth_notify_cmd c);
  cm_auth_notify_interval :
    default TLAuthNotifyInterval time_value (15 * 60 * 10 ^ 9) ts (c_auth_notify_interval c);
  cm_error_notify_cmd : optional TLErrorNotifyCmd quoted ts (c_error_notify_cmd c);
  cm_http_listen : listen_means TLHttpListen TLHttpListenNone ts (c_http_listen c);
  cm_https_listen : listen_means TLHttpsListen TLHttpsListenNone ts (c_https_listen c);
  cm_some_listen : ~ (c_http_listen c = None /\ c_https_listen c = None);
  cm_transient : optional TLTransientErrorIfCmd quoted ts (c_transient_error_if_cmd c);
  cm_at_least : optional TLRefreshAtLeast time_value ts (c_refresh_at_least c);
  cm_before : optional TLRefreshBeforeExpiry time_value ts (c_refresh_before_expiry c);
  cm_retry : optional TLRefreshRetry time_value ts (c_refresh_retry c);
  cm_token_event_cmd : optional TLTokenEventCmd quoted ts (c_token_event_cmd c);
  (* what is checked about redirect URIs, literally *)
  cm_redirects : forall name act, In (name, act) (c_accounts c) ->
    (forall r, a_redirect_uri act = $"https" ++ r -> c_https_listen c <> None)
    /\ (forall r, a_redirect_uri act = $"http" ++ r -> (forall r', r <> $"s" ++ r') -> c_http_listen c <> None);
}.

(** The names, as written, of the account blocks. *)
Definition block_names (t : toplevel) : list str :=
  match t with TLAccount n _ => [n] | _ => [] end.

(** What a text says: its lexemes form a sentence of the grammar and the
    resulting tree means [c]. *)
Definition reads_as (O : oracles) (s : str) (c : config) : Prop :=
  exists toks tree, lexes s toks /\ g_toplevels toks tree /\ config_means O tree c.
