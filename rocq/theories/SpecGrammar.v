(** Specification: the grammar of pizauth.conf, transcribed rule by rule from
    /repo/src/config.y, together with the syntax tree each production builds.
    Independent of the parser model (ConfigParse.v), of which it only uses the
    tree types. *)
From Verif Require Import Base ConfigLex ConfigParse.

(** config.y:59-67 *)
Inductive g_scopes : list token -> list str -> Prop :=
| gs_more ts l s : g_scopes ts l -> g_scopes (ts ++ [TkComma; TkString s]) (l ++ [s])
| gs_one s : g_scopes [TkString s] [s]
| gs_none : g_scopes [] [].

(** config.y:49-57 *)
Inductive g_uri_fields : list token -> list (str * str) -> Prop :=
| gu_more ts l k v :
    g_uri_fields ts l ->
    g_uri_fields (ts ++ [TkComma; TkString k; TkColon; TkString v]) (l ++ [(k, v)])
| gu_one k v : g_uri_fields [TkString k; TkColon; TkString v] [(k, v)]
| gu_none : g_uri_fields [] [].

(** config.y:35-47 *)
Inductive g_field : list token -> field -> Prop :=
| gf_auth_uri s : g_field [TkKw KwAuthUri; TkEq; TkString s; TkSemi] (FAuthUri s)
| gf_auth_uri_fields ts l :
    g_uri_fields ts l ->
    g_field ([TkKw KwAuthUriFields; TkEq; TkLBrace] ++ ts ++ [TkRBrace; TkSemi]) (FAuthUriFields l)
| gf_client_id s : g_field [TkKw KwClientId; TkEq; TkString s; TkSemi] (FClientId s)
| gf_client_secret s : g_field [TkKw KwClientSecret; TkEq; TkString s; TkSemi] (FClientSecret s)
| gf_login_hint s : g_field [TkKw KwLoginHint; TkEq; TkString s; TkSemi] (FLoginHint s)
| gf_redirect_uri s : g_field [TkKw KwRedirectUri; TkEq; TkString s; TkSemi] (FRedirectUri s)
| gf_at_least t : g_field [TkKw KwRefreshAtLeast; TkEq; TkTime t; TkSemi] (FRefreshAtLeast t)
| gf_before_expiry t :
    g_field [TkKw KwRefreshBeforeExpiry; TkEq; TkTime t; TkSemi] (FRefreshBeforeExpiry t)
| gf_retry t : g_field [TkKw KwRefreshRetry; TkEq; TkTime t; TkSemi] (FRefreshRetry t)
| gf_scopes ts l :
    g_scopes ts l ->
    g_field ([TkKw KwScopes; TkEq; TkLBrack] ++ ts ++ [TkRBrack; TkSemi]) (FScopes l)
| gf_token_uri s : g_field [TkKw KwTokenUri; TkEq; TkString s; TkSemi] (FTokenUri s).

(** config.y:30-33 *)
Inductive g_fields : list token -> list field -> Prop :=
| gfs_more ts fs ts' f : g_fields ts fs -> g_field ts' f -> g_fields (ts ++ ts') (fs ++ [f])
| gfs_none : g_fields [] [].

(** config.y:13-28 *)
Inductive g_toplevel : list token -> toplevel -> Prop :=
| gt_account n ts fs :
    g_fields ts fs ->
    g_toplevel ([TkKw KwAccount; TkString n; TkLBrace] ++ ts ++ [TkRBrace]) (TLAccount n fs)
| gt_auth_error_cmd s : g_toplevel [TkKw KwAuthErrorCmd; TkEq; TkString s; TkSemi] TLAuthErrorCmd
| gt_auth_notify_cmd s :
    g_toplevel [TkKw KwAuthNotifyCmd; TkEq; TkString s; TkSemi] (TLAuthNotifyCmd s)
| gt_auth_notify_interval t :
    g_toplevel [TkKw KwAuthNotifyInterval; TkEq; TkTime t; TkSemi] (TLAuthNotifyInterval t)
| gt_error_notify_cmd s :
    g_toplevel [TkKw KwErrorNotifyCmd; TkEq; TkString s; TkSemi] (TLErrorNotifyCmd s)
| gt_http_none : g_toplevel [TkKw KwHttpListen; TkEq; TkKw KwNone; TkSemi] TLHttpListenNone
| gt_http s : g_toplevel [TkKw KwHttpListen; TkEq; TkString s; TkSemi] (TLHttpListen s)
| gt_https_none : g_toplevel [TkKw KwHttpsListen; TkEq; TkKw KwNone; TkSemi] TLHttpsListenNone
| gt_https s : g_toplevel [TkKw KwHttpsListen; TkEq; TkString s; TkSemi] (TLHttpsListen s)
| gt_transient s :
    g_toplevel [TkKw KwTransientErrorIfCmd; TkEq; TkString s; TkSemi] (TLTransientErrorIfCmd s)
| gt_at_least t : g_toplevel [TkKw KwRefreshAtLeast; TkEq; TkTime t; TkSemi] (TLRefreshAtLeast t)
| gt_before_expiry t :
    g_toplevel [TkKw KwRefreshBeforeExpiry; TkEq; TkTime t; TkSemi] (TLRefreshBeforeExpiry t)
| gt_retry t : g_toplevel [TkKw KwRefreshRetry; TkEq; TkTime t; TkSemi] (TLRefreshRetry t)
| gt_event_cmd s : g_toplevel [TkKw KwTokenEventCmd; TkEq; TkString s; TkSemi] (TLTokenEventCmd s).

(** config.y:8-11 *)
Inductive g_toplevels : list token -> list toplevel -> Prop :=
| gts_more ts l ts' t :
    g_toplevels ts l -> g_toplevel ts' t -> g_toplevels (ts ++ ts') (l ++ [t])
| gts_none : g_toplevels [] [].
