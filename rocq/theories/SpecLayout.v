(** Specification: how tokens may be laid out in pizauth.conf, and which
    configurations can be written down. *)
From Verif Require Import Base Url Oracles ConfigLex ConfigParse Config SpecConfig SpecLex SpecBlocks.
Local Open Scope list_scope.

Definition white (c : ascii) : Prop := c = " "%char \/ c = tab \/ c = nl \/ c = cr.

(** What may stand in front of a token: white space and comments. *)
Inductive filler : str -> Prop :=
| fl_none : filler []
| fl_white c s : white c -> filler s -> filler (c :: s)
| fl_comment body s : ~ In nl body -> filler s -> filler ($"//" ++ body ++ nl :: s).

(** What may stand at the end: the last comment needs no end of line. *)
Definition last_filler (s : str) : Prop :=
  filler s \/ exists f body, filler f /\ ~ In nl body /\ s = f ++ $"//" ++ body.

(** How a token is spelled. *)
Inductive spelled : token -> str -> Prop :=
| sp_time s : time_lexeme s -> spelled (TkTime s) s
| sp_string v : spelled (TkString (quote_string v)) (quote_string v)
| sp_eq : spelled TkEq $"="
| sp_comma : spelled TkComma $","
| sp_lbrace : spelled TkLBrace $"{"
| sp_rbrace : spelled TkRBrace $"}"
| sp_lbrack : spelled TkLBrack $"["
| sp_rbrack : spelled TkRBrack $"]"
| sp_semi : spelled TkSemi $";"
| sp_colon : spelled TkColon $":"
| sp_kw k s : In (k, s)
    [(KwAccount, $"account"); (KwAuthErrorCmd, $"auth_error_cmd"); (KwAuthNotifyCmd, $"auth_notify_cmd");
     (KwAuthNotifyInterval, $"auth_notify_interval"); (KwAuthUri, $"auth_uri"); (KwAuthUriFields, $"auth_uri_fields");
     (KwClientId, $"client_id"); (KwClientSecret, $"client_secret"); (KwErrorNotifyCmd, $"error_notify_cmd");
     (KwHttpListen, $"http_listen"); (KwHttpsListen, $"https_listen"); (KwLoginHint, $"login_hint");
     (KwNone, $"none"); (KwRefreshRetry, $"refresh_retry"); (KwRedirectUri, $"redirect_uri");
     (KwRefreshBeforeExpiry, $"refresh_before_expiry"); (KwRefreshAtLeast, $"refresh_at_least");
     (KwScopes, $"scopes"); (KwTokenEventCmd, $"token_event_cmd"); (KwTokenUri, $"token_uri");
     (KwTransientErrorIfCmd, $"transient_error_if_cmd")] -> spelled (TkKw k) s.

(** A text that lays out tokens.  One pair of tokens needs something in
    between. *)
Inductive laid_out : list token -> str -> Prop :=
| lo_end f : last_filler f -> laid_out [] f
| lo_token f t text rest ts :
    filler f -> spelled t text -> (text = $"auth_uri" -> forall r, rest <> $"_fields" ++ r) ->
    laid_out ts rest -> laid_out (t :: ts) (f ++ text ++ rest).

(** The tokens that occur in the grammar. *)
Definition proper (t : token) : Prop :=
  match t with TkInt _ | TkUnmatched => False | _ => True end.

(** * Configurations that can be written down *)
Local Open Scope Z_scope.

(** Whole seconds, as many as fit 64 bits. *)
Definition whole_time (v : Z) : Prop := exists n, 0 <= n < 2 ^ 64 /\ v = n * 10 ^ 9.

Definition opt_whole (o : option Z) : Prop := forall v, o = Some v -> whole_time v.

Record writable_account (O : oracles) (name : str) (act : account) : Prop := {
  wa_name : a_name act = name;
  wa_auth_uri : http_uri O (a_auth_uri act);
  wa_token_uri : http_uri O (a_token_uri act);
  wa_redirect : a_redirect_uri act = $"http://localhost/" \/ http_uri O (a_redirect_uri act);
  wa_at_least : opt_whole (a_refresh_at_least act);
  wa_before : opt_whole (a_refresh_before_expiry act);
  wa_retry : opt_whole (a_refresh_retry act);
}.

Record writable_config (O : oracles) (c : config) : Prop := {
  wr_unique : NoDup (map fst (c_accounts c));
  wr_some : c_accounts c <> [];
  wr_account : forall name act, In (name, act) (c_accounts c) -> writable_account O name act;
  wr_interval : whole_time (c_auth_notify_interval c);
  wr_at_least : opt_whole (c_refresh_at_least c);
  wr_before : opt_whole (c_refresh_before_expiry c);
  wr_retry : opt_whole (c_refresh_retry c);
  wr_listen : ~ (c_http_listen c = None /\ c_https_listen c = None);
  wr_redirects : forall name act, In (name, act) (c_accounts c) ->
    (forall r, a_redirect_uri act = $"https" ++ r -> c_https_listen c <> None)
    /\ (forall r, a_redirect_uri act = $"http" ++ r -> (forall r', r <> $"s" ++ r') -> c_http_listen c <> None);
}.
