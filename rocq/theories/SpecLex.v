(** Specification: the lexemes of pizauth.conf, transcribed from
    /repo/src/config.l, and how lrlex splits a text into them. *)
From Verif Require Import Base ConfigLex SpecConfig.

(** A rule says which texts it matches, given what follows, and what becomes of
    them. *)
Record lex_rule := mkRule {
  lr_match : str -> str -> Prop;
  lr_token : str -> option token;
}.

Definition lit (s : str) (t : token) : lex_rule := mkRule (fun text _ => text = s) (fun _ => Some t).

Definition lex_rules : list lex_rule :=
  [mkRule (fun text _ => time_lexeme text) (fun text => Some (TkTime text));
   mkRule (fun text _ => exists n, decimal text n) (fun text => Some (TkInt text));
   mkRule (fun text _ => exists v, text = quote_string v) (fun text => Some (TkString text));
   lit $"=" TkEq; lit $"," TkComma; lit $"{" TkLBrace; lit $"}" TkRBrace;
   lit $"[" TkLBrack; lit $"]" TkRBrack; lit $";" TkSemi; lit $":" TkColon;
   lit $"account" (TkKw KwAccount);
   lit $"auth_error_cmd" (TkKw KwAuthErrorCmd);
   lit $"auth_notify_cmd" (TkKw KwAuthNotifyCmd);
   lit $"auth_notify_interval" (TkKw KwAuthNotifyInterval);
   lit $"auth_uri" (TkKw KwAuthUri);
   lit $"auth_uri_fields" (TkKw KwAuthUriFields);
   lit $"client_id" (TkKw KwClientId);
   lit $"client_secret" (TkKw KwClientSecret);
   lit $"error_notify_cmd" (TkKw KwErrorNotifyCmd);
   lit $"http_listen" (TkKw KwHttpListen);
   lit $"https_listen" (TkKw KwHttpsListen);
   lit $"login_hint" (TkKw KwLoginHint);
   lit $"none" (TkKw KwNone);
   lit $"refresh_retry" (TkKw KwRefreshRetry);
   lit $"redirect_uri" (TkKw KwRedirectUri);
   lit $"refresh_before_expiry" (TkKw KwRefreshBeforeExpiry);
   lit $"refresh_at_least" (TkKw KwRefreshAtLeast);
   lit $"scopes" (TkKw KwScopes);
   lit $"token_event_cmd" (TkKw KwTokenEventCmd);
   lit $"token_uri" (TkKw KwTokenUri);
   lit $"transient_error_if_cmd" (TkKw KwTransientErrorIfCmd);
   (* comments go up to the end of the line *)
   mkRule (fun text rest => exists body, text = $"//" ++ body /\ ~ In nl body
             /\ (rest = [] \/ exists rest', rest = nl :: rest')) (fun _ => None);
   mkRule (fun text _ => Forall (fun c => c = " "%char \/ c = tab \/ c = nl \/ c = cr) text) (fun _ => None);
   mkRule (fun text _ => exists c, text = [c]) (fun _ => Some TkUnmatched)].

(** At each position the longest match is taken, on ties that of the first rule. *)
Inductive lexes : str -> list token -> Prop :=
| lexes_end : lexes [] []
| lexes_more before r after text rest ts :
    lex_rules = before ++ r :: after -> text <> [] -> lr_match r text rest ->
    (forall r' text' rest', In r' lex_rules -> text' ++ rest' = text ++ rest -> lr_match r' text' rest' ->
       List.length text' <= List.length text) ->
    (forall r', In r' before -> ~ lr_match r' text rest) ->
    lexes rest ts ->
    lexes (text ++ rest) (match lr_token r text with Some t => t :: ts | None => ts end).
