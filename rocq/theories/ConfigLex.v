(** The configuration lexer: /repo/src/config.l run by lrlex, i.e. at each
    position the rule with the longest match wins, the earliest rule on ties.
    Lexemes carry their text (the code carries spans into the input and reads
    the text back with [span_str]). *)
From Verif Require Import Base.

(** config.l:13-33 *)
Inductive kw :=
| KwAccount | KwAuthErrorCmd | KwAuthNotifyCmd | KwAuthNotifyInterval
| KwAuthUri | KwAuthUriFields | KwClientId | KwClientSecret | KwErrorNotifyCmd
| KwHttpListen | KwHttpsListen | KwLoginHint | KwNone | KwRefreshRetry
| KwRedirectUri | KwRefreshBeforeExpiry | KwRefreshAtLeast | KwScopes
| KwTokenEventCmd | KwTokenUri | KwTransientErrorIfCmd.

(** config.l:13-33. *)
Definition kw_text (k : kw) : str :=
  match k with
  | KwAccount => $"account"
  | KwAuthErrorCmd => $"auth_error_cmd"
  | KwAuthNotifyCmd => $"auth_notify_cmd"
  | KwAuthNotifyInterval => $"auth_notify_interval"
  | KwAuthUri => $"auth_uri"
  | KwAuthUriFields => $"auth_uri_fields"
  | KwClientId => $"client_id"
  | KwClientSecret => $"client_secret"
  | KwErrorNotifyCmd => $"error_notify_cmd"
  | KwHttpListen => $"http_listen"
  | KwHttpsListen => $"https_listen"
  | KwLoginHint => $"login_hint"
  | KwNone => $"none"
  | KwRefreshRetry => $"refresh_retry"
  | KwRedirectUri => $"redirect_uri"
  | KwRefreshBeforeExpiry => $"refresh_before_expiry"
  | KwRefreshAtLeast => $"refresh_at_least"
  | KwScopes => $"scopes"
  | KwTokenEventCmd => $"token_event_cmd"
  | KwTokenUri => $"token_uri"
  | KwTransientErrorIfCmd => $"transient_error_if_cmd"
  end.

(** The names in config.l:2-33, 36 with their lexemes. *)
Inductive token :=
| TkTime (s : str)
| TkInt (s : str)
| TkString (s : str)      (* the lexeme, quotes and escapes included *)
| TkEq | TkComma | TkLBrace | TkRBrace | TkLBrack | TkRBrack | TkSemi | TkColon
| TkKw (k : kw)
| TkUnmatched.

(** [0-9] in config.l:2-3. *)
Definition is_digit (c : ascii) : bool :=
  let n := N_of_ascii c in ((48 <=? n) && (n <=? 57))%N.

(** [dhms] in config.l:2. *)
Definition is_unit (c : ascii) : bool :=
  Ascii.eqb c "d"%char || Ascii.eqb c "h"%char || Ascii.eqb c "m"%char || Ascii.eqb c "s"%char.

(** config.l:35. *)
Definition is_ws (c : ascii) : bool :=
  Ascii.eqb c " "%char || Ascii.eqb c tab || Ascii.eqb c nl || Ascii.eqb c cr.

(** config.l:2  [[0-9]+[dhms]] *)
Definition m_time (s : str) : nat :=
  let d := take_while is_digit s in
  match d, drop_while is_digit s with
  | _ :: _, c :: _ => if is_unit c then S (List.length d) else 0
  | _, _ => 0
  end.

(** config.l:3 *)
Definition m_int (s : str) : nat := List.length (take_while is_digit s).

(** The part of config.l:4 behind the opening quote: bytes up to and including
    the closing quote. *)
Fixpoint scan_string (s : str) : option nat :=
  match s with
  | [] => None
  | c :: s1 =>
      if Ascii.eqb c dquote then Some 1
      else if Ascii.eqb c bslash then
        match s1 with
        | d :: s2 =>
            if Ascii.eqb d dquote || Ascii.eqb d bslash
            then option_map (fun n => S (S n)) (scan_string s2)
            else None
        | [] => None
        end
      else option_map S (scan_string s1)
  end.

(** config.l:4: the opening quote, then [scan_string]. *)
Definition m_string (s : str) : nat :=
  match s with
  | c :: s1 =>
      if Ascii.eqb c dquote
      then match scan_string s1 with Some n => S n | None => 0 end
      else 0
  | [] => 0
  end.

(** The rules that are a fixed text, config.l:5-33. *)
Definition m_lit (p s : str) : nat := if starts_with p s then List.length p else 0.

(** config.l:34, a comment up to the end of the line (multi-line mode). *)
Definition m_comment (s : str) : nat :=
  if starts_with $"//" s
  then List.length (take_while (fun c => negb (Ascii.eqb c nl)) s)
  else 0.

(** config.l:35 *)
Definition m_ws (s : str) : nat := List.length (take_while is_ws s).

(** config.l:36; one byte here where the code takes one character: either way
    what follows is a parse error. *)
Definition m_any (s : str) : nat := match s with [] => 0 | _ => 1 end.

(** The kinds of rules in config.l:2-36. *)
Inductive rule :=
| RTime | RInt | RString | RLit (text : str) (t : token) | RComment | RWs | RAny.

(** How much of [s] a rule matches, 0 if it does not (config.l:2-36). *)
Definition rule_len (r : rule) (s : str) : nat :=
  match r with
  | RTime => m_time s
  | RInt => m_int s
  | RString => m_string s
  | RLit p _ => m_lit p s
  | RComment => m_comment s
  | RWs => m_ws s
  | RAny => m_any s
  end.

(** What becomes of the matched text: a token, or nothing for config.l:34-35. *)
Definition rule_token (r : rule) (text : str) : option token :=
  match r with
  | RTime => Some (TkTime text)
  | RInt => Some (TkInt text)
  | RString => Some (TkString text)
  | RLit _ t => Some t
  | RComment => None
  | RWs => None
  | RAny => Some TkUnmatched
  end.

(** One of config.l:13-33. *)
Definition kw_rule (k : kw) : rule := RLit (kw_text k) (TkKw k).

(** config.l:2-36, in order. *)
Definition rules : list rule :=
  [RTime; RInt; RString;
   RLit $"=" TkEq; RLit $"," TkComma; RLit $"{" TkLBrace; RLit $"}" TkRBrace;
   RLit $"[" TkLBrack; RLit $"]" TkRBrack; RLit $";" TkSemi; RLit $":" TkColon;
   kw_rule KwAccount; kw_rule KwAuthErrorCmd; kw_rule KwAuthNotifyCmd;
   kw_rule KwAuthNotifyInterval; kw_rule KwAuthUri; kw_rule KwAuthUriFields;
   kw_rule KwClientId; kw_rule KwClientSecret; kw_rule KwErrorNotifyCmd;
   kw_rule KwHttpListen; kw_rule KwHttpsListen; kw_rule KwLoginHint;
   kw_rule KwNone; kw_rule KwRefreshRetry; kw_rule KwRedirectUri;
   kw_rule KwRefreshBeforeExpiry; kw_rule KwRefreshAtLeast; kw_rule KwScopes;
   kw_rule KwTokenEventCmd; kw_rule KwTokenUri; kw_rule KwTransientErrorIfCmd;
   RComment; RWs; RAny].

(** lrlex: keep the first rule with a strictly longer match.
    (config.l:2-36, config.rs:59-60) *)
Fixpoint best_match (rs : list rule) (s : str) (len : nat) (r : rule) : nat * rule :=
  match rs with
  | [] => (len, r)
  | r' :: rs' =>
      if len <? rule_len r' s then best_match rs' s (rule_len r' s) r'
      else best_match rs' s len r
  end.

(** Fuel: the length of the input; [None] on exhaustion (never, see proofs).
    (config.l:2-36, config.rs:59-60) *)
Fixpoint lex_fuel (fuel : nat) (s : str) : option (list token) :=
  match s with
  | [] => Some []
  | _ =>
      match fuel with
      | O => None
      | S fuel' =>
          let '(n, r) := best_match rules s 0 RAny in
          match lex_fuel fuel' (skipn n s) with
          | None => None
          | Some ts =>
              match rule_token r (firstn n s) with
              | Some t => Some (t :: ts)
              | None => Some ts
              end
          end
      end
  end.

(** [lexerdef.lexer(input)], config.rs:59-60. *)
Definition lex (s : str) : option (list token) := lex_fuel (List.length s) s.
