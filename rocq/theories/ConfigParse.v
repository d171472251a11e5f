(** The configuration grammar /repo/src/config.y, as a recursive descent parser
    building the syntax tree of /repo/src/config_ast.rs (with lexeme texts in
    place of spans).  lrpar generates an LR parser for the same grammar; that
    it accepts exactly the grammar's language is trusted, and that this parser
    does is proved in ConfigParseProofs.v against an inductive grammar. *)
From Verif Require Import Base ConfigLex.

(** config_ast.rs:20-32 *)
Inductive field :=
| FAuthUri (s : str)
| FAuthUriFields (l : list (str * str))
| FClientId (s : str)
| FClientSecret (s : str)
| FLoginHint (s : str)
| FRedirectUri (s : str)
| FRefreshAtLeast (t : str)
| FRefreshBeforeExpiry (t : str)
| FRefreshRetry (t : str)
| FScopes (l : list str)
| FTokenUri (s : str).

(** config_ast.rs:3-18 *)
Inductive toplevel :=
| TLAccount (name : str) (fields : list field)
| TLAuthErrorCmd
| TLAuthNotifyCmd (s : str)
| TLAuthNotifyInterval (t : str)
| TLErrorNotifyCmd (s : str)
| TLHttpListen (s : str)
| TLHttpListenNone
| TLHttpsListen (s : str)
| TLHttpsListenNone
| TLTransientErrorIfCmd (s : str)
| TLRefreshAtLeast (t : str)
| TLRefreshBeforeExpiry (t : str)
| TLRefreshRetry (t : str)
| TLTokenEventCmd (s : str).

(** config.y:59-67 (Scopes), the part behind the optional first element. *)
Fixpoint p_comma_strs (ts : list token) : list str * list token :=
  match ts with
  | TkComma :: TkString s :: ts' =>
      let '(l, r) := p_comma_strs ts' in (s :: l, r)
  | _ => ([], ts)
  end.

(** config.y:59-67, up to the closing bracket. *)
Definition p_scopes (ts : list token) : list str * list token :=
  match ts with
  | TkString s :: ts' => let '(l, r) := p_comma_strs ts' in (s :: l, r)
  | _ => p_comma_strs ts
  end.

(** config.y:49-57 (AuthUriFields). *)
Fixpoint p_comma_pairs (ts : list token) : list (str * str) * list token :=
  match ts with
  | TkComma :: TkString k :: TkColon :: TkString v :: ts' =>
      let '(l, r) := p_comma_pairs ts' in ((k, v) :: l, r)
  | _ => ([], ts)
  end.

(** config.y:49-57, up to the closing brace. *)
Definition p_pairs (ts : list token) : list (str * str) * list token :=
  match ts with
  | TkString k :: TkColon :: TkString v :: ts' =>
      let '(l, r) := p_comma_pairs ts' in ((k, v) :: l, r)
  | _ => p_comma_pairs ts
  end.

(** config.y:35-47 (AccountField). *)
Definition p_field (ts : list token) : option (field * list token) :=
  match ts with
  | TkKw k :: TkEq :: TkString s :: TkSemi :: r =>
      match k with
      | KwAuthUri => Some (FAuthUri s, r)
      | KwClientId => Some (FClientId s, r)
      | KwClientSecret => Some (FClientSecret s, r)
      | KwLoginHint => Some (FLoginHint s, r)
      | KwRedirectUri => Some (FRedirectUri s, r)
      | KwTokenUri => Some (FTokenUri s, r)
      | _ => None
      end
  | TkKw k :: TkEq :: TkTime t :: TkSemi :: r =>
      match k with
      | KwRefreshAtLeast => Some (FRefreshAtLeast t, r)
      | KwRefreshBeforeExpiry => Some (FRefreshBeforeExpiry t, r)
      | KwRefreshRetry => Some (FRefreshRetry t, r)
      | _ => None
      end
  | TkKw KwAuthUriFields :: TkEq :: TkLBrace :: r =>
      match p_pairs r with
      | (l, TkRBrace :: TkSemi :: r') => Some (FAuthUriFields l, r')
      | _ => None
      end
  | TkKw KwScopes :: TkEq :: TkLBrack :: r =>
      match p_scopes r with
      | (l, TkRBrack :: TkSemi :: r') => Some (FScopes l, r')
      | _ => None
      end
  | _ => None
  end.

(** config.y:30-33 (AccountFields) up to and including the closing brace. *)
Fixpoint p_fields (fuel : nat) (ts : list token) : option (list field * list token) :=
  match fuel with
  | O => None
  | S fuel' =>
      match ts with
      | TkRBrace :: r => Some ([], r)
      | _ =>
          match p_field ts with
          | Some (f, r) =>
              match p_fields fuel' r with
              | Some (fs, r') => Some (f :: fs, r')
              | None => None
              end
          | None => None
          end
      end
  end.

(** config.y:13-28 (TopLevel). *)
Definition p_toplevel (ts : list token) : option (toplevel * list token) :=
  match ts with
  | TkKw KwAccount :: TkString n :: TkLBrace :: r =>
      match p_fields (List.length ts) r with
      | Some (fs, r') => Some (TLAccount n fs, r')
      | None => None
      end
  | TkKw k :: TkEq :: TkString s :: TkSemi :: r =>
      match k with
      | KwAuthErrorCmd => Some (TLAuthErrorCmd, r)
      | KwAuthNotifyCmd => Some (TLAuthNotifyCmd s, r)
      | KwErrorNotifyCmd => Some (TLErrorNotifyCmd s, r)
      | KwHttpListen => Some (TLHttpListen s, r)
      | KwHttpsListen => Some (TLHttpsListen s, r)
      | KwTransientErrorIfCmd => Some (TLTransientErrorIfCmd s, r)
      | KwTokenEventCmd => Some (TLTokenEventCmd s, r)
      | _ => None
      end
  | TkKw k :: TkEq :: TkTime t :: TkSemi :: r =>
      match k with
      | KwAuthNotifyInterval => Some (TLAuthNotifyInterval t, r)
      | KwRefreshAtLeast => Some (TLRefreshAtLeast t, r)
      | KwRefreshBeforeExpiry => Some (TLRefreshBeforeExpiry t, r)
      | KwRefreshRetry => Some (TLRefreshRetry t, r)
      | _ => None
      end
  | TkKw k :: TkEq :: TkKw KwNone :: TkSemi :: r =>
      match k with
      | KwHttpListen => Some (TLHttpListenNone, r)
      | KwHttpsListen => Some (TLHttpsListenNone, r)
      | _ => None
      end
  | _ => None
  end.

(** config.y:8-11 (TopLevels). *)
Fixpoint p_toplevels (fuel : nat) (ts : list token) : option (list toplevel) :=
  match ts with
  | [] => Some []
  | _ =>
      match fuel with
      | O => None
      | S fuel' =>
          match p_toplevel ts with
          | Some (t, r) =>
              match p_toplevels fuel' r with
              | Some l => Some (t :: l)
              | None => None
              end
          | None => None
          end
      end
  end.

(** [config_y::parse] (config.rs:61); [None] if it reports errors (config.rs:62-68). *)
Definition parse_tokens (ts : list token) : option (list toplevel) :=
  p_toplevels (List.length ts) ts.
