(** Specification: everything the server keeps and says is text. *)
From Verif Require Import Base Time Utf8 Url Json Oracles Config Dump State Http Server SpecServer SpecDump.

(** [s] is valid UTF-8, as a Rust string has to be. *)
Definition utf8 (s : str) : Prop := utf8_valid s = true.

Definition utf8_pairs (l : list (str * str)) : Prop := Forall (fun kv => utf8 (fst kv) /\ utf8 (snd kv)) l.

Record utf8_account (a : account) : Prop := {
  ua_name : utf8 (a_name a);
  ua_auth_uri : utf8 (a_auth_uri a);
  ua_fields : utf8_pairs (a_auth_uri_fields a);
  ua_client_id : utf8 (a_client_id a);
  ua_secret : opt_all utf8 (a_client_secret a);
  ua_redirect : utf8 (a_redirect_uri a);
  ua_scopes : Forall utf8 (a_scopes a);
  ua_token_uri : utf8 (a_token_uri a);
}.

Record utf8_config (c : config) : Prop := {
  uc_accounts : Forall (fun p => utf8 (fst p) /\ utf8_account (snd p)) (c_accounts c);
  uc_auth_cmd : opt_all utf8 (c_auth_notify_cmd c);
  uc_error_cmd : opt_all utf8 (c_error_notify_cmd c);
  uc_http : opt_all utf8 (c_http_listen c);
  uc_https : opt_all utf8 (c_https_listen c);
  uc_transient_cmd : opt_all utf8 (c_transient_error_if_cmd c);
  uc_event_cmd : opt_all utf8 (c_token_event_cmd c);
}.

Definition utf8_token (ts : tokenstate) : Prop :=
  match ts with
  | TSEmpty => True
  | TSPending cvr _ st u => utf8 cvr /\ utf8 st /\ utf8 (url_to_str u)
  | TSActive a => utf8 (access_token a) /\ opt_all utf8 (refresh_token a)
  end.

(** Everything the server keeps. *)
Definition utf8_state (lk : locked) : Prop :=
  utf8_config (lconfig lk)
  /\ forall e, In e (details lk) -> utf8 (d_name e) /\ utf8_token (d_ts e).

(** The strings in a JSON value. *)
Inductive string_in : str -> json -> Prop :=
| si_here s : string_in s (JStr s)
| si_elem s v l : In v l -> string_in s v -> string_in s (JArr l)
| si_key k v m : In (k, v) m -> string_in k (JObj m)
| si_value s k v m : In (k, v) m -> string_in s v -> string_in s (JObj m).

(** What external code promises: a URL is written in ASCII, the strings in a
    JSON document and error messages about it are strings, and so are times. *)
Record text_laws (O : oracles) : Prop := {
  tl_url : forall s u, o_url_parse O s = Some u -> forallb (between 0 127) (url_to_str u) = true;
  tl_json : forall body v s, utf8 body -> o_json O body = inl v -> string_in s v -> utf8 s;
  tl_json_err : forall body m, utf8 body -> o_json O body = inr m -> utf8 m;
  tl_time : forall t s, o_fmt_time O t = Some s -> utf8 s;
}.

(** What the HTTP client hands over is strings. *)
Definition utf8_post (r : post_result) : Prop :=
  match r with
  | PRBody b => utf8 b
  | PRBodyErr m => utf8 m
  | PRStatus _ b => opt_all utf8 b
  | PRTransport _ m => utf8 m
  end.

Definition utf8_posts (t : list obs) : Prop := forall uri ps r, In (OPost uri ps r) t -> utf8_post r.

(** What the server shows to the outside is text; dumps are not text. *)
Definition utf8_shown (o : obs) : Prop :=
  match o with
  | OConfig c => utf8_config c
  | OReply req s => req = $"dump:" \/ utf8 s
  | OHttpResp s => utf8 s
  | OAuthUrl n u => utf8 n /\ utf8 (url_to_str u)
  | OPost uri ps _ => utf8 uri /\ utf8_pairs ps
  | OAuthCmd cmd n u => utf8 cmd /\ utf8 n /\ utf8 u
  | OErrCmd cmd n m => utf8 cmd /\ utf8 n /\ utf8 m
  | OErrLog n m => utf8 n /\ utf8 m
  | OTransientCmd cmd n _ => utf8 cmd /\ utf8 n
  | OEvent n _ => utf8 n
  | OEventCmd cmd n _ => utf8 cmd /\ utf8 n
  | OClient _ | OShutdown | OHttpIn _ _ | OEventCmdEnd => True
  end.

(** The accounts and strings the server holds fit into memory. *)
Definition short (s : str) : Prop := (N.of_nat (List.length s) < 2 ^ 64)%N.

Record fits (w : world) : Prop := {
  ft_few : few (details (w_lk w));
  ft_names : forall n ts, holds w n ts -> short n;
  ft_accounts : forall n act, configured w n act ->
    short (a_auth_uri act)
    /\ Forall (fun kv => short (fst kv) /\ short (snd kv)) (a_auth_uri_fields act)
    /\ few (a_auth_uri_fields act) /\ short (a_client_id act) /\ opt_all short (a_client_secret act)
    /\ short (a_redirect_uri act) /\ Forall short (a_scopes act) /\ few (a_scopes act)
    /\ short (a_token_uri act);
  ft_tokens : forall n a, holds w n (TSActive a) -> short (access_token a) /\ opt_all short (refresh_token a);
}.
