(** Who gets to see the client secrets of the configuration.  [s] replaces every
    client secret by another one, distinct ones by distinct ones.  A server whose
    accounts have the other secrets does the same things: what the outside sees
    agrees, but for the form field [client_secret] posted to the token URI, the
    configuration itself, and the (encrypted) dumps that leave and come back. *)
From Verif Require Import Base Time Utf8 Base64 Url Json Oracles ConfigLex ConfigParse Config Located Dump State Http Timers Server.

Section Swap.
Variable s : str -> str.

Definition swap_account (a : account) : account :=
  mkAccount (a_name a) (a_auth_uri a) (a_auth_uri_fields a) (a_client_id a) (option_map s (a_client_secret a))
    (a_redirect_uri a) (a_refresh_at_least a) (a_refresh_before_expiry a) (a_refresh_retry a) (a_scopes a)
    (a_token_uri a).

Definition swap_config (c : config) : config :=
  mkConfig (map (fun p => (fst p, swap_account (snd p))) (c_accounts c))
    (c_auth_notify_cmd c) (c_auth_notify_interval c) (c_error_notify_cmd c) (c_http_listen c) (c_https_listen c)
    (c_transient_error_if_cmd c) (c_refresh_at_least c) (c_refresh_before_expiry c) (c_refresh_retry c)
    (c_token_event_cmd c).

Definition swap_locked (lk : locked) : locked :=
  mkLocked (account_count lk) (swap_config (lconfig lk)) (details lk).

Definition swap_pair (p : str * str) : str * str :=
  if str_eqb (fst p) $"client_secret" then (fst p, s (snd p)) else p.

Definition swap_obs (o : obs) : obs :=
  match o with
  | OConfig c => OConfig (swap_config c)
  | OPost uri pairs r => OPost uri (map swap_pair pairs) r
  | _ => o
  end.

Fixpoint swap_pc (p : pc) : pc :=
  match p with
  | PDo (AEmit o) k => PDo (AEmit (swap_obs o)) (swap_pc k)
  | PDo a k => PDo a (swap_pc k)
  | PRefPost i n r uri pairs => PRefPost i n r uri (map swap_pair pairs)
  | PHttpPost i uri pairs k => PHttpPost i uri (map swap_pair pairs) k
  | _ => p
  end.

(** The dump of an account holds its client secret. *)
Definition swap_account_dump (d : account_dump) : account_dump :=
  mkAdump (ad_auth_uri d) (ad_auth_uri_fields d) (ad_client_id d) (option_map s (ad_client_secret d))
    (ad_redirect_uri d) (ad_scopes d) (ad_token_uri d).

Definition swap_dump (d : dump) : dump :=
  mkDump (d_version d) (map (fun p => (fst p, (swap_account_dump (fst (snd p)), snd (snd p)))) (d_accounts d)).

End Swap.

(** Dumps are encrypted: what is answered to [dump] and what is given to
    [restore] is not compared. *)
Definition hide_req (req : str) : str := if starts_with $"restore:" req then $"restore:" else req.

Definition hide_obs (o : obs) : obs :=
  match o with
  | OClient req => OClient (hide_req req)
  | OReply req txt => if str_eqb req $"dump:" then OReply req [] else OReply (hide_req req) txt
  | _ => o
  end.

Fixpoint hide_pc (p : pc) : pc :=
  match p with
  | PDo (AEmit o) k => PDo (AEmit (hide_obs o)) (hide_pc k)
  | PDo a k => PDo a (hide_pc k)
  | _ => p
  end.

(** The second server: everything as in the first, with the other secrets. *)
Definition other_clients (s : str -> str) (w1 w2 : world) : Prop :=
  w_lk w2 = swap_locked s (w_lk w1)
  /\ w_http w2 = w_http w1 /\ w_https w2 = w_https w1 /\ w_pubkey w2 = w_pubkey w1
  /\ w_evq w2 = w_evq w1 /\ w_ev w2 = w_ev w1 /\ w_nt w2 = w_nt w1 /\ w_rf w2 = w_rf w1
  /\ map hide_pc (w_threads w2) = map hide_pc (map (swap_pc s) (w_threads w1))
  /\ w_alive w2 = w_alive w1
  /\ map hide_obs (w_trace w2) = map hide_obs (map (swap_obs s) (w_trace w1)).

(** What its clients send: the same requests.  To [restore], it is given a dump
    with the other secrets (or, as the first, something that is no dump). *)
Definition other_dump (s : str -> str) (O : oracles) (b1 b2 : str) : Prop :=
  (List.length b2 <? nonce_len)%nat = (List.length b1 <? nonce_len)%nat
  /\ match o_decrypt O (firstn nonce_len b1) (skipn nonce_len b1),
           o_decrypt O (firstn nonce_len b2) (skipn nonce_len b2) with
     | Some p1, Some p2 => deserialize p2 = option_map (swap_dump s) (deserialize p1)
     | None, None => True
     | _, _ => False
     end.

Definition other_request (s : str -> str) (O : oracles) (r1 r2 : option str) : Prop :=
  (r1 = r2 /\ forall req, r1 = Some req -> starts_with $"restore:" req = false)
  \/ exists b1 b2, r1 = Some ($"restore:" ++ b1) /\ r2 = Some ($"restore:" ++ b2) /\ other_dump s O b1 b2.

(** What its configuration file says: the same, with the other secrets; or it is
    refused with the same text. *)
Definition other_config (s : str -> str) (c1 c2 : outcome config) : Prop :=
  match c1 with
  | Val c => c2 = Val (swap_config s c)
  | _ => c2 = c1
  end.

Record other_env (s : str -> str) (O : oracles) (e1 e2 : env) : Prop := {
  oe_clk : e_clk e1 = e_clk e2;
  oe_state : e_state_bytes e1 = e_state_bytes e2;
  oe_verifier : e_verifier_bytes e1 = e_verifier_bytes e2;
  oe_nonce : e_nonce e1 = e_nonce e2;
  oe_client : other_request s O (e_client e1) (e_client e2);
  oe_file : other_config s (config_from_path O e1) (config_from_path O e2);
  oe_hash : e_hash e1 = e_hash e2;
  oe_idhash : e_idhash e1 = e_idhash e2;
  oe_post : e_post e1 = e_post e2;
  oe_cmd : e_cmd_ok e1 = e_cmd_ok e2;
  oe_wake : e_wake e1 = e_wake e2;
}.

Inductive other_label (s : str -> str) (O : oracles) : label -> label -> Prop :=
| ol_tick tid e1 e2 : other_env s O e1 e2 -> other_label s O (LTick tid e1) (LTick tid e2)
| ol_conn https bytes : other_label s O (LHttpConn https bytes) (LHttpConn https bytes).

(** Distinct secrets stay distinct. *)
Definition one_to_one (s : str -> str) : Prop := forall x y, s x = s y -> x = y.

(** A configuration file with other client secrets: read as the same settings and
    the same accounts with the same fields in the same places, but for the value
    of [client_secret]. *)
Definition other_field (s : str -> str) (f g : field) : Prop :=
  match f with
  | FClientSecret x => exists y, g = FClientSecret y /\ unescape_str y = s (unescape_str x)
  | _ => g = f
  end.

Definition other_top (s : str -> str) (t u : located) : Prop :=
  Forall2 (fun f g => other_field s (fst f) (fst g)) (lt_fields t) (lt_fields u)
  /\ match lt_top t with
     | TLAccount n _ => exists fs, lt_top u = TLAccount n fs
     | x => lt_top u = x
     end.

Definition other_file (s : str -> str) (t1 t2 : str) : Prop :=
  exists ls1 ls2 ts1 ts2,
    lexemes t1 = Some ls1 /\ lexemes t2 = Some ls2
    /\ l_toplevels (List.length ls1) ls1 = Some ts1 /\ l_toplevels (List.length ls2) ls2 = Some ts2
    /\ Forall2 (other_top s) ts1 ts2.
