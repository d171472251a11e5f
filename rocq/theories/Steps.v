(** A relational summary of every critical section: one constructor per way it
    can end, with the facts that hold there.  [CsOk.v] proves that the functions
    of Server.v do nothing else; invariants are then proved by cases on this
    relation. *)
From Verif Require Import Base BaseLemmas Time Utf8 Base64 Url Json Oracles Config Dump State Http
  Timers Server StateLemmas ConfigLemmas.

(** [has lk e]: [e] is an entry of the state. *)
Definition has (lk : locked) (e : entry) : Prop := In e (details lk).

Definition stale (lk : locked) (i : account_id) : Prop := is_act_id_valid lk i = false.

(** Does the notifier act on this entry now? (notifier.rs:60-70) *)
Definition notify_due (lk : locked) (now : Z) (e : entry) : bool :=
  match d_ts e with
  | TSPending _ (Some t) _ _ =>
      match checked_add t (c_auth_notify_interval (lconfig lk)) with
      | Some t' => (t' <=? now)%Z
      | None => true
      end
  | TSPending _ None _ _ => true
  | _ => false
  end.

Definition renotified (now : Z) (ts : tokenstate) : tokenstate :=
  match ts with
  | TSPending cvr _ st u => TSPending cvr (Some now) st u
  | _ => ts
  end.

Definition pending_url (ts : tokenstate) : option url :=
  match ts with TSPending _ _ _ u => Some u | _ => None end.

(** The notifications for one entry. *)
Definition notify_cmds (lk : locked) (now : Z) (e : entry) : list (str * str * url) :=
  if notify_due lk now e then
    match c_auth_notify_cmd (lconfig lk), pending_url (d_ts e) with
    | Some cmd, Some u => [(d_name e, cmd, u)]
    | _, _ => []
    end
  else [].

Definition restored (lk : locked) (d : dump) (clk : nat -> reads) (e e' : entry) : Prop :=
  d_name e' = d_name e
  /\ (e' = e \/ ((account_count lk <= d_id e')%N /\ restorable (lconfig lk) d clk e (d_ts e'))).

Section Steps.
Variable O : oracles.

Inductive csr (w : world) (e : env) : pc -> locked -> pc -> list obs -> Prop :=
(* client requests *)
| m_err req :
    e_client e = Some req ->
    csr w e PMain (w_lk w) PMain [OClient req]
| m_plain req txt :
    e_client e = Some req ->
    (forall rest tok, req = $"showtoken:" ++ rest -> txt <> $"access_token:" ++ tok) ->
    (forall rest, req = $"revoke:" ++ rest -> txt <> $"ok:") ->
    (forall rest, req = $"reload:" ++ rest -> txt <> $"ok:") ->
    csr w e PMain (w_lk w) (reply req txt) [OClient req]
| m_show req wu e0 a :
    e_client e = Some req -> req = $"showtoken:" ++ wu ++ $" " ++ d_name e0 ->
    ~ In " "%char wu ->
    has (w_lk w) e0 -> d_ts e0 = TSActive a -> (env_now e < expiry a)%Z ->
    csr w e PMain (w_lk w) (reply req ($"access_token:" ++ access_token a)) [OClient req]
| m_auth req wu e0 act ru base :
    e_client e = Some req ->
    has (w_lk w) e0 -> is_active (d_ts e0) = false ->
    account_of (w_lk w) (d_name e0) = Some act ->
    account_redirect_uri O act (w_http w) (w_https w) = Val ru ->
    o_url_parse O (a_auth_uri act) = Some base ->
    let st := b64_encode (e_state_bytes e) in
    let cvr := b64_encode (e_verifier_bytes e) in
    let u := extend_pairs base (auth_params act (b64_encode (o_sha256 O cvr)) (url_to_str ru) st) in
    (req = $"refresh:" ++ wu ++ $" " ++ d_name e0
     \/ (req = $"showtoken:" ++ wu ++ $" " ++ d_name e0 /\ d_ts e0 = TSEmpty)) ->
    ~ In " "%char wu ->
    csr w e PMain (bump 0 (w_lk w) (d_id e0) (TSPending cvr None st u))
      (PDo ASigNotifier (reply req (pending_reply wu u))) [OClient req; OAuthUrl (d_name e0) u]
| m_spawn req e0 a txt :
    e_client e = Some req -> has (w_lk w) e0 -> d_ts e0 = TSActive a ->
    (forall tok, txt <> $"access_token:" ++ tok) ->
    (forall rest, req <> $"revoke:" ++ rest) -> (forall rest, req <> $"reload:" ++ rest) ->
    csr w e PMain (w_lk w) (PDo (ASpawnRefresh (d_id e0)) (reply req txt)) [OClient req]
| m_revoke req e0 :
    e_client e = Some req -> req = $"revoke:" ++ d_name e0 -> has (w_lk w) e0 ->
    csr w e PMain (bump 0 (w_lk w) (d_id e0) TSEmpty)
      (PDo (APushEvent (d_name e0) EvRevoked) (PDo ASigEventer (reply req $"ok:"))) [OClient req]
| m_reload req c lk' :
    e_client e = Some req -> req = $"reload:" ->
    config_from_path O e = Val c -> conf_ok O c -> update_conf (w_lk w) c = Val lk' ->
    csr w e PMain lk' (PDo ASigNotifier (PDo ASigRefresher (reply req $"ok:"))) [OClient req; OConfig c]
| m_restore req bytes plain d lk' :
    e_client e = Some req -> req = $"restore:" ++ bytes ->
    o_decrypt O (firstn nonce_len bytes) (skipn nonce_len bytes) = Some plain ->
    deserialize plain = Some d -> d_version d = dump_version ->
    wf lk' -> evolves (w_lk w) lk' -> lconfig lk' = lconfig (w_lk w) ->
    Forall2 (restored (w_lk w) d (e_clk e)) (details (w_lk w)) (details lk') ->
    csr w e PMain lk' (PDo ASigNotifier (PDo ASigRefresher (reply req $"ok:"))) [OClient req]
| m_restore_noop req bytes :
    e_client e = Some req -> req = $"restore:" ++ bytes ->
    csr w e PMain (w_lk w) (PDo ASigNotifier (PDo ASigRefresher (reply req $"ok:"))) [OClient req]
| m_halt req :
    e_client e = Some req ->
    csr w e PMain (w_lk w) (PDo AHalt PMain) [OClient req]
(* a refresh *)
| r_start_skip i :
    (forall e0 a, has (w_lk w) e0 -> d_id e0 = i -> d_ts e0 = TSActive a -> ongoing a = true) ->
    csr w e (PRefStart i) (w_lk w) PDone []
| r_start e0 a act r :
    has (w_lk w) e0 -> d_ts e0 = TSActive a -> ongoing a = false -> refresh_token a = Some r ->
    account_of (w_lk w) (d_name e0) = Some act -> a_name act = d_name e0 ->
    csr w e (PRefStart (d_id e0))
      (bump 1 (w_lk w) (d_id e0)
         (TSActive (set_attempt (set_ongoing a true) (Some (env_now e)) (fails a))))
      (PRefPost (account_count (w_lk w) + 1)%N (d_name e0) r (a_token_uri act) (refresh_pairs act r)) []
| r_start_none e0 a :
    has (w_lk w) e0 -> d_ts e0 = TSActive a -> ongoing a = false -> refresh_token a = None ->
    csr w e (PRefStart (d_id e0)) (bump 1 (w_lk w) (d_id e0) TSEmpty) PDone []
| r_post i name rtok uri pairs :
    csr w e (PRefPost i name rtok uri pairs) (w_lk w)
      (ref_post_next i name rtok (e_post e)) [OPost uri pairs (e_post e)]
| r_body i name rtok body :
    csr w e (PRefBody i name rtok body) (w_lk w) (ref_body_next O e i name rtok body) []
| r_got_stale i name tok ex rt now :
    stale (w_lk w) i -> csr w e (PRefGot i name tok ex rt now) (w_lk w) PDone []
| r_got e0 name tok exs rt now ex :
    has (w_lk w) e0 -> expiry_instant (w_lk w) (d_id e0) now exs = Val ex ->
    csr w e (PRefGot (d_id e0) name tok exs rt now)
      (bump 0 (w_lk w) (d_id e0) (TSActive (mkActive tok now ex rt false 0 None)))
      (PDo ASigRefresher (push_event name EvRefresh PDone)) []
| r_got_bad e0 name tok exs rt now m :
    has (w_lk w) e0 -> expiry_instant (w_lk w) (d_id e0) now exs = Err m ->
    csr w e (PRefGot (d_id e0) name tok exs rt now)
      (bump 0 (w_lk w) (d_id e0) TSEmpty) (push_event name EvInvalidated PDone) []
| r_perm_stale i name msg :
    stale (w_lk w) i -> csr w e (PRefPerm i name msg) (w_lk w) PDone []
| r_perm e0 name msg :
    has (w_lk w) e0 ->
    csr w e (PRefPerm (d_id e0) name msg)
      (bump 0 (w_lk w) (d_id e0) TSEmpty) (push_event name EvInvalidated PDone) []
| r_trans_stale i name msg :
    stale (w_lk w) i ->
    csr w e (PRefTransient i name msg) (w_lk w) (PDo ASigRefresher PDone) []
| r_trans e0 a name msg :
    has (w_lk w) e0 -> d_ts e0 = TSActive a ->
    ~ (exists cmd, c_transient_error_if_cmd (lconfig (w_lk w)) = Some cmd
                   /\ (N.succ (fails a) mod transient_error_retries = 0)%N) ->
    csr w e (PRefTransient (d_id e0) name msg)
      (bump 1 (w_lk w) (d_id e0)
         (TSActive (set_ongoing (set_attempt a (Some (env_now e)) (N.succ (fails a))) false)))
      (PDo ASigRefresher PDone) []
| r_trans_cmd e0 a name msg cmd :
    has (w_lk w) e0 -> d_ts e0 = TSActive a ->
    c_transient_error_if_cmd (lconfig (w_lk w)) = Some cmd ->
    (N.succ (fails a) mod transient_error_retries = 0)%N ->
    csr w e (PRefTransient (d_id e0) name msg)
      (bump 0 (w_lk w) (d_id e0) (TSActive (set_attempt a (Some (env_now e)) (N.succ (fails a)))))
      (PRefCmd (account_count (w_lk w)) name cmd) []
| r_cmd i name cmd :
    csr w e (PRefCmd i name cmd) (w_lk w) (PRefCmdDone i name (e_cmd_ok e))
      [OTransientCmd cmd name (e_cmd_ok e)]
| r_cmd_ok e0 a name :
    has (w_lk w) e0 -> d_ts e0 = TSActive a ->
    csr w e (PRefCmdDone (d_id e0) name true)
      (bump 0 (w_lk w) (d_id e0) (TSActive (set_ongoing a false))) (PDo ASigRefresher PDone) []
| r_cmd_fail e0 name :
    has (w_lk w) e0 ->
    csr w e (PRefCmdDone (d_id e0) name false)
      (bump 0 (w_lk w) (d_id e0) TSEmpty)
      (push_event name EvInvalidated (PDo ASigRefresher PDone)) []
| r_cmd_ok_stale i name :
    stale (w_lk w) i ->
    csr w e (PRefCmdDone i name true) (w_lk w) (PDo ASigRefresher PDone) []
| r_cmd_fail_stale i name :
    stale (w_lk w) i ->
    csr w e (PRefCmdDone i name false) (w_lk w)
      (push_event name EvInvalidated (PDo ASigRefresher PDone)) []
(* a browser connection *)
| h_end https bytes e0 cvr ln st u act m :
    has (w_lk w) e0 -> d_ts e0 = TSPending cvr ln st u -> account_of (w_lk w) (d_name e0) = Some act ->
    account_redirect_uri O act (w_http w) (w_https w) = Err m ->
    csr w e (PHttpStart https bytes) (w_lk w) PDone []
| h_plain https bytes resp :
    In resp [http_400; http_404; http_200 msg_no_pending] ->
    csr w e (PHttpStart https bytes) (w_lk w) (respond resp PDone) []
| h_error https bytes uri e0 cvr ln st u act ru reason :
    parse_get O https bytes = Some uri -> lookup $"state" (query_pairs uri) = Some st ->
    has (w_lk w) e0 -> d_ts e0 = TSPending cvr ln st u ->
    account_of (w_lk w) (d_name e0) = Some act -> a_name act = d_name e0 ->
    account_redirect_uri O act (w_http w) (w_https w) = Val ru ->
    (u_scheme ru = u_scheme uri /\ u_host ru = u_host uri /\ u_port ru = u_port uri) ->
    lookup $"error" (query_pairs uri) = Some reason ->
    csr w e (PHttpStart https bytes) (bump 0 (w_lk w) (d_id e0) TSEmpty)
      (respond http_400
         (PHttpNotify (d_name e0) ($"Authentication for " ++ d_name e0 ++ $" failed: " ++ reason) false)) []
| h_code https bytes uri e0 cvr ln st u act ru code :
    parse_get O https bytes = Some uri -> lookup $"state" (query_pairs uri) = Some st ->
    has (w_lk w) e0 -> d_ts e0 = TSPending cvr ln st u ->
    account_of (w_lk w) (d_name e0) = Some act -> a_name act = d_name e0 ->
    account_redirect_uri O act (w_http w) (w_https w) = Val ru ->
    (u_scheme ru = u_scheme uri /\ u_host ru = u_host uri /\ u_port ru = u_port uri) ->
    lookup $"error" (query_pairs uri) = None ->
    lookup $"code" (query_pairs uri) = Some code ->
    csr w e (PHttpStart https bytes) (w_lk w)
      (respond (http_200 msg_processing)
         (PHttpPost (d_id e0) (a_token_uri act) (code_pairs act code cvr (url_to_str ru)) retry_post)) []
| h_post i uri pairs tries :
    csr w e (PHttpPost i uri pairs tries) (w_lk w)
      (http_post_next i uri pairs tries (e_post e)) [OPost uri pairs (e_post e)]
| h_body_fail i body msg :
    csr w e (PHttpBody i body) (w_lk w) (PHttpFail i msg) []
| h_body_stale i body :
    stale (w_lk w) i -> csr w e (PHttpBody i body) (w_lk w) PDone []
| h_body_expiry e0 body v exs m :
    has (w_lk w) e0 -> o_json O body = inl v -> json_u64 $"expires_in" v = Some exs ->
    expiry_instant (w_lk w) (d_id e0) (env_now e) exs = Err m ->
    csr w e (PHttpBody (d_id e0) body) (w_lk w) PDone []
| h_body_ok e0 body v tok exs ex :
    has (w_lk w) e0 -> o_json O body = inl v ->
    json_str $"error" v = None -> json_str $"token_type" v = Some $"Bearer" ->
    json_str $"access_token" v = Some tok -> json_u64 $"expires_in" v = Some exs ->
    expiry_instant (w_lk w) (d_id e0) (env_now e) exs = Val ex ->
    csr w e (PHttpBody (d_id e0) body)
      (bump 0 (w_lk w) (d_id e0)
         (TSActive (mkActive tok (env_now e) ex (json_str $"refresh_token" v) false 0 None)))
      (PDo ASigRefresher (push_event (d_name e0) EvNew PDone)) []
| h_fail_stale i msg :
    stale (w_lk w) i -> csr w e (PHttpFail i msg) (w_lk w) PDone []
| h_fail e0 msg :
    has (w_lk w) e0 ->
    csr w e (PHttpFail (d_id e0) msg) (bump 0 (w_lk w) (d_id e0) TSEmpty)
      (PHttpNotify (d_name e0) ($"Authentication for " ++ d_name e0 ++ $" failed: " ++ msg)
         (is_active (d_ts e0))) []
| h_notify_cmd name msg wa cmd :
    c_error_notify_cmd (lconfig (w_lk w)) = Some cmd ->
    csr w e (PHttpNotify name msg wa) (w_lk w)
      (if wa then push_event name EvInvalidated PDone else PDone) [OErrCmd cmd name msg]
| h_notify_log name msg wa :
    c_error_notify_cmd (lconfig (w_lk w)) = None ->
    csr w e (PHttpNotify name msg wa) (w_lk w)
      (if wa then push_event name EvInvalidated PDone else PDone) [OErrLog name msg]
(* the eventer *)
| v_pop_cmd n ev cmd :
    c_token_event_cmd (lconfig (w_lk w)) = Some cmd ->
    csr w e (PEvCmd n ev) (w_lk w) (PEvRun cmd n ev) []
| v_pop_nocmd n ev :
    c_token_event_cmd (lconfig (w_lk w)) = None ->
    csr w e (PEvCmd n ev) (w_lk w) PEvTop []
| v_run cmd n ev :
    csr w e (PEvRun cmd n ev) (w_lk w) PEvRunning [OEventCmd cmd n ev]
| v_end :
    csr w e PEvRunning (w_lk w) PEvPop [OEventCmdEnd]
(* the notifier *)
| n_top nw :
    next_wakeup notify_at (w_lk w) (e_clk e) = Val nw ->
    csr w e PNtTop (w_lk w) (PNtCheck nw) []
| n_scan lk' :
    wf lk' -> evolves (w_lk w) lk' -> lconfig lk' = lconfig (w_lk w) ->
    Forall2 (fun e0 e' =>
        if notify_due (w_lk w) (env_now e) e0
        then d_name e' = d_name e0 /\ (account_count (w_lk w) <= d_id e')%N
             /\ d_ts e' = renotified (env_now e) (d_ts e0)
        else e' = e0) (details (w_lk w)) (details lk') ->
    csr w e PNtScan lk'
      (emit_cmds (flat_map (notify_cmds (w_lk w) (env_now e)) (details (w_lk w))) PNtTop) []
(* the refresher *)
| f_top nw :
    next_wakeup refresh_at (w_lk w) (e_clk e) = Val nw ->
    csr w e PRfTop (w_lk w) (PRfCheck nw) []
| f_scan ids :
    NoDup ids ->
    (forall i, In i ids <->
       exists e0 a act j,
         has (w_lk w) e0 /\ d_id e0 = i /\ d_ts e0 = TSActive a
         /\ account_of (w_lk w) (d_name e0) = Some act
         /\ nth_error (details (w_lk w)) j = Some e0
         /\ exists t, refresh_due act (lconfig (w_lk w)) (ri1 (e_clk e (S j))) a = Some t
                      /\ (t <= env_now e)%Z) ->
    csr w e PRfScan (w_lk w) (spawn_all ids PRfTop) [].

(** Steps that touch the mutexes of the background threads. *)
Inductive syn (w : world) (tid : nat) (e : env) : pc -> world -> Prop :=
| s_do a k : syn w tid e (PDo a k) (do_action (set_thread w tid k) a)
| s_ev_go : cv_pred (w_ev w) = true ->
    syn w tid e PEvTop (set_ev (set_thread w tid PEvPop) (mkCv false false))
| s_ev_block : cv_pred (w_ev w) = false ->
    syn w tid e PEvTop (set_ev (set_thread w tid PEvBlocked) (mkCv false true))
| s_ev_wake : cv_waiting (w_ev w) = false \/ e_wake e = true ->
    syn w tid e PEvBlocked (set_ev (set_thread w tid PEvTop) (mkCv (cv_pred (w_ev w)) false))
| s_ev_pop n ev q : w_evq w = (n, ev) :: q ->
    syn w tid e PEvPop (set_evq (set_thread w tid (PEvCmd n ev)) q)
| s_ev_empty : w_evq w = [] -> syn w tid e PEvPop (set_thread w tid PEvTop)
| s_nt_go nw : wait_or_go e (w_nt w) nw = true ->
    syn w tid e (PNtCheck nw) (set_nt (set_thread w tid PNtScan) (mkCv false false))
| s_nt_block nw : wait_or_go e (w_nt w) nw = false ->
    syn w tid e (PNtCheck nw) (set_nt (set_thread w tid (PNtBlocked nw)) (mkCv false true))
| s_nt_wake nw : cv_waiting (w_nt w) = false \/ e_wake e = true ->
    syn w tid e (PNtBlocked nw) (set_nt (set_thread w tid (PNtCheck nw)) (mkCv (cv_pred (w_nt w)) false))
| s_rf_go nw : wait_or_go e (w_rf w) nw = true ->
    syn w tid e (PRfCheck nw) (set_rf (set_thread w tid PRfScan) (mkCv false false))
| s_rf_block nw : wait_or_go e (w_rf w) nw = false ->
    syn w tid e (PRfCheck nw) (set_rf (set_thread w tid (PRfBlocked nw)) (mkCv false true))
| s_rf_wake nw : cv_waiting (w_rf w) = false \/ e_wake e = true ->
    syn w tid e (PRfBlocked nw) (set_rf (set_thread w tid (PRfCheck nw)) (mkCv (cv_pred (w_rf w)) false)).

(** The world after a critical section of thread [tid]. *)
Definition after_cs (w : world) (tid : nat) (lk : locked) (p : pc) (os : list obs) : world :=
  emit (set_thread (set_lk w lk) tid p) os.

(** One step of the server. *)
Inductive tstep (w : world) : label -> world -> Prop :=
| t_cs tid e p lk' p' os :
    nth_error (w_threads w) tid = Some p -> csr w e p lk' p' os ->
    tstep w (LTick tid e) (after_cs w tid lk' p' os)
| t_syn tid (e : env) p w' :
    nth_error (w_threads w) tid = Some p -> syn w tid e p w' -> tstep w (LTick tid e) w'
| t_conn (https : bool) (bytes : str) :
    is_some (if https then w_https w else w_http w) = true ->
    tstep w (LHttpConn https bytes)
      (emit (add_thread w (PHttpStart https bytes)) [OHttpIn https bytes]).

End Steps.
