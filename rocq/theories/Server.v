(** The running server as a labelled transition system: every mutex-protected
    critical section and every external interaction of every thread is one
    step.  Covers /repo/src/server/mod.rs (request loop), http_server.rs
    (callback handling), refresher.rs, notifier.rs, eventer.rs and
    request_token.rs. *)
From Verif Require Import Base Time Utf8 Base64 Url Json Oracles Config Located Dump State Http Timers.

(** * Events and observations *)

(** eventer.rs:20-36 *)
Inductive token_event := EvInvalidated | EvNew | EvRefresh | EvRevoked.

(** eventer.rs:27-36. *)
Definition event_name (e : token_event) : str :=
  match e with
  | EvInvalidated => $"token_invalidated"
  | EvNew => $"token_new"
  | EvRefresh => $"token_refreshed"
  | EvRevoked => $"token_revoked"
  end.

(** What a [ureq] POST can end in (http_server.rs:159-184,
    refresher.rs:252-293). *)
Inductive transport := TrConnectionFailed | TrDns | TrIo | TrOther.

(** What [send_form] and [into_string] give: http_server.rs:159-184,
    refresher.rs:252-293. *)
Inductive post_result :=
| PRBody (body : str)
| PRBodyErr (e : str)
| PRStatus (code : N) (body : option str)
| PRTransport (k : transport) (e : str).

(** What the outside world can see.
    Each is written where the code does it, see the functions below (mod.rs:79-302,
    http_server.rs:37-246, refresher.rs:57-371, notifier.rs:30-170, eventer.rs:53-120). *)
Inductive obs :=
| OConfig (c : config)                  (* a configuration was put in force *)
| OClient (req : str)                   (* a client request was read *)
| OReply (req reply : str)              (* ... and answered *)
| OShutdown
| OHttpIn (https : bool) (bytes : str)  (* a browser request came in *)
| OHttpResp (bytes : str)               (* ... was answered *)
| OAuthUrl (name : str) (u : url)       (* an authorisation URL was issued *)
| OPost (uri : str) (pairs : list (str * str)) (r : post_result)
| OAuthCmd (cmd name url : str)         (* auth_notify_cmd started *)
| OErrCmd (cmd name msg : str)          (* error_notify_cmd started *)
| OErrLog (name msg : str)              (* ... or logged instead *)
| OTransientCmd (cmd name : str) (ok : bool)  (* transient_error_if_cmd ended *)
| OEvent (name : str) (ev : token_event)      (* a token event was queued *)
| OEventCmd (cmd name : str) (ev : token_event) (* token_event_cmd started *)
| OEventCmdEnd.

(** * Environment: the inputs of one step.
    (mod.rs:81, 126, request_token.rs:24, 28, state.rs:117, http_server.rs:159,
    refresher.rs:252, 108, and every [Instant::now()].) *)
Record env := mkEnv {
  e_clk : nat -> reads;           (* clock readings taken in this step *)
  e_state_bytes : str;            (* random bytes: OAuth state *)
  e_verifier_bytes : str;         (* random bytes: code verifier *)
  e_nonce : str;                  (* random bytes: dump nonce *)
  e_client : option str;          (* request bytes of the next client *)
  e_file : option str;            (* contents of the configuration file *)
  e_hash : str -> N;              (* hash map orders *)
  e_idhash : N -> N;
  e_post : post_result;           (* what the POST ends in *)
  e_cmd_ok : bool;                (* did transient_error_if_cmd succeed? *)
  e_wake : bool;                  (* timeout or spurious wakeup? *)
}.

(** The first [Instant::now()] of a step. (e.g. http_server.rs:221) *)
Definition env_now (e : env) : Z := ri1 (e_clk e 0).

(** * Threads *)

(** Steps outside the central mutex. *)
Inductive action :=
| ASigNotifier                    (* notifier.rs:116-120 *)
| ASigRefresher                   (* refresher.rs:435-439 *)
| APushEvent (name : str) (ev : token_event)   (* eventer.rs:116 *)
| ASigEventer                     (* eventer.rs:117-119 *)
| ASpawnRefresh (i : account_id)  (* refresher.rs:57-59, [thread::spawn] *)
| AEmit (o : obs)
| AHalt.                          (* mod.rs:246, SIGTERM *)

(** Where a thread stands (mod.rs:79-302, 398-403; http_server.rs:38-278; refresher.rs:57-330,
    447-487; eventer.rs:54-110; notifier.rs:34-112). *)
Inductive pc :=
| PDone
| PDo (a : action) (k : pc)
(* mod.rs:398: waiting for a client *)
| PMain
(* refresher.rs:57-165, a spawned refresh *)
| PRefStart (i : account_id)
| PRefPost (i : account_id) (name rtok uri : str) (pairs : list (str * str))
| PRefBody (i : account_id) (name rtok body : str)
| PRefGot (i : account_id) (name tok : str) (expires_in : Z) (rtok : option str) (now : Z)
| PRefPerm (i : account_id) (name msg : str)
| PRefTransient (i : account_id) (name msg : str)
| PRefCmd (i : account_id) (name cmd : str)
| PRefCmdDone (i : account_id) (name : str) (ok : bool)
(* http_server.rs:38-246, a browser connection *)
| PHttpStart (https : bool) (bytes : str)
| PHttpPost (i : account_id) (uri : str) (pairs : list (str * str)) (tries : nat)
| PHttpBody (i : account_id) (body : str)
| PHttpFail (i : account_id) (msg : str)
| PHttpNotify (name msg : str) (was_active : bool)
(* eventer.rs:53-113 *)
| PEvTop | PEvBlocked | PEvPop
| PEvCmd (name : str) (ev : token_event)
| PEvRun (cmd name : str) (ev : token_event)
| PEvRunning
(* notifier.rs:30-114 *)
| PNtTop | PNtCheck (nw : option Z) | PNtBlocked (nw : option Z) | PNtScan
(* refresher.rs:442-489 *)
| PRfTop | PRfCheck (nw : option Z) | PRfBlocked (nw : option Z) | PRfScan.

(** A mutex-protected predicate with its condition variable and its single
    possible waiter.  [cv_waiting] is true while the thread is blocked in
    [wait]/[wait_timeout] and has not been notified.
    (eventer.rs:39-40, notifier.rs:18-19, refresher.rs:45-46) *)
Record cv := mkCv { cv_pred : bool; cv_waiting : bool }.

(** [*lk = true; condvar.notify_one()]
    (eventer.rs:117-119, notifier.rs:117-119, refresher.rs:436-438) *)
Definition cv_notify : cv := mkCv true false.

(** [AuthenticatorState] (state.rs:44-58) without the path of the configuration,
    [Eventer] (eventer.rs:38-42), [Notifier] (notifier.rs:17-20), [Refresher]
    (refresher.rs:44-47), the threads, and what has been seen from outside. *)
Record world := mkWorld {
  w_lk : locked;
  w_http : option N;
  w_https : option N;
  w_pubkey : option str;
  w_evq : list (str * token_event);
  w_ev : cv;
  w_nt : cv;
  w_rf : cv;
  w_threads : list pc;
  w_alive : bool;
  w_trace : list obs;
}.

(** Thread [tid] takes its next step, or a browser connects (http_server.rs:390,
    449) and its thread is started. *)
Inductive label :=
| LTick (tid : nat) (e : env)
| LHttpConn (https : bool) (bytes : str).

(** What comes of a step. *)
Inductive sres :=
| SStuck                (* this thread cannot take a step like this now *)
| SPanic
| SNext (w : world).

(** Result of a critical section: new state, continuation, observations.
    (From [ct_lock()], state.rs:90, to [drop(ct_lk)].) *)
Definition cs := outcome (locked * pc * list obs).

(** * Requesting a token: request_token.rs:11-66 *)

(** request_token.rs:38-52. *)
Definition auth_params (act : account) (challenge redirect_uri state : str) : list (str * str) :=
  [($"access_type", $"offline");
   ($"code_challenge", challenge);
   ($"code_challenge_method", $"S256");
   ($"client_id", a_client_id act);
   ($"redirect_uri", redirect_uri);
   ($"response_type", $"code");
   ($"state", state)]
  ++ (match a_scopes act with
      | [] => []
      | _ => [($"scope", join $" " (a_scopes act))]
      end)
  ++ a_auth_uri_fields act.

(** request_token.rs:11-66, up to [notify_changes]. *)
Definition request_token (O : oracles) (e : env) (http https : option N) (lk : locked)
    (i : account_id) : outcome (locked * url) :=
  ts <- ct_tokenstate lk i ;;
  match ts with
  | TSActive _ => Panic
  | _ =>
      act <- ct_account lk i ;;
      let state := b64_encode (e_state_bytes e) in
      let code_verifier := b64_encode (e_verifier_bytes e) in
      let code_challenge := b64_encode (o_sha256 O code_verifier) in
      ru <- account_redirect_uri O act http https ;;
      let params := auth_params act code_challenge (url_to_str ru) state in
      base <- ok_or $"invalid auth URI" (o_url_parse O (a_auth_uri act)) ;;
      let u := extend_pairs base params in
      '(lk', _) <- tokenstate_replace lk i (TSPending code_verifier None state u) ;;
      Val (lk', u)
  end.

(** * Client requests: mod.rs:79-302 *)

(** [stream.write_all(..)?] and back to [incoming()], e.g. mod.rs:122-123, 398. *)
Definition reply (req s : str) : pc := PDo (AEmit (OReply req s)) PMain.

(** mod.rs:306-322 *)
Definition instant_fmt (O : oracles) (r : reads) (i : Z) : outcome str :=
  let now := ri1 r in
  let unknown := Val $"<unknown time>" in
  if (i <? now)%Z then
    match duration_since now i with
    | Some d => match checked_sub (rs1 r) d with Some st => unwrap (o_fmt_time O st) | None => unknown end
    | None => unknown
    end
  else
    match duration_since i now with
    | Some d => match checked_add (rs1 r) d with Some st => unwrap (o_fmt_time O st) | None => unknown end
    | None => unknown
    end.

(** mod.rs:254-288; the three clock rounds of one account. *)
Definition status_text (O : oracles) (r1 r2 r3 : reads) (ts : tokenstate) : outcome str :=
  match ts with
  | TSEmpty => Val $"No access token"
  | TSPending _ (Some i) _ _ =>
      t <- instant_fmt O r1 i ;;
      Val ($"Access token pending authentication (last notification " ++ t ++ $")")
  | TSPending _ None _ _ => Val $"Access token pending authentication"
  | TSActive a =>
      if (ri1 r1 <? expiry a)%Z then
        t1 <- instant_fmt O r2 (obtained a) ;;
        t2 <- instant_fmt O r3 (expiry a) ;;
        Val ($"Active access token (obtained " ++ t1 ++ $"; expires " ++ t2 ++ $")")
      else
        match last_attempt a with
        | Some i =>
            t <- instant_fmt O r2 i ;;
            Val ($"Access token expired (last refresh attempt " ++ t ++ $")")
        | None => Val $"Access token expired (refresh not yet attempted)"
        end
  end.

(** mod.rs:252-290 *)
Fixpoint status_lines (O : oracles) (lk : locked) (clk : nat -> reads) (j : nat)
    (ids : list account_id) : outcome (list str) :=
  match ids with
  | [] => Val []
  | i :: ids' =>
      act <- ct_account lk i ;;
      ts <- ct_tokenstate lk i ;;
      txt <- status_text O (clk (3 * j)) (clk (3 * j + 1)) (clk (3 * j + 2)) ts ;;
      l <- status_lines O lk clk (S j) ids' ;;
      Val ((a_name act ++ $": " ++ txt) :: l)
  end.

(** [str] ordering and [Vec::sort] (mod.rs:291). *)
Fixpoint str_leb (a b : str) : bool :=
  match a, b with
  | [], _ => true
  | _ :: _, [] => false
  | x :: a', y :: b' =>
      let n := N_of_ascii x in
      let m := N_of_ascii y in
      if (n <? m)%N then true else if (m <? n)%N then false else str_leb a' b'
  end.

(** For the next one. (mod.rs:291) *)
Fixpoint sort_insert (x : str) (l : list str) : list str :=
  match l with
  | [] => [x]
  | y :: l' => if str_leb x y then x :: l else y :: sort_insert x l'
  end.

(** [acts.sort()], mod.rs:291. *)
Fixpoint str_sort (l : list str) : list str :=
  match l with
  | [] => []
  | x :: l' => sort_insert x (str_sort l')
  end.

(** mod.rs:103-124: [json!(m).to_string()], keys sorted, nothing to escape. *)
Definition opt_port (p : option N) : str :=
  match p with Some x => dec_of_N x | None => $"none" end.

(** A JSON string, mod.rs:122; ports and hexadecimal keys need no escapes. *)
Definition quoted (s : str) : str := dquote :: s ++ [dquote].

(** mod.rs:104-122; the keys come out sorted, as [serde_json::Map] is a [BTreeMap]. *)
Definition info_reply (w : world) : str :=
  $"{" ++ quoted $"http_port" ++ $":" ++ quoted (opt_port (w_http w))
  ++ $"," ++ quoted $"https_port" ++ $":" ++ quoted (opt_port (w_https w))
  ++ (match w_pubkey w with
      | Some k => $"," ++ quoted $"https_pub_key" ++ $":" ++ quoted k
      | None => []
      end) ++ $"}".

(** config.rs:50-56; the path and the operating system's reason are left out of
    the error text. *)
Definition config_from_path (O : oracles) (e : env) : outcome config :=
  match e_file e with
  | None => Err $"Can't read configuration"
  | Some s =>
      if utf8_valid s then from_str O (e_hash e) s
      else Err $"Can't read configuration"
  end.

(** mod.rs:143, 188, 201. *)
Definition no_account (n : str) : str := $"error:No account '" ++ n ++ $"'".

(** [str::from_utf8(..)?], mod.rs:95, 136, 173, 194. *)
Definition from_utf8 (s : str) : outcome str :=
  if utf8_valid s then Val s else Err (utf8_error s).

(** mod.rs:150-154, 208-212, 215-219. *)
Definition pending_reply (with_url : str) (u : url) : str :=
  if str_eqb with_url $"withurl" then $"pending:" ++ url_to_str u else $"pending:".

(** mod.rs:148-155 and 206-213: request a token and answer with its URL. *)
Definition request_and_reply (O : oracles) (e : env) (w : world) (req with_url name : str)
    (i : account_id) : cs :=
  '(lk', u) <- request_token O e (w_http w) (w_https w) (w_lk w) i ;;
  Val (lk', PDo ASigNotifier (reply req (pending_reply with_url u)), [OAuthUrl name u]).

(** mod.rs:135-164 *)
Definition req_refresh (O : oracles) (e : env) (w : world) (req rest : str) : cs :=
  let lk := w_lk w in
  rest' <- from_utf8 rest ;;
  match split_first " "%char rest' with
  | None => Err $"Invalid command"
  | Some (with_url, act_name) =>
      match validate_act_name lk act_name with
      | None => Val (lk, reply req (no_account act_name), [])
      | Some i =>
          ts <- ct_tokenstate lk i ;;
          match ts with
          | TSEmpty | TSPending _ _ _ _ => request_and_reply O e w req with_url act_name i
          | TSActive _ => Val (lk, PDo (ASpawnRefresh i) (reply req $"scheduled:"), [])
          end
      end
  end.

(** mod.rs:193-244 *)
Definition req_showtoken (O : oracles) (e : env) (w : world) (req rest : str) : cs :=
  let lk := w_lk w in
  rest' <- from_utf8 rest ;;
  match split_first " "%char rest' with
  | None => Err $"Invalid command"
  | Some (with_url, act_name) =>
      match validate_act_name lk act_name with
      | None => Val (lk, reply req (no_account act_name), [])
      | Some i =>
          ts <- ct_tokenstate lk i ;;
          match ts with
          | TSEmpty => request_and_reply O e w req with_url act_name i
          | TSPending _ _ _ u => Val (lk, reply req (pending_reply with_url u), [])
          | TSActive a =>
              if (env_now e <? expiry a)%Z then
                Val (lk, reply req ($"access_token:" ++ access_token a), [])
              else if ongoing a then
                Val (lk, reply req $"error:Access token has expired. Refreshing is in progress but has not yet succeeded", [])
              else
                Val (lk, PDo (ASpawnRefresh i)
                           (reply req $"error:Access token has expired. Refreshing initiated"), [])
          end
      end
  end.

(** mod.rs:172-192 *)
Definition req_revoke (w : world) (req rest : str) : cs :=
  let lk := w_lk w in
  act_name <- from_utf8 rest ;;
  match validate_act_name lk act_name with
  | Some i =>
      '(lk', _) <- tokenstate_replace lk i TSEmpty ;;
      Val (lk', PDo (APushEvent act_name EvRevoked) (PDo ASigEventer (reply req $"ok:")), [])
  | None => Val (lk, reply req (no_account act_name), [])
  end.

(** mod.rs:125-134 and state.rs:97-104 *)
Definition req_reload (O : oracles) (e : env) (w : world) (req : str) : cs :=
  match config_from_path O e with
  | Val c =>
      lk' <- update_conf (w_lk w) c ;;
      Val (lk', PDo ASigNotifier (PDo ASigRefresher (reply req $"ok:")), [OConfig c])
  | Err m => Val (w_lk w, reply req ($"error:" ++ m), [])
  | Panic => Panic
  end.

(** mod.rs:165-171 and state.rs:127-144 *)
Definition req_restore (O : oracles) (e : env) (w : world) (req rest : str) : cs :=
  match auth_restore O (w_lk w) rest (e_clk e) (e_hash e) with
  | Val lk' => Val (lk', PDo ASigNotifier (PDo ASigRefresher (reply req $"ok:")), [])
  | Err m => Val (w_lk w, reply req ($"error:" ++ m), [])
  | Panic => Panic
  end.

(** mod.rs:249-298 *)
Definition req_status (O : oracles) (e : env) (w : world) (req : str) : cs :=
  acts <- status_lines O (w_lk w) (e_clk e) 0 (act_ids (w_lk w)) ;;
  Val (w_lk w,
       reply req (match str_sort acts with
                  | [] => $"error:No accounts configured"
                  | l => $"ok:" ++ join [nl] l
                  end), []).

(** mod.rs:98-301: dispatch.  A command with unexpected arguments, or an
    unknown one, is answered with an error (mod.rs:299). *)
Definition dispatch (O : oracles) (e : env) (w : world) (req cmd rest : str) : cs :=
  let empty := match rest with [] => true | _ => false end in
  if str_eqb cmd $"dump" && empty then
    d <- auth_dump O (w_lk w) (e_clk e) (e_hash e) (e_nonce e) ;;
    Val (w_lk w, reply req d, [])
  else if str_eqb cmd $"info" && empty then Val (w_lk w, reply req (info_reply w), [])
  else if str_eqb cmd $"reload" && empty then req_reload O e w req
  else if str_eqb cmd $"refresh" then req_refresh O e w req rest
  else if str_eqb cmd $"restore" then req_restore O e w req rest
  else if str_eqb cmd $"revoke" then req_revoke w req rest
  else if str_eqb cmd $"showtoken" then req_showtoken O e w req rest
  else if str_eqb cmd $"shutdown" && empty then Val (w_lk w, PDo AHalt PMain, [])
  else if str_eqb cmd $"status" && empty then req_status O e w req
  else Val (w_lk w, reply req ($"error:Unknown command '" ++ cmd ++ $"'"), []).

(** mod.rs:79-96 *)
Definition request (O : oracles) (e : env) (w : world) (req : str) : cs :=
  match split_first ":"%char req with
  | None =>
      Err ($"Syntactically invalid request '"
           ++ (if utf8_valid req then req else $"<can't represent as UTF-8") ++ $"'")
  | Some (cmd, rest) =>
      cmd' <- from_utf8 cmd ;;
      dispatch O e w req cmd' rest
  end.

(** * Refresh threads: refresher.rs:57-165, 211-371 *)

(** refresher.rs:241-249. *)
Definition refresh_pairs (act : account) (rtok : str) : list (str * str) :=
  [($"client_id", a_client_id act); ($"refresh_token", rtok);
   ($"grant_type", $"refresh_token")]
  ++ (match a_client_secret act with Some x => [($"client_secret", x)] | None => [] end).

(** [*ongoing_refresh = b], refresher.rs:69, state.rs:377. *)
Definition set_ongoing (a : active) (b : bool) : active :=
  mkActive (access_token a) (obtained a) (expiry a) (refresh_token a) b (fails a) (last_attempt a).

(** [*last_refresh_attempt], [*consecutive_refresh_fails], refresher.rs:95-96, 225. *)
Definition set_attempt (a : active) (t : option Z) (f : N) : active :=
  mkActive (access_token a) (obtained a) (expiry a) (refresh_token a) (ongoing a) f t.

(** refresher.rs:60-71 then 217-251, all under one lock. *)
Definition ref_start (e : env) (lk : locked) (i : account_id) : cs :=
  if is_act_id_valid lk i then
    ts <- ct_tokenstate lk i ;;
    match ts with
    | TSActive a =>
        if ongoing a then Val (lk, PDone, [])
        else
          '(lk1, i1) <- tokenstate_replace lk i (TSActive (set_ongoing a true)) ;;
          act1 <- ct_account lk1 i1 ;;
          let name := a_name act1 in
          ts1 <- ct_tokenstate lk1 i1 ;;
          match ts1 with
          | TSActive a1 =>
              match refresh_token a1 with
              | Some r =>
                  '(lk2, i2) <- tokenstate_replace lk1 i1
                                  (TSActive (set_attempt a1 (Some (env_now e)) (fails a1))) ;;
                  act <- ct_account lk2 i2 ;;
                  Val (lk2, PRefPost i2 name r (a_token_uri act) (refresh_pairs act r), [])
              | None =>
                  '(lk2, _) <- tokenstate_replace lk1 i1 TSEmpty ;;
                  Val (lk2, PDone, [])
              end
          | _ => Panic
          end
    | _ => Val (lk, PDone, [])
    end
  else Val (lk, PDone, []).

(** http_server.rs:176-179, refresher.rs:265-268. *)
Definition status_reason (code : N) (body : option str) : str :=
  match body with
  | Some r => dec_of_N code ++ $": " ++ r
  | None => dec_of_N code
  end.

(** refresher.rs:277-280. *)
Definition is_transient (k : transport) : bool :=
  match k with TrOther => false | _ => true end.

(** refresher.rs:252-293: what to do next, by outcome of the POST. *)
Definition ref_post_next (i : account_id) (name rtok : str) (r : post_result) : pc :=
  match r with
  | PRBody s => PRefBody i name rtok s
  | PRBodyErr m => PRefTransient i name m
  | PRStatus code body => PRefPerm i name (status_reason code body)
  | PRTransport k m => if is_transient k then PRefTransient i name m else PRefPerm i name m
  end.

(** refresher.rs:295-334 (no shared state involved): [now] is read before the
    lock is taken. *)
Definition ref_body_next (O : oracles) (e : env) (i : account_id) (name rtok body : str) : pc :=
  match o_json O body with
  | inr m => PRefPerm i name ($"Refreshing " ++ name ++ $" failed: " ++ m)
  | inl v =>
      match json_str $"error" v with
      | Some m => PRefPerm i name ($"Refreshing " ++ name ++ $" failed: " ++ m)
      | None =>
          match json_str $"access_token" v, json_u64 $"expires_in" v, json_str $"token_type" v with
          | Some tok, Some ex, Some ty =>
              if str_eqb ty $"Bearer" then
                let rt := match json_get $"refresh_token" v with
                          | None => Some rtok
                          | Some (JStr x) => Some x
                          | Some _ => None
                          end in
                PRefGot i name tok ex rt (env_now e)
              else PRefPerm i name $"Received JSON in unexpected format"
          | _, _, _ => PRefPerm i name $"Received JSON in unexpected format"
          end
      end
  end.

(** refresher.rs:78-79, 129-134: queue an event. *)
Definition push_event (name : str) (ev : token_event) (k : pc) : pc :=
  PDo (APushEvent name ev) (PDo ASigEventer k).

(** refresher.rs:269-275, 285-291, 298-306, 311-318, 362-368 and 75-80. *)
Definition ref_perm (lk : locked) (i : account_id) (name : str) : cs :=
  if is_act_id_valid lk i then
    '(lk', i') <- tokenstate_replace lk i TSEmpty ;;
    _ <- ct_account lk' i' ;;
    Val (lk', push_event name EvInvalidated PDone, [])
  else Val (lk, PDone, []).

(** refresher.rs:334-359 and 81-84. *)
Definition ref_got (lk : locked) (i : account_id) (name tok : str) (expires_in : Z)
    (rtok : option str) (now : Z) : cs :=
  if is_act_id_valid lk i then
    match expiry_instant lk i now expires_in with
    | Val ex =>
        '(lk', _) <- tokenstate_replace lk i
                       (TSActive (mkActive tok now ex rtok false 0 None)) ;;
        Val (lk', PDo ASigRefresher (push_event name EvRefresh PDone), [])
    | Err _ =>
        '(lk', _) <- tokenstate_replace lk i TSEmpty ;;
        Val (lk', push_event name EvInvalidated PDone, [])
    | Panic => Panic
    end
  else Val (lk, PDone, []).

(** refresher.rs:25 *)
Definition transient_error_retries : N := 6.

(** refresher.rs:85-158 up to running the command. *)
Definition ref_transient (e : env) (lk : locked) (i : account_id) (name : str) : cs :=
  if is_act_id_valid lk i then
    ts <- ct_tokenstate lk i ;;
    match ts with
    | TSActive a =>
        let f := N.succ (fails a) in
        '(lk1, i1) <- tokenstate_replace lk i (TSActive (set_attempt a (Some (env_now e)) f)) ;;
        if (f mod transient_error_retries =? 0)%N then
          match c_transient_error_if_cmd (lconfig lk1) with
          | Some cmd => Val (lk1, PRefCmd i1 name cmd, [])
          | None =>
              '(lk2, _) <- tokenstate_set_ongoing_refresh lk1 i1 false ;;
              Val (lk2, PDo ASigRefresher PDone, [])
          end
        else
          '(lk2, _) <- tokenstate_set_ongoing_refresh lk1 i1 false ;;
          Val (lk2, PDo ASigRefresher PDone, [])
    | _ => Panic
    end
  else Val (lk, PDo ASigRefresher PDone, []).

(** refresher.rs:112-136, 158. *)
Definition ref_cmd_done (lk : locked) (i : account_id) (name : str) (ok : bool) : cs :=
  if ok then
    if is_act_id_valid lk i then
      '(lk', _) <- tokenstate_set_ongoing_refresh lk i false ;;
      Val (lk', PDo ASigRefresher PDone, [])
    else Val (lk, PDo ASigRefresher PDone, [])
  else
    if is_act_id_valid lk i then
      '(lk', _) <- tokenstate_replace lk i TSEmpty ;;
      Val (lk', push_event name EvInvalidated (PDo ASigRefresher PDone), [])
    else Val (lk, push_event name EvInvalidated (PDo ASigRefresher PDone), []).

(** * Browser callbacks: http_server.rs:38-278 *)

(** [http_200], [http_400], [http_404]: errors of [write_all] are ignored
    (http_server.rs:358-372). *)
Definition respond (s : str) (k : pc) : pc := PDo (AEmit (OHttpResp s)) k.

(** [query_pairs().find(..)], http_server.rs:60, 96, 111. *)
Definition find_pair (k : str) (l : list (str * str)) : option str := lookup k l.

(** [host_str() != host_str()], http_server.rs:86. *)
Definition opt_str_eqb := opt_eqb str_eqb.
(** [port() != port()], http_server.rs:87. *)
Definition opt_N_eqb := opt_eqb N.eqb.

(** http_server.rs:28 *)
Definition retry_post : nat := 10.

(** http_server.rs:133-143. *)
Definition code_pairs (act : account) (code verifier redirect_uri : str) : list (str * str) :=
  [($"code", code); ($"client_id", a_client_id act); ($"code_verifier", verifier);
   ($"redirect_uri", redirect_uri); ($"grant_type", $"authorization_code")]
  ++ (match a_client_secret act with Some x => [($"client_secret", x)] | None => [] end).

(** http_server.rs:75. *)
Definition msg_no_pending : str := $"No pending token matches request state: request a fresh token".
(** http_server.rs:151. *)
Definition msg_processing : str := $"pizauth processing authentication: you can safely close this page.".

(** http_server.rs:48-152.  Reading the request involves no shared state, so it
    is merged with the critical section that follows it. *)
Definition http_start (O : oracles) (w : world) (https : bool) (bytes : str) : cs :=
  let lk := w_lk w in
  match parse_get O https bytes with
  | None => Val (lk, respond http_400 PDone, [])
  | Some uri =>
      let qs := query_pairs uri in
      match find_pair $"state" qs with
      | None => Val (lk, respond http_404 PDone, [])
      | Some state =>
          match act_id_matching_token_state lk state with
          | None => Val (lk, respond (http_200 msg_no_pending) PDone, [])
          | Some i =>
              act <- ct_account lk i ;;
              expected <- account_redirect_uri O act (w_http w) (w_https w) ;;
              if negb (str_eqb (u_scheme expected) (u_scheme uri)
                       && opt_str_eqb (u_host expected) (u_host uri)
                       && opt_N_eqb (u_port expected) (u_port uri))
              then Val (lk, respond http_404 PDone, [])
              else
                match find_pair $"error" qs with
                | Some reason =>
                    '(lk', i') <- tokenstate_replace lk i TSEmpty ;;
                    act' <- ct_account lk' i' ;;
                    Val (lk', respond http_400
                                (PHttpNotify (a_name act')
                                   ($"Authentication for " ++ a_name act' ++ $" failed: " ++ reason)
                                   false), [])
                | None =>
                    match find_pair $"code" qs with
                    | None => Val (lk, respond http_400 PDone, [])
                    | Some code =>
                        ts <- ct_tokenstate lk i ;;
                        match ts with
                        | TSPending verifier _ _ _ =>
                            Val (lk, respond (http_200 msg_processing)
                                       (PHttpPost i (a_token_uri act)
                                          (code_pairs act code verifier (url_to_str expected))
                                          retry_post), [])
                        | _ => Panic
                        end
                    end
                end
          end
      end
  end.

(** http_server.rs:157-193: [tries] attempts are left. *)
Definition http_post_next (i : account_id) (uri : str) (pairs : list (str * str)) (tries : nat)
    (r : post_result) : pc :=
  match r with
  | PRBody s => PHttpBody i s
  | PRBodyErr m => PHttpFail i m
  | PRStatus code body => PHttpFail i (status_reason code body)
  | PRTransport _ _ =>
      match tries with
      | S (S n) => PHttpPost i uri pairs (S n)
      | _ => PHttpFail i ($"couldn't connect to " ++ uri)
      end
  end.

(** http_server.rs:195-244 *)
Definition http_body (O : oracles) (e : env) (lk : locked) (i : account_id) (body : str) : cs :=
  match o_json O body with
  | inr m => Val (lk, PHttpFail i ($"Invalid JSON: " ++ m), [])
  | inl v =>
      if is_act_id_valid lk i then
        match json_str $"error" v with
        | Some m => Val (lk, PHttpFail i m, [])
        | None =>
            match json_str $"token_type" v, json_u64 $"expires_in" v, json_str $"access_token" v with
            | Some ty, Some expires_in, Some tok =>
                if str_eqb ty $"Bearer" then
                  let now := env_now e in
                  ex <- expiry_instant lk i now expires_in ;;
                  act <- ct_account lk i ;;
                  '(lk', _) <- tokenstate_replace lk i
                                 (TSActive (mkActive tok now ex (json_str $"refresh_token" v) false 0 None)) ;;
                  Val (lk', PDo ASigRefresher (push_event (a_name act) EvNew PDone), [])
                else Val (lk, PHttpFail i $"invalid response received", [])
            | _, _, _ => Val (lk, PHttpFail i $"invalid response received", [])
            end
        end
      else Val (lk, PDone, [])
  end.

(** http_server.rs:251-267 *)
Definition http_fail (lk : locked) (i : account_id) (msg : str) : cs :=
  if is_act_id_valid lk i then
    ts <- ct_tokenstate lk i ;;
    let was_active := match ts with TSActive _ => true | _ => false end in
    '(lk', i') <- tokenstate_replace lk i TSEmpty ;;
    act <- ct_account lk' i' ;;
    Val (lk', PHttpNotify (a_name act)
                ($"Authentication for " ++ a_name act ++ $" failed: " ++ msg) was_active, [])
  else Val (lk, PDone, []).

(** notifier.rs:136-170 and http_server.rs:268-276, 106 *)
Definition http_notify (lk : locked) (name msg : str) (was_active : bool) : cs :=
  let k := if was_active then push_event name EvInvalidated PDone else PDone in
  match c_error_notify_cmd (lconfig lk) with
  | Some cmd => Val (lk, k, [OErrCmd cmd name msg])
  | None => Val (lk, k, [OErrLog name msg])
  end.

(** * Notifier: notifier.rs:57-85 *)

(** notifier.rs:57-84: the loop. *)
Fixpoint notify_scan (lk : locked) (now : Z) (ids : list account_id)
    : outcome (locked * list (str * str * url)) :=
  match ids with
  | [] => Val (lk, [])
  | i :: ids' =>
      ts <- ct_tokenstate lk i ;;
      match ts with
      | TSPending cvr ln st u =>
          let wait := match ln with
                      | Some t =>
                          match checked_add t (c_auth_notify_interval (lconfig lk)) with
                          | Some t' => (now <? t')%Z
                          | None => false
                          end
                      | None => false
                      end in
          if wait then notify_scan lk now ids'
          else
            act <- ct_account lk i ;;
            let cmds := match c_auth_notify_cmd (lconfig lk) with
                        | Some cmd => [(a_name act, cmd, u)]
                        | None => []
                        end in
            '(lk', _) <- tokenstate_replace lk i (TSPending cvr (Some now) st u) ;;
            '(lk'', l) <- notify_scan lk' now ids' ;;
            Val (lk'', cmds ++ l)
      | _ => notify_scan lk now ids'
      end
  end.

(** notifier.rs:87-110: the threads are started in turn; their commands are run
    at once here. *)
Fixpoint emit_cmds (l : list (str * str * url)) (k : pc) : pc :=
  match l with
  | [] => k
  | (name, cmd, u) :: l' => PDo (AEmit (OAuthCmd cmd name (url_to_str u))) (emit_cmds l' k)
  end.

(** notifier.rs:57-110 *)
Definition nt_scan (e : env) (lk : locked) : cs :=
  '(lk', cmds) <- notify_scan lk (env_now e) (act_ids lk) ;;
  Val (lk', emit_cmds cmds PNtTop, []).

(** * Refresher: refresher.rs:471-486 *)

(** refresher.rs:473-481; the clock is read for each account ([refresh_at]). *)
Fixpoint due_ids (lk : locked) (clk : nat -> reads) (j : nat) (ids : list account_id)
    : outcome (list account_id) :=
  match ids with
  | [] => Val []
  | i :: ids' =>
      t <- refresh_at lk (ri1 (clk j)) i ;;
      l <- due_ids lk clk (S j) ids' ;;
      Val (match t with
           | Some t' => if (t' <=? ri1 (clk 0%nat))%Z then i :: l else l
           | None => l
           end)
  end.

(** refresher.rs:484-486. *)
Fixpoint spawn_all (ids : list account_id) (k : pc) : pc :=
  match ids with
  | [] => k
  | i :: ids' => PDo (ASpawnRefresh i) (spawn_all ids' k)
  end.

(** refresher.rs:471-486. *)
Definition rf_scan (e : env) (lk : locked) : cs :=
  ids <- due_ids lk (e_clk e) 1 (act_ids lk) ;;
  Val (lk, spawn_all (hsort (e_idhash e) ids) PRfTop, []).

(** * Steps *)

(** The fields of [world] one by one: where a thread stands, ... *)
Definition set_thread (w : world) (tid : nat) (p : pc) : world :=
  mkWorld (w_lk w) (w_http w) (w_https w) (w_pubkey w) (w_evq w) (w_ev w) (w_nt w) (w_rf w)
    (list_set tid p (w_threads w)) (w_alive w) (w_trace w).

(** ... the state under the lock (state.rs:48), ... *)
Definition set_lk (w : world) (lk : locked) : world :=
  mkWorld lk (w_http w) (w_https w) (w_pubkey w) (w_evq w) (w_ev w) (w_nt w) (w_rf w)
    (w_threads w) (w_alive w) (w_trace w).

(** ... what has been seen from outside, ... *)
Definition emit (w : world) (os : list obs) : world :=
  mkWorld (w_lk w) (w_http w) (w_https w) (w_pubkey w) (w_evq w) (w_ev w) (w_nt w) (w_rf w)
    (w_threads w) (w_alive w) (w_trace w ++ os).

(** ... a new thread ([thread::spawn], refresher.rs:59, http_server.rs:392, 459),
    ... *)
Definition add_thread (w : world) (p : pc) : world :=
  mkWorld (w_lk w) (w_http w) (w_https w) (w_pubkey w) (w_evq w) (w_ev w) (w_nt w) (w_rf w)
    (w_threads w ++ [p]) (w_alive w) (w_trace w).

(** ... the event queue (eventer.rs:41), ... *)
Definition set_evq (w : world) (q : list (str * token_event)) : world :=
  mkWorld (w_lk w) (w_http w) (w_https w) (w_pubkey w) q (w_ev w) (w_nt w) (w_rf w)
    (w_threads w) (w_alive w) (w_trace w).

(** ... the condition variables of the eventer (eventer.rs:39-40), ... *)
Definition set_ev (w : world) (c : cv) : world :=
  mkWorld (w_lk w) (w_http w) (w_https w) (w_pubkey w) (w_evq w) c (w_nt w) (w_rf w)
    (w_threads w) (w_alive w) (w_trace w).

(** ... the notifier (notifier.rs:18-19), ... *)
Definition set_nt (w : world) (c : cv) : world :=
  mkWorld (w_lk w) (w_http w) (w_https w) (w_pubkey w) (w_evq w) (w_ev w) c (w_rf w)
    (w_threads w) (w_alive w) (w_trace w).

(** ... and the refresher (refresher.rs:45-46), ... *)
Definition set_rf (w : world) (c : cv) : world :=
  mkWorld (w_lk w) (w_http w) (w_https w) (w_pubkey w) (w_evq w) (w_ev w) (w_nt w) c
    (w_threads w) (w_alive w) (w_trace w).

(** ... and the end (mod.rs:246). *)
Definition halt (w : world) : world :=
  mkWorld (w_lk w) (w_http w) (w_https w) (w_pubkey w) (w_evq w) (w_ev w) (w_nt w) (w_rf w)
    (w_threads w) false (w_trace w ++ [OShutdown]).

(** The effect of an action apart from the thread's own continuation.
    (eventer.rs:115-120, notifier.rs:116-120, refresher.rs:57-59, 435-439) *)
Definition do_action (w : world) (a : action) : world :=
  match a with
  | ASigNotifier => set_nt w cv_notify
  | ASigRefresher => set_rf w cv_notify
  | APushEvent n ev => emit (set_evq w (w_evq w ++ [(n, ev)])) [OEvent n ev]
  | ASigEventer => set_ev w cv_notify
  | ASpawnRefresh i => add_thread w (PRefStart i)
  | AEmit o => emit w [o]
  | AHalt => halt w
  end.

(** Run a critical section in thread [tid].  [fallback] is where the thread goes
    if the function returns [Err] (which is logged, and leaves the state as it
    was: every [?] in the code precedes the first change of state).
    (state.rs:90-92; the errors: mod.rs:400-402, http_server.rs:393-395, 462-464.) *)
Definition run_cs (w : world) (tid : nat) (fallback : pc) (c : cs) : sres :=
  match c with
  | Val (lk, p, os) => SNext (emit (set_thread (set_lk w lk) tid p) os)
  | Err _ => SNext (set_thread w tid fallback)
  | Panic => SPanic
  end.

(** The test at the top of [while !pred] (refresher.rs:450-466,
    notifier.rs:37-53): go on, or block. *)
Definition wait_or_go (e : env) (c : cv) (nw : option Z) : bool :=
  cv_pred c
  || match nw with
     | Some t => (t <? env_now e)%Z
     | None => false
     end.

(** One step of a thread that stands at [p]; the places in the code are at the
    cases. *)
Definition step_thread (O : oracles) (w : world) (tid : nat) (p : pc) (e : env) : sres :=
  match p with
  | PDone => SStuck
  | PDo a k => SNext (do_action (set_thread w tid k) a)
  | PMain =>
      match e_client e with
      | None => SStuck
      | Some req => run_cs (emit w [OClient req]) tid PMain (request O e w req)
      end
  | PRefStart i => run_cs w tid PDone (ref_start e (w_lk w) i)
  | PRefPost i name rtok uri pairs =>
      SNext (emit (set_thread w tid (ref_post_next i name rtok (e_post e)))
               [OPost uri pairs (e_post e)])
  | PRefBody i name rtok body =>
      SNext (set_thread w tid (ref_body_next O e i name rtok body))
  | PRefGot i name tok ex rt now => run_cs w tid PDone (ref_got (w_lk w) i name tok ex rt now)
  | PRefPerm i name _ => run_cs w tid PDone (ref_perm (w_lk w) i name)
  | PRefTransient i name _ => run_cs w tid PDone (ref_transient e (w_lk w) i name)
  | PRefCmd i name cmd =>
      SNext (emit (set_thread w tid (PRefCmdDone i name (e_cmd_ok e)))
               [OTransientCmd cmd name (e_cmd_ok e)])
  | PRefCmdDone i name ok => run_cs w tid PDone (ref_cmd_done (w_lk w) i name ok)
  | PHttpStart https bytes => run_cs w tid PDone (http_start O w https bytes)
  | PHttpPost i uri pairs tries =>
      SNext (emit (set_thread w tid (http_post_next i uri pairs tries (e_post e)))
               [OPost uri pairs (e_post e)])
  | PHttpBody i body => run_cs w tid PDone (http_body O e (w_lk w) i body)
  | PHttpFail i msg => run_cs w tid PDone (http_fail (w_lk w) i msg)
  | PHttpNotify name msg was_active => run_cs w tid PDone (http_notify (w_lk w) name msg was_active)
  (* eventer.rs:55-60 *)
  | PEvTop =>
      if cv_pred (w_ev w) then SNext (set_ev (set_thread w tid PEvPop) (mkCv false false))
      else SNext (set_ev (set_thread w tid PEvBlocked) (mkCv false true))
  | PEvBlocked =>
      if negb (cv_waiting (w_ev w)) || e_wake e
      then SNext (set_ev (set_thread w tid PEvTop) (mkCv (cv_pred (w_ev w)) false))
      else SStuck
  (* eventer.rs:63-68 *)
  | PEvPop =>
      match w_evq w with
      | (n, ev) :: q => SNext (set_evq (set_thread w tid (PEvCmd n ev)) q)
      | [] => SNext (set_thread w tid PEvTop)
      end
  (* eventer.rs:69-75 *)
  | PEvCmd n ev =>
      match c_token_event_cmd (lconfig (w_lk w)) with
      | Some cmd => SNext (set_thread w tid (PEvRun cmd n ev))
      | None => SNext (set_thread w tid PEvTop)
      end
  (* eventer.rs:76-108 *)
  | PEvRun cmd n ev => SNext (emit (set_thread w tid PEvRunning) [OEventCmd cmd n ev])
  | PEvRunning => SNext (emit (set_thread w tid PEvPop) [OEventCmdEnd])
  (* notifier.rs:35 *)
  | PNtTop =>
      match next_wakeup notify_at (w_lk w) (e_clk e) with
      | Val nw => SNext (set_thread w tid (PNtCheck nw))
      | _ => SPanic
      end
  (* notifier.rs:36-55 *)
  | PNtCheck nw =>
      if wait_or_go e (w_nt w) nw
      then SNext (set_nt (set_thread w tid PNtScan) (mkCv false false))
      else SNext (set_nt (set_thread w tid (PNtBlocked nw)) (mkCv false true))
  | PNtBlocked nw =>
      if negb (cv_waiting (w_nt w)) || e_wake e
      then SNext (set_nt (set_thread w tid (PNtCheck nw)) (mkCv (cv_pred (w_nt w)) false))
      else SStuck
  | PNtScan => run_cs w tid PDone (nt_scan e (w_lk w))
  (* refresher.rs:448 *)
  | PRfTop =>
      match next_wakeup refresh_at (w_lk w) (e_clk e) with
      | Val nw => SNext (set_thread w tid (PRfCheck nw))
      | _ => SPanic
      end
  (* refresher.rs:449-469 *)
  | PRfCheck nw =>
      if wait_or_go e (w_rf w) nw
      then SNext (set_rf (set_thread w tid PRfScan) (mkCv false false))
      else SNext (set_rf (set_thread w tid (PRfBlocked nw)) (mkCv false true))
  | PRfBlocked nw =>
      if negb (cv_waiting (w_rf w)) || e_wake e
      then SNext (set_rf (set_thread w tid (PRfCheck nw)) (mkCv (cv_pred (w_rf w)) false))
      else SStuck
  | PRfScan => run_cs w tid PDone (rf_scan e (w_lk w))
  end.

(** One step of the server (mod.rs:393-403, http_server.rs:390-397, 449-465). *)
Definition step (O : oracles) (w : world) (l : label) : sres :=
  if negb (w_alive w) then SStuck
  else
    match l with
    | LTick tid e =>
        match nth_error (w_threads w) tid with
        | Some p => step_thread O w tid p e
        | None => SStuck
        end
    (* http_server.rs:390-397, 449-465: a connection gets its own thread *)
    | LHttpConn https bytes =>
        if is_some (if https then w_https w else w_http w)
        then SNext (emit (add_thread w (PHttpStart https bytes)) [OHttpIn https bytes])
        else SStuck
    end.

(** mod.rs:367-374: the raw public key in hexadecimal, bytes separated by colons. *)
Definition key_text (key : str) : str :=
  join $":" (map (fun c => [hex_digit (N_of_ascii c / 16); hex_digit (N_of_ascii c mod 16)]) key).

(** mod.rs:353-397: the server after start-up; [hp], [hsp] are the ports the
    operating system assigned, [pubkey] is the raw public key of the generated
    certificate. *)
Definition init_world (c : config) (hp hsp : N) (pubkey : str) : world :=
  mkWorld (locked_new c)
    (match c_http_listen c with Some _ => Some hp | None => None end)
    (match c_https_listen c with Some _ => Some hsp | None => None end)
    (match c_https_listen c with Some _ => Some (key_text pubkey) | None => None end)
    [] (mkCv false false) (mkCv false false) (mkCv false false)
    [PMain; PEvTop; PNtTop; PRfTop] true [OConfig c].

(** The threads of mod.rs:393-395 and the main thread. *)
Definition tid_main : nat := 0.
(** eventer.rs:54 *)
Definition tid_eventer : nat := 1.
(** notifier.rs:34 *)
Definition tid_notifier : nat := 2.
(** refresher.rs:447 *)
Definition tid_refresher : nat := 3.

(** Executing a list of labels; [None] if some label is not enabled. *)
Fixpoint run (O : oracles) (w : world) (ls : list label) : option sres :=
  match ls with
  | [] => Some (SNext w)
  | l :: ls' =>
      match step O w l with
      | SNext w' => run O w' ls'
      | SPanic => Some SPanic
      | SStuck => None
      end
  end.

(** Reachable worlds from any accepted configuration file (main.rs:321-322). *)
Inductive reachable (O : oracles) : world -> Prop :=
| reach_init e c hp hsp pk :
    config_from_path O e = Val c -> reachable O (init_world c hp hsp pk)
| reach_step w l w' : reachable O w -> step O w l = SNext w' -> reachable O w'.
