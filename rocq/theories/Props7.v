(** C58-C60: what browser requests with a known state do, and authorisations and
    refreshes from the first request to the token. *)
From Verif Require Import Base BaseLemmas Time Utf8 Base64 Url Json Oracles Config Dump State Http Timers Server
  Client SpecServer SpecRestore Reach Complete Scenario Runs Cases.

(** * C58 *)

Theorem C58_code O w tid e https bytes uri n cvr st i ln u act ru code :
  reachable O w -> w_alive w = true -> nth_error (w_threads w) tid = Some (PHttpStart https bytes) ->
  parse_get O https bytes = Some uri -> lookup $"state" (query_pairs uri) = Some st ->
  In (mkEntry n i (TSPending cvr ln st u)) (details (w_lk w)) -> (forall m, awaits w m st -> m = n) ->
  configured w n act -> account_redirect_uri O act (w_http w) (w_https w) = Val ru -> same_origin ru uri ->
  lookup $"error" (query_pairs uri) = None -> lookup $"code" (query_pairs uri) = Some code ->
  exists resp,
    step O w (LTick tid e)
    = SNext (set_thread w tid
        (do_all [AEmit (OHttpResp (http_200 resp))]
           (PHttpPost i (a_token_uri act)
              ([($"code", code); ($"client_id", a_client_id act); ($"code_verifier", cvr);
                ($"redirect_uri", url_to_str ru); ($"grant_type", $"authorization_code")]
               ++ match a_client_secret act with Some x => [($"client_secret", x)] | None => [] end) 10))).
Proof.
  exact (fun R A N P L H U CF RU SO =>
    callback_code O w tid e https bytes uri n cvr st i ln u act ru R A N P L H U CF RU SO code).
Qed.
Print Assumptions C58_code.

Theorem C58_refused O w tid e https bytes uri n cvr st i ln u act ru reason :
  reachable O w -> w_alive w = true -> nth_error (w_threads w) tid = Some (PHttpStart https bytes) ->
  parse_get O https bytes = Some uri -> lookup $"state" (query_pairs uri) = Some st ->
  In (mkEntry n i (TSPending cvr ln st u)) (details (w_lk w)) -> (forall m, awaits w m st -> m = n) ->
  configured w n act -> account_redirect_uri O act (w_http w) (w_https w) = Val ru -> same_origin ru uri ->
  lookup $"error" (query_pairs uri) = Some reason ->
  exists lk', becomes w lk' n TSEmpty
    /\ step O w (LTick tid e)
       = SNext (set_thread (set_lk w lk') tid
           (do_all [AEmit (OHttpResp ($"HTTP/1.1 400" ++ [cr; nl; cr; nl]))]
              (PHttpNotify n ($"Authentication for " ++ n ++ $" failed: " ++ reason) false))).
Proof.
  exact (fun R A N P L H U CF RU SO =>
    callback_refused O w tid e https bytes uri n cvr st i ln u act ru R A N P L H U CF RU SO reason).
Qed.
Print Assumptions C58_refused.

Theorem C58_useless O w tid e https bytes uri n cvr st i ln u act ru :
  reachable O w -> w_alive w = true -> nth_error (w_threads w) tid = Some (PHttpStart https bytes) ->
  parse_get O https bytes = Some uri -> lookup $"state" (query_pairs uri) = Some st ->
  In (mkEntry n i (TSPending cvr ln st u)) (details (w_lk w)) -> (forall m, awaits w m st -> m = n) ->
  configured w n act -> account_redirect_uri O act (w_http w) (w_https w) = Val ru -> same_origin ru uri ->
  lookup $"error" (query_pairs uri) = None -> lookup $"code" (query_pairs uri) = None ->
  step O w (LTick tid e)
  = SNext (set_thread w tid (do_all [AEmit (OHttpResp ($"HTTP/1.1 400" ++ [cr; nl; cr; nl]))] PDone)).
Proof.
  exact (fun R A N P L H U CF RU SO =>
    callback_useless O w tid e https bytes uri n cvr st i ln u act ru R A N P L H U CF RU SO).
Qed.
Print Assumptions C58_useless.

(** The three kinds of requests, for account "a". *)
Definition own_state : str := $"state=" ++ state_of $"statebytes".

Example C58_case query reason code :
  (query, reason, code) = (good_query, None, Some $"c0de")
  \/ (query, reason, code) = (own_state ++ $"&error=denied&code=x", Some $"denied", Some $"x")
  \/ (query, reason, code) = (own_state, None, None) ->
  exists bytes uri cvr st i ln u act ru, let w := w_cb query in
    reachable toy w /\ w_alive w = true /\ nth_error (w_threads w) 4 = Some (PHttpStart false bytes)
    /\ parse_get toy false bytes = Some uri /\ lookup $"state" (query_pairs uri) = Some st
    /\ In (mkEntry $"a" i (TSPending cvr ln st u)) (details (w_lk w)) /\ (forall m, awaits w m st -> m = $"a")
    /\ configured w $"a" act /\ account_redirect_uri toy act (w_http w) (w_https w) = Val ru /\ same_origin ru uri
    /\ lookup $"error" (query_pairs uri) = reason /\ lookup $"code" (query_pairs uri) = code.
Proof.
  intros [E|[E|E]]; injection E as -> -> ->; do 9 eexists; cbv zeta;
    (split; [unfold w_cb, w_pend; reach_after|]);
    (split; [vm_compute; reflexivity|]); (split; [vm_compute; reflexivity|]); (split; [vm_compute; reflexivity|]);
    (split; [vm_compute; reflexivity|]); (split; [vm_compute; left; reflexivity|]);
    (split; [intros m (c0 & ln0 & u0 & x & H & E & T); vm_compute in H; destruct H as [<-|[<-|[]]];
             [symmetry; exact E|discriminate T]|]);
    (split; [vm_compute; reflexivity|]); (split; [vm_compute; reflexivity|]);
    (split; [split; [|split]; vm_compute; reflexivity|]); split; vm_compute; reflexivity.
Qed.

(** * C59 *)

Theorem C59_authorisation_works O w n act nu nu' (hs : bool) bytes uri ru code body v tok exs
    (e1 f1 f2 e3 f3 e4 e5 g1 g2 g3 e6 f6 : env) :
  url_laws O -> reachable O w -> asked w e1 (client_request (CShow nu n)) -> utf8_valid n = true ->
  holds w n TSEmpty -> configured w n act ->
  (forall m, ~ awaits w m (b64_encode (e_state_bytes e1))) ->
  (if hs then w_https w else w_http w) <> None ->
  account_redirect_uri O act (w_http w) (w_https w) = Val ru ->
  parse_get O hs bytes = Some uri -> same_origin ru uri ->
  lookup $"state" (query_pairs uri) = Some (b64_encode (e_state_bytes e1)) ->
  lookup $"error" (query_pairs uri) = None -> lookup $"code" (query_pairs uri) = Some code ->
  e_post e4 = PRBody body -> o_json O body = inl v -> grants v tok exs ->
  (env_now e5 + exs * 1000000000 <= time_max)%Z ->
  e_client e6 = Some (client_request (CShow nu' n)) -> (env_now e6 < env_now e5 + exs * 1000000000)%Z ->
  let tid := List.length (w_threads w) in
  exists u resp w',
    auth_url O (w_http w) (w_https w) act (b64_encode (e_verifier_bytes e1)) (b64_encode (e_state_bytes e1)) u
    /\ run O w (map (LTick 0) [e1; f1; f2] ++ [LHttpConn hs bytes]
                ++ map (LTick tid) [e3; f3; e4; e5; g1; g2; g3] ++ map (LTick 0) [e6; f6]) = Some (SNext w')
    /\ w_trace w' = w_trace w ++
         [OClient (client_request (CShow nu n)); OAuthUrl n u;
          OReply (client_request (CShow nu n)) ($"pending:" ++ if nu then [] else url_to_str u);
          OHttpIn hs bytes; OHttpResp (http_200 resp);
          OPost (a_token_uri act)
            ([($"code", code); ($"client_id", a_client_id act);
              ($"code_verifier", b64_encode (e_verifier_bytes e1));
              ($"redirect_uri", url_to_str ru); ($"grant_type", $"authorization_code")]
             ++ match a_client_secret act with Some x => [($"client_secret", x)] | None => [] end) (PRBody body);
          OEvent n EvNew;
          OClient (client_request (CShow nu' n));
          OReply (client_request (CShow nu' n)) ($"access_token:" ++ tok)]
    /\ becomes w (w_lk w') n
         (TSActive (mkActive tok (env_now e5) (env_now e5 + exs * 1000000000) (json_str $"refresh_token" v) false 0 None))
    /\ w_alive w' = true /\ nth_error (w_threads w') 0 = Some PMain.
Proof.
  exact (authorisation_works O w n act nu nu' hs bytes uri ru code body v tok exs e1 f1 f2 e3 f3 e4 e5 g1 g2 g3 e6 f6).
Qed.
Print Assumptions C59_authorisation_works.

(** Account "b" while "a" has a token and three other connections are over. *)
Example C59_case :
  exists act uri ru v,
    let e1 := client (client_request (CShow true $"b")) (tick (sec 1010)) in
    let e6 := client (client_request (CShow false $"b")) (tick (sec 1030)) in
    url_laws toy /\ reachable toy w_auth /\ asked w_auth e1 (client_request (CShow true $"b"))
    /\ utf8_valid $"b" = true /\ holds w_auth $"b" TSEmpty /\ configured w_auth $"b" act
    /\ (forall m, ~ awaits w_auth m (b64_encode (e_state_bytes e1)))
    /\ w_http w_auth <> None /\ account_redirect_uri toy act (w_http w_auth) (w_https w_auth) = Val ru
    /\ parse_get toy false (callback good_query) = Some uri /\ same_origin ru uri
    /\ lookup $"state" (query_pairs uri) = Some (b64_encode (e_state_bytes e1))
    /\ lookup $"error" (query_pairs uri) = None /\ lookup $"code" (query_pairs uri) = Some $"c0de"
    /\ o_json toy $"Rtok" = inl v /\ grants v $"tok" 3600
    /\ (env_now (tick (sec 1020)) + 3600 * 1000000000 <= time_max)%Z
    /\ e_client e6 = Some (client_request (CShow false $"b"))
    /\ (env_now e6 < env_now (tick (sec 1020)) + 3600 * 1000000000)%Z.
Proof.
  do 4 eexists. cbv zeta. split; [exact toy_laws|]. split; [exact w_auth_reachable|].
  split; [repeat split; vm_compute; reflexivity|]. split; [reflexivity|].
  split; [eexists; split; [vm_compute; right; left; reflexivity|split; vm_compute; reflexivity]|].
  split; [vm_compute; reflexivity|].
  split; [intros m (c0 & ln0 & u0 & x & H & E & T); vm_compute in H; destruct H as [<-|[<-|[]]]; discriminate T|].
  split; [vm_compute; discriminate|]. split; [vm_compute; reflexivity|]. split; [vm_compute; reflexivity|].
  split; [split; [|split]; vm_compute; reflexivity|].
  split; [vm_compute; reflexivity|]. split; [vm_compute; reflexivity|]. split; [vm_compute; reflexivity|].
  split; [vm_compute; reflexivity|]. split; [repeat split|].
  split; [vm_compute; discriminate|]. split; [reflexivity|]. vm_compute; reflexivity.
Qed.

(** * C60 *)

Theorem C60_refresh_begins O w tid e n i a r act :
  reachable O w -> w_alive w = true -> nth_error (w_threads w) tid = Some (PRefStart i) ->
  In (mkEntry n i (TSActive a)) (details (w_lk w)) -> configured w n act ->
  ongoing a = false -> refresh_token a = Some r ->
  let a' := mkActive (access_token a) (obtained a) (expiry a) (Some r) true (fails a) (Some (env_now e)) in
  exists lk' i',
    becomes w lk' n (TSActive a') /\ In (mkEntry n i' (TSActive a')) (details lk')
    /\ step O w (LTick tid e)
       = SNext (set_thread (set_lk w lk') tid
           (PRefPost i' n r (a_token_uri act)
              ([($"client_id", a_client_id act); ($"refresh_token", r); ($"grant_type", $"refresh_token")]
               ++ match a_client_secret act with Some x => [($"client_secret", x)] | None => [] end))).
Proof. exact (refresh_begins O w tid e n i a r act). Qed.
Print Assumptions C60_refresh_begins.

Theorem C60_refresh_works O w n act nu nu' a i r body v tok exs (e1 f1 f2 e3 e4 e5 e6 g1 g2 g3 e7 f7 : env) :
  reachable O w -> asked w e1 (client_request (CRefresh nu n)) -> utf8_valid n = true ->
  In (mkEntry n i (TSActive a)) (details (w_lk w)) -> configured w n act ->
  ongoing a = false -> refresh_token a = Some r ->
  e_post e4 = PRBody body -> o_json O body = inl v -> grants v tok exs ->
  (env_now e5 + exs * 1000000000 <= time_max)%Z ->
  e_client e7 = Some (client_request (CShow nu' n)) -> (env_now e7 < env_now e5 + exs * 1000000000)%Z ->
  let tid := List.length (w_threads w) in
  exists w',
    run O w (map (LTick 0) [e1; f1; f2] ++ map (LTick tid) [e3; e4; e5; e6; g1; g2; g3]
             ++ map (LTick 0) [e7; f7]) = Some (SNext w')
    /\ w_trace w' = w_trace w ++
         [OClient (client_request (CRefresh nu n)); OReply (client_request (CRefresh nu n)) $"scheduled:";
          OPost (a_token_uri act)
            ([($"client_id", a_client_id act); ($"refresh_token", r); ($"grant_type", $"refresh_token")]
             ++ match a_client_secret act with Some x => [($"client_secret", x)] | None => [] end) (PRBody body);
          OEvent n EvRefresh;
          OClient (client_request (CShow nu' n));
          OReply (client_request (CShow nu' n)) ($"access_token:" ++ tok)]
    /\ becomes w (w_lk w') n
         (TSActive (mkActive tok (env_now e5) (env_now e5 + exs * 1000000000)
            (match json_get $"refresh_token" v with
             | None => Some r | Some (JStr x) => Some x | Some _ => None end) false 0 None))
    /\ w_alive w' = true /\ nth_error (w_threads w') 0 = Some PMain.
Proof.
  exact (refresh_works O w n act nu nu' a i r body v tok exs e1 f1 f2 e3 e4 e5 e6 g1 g2 g3 e7 f7).
Qed.
Print Assumptions C60_refresh_works.

Example C60_case :
  exists act a i v,
    let e1 := client (client_request (CRefresh false $"a")) (tick (sec 1010)) in
    let e7 := client (client_request (CShow false $"a")) (tick (sec 1030)) in
    reachable toy w_auth /\ asked w_auth e1 (client_request (CRefresh false $"a")) /\ utf8_valid $"a" = true
    /\ In (mkEntry $"a" i (TSActive a)) (details (w_lk w_auth)) /\ configured w_auth $"a" act
    /\ ongoing a = false /\ refresh_token a = Some $"r"
    /\ o_json toy $"Ttok2" = inl v /\ grants v $"tok2" 3600
    /\ (env_now (tick (sec 1020)) + 3600 * 1000000000 <= time_max)%Z
    /\ e_client e7 = Some (client_request (CShow false $"a"))
    /\ (env_now e7 < env_now (tick (sec 1020)) + 3600 * 1000000000)%Z.
Proof.
  do 4 eexists. cbv zeta. split; [exact w_auth_reachable|].
  split; [repeat split; vm_compute; reflexivity|]. split; [reflexivity|].
  split; [vm_compute; left; reflexivity|]. split; [vm_compute; reflexivity|].
  split; [reflexivity|]. split; [reflexivity|]. split; [vm_compute; reflexivity|]. split; [repeat split|].
  split; [vm_compute; discriminate|]. split; [reflexivity|]. vm_compute; reflexivity.
Qed.
