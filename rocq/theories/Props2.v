(** C11-C23: how requests, callbacks, exchanges and refreshes end. *)
From Verif Require Import Base BaseLemmas Time Utf8 Base64 Url UrlLemmas Json Oracles Config Located Dump State Http Timers Server
  SpecServer Reach Own Trace Pend Basic Decide Refresh Loss Exchange Scenario Runs Cases.

(** * C11 *)

Theorem C11_show_unknown O w e wu n :
  reachable O w -> w_alive w = true -> nth_error (w_threads w) 0 = Some PMain ->
  ~ In " "%char wu -> utf8_valid (wu ++ $" " ++ n) = true ->
  let show := $"showtoken:" ++ wu ++ $" " ++ n in
  e_client e = Some show -> (forall ts, ~ holds w n ts) ->
  step O w (LTick 0 e)
    = SNext (emit (set_thread w 0 (do_all [AEmit (OReply show ($"error:No account '" ++ n ++ $"'"))] PMain))
               [OClient show]).
Proof. exact (show_unknown O w e wu n). Qed.
Print Assumptions C11_show_unknown.

Theorem C11_show_starts_authorisation O w e wu n act :
  reachable O w -> w_alive w = true -> nth_error (w_threads w) 0 = Some PMain ->
  ~ In " "%char wu -> utf8_valid (wu ++ $" " ++ n) = true ->
  let show := $"showtoken:" ++ wu ++ $" " ++ n in
  url_laws O -> e_client e = Some show -> holds w n TSEmpty -> configured w n act ->
  exists u lk',
    let cvr := b64_encode (e_verifier_bytes e) in
    let st := b64_encode (e_state_bytes e) in
    auth_url O (w_http w) (w_https w) act cvr st u
    /\ becomes w lk' n (TSPending cvr None st u)
    /\ step O w (LTick 0 e)
       = SNext (emit (set_thread (set_lk w lk') 0
                        (do_all [ASigNotifier; AEmit (OReply show (url_answer wu u))] PMain))
                  [OClient show; OAuthUrl n u]).
Proof. exact (fun R A N NS U => show_empty O w e wu n R A N NS U act). Qed.
Print Assumptions C11_show_starts_authorisation.

Theorem C11_show_repeats_url O w e wu n cvr ln st u :
  reachable O w -> w_alive w = true -> nth_error (w_threads w) 0 = Some PMain ->
  ~ In " "%char wu -> utf8_valid (wu ++ $" " ++ n) = true ->
  let show := $"showtoken:" ++ wu ++ $" " ++ n in
  e_client e = Some show -> holds w n (TSPending cvr ln st u) ->
  step O w (LTick 0 e)
    = SNext (emit (set_thread w 0 (do_all [AEmit (OReply show (url_answer wu u))] PMain)) [OClient show]).
Proof. exact (fun R A N NS U => show_pending O w e wu n R A N NS U cvr ln st u). Qed.
Print Assumptions C11_show_repeats_url.

Theorem C11_show_with_token O w e wu n i a :
  reachable O w -> w_alive w = true -> nth_error (w_threads w) 0 = Some PMain ->
  ~ In " "%char wu -> utf8_valid (wu ++ $" " ++ n) = true ->
  let show := $"showtoken:" ++ wu ++ $" " ++ n in
  e_client e = Some show -> In (mkEntry n i (TSActive a)) (details (w_lk w)) ->
  step O w (LTick 0 e)
    = SNext (emit (set_thread w 0
        (do_all (if (env_now e <? expiry a)%Z then [AEmit (OReply show ($"access_token:" ++ access_token a))]
                 else if ongoing a then
                   [AEmit (OReply show $"error:Access token has expired. Refreshing is in progress but has not yet succeeded")]
                 else [ASpawnRefresh i;
                       AEmit (OReply show $"error:Access token has expired. Refreshing initiated")]) PMain))
        [OClient show]).
Proof. exact (fun R A N NS U => show_active O w e wu n R A N NS U i a). Qed.
Print Assumptions C11_show_with_token.

(** Unknown; no token; pending; a token, before and after its expiry. *)
Example C11_case :
  reachable toy (start conf1) /\ (forall ts, ~ holds (start conf1) $"z" ts)
  /\ holds (start conf1) $"a" TSEmpty /\ url_laws toy
  /\ reachable toy w_pend /\ (exists cvr ln st u, holds w_pend $"a" (TSPending cvr ln st u))
  /\ nth_error (w_threads w_pend) 0 = Some PMain
  /\ reachable toy w_auth /\ nth_error (w_threads w_auth) 0 = Some PMain /\ w_alive w_auth = true
  /\ exists i a, In (mkEntry $"a" i (TSActive a)) (details (w_lk w_auth))
       /\ (env_now (tick (sec 1010)) <? expiry a)%Z = true /\ (env_now (tick (sec 4603)) <? expiry a)%Z = false.
Proof.
  split; [reach_start|]. split.
  { intros ts (e0 & H & E & _). vm_compute in H. destruct H as [<-|[<-|[]]]; discriminate E. }
  split; [eexists; split; [vm_compute; left; reflexivity|]; split; vm_compute; reflexivity|].
  split; [exact toy_laws|]. split; [unfold w_pend; reach_after|].
  split; [do 5 eexists; split; [vm_compute; left; reflexivity|]; split; vm_compute; reflexivity|].
  split; [vm_compute; reflexivity|]. split; [apply w_auth_reachable|].
  split; [vm_compute; reflexivity|]. split; [vm_compute; reflexivity|].
  do 2 eexists. split; [vm_compute; left; reflexivity|]. split; vm_compute; reflexivity.
Qed.

(** * C12 *)

Theorem C12_refresh_unknown O w e wu n :
  reachable O w -> w_alive w = true -> nth_error (w_threads w) 0 = Some PMain ->
  ~ In " "%char wu -> utf8_valid (wu ++ $" " ++ n) = true ->
  let refresh := $"refresh:" ++ wu ++ $" " ++ n in
  e_client e = Some refresh -> (forall ts, ~ holds w n ts) ->
  step O w (LTick 0 e)
    = SNext (emit (set_thread w 0 (do_all [AEmit (OReply refresh ($"error:No account '" ++ n ++ $"'"))] PMain))
               [OClient refresh]).
Proof. exact (refresh_unknown O w e wu n). Qed.
Print Assumptions C12_refresh_unknown.

Theorem C12_refresh_starts_authorisation O w e wu n ts act :
  reachable O w -> w_alive w = true -> nth_error (w_threads w) 0 = Some PMain ->
  ~ In " "%char wu -> utf8_valid (wu ++ $" " ++ n) = true ->
  let refresh := $"refresh:" ++ wu ++ $" " ++ n in
  url_laws O -> e_client e = Some refresh -> holds w n ts -> (forall a, ts <> TSActive a) -> configured w n act ->
  exists u lk',
    let cvr := b64_encode (e_verifier_bytes e) in
    let st := b64_encode (e_state_bytes e) in
    auth_url O (w_http w) (w_https w) act cvr st u
    /\ becomes w lk' n (TSPending cvr None st u)
    /\ step O w (LTick 0 e)
       = SNext (emit (set_thread (set_lk w lk') 0
                        (do_all [ASigNotifier; AEmit (OReply refresh (url_answer wu u))] PMain))
                  [OClient refresh; OAuthUrl n u]).
Proof. exact (fun R A N NS U => refresh_inactive O w e wu n R A N NS U ts act). Qed.
Print Assumptions C12_refresh_starts_authorisation.

Theorem C12_refresh_with_token O w e wu n i a :
  reachable O w -> w_alive w = true -> nth_error (w_threads w) 0 = Some PMain ->
  ~ In " "%char wu -> utf8_valid (wu ++ $" " ++ n) = true ->
  let refresh := $"refresh:" ++ wu ++ $" " ++ n in
  e_client e = Some refresh -> In (mkEntry n i (TSActive a)) (details (w_lk w)) ->
  step O w (LTick 0 e)
    = SNext (emit (set_thread w 0 (do_all [ASpawnRefresh i; AEmit (OReply refresh $"scheduled:")] PMain))
               [OClient refresh]).
Proof. exact (fun R A N NS U => refresh_active O w e wu n R A N NS U i a). Qed.
Print Assumptions C12_refresh_with_token.

(** No token; pending; a token. *)
Example C12_case :
  let e := client $"refresh:withurl a" (tick (sec 1010)) in
  e_client e = Some ($"refresh:" ++ $"withurl" ++ $" " ++ $"a") /\ ~ In " "%char $"withurl"
  /\ utf8_valid ($"withurl" ++ $" " ++ $"a") = true
  /\ reachable toy (start conf1) /\ holds (start conf1) $"a" TSEmpty
  /\ (exists act, configured (start conf1) $"a" act)
  /\ reachable toy w_pend /\ (exists cvr ln st u, holds w_pend $"a" (TSPending cvr ln st u))
  /\ reachable toy w_auth /\ (exists i a, In (mkEntry $"a" i (TSActive a)) (details (w_lk w_auth))).
Proof.
  cbv zeta. split; [vm_compute; reflexivity|].
  split; [vm_compute; intros H; repeat (destruct H as [H|H]; [discriminate H|]); destruct H|].
  split; [vm_compute; reflexivity|]. split; [reach_start|].
  split; [eexists; split; [vm_compute; left; reflexivity|]; split; vm_compute; reflexivity|].
  split; [eexists; vm_compute; reflexivity|]. split; [unfold w_pend; reach_after|].
  split; [do 5 eexists; split; [vm_compute; left; reflexivity|]; split; vm_compute; reflexivity|].
  split; [apply w_auth_reachable|]. do 2 eexists. vm_compute. left. reflexivity.
Qed.

(** * C13 *)

(** Only reloads, restores and reminders touch accounts a step does not concern ... *)
Theorem C13_other_accounts_untouched O w l w' e1 :
  reachable O w -> step O w l = SNext w' ->
  ~ concerns O w (d_name e1) l -> ~ global_step w l ->
  In e1 (details (w_lk w)) <-> In e1 (details (w_lk w')).
Proof. exact (frame O w l w' e1). Qed.
Print Assumptions C13_other_accounts_untouched.

(** ... and reminders at most record that the user was reminded. *)
Theorem C13_reminders_keep_states O w e w' n ts' :
  reachable O w -> nth_error (w_threads w) 2 = Some PNtScan -> step O w (LTick 2 e) = SNext w' ->
  holds w' n ts' ->
  holds w n ts' \/ exists cvr ln st u, holds w n (TSPending cvr ln st u) /\ ts' = TSPending cvr (Some (env_now e)) st u.
Proof. exact (notifier_frame O w e w' n ts'). Qed.
Print Assumptions C13_reminders_keep_states.

(** Revoking "a" does not concern "b". *)
Example C13_case :
  exists e1 w', let e := client $"revoke:a" (tick (sec 1020)) in
    reachable toy w_auth /\ In e1 (details (w_lk w_auth)) /\ d_name e1 = $"b"
    /\ step toy w_auth (LTick 0 e) = SNext w'
    /\ ~ concerns toy w_auth (d_name e1) (LTick 0 e) /\ ~ global_step w_auth (LTick 0 e).
Proof.
  do 2 eexists. cbv zeta. split; [apply w_auth_reachable|].
  split; [vm_compute; right; left; reflexivity|]. split; [reflexivity|].
  split; [vm_compute; reflexivity|]. split.
  - intros H. inversion H; subst.
    + match goal with E : e_client _ = Some _, K : _ \/ _ |- _ =>
        cbn in E; injection E as E; subst; destruct K as [K|[K|K]]; discriminate K end.
    + match goal with N : nth_error _ _ = Some (PHttpStart _ _) |- _ => vm_compute in N; discriminate N end.
    + match goal with N : nth_error _ _ = Some ?p, W : work_id ?p = _ |- _ =>
        vm_compute in N; injection N as <-; discriminate W end.
  - intros H. inversion H; subst; match goal with E : e_client _ = Some _ |- _ => cbn in E; discriminate E end.
Qed.

(** * C14 *)

Theorem C14_unmatched_callback O w tid e https bytes :
  reachable O w -> w_alive w = true -> nth_error (w_threads w) tid = Some (PHttpStart https bytes) ->
  (forall uri st n cvr ln u, parse_get O https bytes = Some uri -> lookup $"state" (query_pairs uri) = Some st ->
     ~ holds w n (TSPending cvr ln st u)) ->
  exists resp, step O w (LTick tid e) = SNext (set_thread w tid (do_all [AEmit (OHttpResp resp)] PDone)).
Proof. exact (callback_unmatched O w tid e https bytes). Qed.
Print Assumptions C14_unmatched_callback.

(** A pending authorisation, and a well-formed request with another state. *)
Example C14_case :
  exists bytes uri, let w := w_cb $"state=abc&code=c0de" in
    reachable toy w /\ w_alive w = true /\ nth_error (w_threads w) 4 = Some (PHttpStart false bytes)
    /\ parse_get toy false bytes = Some uri /\ lookup $"state" (query_pairs uri) = Some $"abc"
    /\ (forall n cvr ln u, ~ holds w n (TSPending cvr ln $"abc" u))
    /\ exists cvr ln st u, holds w $"a" (TSPending cvr ln st u).
Proof.
  do 2 eexists. cbv zeta. split; [unfold w_cb, w_pend; reach_after|].
  split; [vm_compute; reflexivity|]. split; [vm_compute; reflexivity|]. split; [vm_compute; reflexivity|].
  split; [vm_compute; reflexivity|]. split.
  - intros n cvr ln u (e0 & H & E & T). vm_compute in H. destruct H as [<-|[<-|[]]]; discriminate T.
  - do 5 eexists. split; [vm_compute; left; reflexivity|]. split; vm_compute; reflexivity.
Qed.

(** * C15 *)

(** Missing for the full property: the path of the redirect URI.  The code does
    not compare it, see below. *)
Theorem C15_wrong_origin_partial O w tid e https bytes uri st :
  reachable O w -> w_alive w = true ->
  nth_error (w_threads w) tid = Some (PHttpStart https bytes) ->
  parse_get O https bytes = Some uri -> lookup $"state" (query_pairs uri) = Some st ->
  (exists n cvr ln u, holds w n (TSPending cvr ln st u)) ->
  (forall n cvr ln u act ru, holds w n (TSPending cvr ln st u) -> configured w n act ->
     account_redirect_uri O act (w_http w) (w_https w) = Val ru -> ~ same_origin ru uri) ->
  step O w (LTick tid e)
  = SNext (set_thread w tid (do_all [AEmit (OHttpResp ($"HTTP/1.1 404" ++ [cr; nl; cr; nl]))] PDone)).
Proof. exact (callback_wrong_origin O w tid e https bytes uri st). Qed.
Print Assumptions C15_wrong_origin_partial.

(** The right state, sent over https rather than http. *)
Example C15_case :
  exists bytes uri st, let w := after w_pend [LHttpConn true (callback good_query)] in
    reachable toy w /\ w_alive w = true /\ nth_error (w_threads w) 4 = Some (PHttpStart true bytes)
    /\ parse_get toy true bytes = Some uri /\ lookup $"state" (query_pairs uri) = Some st
    /\ (exists n cvr ln u, holds w n (TSPending cvr ln st u))
    /\ (forall n cvr ln u act ru, holds w n (TSPending cvr ln st u) -> configured w n act ->
          account_redirect_uri toy act (w_http w) (w_https w) = Val ru -> ~ same_origin ru uri).
Proof.
  do 3 eexists. cbv zeta. split; [unfold w_pend; reach_after|].
  split; [vm_compute; reflexivity|]. split; [vm_compute; reflexivity|]. split; [vm_compute; reflexivity|].
  split; [vm_compute; reflexivity|]. split.
  - do 5 eexists. split; [vm_compute; left; reflexivity|]. split; vm_compute; reflexivity.
  - intros n cvr ln u act ru (e0 & H & E & T) C A (O1 & _). vm_compute in H.
    destruct H as [<-|[<-|[]]]; [|discriminate T]. vm_compute in E. subst n. vm_compute in C. injection C as <-.
    vm_compute in A. injection A as <-. vm_compute in O1. discriminate O1.
Qed.

(** A request for another path than the redirect URI's is accepted, and the
    code it carries exchanged. *)
Theorem C15_path_refuted :
  exists O w tid e bytes uri n st act ru w' i turi pairs k,
    reachable O w /\ nth_error (w_threads w) tid = Some (PHttpStart false bytes)
    /\ parse_get O false bytes = Some uri /\ lookup $"state" (query_pairs uri) = Some st
    /\ awaits w n st /\ configured w n act /\ account_redirect_uri O act (w_http w) (w_https w) = Val ru
    /\ u_path uri <> u_path ru
    /\ run O w [LTick tid e; LTick tid e] = Some (SNext w')
    /\ nth_error (w_threads w') tid = Some (PHttpPost i turi pairs k).
Proof.
  exists toy, w_path, 4, (tick (sec 1001)). do 11 eexists.
  split; [unfold w_path; reach_after|]. split; [vm_compute; reflexivity|]. split; [vm_compute; reflexivity|].
  split; [vm_compute; reflexivity|].
  split; [do 4 eexists; split; [vm_compute; right; left; reflexivity|]; split; vm_compute; reflexivity|].
  split; [vm_compute; reflexivity|]. split; [vm_compute; reflexivity|].
  split; [vm_compute; discriminate|]. split; vm_compute; reflexivity.
Qed.
Print Assumptions C15_path_refuted.

(** * C16 *)

Theorem C16_exchange_proves_possession O w t1 uri pairs r t2 :
  reachable O w -> w_trace w = t1 ++ OPost uri pairs r :: t2 ->
  lookup $"grant_type" pairs = Some $"authorization_code" ->
  exists n u st act c ta tb https bytes req_uri code,
    t1 = ta ++ OAuthUrl n u :: tb /\ config_at ta = Some c /\ lookup n (c_accounts c) = Some act
    /\ uri = a_token_uri act /\ authenticates act pairs
    /\ redeems O u pairs /\ In ($"state", st) (raw_pairs u)
    /\ In (OHttpIn https bytes) t1 /\ parse_get O https bytes = Some req_uri
    /\ lookup $"state" (query_pairs req_uri) = Some st
    /\ lookup $"code" (query_pairs req_uri) = Some code
    /\ lookup $"code" pairs = Some code.
Proof. exact (exchange_redeems O w t1 uri pairs r t2). Qed.
Print Assumptions C16_exchange_proves_possession.

Example C16_case :
  exists uri pairs r, reachable toy w_auth
    /\ w_trace w_auth = firstn 6 (w_trace w_auth) ++ OPost uri pairs r :: skipn 7 (w_trace w_auth)
    /\ lookup $"grant_type" pairs = Some $"authorization_code".
Proof.
  do 3 eexists. split; [apply w_auth_reachable|].
  split; [apply split_at; vm_compute; reflexivity|]. vm_compute. reflexivity.
Qed.

(** * C17 *)

(** The account's authorisation with state [st] is over, in whatever way. *)
Theorem C17_completed_state_is_dead O e0 c hp hsp pk l0 l1 l2 w0 w1 w2 n st :
  config_from_path O e0 = Val c ->
  run O (init_world c hp hsp pk) l0 = Some (SNext w0) -> run O w0 l1 = Some (SNext w1) ->
  run O w1 l2 = Some (SNext w2) -> NoDup (states_drawn (l0 ++ l1 ++ l2)) ->
  awaits w0 n st -> ~ awaits w1 n st ->
  (forall m, ~ awaits w2 m st)
  /\ forall tid e https bytes uri,
       w_alive w2 = true -> nth_error (w_threads w2) tid = Some (PHttpStart https bytes) ->
       parse_get O https bytes = Some uri -> lookup $"state" (query_pairs uri) = Some st ->
       exists resp, step O w2 (LTick tid e) = SNext (set_thread w2 tid (do_all [AEmit (OHttpResp resp)] PDone)).
Proof. exact (gone_state O e0 c hp hsp pk l0 l1 l2 w0 w1 w2 n st). Qed.
Print Assumptions C17_completed_state_is_dead.

(** Whatever the random numbers: no more new tokens than authorisations. *)
Theorem C17_no_more_tokens_than_authorisations O n w :
  reachable O w -> count_new n (w_trace w) <= count_urls n (w_trace w).
Proof. exact (tokens_le_authorisations O n w). Qed.
Print Assumptions C17_no_more_tokens_than_authorisations.

(** Authorised, then the browser repeats its request. *)
Example C17_case :
  exists c w0 w1 w2 bytes uri,
    let st := state_of $"s0" in
    let m k t := main (rand k $"v" (tick (sec t))) in
    let cb := LHttpConn false (callback ($"state=" ++ st ++ $"&code=c0de")) in
    let l0 := [main (client $"showtoken:withurl a" (rand $"s0" $"v" (tick (sec 1000)))); m $"s1" 1000%Z; m $"s2" 1000%Z] in
    let l1 := [cb] ++ many 2 4 (tick (sec 1001)) ++ [LTick 4 (Scenario.posted (PRBody $"Rtok") (tick (sec 1002)))]
                ++ many 4 4 (tick (sec 1003)) in
    let l2 := [cb] in
    config_from_path toy (env_file conf1) = Val c
    /\ run toy (init_world c 8080%N 8443%N $"key") l0 = Some (SNext w0) /\ run toy w0 l1 = Some (SNext w1)
    /\ run toy w1 l2 = Some (SNext w2) /\ NoDup (states_drawn (l0 ++ l1 ++ l2))
    /\ awaits w0 $"a" st /\ ~ awaits w1 $"a" st
    /\ nth_error (w_threads w2) 5 = Some (PHttpStart false bytes)
    /\ parse_get toy false bytes = Some uri /\ lookup $"state" (query_pairs uri) = Some st
    /\ count_new $"a" (w_trace w2) = 1.
Proof.
  do 6 eexists. cbv zeta. split; [vm_compute; reflexivity|]. split; [vm_compute; reflexivity|].
  split; [vm_compute; reflexivity|]. split; [vm_compute; reflexivity|]. split.
  { vm_compute. repeat (constructor; [intros H; repeat (destruct H as [H|H]; [discriminate H|]); destruct H|]). constructor. }
  split; [do 4 eexists; split; [vm_compute; left; reflexivity|]; split; vm_compute; reflexivity|].
  split.
  { intros (cvr & ln & u & e0 & H & E & T). vm_compute in H. destruct H as [<-|[<-|[]]]; discriminate T. }
  split; [vm_compute; reflexivity|]. split; [vm_compute; reflexivity|]. split; vm_compute; reflexivity.
Qed.

(** * C18 *)

(** Missing for the full property: the account's version must not have changed
    through a reminder (see the refutation), and the expiry must be
    representable. *)
Theorem C18_exchange_yields_token_partial O w tid i uri pairs k rs body ls w1 e v tok exs n ts act :
  reachable O w -> nth_error (w_threads w) tid = Some (PHttpPost i uri pairs k) ->
  run O w ls = Some (SNext w1) -> w_alive w1 = true -> map e_post (own_envs tid ls) = rs -> attempts k rs (PRBody body) ->
  o_json O body = inl v -> grants v tok exs -> In (mkEntry n i ts) (details (w_lk w1)) -> configured w1 n act ->
  exists lk',
    let now := env_now e in
    let stores ex :=
      becomes w1 lk' n (TSActive (mkActive tok now ex (json_str $"refresh_token" v) false 0 None))
      /\ step O w1 (LTick tid e)
         = SNext (set_thread (set_lk w1 lk') tid
                    (do_all [ASigRefresher; APushEvent n EvNew; ASigEventer] PDone)) in
    if (now + exs * 1000000000 <=? time_max)%Z then stores (now + exs * 1000000000)%Z
    else if (now + max_age act (lconfig (w_lk w1)) <=? time_max)%Z
    then stores (now + max_age act (lconfig (w_lk w1)))%Z
    else step O w1 (LTick tid e) = SNext (set_thread w1 tid PDone).
Proof. exact (exchange_ok O w tid i uri pairs k rs body ls w1 e v tok exs n ts act). Qed.
Print Assumptions C18_exchange_yields_token_partial.

(** The token arrives at the second attempt. *)
Example C18_case :
  exists i uri pairs w1 v exs ts act,
    let rs := [PRTransport TrDns $"no"; PRBody $"Rtok"] in
    let ls := map (fun r => LTick 4 (Scenario.posted r (tick (sec 1002)))) rs in
    reachable toy w_post /\ nth_error (w_threads w_post) 4 = Some (PHttpPost i uri pairs 10)
    /\ run toy w_post ls = Some (SNext w1) /\ w_alive w1 = true /\ map e_post (own_envs 4 ls) = rs
    /\ attempts 10 rs (PRBody $"Rtok") /\ o_json toy $"Rtok" = inl v /\ grants v $"tok" exs
    /\ In (mkEntry $"a" i ts) (details (w_lk w1)) /\ configured w1 $"a" act
    /\ (env_now (tick (sec 1003)) + exs * 1000000000 <=? time_max)%Z = true.
Proof.
  do 8 eexists. cbv zeta. split; [unfold w_post, w_cb, w_pend; reach_after|].
  split; [vm_compute; reflexivity|]. split; [vm_compute; reflexivity|]. split; [vm_compute; reflexivity|].
  split; [vm_compute; reflexivity|].
  split; [apply at_retry, at_last; discriminate|]. split; [vm_compute; reflexivity|].
  split; [unfold grants; compute_all|]. split; [vm_compute; left; reflexivity|]. split; vm_compute; reflexivity.
Qed.

(** A reminder sent while the exchange is under way makes its result be
    ignored: the authorisation is the same as before, neither a request nor
    anything else interfered, the provider granted a token, and yet the thread
    is done and no token was stored. *)
Theorem C18_reminder_discards_token_refuted :
  exists O w tid i uri pairs k ls body v tok exs n cvr st u w',
    reachable O w /\ nth_error (w_threads w) tid = Some (PHttpPost i uri pairs k)
    /\ holds w n (TSPending cvr None st u) /\ (exists ts, In (mkEntry n i ts) (details (w_lk w)))
    /\ (forall l, In l ls -> exists e, l = LTick tid e \/ l = LTick 2 e)
    /\ map e_post (own_envs tid ls) = [PRBody body; PRBody body]
    /\ o_json O body = inl v /\ grants v tok exs
    /\ run O w ls = Some (SNext w')
    /\ nth_error (w_threads w') tid = Some PDone
    /\ (exists ln, holds w' n (TSPending cvr ln st u)) /\ (forall a, ~ holds w' n (TSActive a))
    /\ w_evq w' = w_evq w.
Proof.
  exists toy, w_post, 4. do 3 eexists. exists 10.
  exists ([LTick 4 (Scenario.posted (PRBody $"Rtok") (tick (sec 1002)))] ++ many 3 2 (tick (sec 1002))
          ++ [LTick 4 (Scenario.posted (PRBody $"Rtok") (tick (sec 1003)))]).
  exists $"Rtok". do 3 eexists. exists $"a". do 4 eexists.
  split; [unfold w_post, w_cb, w_pend; reach_after|]. split; [vm_compute; reflexivity|].
  split; [eexists; split; [vm_compute; left; reflexivity|]; split; vm_compute; reflexivity|].
  split; [eexists; vm_compute; left; reflexivity|].
  split.
  { intros l H. cbn [app many repeat In] in H.
    repeat (destruct H as [<-|H]; [eexists; (left; reflexivity) || (right; reflexivity)|]). destruct H. }
  split; [vm_compute; reflexivity|]. split; [vm_compute; reflexivity|]. split; [unfold grants; compute_all|].
  split; [vm_compute; reflexivity|]. split; [vm_compute; reflexivity|].
  split; [do 2 eexists; split; [vm_compute; left; reflexivity|]; split; vm_compute; reflexivity|].
  split; [|vm_compute; reflexivity].
  intros a (e0 & H & E & T). vm_compute in H. destruct H as [<-|[<-|[]]]; discriminate T.
Qed.
Print Assumptions C18_reminder_discards_token_refuted.

(** * C19 *)

(** Missing for the full property: unrepresentable expiries, see below. *)
Theorem C19_failed_exchange_partial O w tid i uri pairs k rs r ls w1 w2 w3 e e' n ts l2 l3 :
  reachable O w -> nth_error (w_threads w) tid = Some (PHttpPost i uri pairs k) ->
  run O w ls = Some (SNext w1) -> map e_post (own_envs tid ls) = rs -> attempts k rs r -> refused O r ->
  run O w1 l2 = Some (SNext w2) -> own_steps tid l2 = match r with PRBody _ => 1 | _ => 0 end ->
  w_alive w2 = true -> In (mkEntry n i ts) (details (w_lk w2)) ->
  exists m lk' w2',
    exchange_reason O uri r m /\ becomes w2 lk' n TSEmpty
    /\ step O w2 (LTick tid e) = SNext w2'
    /\ w2' = set_thread (set_lk w2 lk') tid (PHttpNotify n ($"Authentication for " ++ n ++ $" failed: " ++ m) false)
    /\ (run O w2' l3 = Some (SNext w3) -> own_steps tid l3 = 0 -> w_alive w3 = true ->
        step O w3 (LTick tid e')
        = SNext (emit (set_thread w3 tid PDone)
            [match c_error_notify_cmd (lconfig (w_lk w3)) with
             | Some cmd => OErrCmd cmd n ($"Authentication for " ++ n ++ $" failed: " ++ m)
             | None => OErrLog n ($"Authentication for " ++ n ++ $" failed: " ++ m) end])).
Proof. exact (exchange_failed O w tid i uri pairs k rs r ls w1 w2 w3 e e' n ts l2 l3). Qed.
Print Assumptions C19_failed_exchange_partial.

(** The provider answers with an error. *)
Example C19_case :
  exists i uri pairs w1 w2 ts,
    let ls := [LTick 4 (Scenario.posted (PRBody $"Eno") (tick (sec 1002)))] in
    let l2 := [LTick 4 (tick (sec 1003))] in
    reachable toy w_post /\ nth_error (w_threads w_post) 4 = Some (PHttpPost i uri pairs 10)
    /\ run toy w_post ls = Some (SNext w1) /\ map e_post (own_envs 4 ls) = [PRBody $"Eno"]
    /\ attempts 10 [PRBody $"Eno"] (PRBody $"Eno") /\ refused toy (PRBody $"Eno")
    /\ run toy w1 l2 = Some (SNext w2) /\ own_steps 4 l2 = 1 /\ w_alive w2 = true
    /\ In (mkEntry $"a" i ts) (details (w_lk w2)).
Proof.
  do 6 eexists. cbv zeta. split; [unfold w_post, w_cb, w_pend; reach_after|].
  split; [vm_compute; reflexivity|]. split; [vm_compute; reflexivity|]. split; [vm_compute; reflexivity|].
  split; [apply at_last; discriminate|].
  split; [intros v tok exs J (G & _); vm_compute in J; injection J as <-; vm_compute in G; discriminate G|].
  split; [vm_compute; reflexivity|]. split; [vm_compute; reflexivity|]. split; [vm_compute; reflexivity|].
  vm_compute. left. reflexivity.
Qed.

(** A token whose expiry cannot be represented is dropped without a word: the
    thread is done, nothing but the POST happened, and the account still waits. *)
Theorem C19_unrepresentable_expiry_refuted :
  exists O w tid i uri pairs k ls n st w' o,
    reachable O w /\ nth_error (w_threads w) tid = Some (PHttpPost i uri pairs k)
    /\ awaits w n st /\ (exists ts, In (mkEntry n i ts) (details (w_lk w)))
    /\ run O w ls = Some (SNext w') /\ nth_error (w_threads w') tid = Some PDone
    /\ awaits w' n st /\ w_trace w' = w_trace w ++ [OPost uri pairs o].
Proof.
  exists toy, w_post, 4. do 3 eexists. exists 10.
  exists [LTick 4 (Scenario.posted (PRBody $"Btok") (tick (sec 1002)));
          LTick 4 (tick time_max)].
  exists $"a". do 3 eexists.
  split; [unfold w_post, w_cb, w_pend; reach_after|]. split; [vm_compute; reflexivity|].
  split; [do 4 eexists; split; [vm_compute; left; reflexivity|]; split; vm_compute; reflexivity|].
  split; [eexists; vm_compute; left; reflexivity|].
  split; [vm_compute; reflexivity|]. split; [vm_compute; reflexivity|].
  split; [do 4 eexists; split; [vm_compute; left; reflexivity|]; split; vm_compute; reflexivity|].
  vm_compute. reflexivity.
Qed.
Print Assumptions C19_unrepresentable_expiry_refuted.

(** * C20 *)

Theorem C20_network_failure_keeps_token O w tid i n rt uri pairs e ls w1 e' :
  reachable O w -> nth_error (w_threads w) tid = Some (PRefPost i n rt uri pairs) ->
  transient (e_post e) -> run O w (LTick tid e :: ls) = Some (SNext w1) -> w_alive w1 = true ->
  own_steps tid ls = 0 ->
  (forall n' ts, In (mkEntry n' i ts) (details (w_lk w1)) ->
     exists a lk', ts = TSActive a /\
       let f := (fails a + 1)%N in
       let keeps og := becomes w1 lk' n' (TSActive (mkActive (access_token a) (obtained a) (expiry a)
                                            (refresh_token a) og f (Some (env_now e')))) in
       match c_transient_error_if_cmd (lconfig (w_lk w1)), (f mod 6 =? 0)%N with
       | Some cmd, true =>
           keeps true /\ exists i', In (mkEntry n' i' (TSActive (mkActive (access_token a) (obtained a) (expiry a)
                                            (refresh_token a) true f (Some (env_now e'))))) (details lk')
             /\ step O w1 (LTick tid e') = SNext (set_thread (set_lk w1 lk') tid (PRefCmd i' n' cmd))
       | _, _ => keeps false
             /\ step O w1 (LTick tid e') = SNext (set_thread (set_lk w1 lk') tid (do_all [ASigRefresher] PDone))
       end)
  /\ (~ current w1 i -> step O w1 (LTick tid e') = SNext (set_thread w1 tid (do_all [ASigRefresher] PDone))).
Proof. exact (transient_failure O w tid i n rt uri pairs e ls w1 e'). Qed.
Print Assumptions C20_network_failure_keeps_token.

Theorem C20_command_decides O w tid i n cmd e ls w1 e' :
  reachable O w -> nth_error (w_threads w) tid = Some (PRefCmd i n cmd) ->
  run O w (LTick tid e :: ls) = Some (SNext w1) -> w_alive w1 = true -> own_steps tid ls = 0 ->
  (exists w0, step O w (LTick tid e) = SNext w0 /\ w_trace w0 = w_trace w ++ [OTransientCmd cmd n (e_cmd_ok e)])
  /\ (forall n' ts, In (mkEntry n' i ts) (details (w_lk w1)) ->
     exists a lk', ts = TSActive a /\
       if e_cmd_ok e
       then becomes w1 lk' n' (TSActive (mkActive (access_token a) (obtained a) (expiry a)
                                           (refresh_token a) false (fails a) (last_attempt a)))
            /\ step O w1 (LTick tid e') = SNext (set_thread (set_lk w1 lk') tid (do_all [ASigRefresher] PDone))
       else becomes w1 lk' n' TSEmpty
            /\ step O w1 (LTick tid e') = SNext (set_thread (set_lk w1 lk') tid
                 (do_all [APushEvent n' EvInvalidated; ASigEventer; ASigRefresher] PDone)))
  /\ (~ current w1 i ->
      step O w1 (LTick tid e') = SNext (set_thread w1 tid
        (do_all (if e_cmd_ok e then [ASigRefresher] else [APushEvent n EvInvalidated; ASigEventer; ASigRefresher]) PDone))).
Proof. exact (transient_cmd O w tid i n cmd e ls w1 e'). Qed.
Print Assumptions C20_command_decides.

(** Whenever a token goes, it goes for one of a few reasons; network failures
    alone are none. *)
Theorem C20_why_tokens_go O w l w' n a :
  reachable O w -> step O w l = SNext w' -> holds w n (TSActive a) ->
  (forall a', ~ holds w' n (TSActive a')) -> why_lost O w n a l.
Proof. exact (token_lost O w l w' n a). Qed.
Print Assumptions C20_why_tokens_go.

(** A first failure; after the sixth the command is run; the command says so. *)
Example C20_case :
  (exists i n rt uri pairs w1,
    let e := Scenario.posted (PRTransport TrDns $"no") (tick (sec 1022)) in
    reachable toy w_refreshing /\ nth_error (w_threads w_refreshing) 5 = Some (PRefPost i n rt uri pairs)
    /\ transient (e_post e) /\ run toy w_refreshing [LTick 5 e] = Some (SNext w1)
    /\ exists ts, In (mkEntry n i ts) (details (w_lk w1)))
  /\ (exists i n cmd w1 w2 a,
    let e := cmd_result false (tick (sec 1024)) in
    reachable toy w_six /\ nth_error (w_threads w_six) 10 = Some (PRefCmd i n cmd)
    /\ run toy w_six [LTick 10 e] = Some (SNext w1) /\ In (mkEntry n i (TSActive a)) (details (w_lk w1)) /\ fails a = 6%N
    /\ step toy w1 (LTick 10 e) = SNext w2 /\ holds w1 n (TSActive a) /\ forall a', ~ holds w2 n (TSActive a')).
Proof.
  split.
  - do 6 eexists. cbv zeta. split; [unfold w_refreshing, w_auth; reach_after|].
    split; [vm_compute; reflexivity|]. split; [exact Logic.I|]. split; [vm_compute; reflexivity|].
    eexists. vm_compute. left. reflexivity.
  - do 6 eexists. cbv zeta. split; [unfold w_six, w_auth; reach_after|].
    split; [vm_compute; reflexivity|]. split; [vm_compute; reflexivity|].
    split; [vm_compute; left; reflexivity|]. split; [vm_compute; reflexivity|].
    split; [vm_compute; reflexivity|].
    split; [eexists; split; [vm_compute; left; reflexivity|]; split; vm_compute; reflexivity|].
    intros a' (e0 & H & E & T). vm_compute in H. destruct H as [<-|[<-|[]]]; discriminate T.
Qed.

(** * C21 *)

Theorem C21_permanent_failure O w tid i n rt uri pairs e ls w1 e' :
  reachable O w -> nth_error (w_threads w) tid = Some (PRefPost i n rt uri pairs) ->
  permanent O (e_post e) -> run O w (LTick tid e :: ls) = Some (SNext w1) -> w_alive w1 = true ->
  own_steps tid ls = match e_post e with PRBody _ => 1 | _ => 0 end ->
  (forall n' ts, In (mkEntry n' i ts) (details (w_lk w1)) ->
     exists lk', becomes w1 lk' n' TSEmpty
       /\ step O w1 (LTick tid e')
          = SNext (set_thread (set_lk w1 lk') tid (do_all [APushEvent n' EvInvalidated; ASigEventer] PDone)))
  /\ (~ current w1 i -> step O w1 (LTick tid e') = SNext (set_thread w1 tid PDone)).
Proof. exact (permanent_failure O w tid i n rt uri pairs e ls w1 e'). Qed.
Print Assumptions C21_permanent_failure.

(** The provider answers with an error. *)
Example C21_case :
  exists i n rt uri pairs w1 ts,
    let e := Scenario.posted (PRBody $"Eno") (tick (sec 1022)) in
    reachable toy w_refreshing /\ nth_error (w_threads w_refreshing) 5 = Some (PRefPost i n rt uri pairs)
    /\ permanent toy (e_post e) /\ run toy w_refreshing [LTick 5 e; LTick 5 (tick (sec 1023))] = Some (SNext w1)
    /\ w_alive w1 = true /\ In (mkEntry n i ts) (details (w_lk w1)).
Proof.
  do 7 eexists. cbv zeta. split; [unfold w_refreshing, w_auth; reach_after|].
  split; [vm_compute; reflexivity|].
  split; [intros v tok exs J (G & _); vm_compute in J; injection J as <-; vm_compute in G; discriminate G|].
  split; [vm_compute; reflexivity|]. split; [vm_compute; reflexivity|]. vm_compute. left. reflexivity.
Qed.

(** * C22 *)

(** Missing for the full property: tokens that came without refresh token. *)
Theorem C22_loss_is_announced_partial O w tid e w' n a :
  reachable O w -> step O w (LTick tid e) = SNext w' -> holds w n (TSActive a) ->
  (forall a', ~ holds w' n (TSActive a')) -> tid <> 0 -> refresh_token a <> None ->
  holds w' n TSEmpty
  /\ exists k, nth_error (w_threads w') tid = Some (PDo (APushEvent n EvInvalidated) k).
Proof. exact (loss_announced O w tid e w' n a). Qed.
Print Assumptions C22_loss_is_announced_partial.

(** Missing for the full property: the second alternative should not be there. *)
Theorem C22_only_losses_announced_partial O w l w' tid p' n :
  reachable O w -> step O w l = SNext w' ->
  nth_error (w_threads w') tid = Some p' -> In (APushEvent n EvInvalidated) (will_do p') ->
  (exists p, nth_error (w_threads w) tid = Some p /\ In (APushEvent n EvInvalidated) (will_do p))
  \/ ((exists e, l = LTick tid e) /\ (exists a, holds w n (TSActive a)) /\ holds w' n TSEmpty)
  \/ (exists e i cmd, l = LTick tid e /\ nth_error (w_threads w) tid = Some (PRefCmdDone i n false) /\ ~ current w i
        /\ In (OTransientCmd cmd n false) (w_trace w)).
Proof. exact (invalidated_scheduled O w l w' tid p' n). Qed.
Print Assumptions C22_only_losses_announced_partial.

Theorem C22_events_are_queued_as_scheduled O w l w' n ev os :
  reachable O w -> step O w l = SNext w' -> w_trace w' = w_trace w ++ os -> In (OEvent n ev) os ->
  exists tid e k, l = LTick tid e /\ nth_error (w_threads w) tid = Some (PDo (APushEvent n ev) k)
    /\ w_evq w' = w_evq w ++ [(n, ev)] /\ nth_error (w_threads w') tid = Some k.
Proof. exact (event_queued O w l w' n ev os). Qed.
Print Assumptions C22_events_are_queued_as_scheduled.

(** A refresh turned down. *)
Example C22_case :
  exists n a w w',
    let e := Scenario.posted (PRStatus 400 (Some $"no")) (tick (sec 1022)) in
    runs w_refreshing [LTick 5 e] = true /\ w = after w_refreshing [LTick 5 e] /\ reachable toy w
    /\ step toy w (LTick 5 e) = SNext w' /\ holds w n (TSActive a) /\ refresh_token a <> None
    /\ forall a', ~ holds w' n (TSActive a').
Proof.
  do 4 eexists. cbv zeta. split; [vm_compute; reflexivity|]. split; [reflexivity|].
  split; [unfold w_refreshing, w_auth; reach_after|]. split; [vm_compute; reflexivity|].
  split; [eexists; split; [vm_compute; left; reflexivity|]; split; vm_compute; reflexivity|].
  split; [vm_compute; discriminate|].
  intros a' (e0 & H & E & T). vm_compute in H. destruct H as [<-|[<-|[]]]; discriminate T.
Qed.

(** A token without refresh token is discarded without any event. *)
Theorem C22_silent_loss_refuted :
  exists O w tid e w' n a,
    reachable O w /\ 4 <= tid /\ step O w (LTick tid e) = SNext w' /\ holds w n (TSActive a)
    /\ (env_now e < expiry a)%Z /\ holds w' n TSEmpty
    /\ nth_error (w_threads w') tid = Some PDone /\ w_evq w' = w_evq w /\ w_trace w' = w_trace w.
Proof.
  exists toy, w_no_rt, 5, (tick (sec 1021)). do 3 eexists.
  split; [unfold w_no_rt; reach_after|]. split; [lia|]. split; [vm_compute; reflexivity|].
  split; [eexists; split; [vm_compute; left; reflexivity|]; split; vm_compute; reflexivity|].
  split; [vm_compute; reflexivity|].
  split; [eexists; split; [vm_compute; left; reflexivity|]; split; vm_compute; reflexivity|].
  compute_all.
Qed.
Print Assumptions C22_silent_loss_refuted.

(** A token_invalidated event for an account whose token had been revoked before
    the command failed: nothing is discarded in this step, or was invalidated
    ever. *)
Theorem C22_spurious_event_refuted :
  exists O w tid e w' n k,
    reachable O w /\ step O w (LTick tid e) = SNext w' /\ holds w n TSEmpty /\ w_lk w' = w_lk w
    /\ (forall m, ~ In (OEvent m EvInvalidated) (w_trace w)) /\ In (OEvent n EvRevoked) (w_trace w)
    /\ nth_error (w_threads w') tid = Some (PDo (APushEvent n EvInvalidated) k).
Proof.
  exists toy, w_six_revoked, 10, (tick (sec 1026)). do 3 eexists.
  split; [unfold w_six_revoked, w_six, w_auth; reach_after|]. split; [vm_compute; reflexivity|].
  split; [eexists; split; [vm_compute; left; reflexivity|]; split; vm_compute; reflexivity|].
  split; [vm_compute; reflexivity|].
  split.
  { intros m H. vm_compute in H. repeat (destruct H as [H|H]; [discriminate H|]). destruct H. }
  split; [|vm_compute; reflexivity].
  assert (existsb (fun o => match o with OEvent n EvRevoked => str_eqb n $"a" | _ => false end) (w_trace w_six_revoked) = true)
    as X by (vm_compute; reflexivity).
  apply existsb_exists in X as (o & Io & X). destruct o as [| | | | | | | | | | | |n ev| |]; try discriminate X.
  destruct ev; try discriminate X. apply str_eqb_eq in X. subst n. exact Io.
Qed.
Print Assumptions C22_spurious_event_refuted.

(** * C23 *)

Theorem C23_refresh_stores_answer O w tid i n rt uri pairs e body v tok exs l1 e1 l2 w1 e' :
  reachable O w -> nth_error (w_threads w) tid = Some (PRefPost i n rt uri pairs) ->
  e_post e = PRBody body -> o_json O body = inl v -> grants v tok exs ->
  run O w (LTick tid e :: l1 ++ LTick tid e1 :: l2) = Some (SNext w1) -> w_alive w1 = true ->
  own_steps tid l1 = 0 -> own_steps tid l2 = 0 ->
  (forall n' ts, In (mkEntry n' i ts) (details (w_lk w1)) ->
     exists a act lk',
       ts = TSActive a /\ configured w1 n' act /\
       let now := env_now e1 in
       let rt' := match json_get $"refresh_token" v with
                  | None => refresh_token a
                  | Some (JStr x) => Some x
                  | Some _ => None
                  end in
       let stores ex :=
         becomes w1 lk' n' (TSActive (mkActive tok now ex rt' false 0 None))
         /\ step O w1 (LTick tid e')
            = SNext (set_thread (set_lk w1 lk') tid
                       (do_all [ASigRefresher; APushEvent n' EvRefresh; ASigEventer] PDone)) in
       if (now + exs * 1000000000 <=? time_max)%Z then stores (now + exs * 1000000000)%Z
       else if (now + max_age act (lconfig (w_lk w1)) <=? time_max)%Z
       then stores (now + max_age act (lconfig (w_lk w1)))%Z
       else becomes w1 lk' n' TSEmpty
            /\ step O w1 (LTick tid e')
               = SNext (set_thread (set_lk w1 lk') tid (do_all [APushEvent n' EvInvalidated; ASigEventer] PDone)))
  /\ (~ current w1 i -> step O w1 (LTick tid e') = SNext (set_thread w1 tid PDone)).
Proof. exact (refresh_granted O w tid i n rt uri pairs e body v tok exs l1 e1 l2 w1 e'). Qed.
Print Assumptions C23_refresh_stores_answer.

(** A new token comes without refresh token: the old one is kept. *)
Example C23_case :
  exists i n rt uri pairs v exs w1 w2,
    let e := Scenario.posted (PRBody $"Tnew") (tick (sec 1022)) in
    reachable toy w_refreshing /\ nth_error (w_threads w_refreshing) 5 = Some (PRefPost i n rt uri pairs)
    /\ o_json toy $"Tnew" = inl v /\ grants v $"new" exs
    /\ run toy w_refreshing (LTick 5 e :: [] ++ LTick 5 (tick (sec 1023)) :: []) = Some (SNext w1)
    /\ (exists ts, In (mkEntry n i ts) (details (w_lk w1)))
    /\ step toy w1 (LTick 5 (tick (sec 1023))) = SNext w2
    /\ exists a, holds w2 n (TSActive a) /\ access_token a = $"new" /\ refresh_token a = Some rt.
Proof.
  do 9 eexists. cbv zeta. split; [unfold w_refreshing, w_auth; reach_after|].
  split; [vm_compute; reflexivity|]. split; [vm_compute; reflexivity|]. split; [unfold grants; compute_all|].
  split; [vm_compute; reflexivity|]. split; [eexists; vm_compute; left; reflexivity|].
  split; [vm_compute; reflexivity|]. eexists.
  split; [eexists; split; [vm_compute; left; reflexivity|]; split; vm_compute; reflexivity|].
  split; vm_compute; reflexivity.
Qed.
