(** The life of one account's token, as a state machine: every way in which a
    step of the server can change it. *)
From Verif Require Import Base Time Utf8 Base64 Url Json Oracles Config Dump State Http Timers Server
  SpecServer SpecTimers SpecRestore.
Local Open Scope Z_scope.

(** A lifetime of [exs] seconds granted at [now] ends at [ex]: then, or, should
    that time not be representable, after the account's refresh_at_least. *)
Definition ends_at (c : config) (act : account) (now exs ex : Z) : Prop :=
  (now + secs exs <= time_max /\ ex = now + secs exs)
  \/ (time_max < now + secs exs /\ now + max_age act c <= time_max /\ ex = now + max_age act c).

Definition no_end (c : config) (act : account) (now exs : Z) : Prop :=
  time_max < now + secs exs /\ time_max < now + max_age act c.

(** A time [t] written to a dump comes back as [t']: as far from now as it was when
    the clock of days is read; now, if that cannot be represented or if that clock
    goes back while it is read. *)
Inductive comes_back (r : reads) (t : Z) : Z -> Prop :=
| cb_ahead :
    rs1 r <= t -> ri1 r + (t - rs1 r) <= time_max -> comes_back r t (ri1 r + (t - rs1 r))
| cb_past :
    t < rs1 r -> t <= rs2 r -> time_min <= ri1 r - (rs2 r - t) -> comes_back r t (ri1 r - (rs2 r - t))
| cb_too_far : rs1 r <= t -> time_max < ri1 r + (t - rs1 r) -> comes_back r t (ri2 r)
| cb_too_long_ago : t < rs1 r -> t <= rs2 r -> ri1 r - (rs2 r - t) < time_min -> comes_back r t (ri2 r)
| cb_clock_back : t < rs1 r -> rs2 r < t -> comes_back r t (ri2 r).

(** [life O w n i l ts ts']: step [l] of [w] may change the token state of account
    [n], whose version is [i], from [ts] to [ts']. *)
Inductive life (O : oracles) (w : world) (n : str) (i : account_id) : label -> tokenstate -> tokenstate -> Prop :=
| lf_same l ts : life O w n i l ts ts
(* a client asks: a fresh authorisation, if there is no token *)
| lf_asked e wu ts act u :
    ~ In " "%char wu ->
    (e_client e = Some ($"refresh:" ++ wu ++ $" " ++ n) /\ (forall a, ts <> TSActive a)
     \/ e_client e = Some ($"showtoken:" ++ wu ++ $" " ++ n) /\ ts = TSEmpty) ->
    configured w n act ->
    auth_url O (w_http w) (w_https w) act (b64_encode (e_verifier_bytes e)) (b64_encode (e_state_bytes e)) u ->
    life O w n i (LTick 0 e) ts
      (TSPending (b64_encode (e_verifier_bytes e)) None (b64_encode (e_state_bytes e)) u)
| lf_revoked e ts :
    e_client e = Some ($"revoke:" ++ n) -> life O w n i (LTick 0 e) ts TSEmpty
| lf_reloaded e ts c act act' :
    e_client e = Some $"reload:" -> config_from_path O e = Val c ->
    configured w n act -> lookup n (c_accounts c) = Some act' -> ~ same_security act act' ->
    life O w n i (LTick 0 e) ts TSEmpty
| lf_restored e ts bytes plain d ad act tok ob ex rt k ob' ex' :
    e_client e = Some ($"restore:" ++ bytes) -> (forall a, ts <> TSActive a) ->
    o_decrypt O (firstn 12 bytes) (skipn 12 bytes) = Some plain -> deserialize plain = Some d ->
    d_version d = dump_version -> lookup n (d_accounts d) = Some (ad, DActive tok ob ex rt) ->
    configured w n act -> agrees ad act ->
    comes_back (e_clk e (2 * k)%nat) ob ob' -> comes_back (e_clk e (2 * k + 1)%nat) ex ex' ->
    life O w n i (LTick 0 e) ts (TSActive (mkActive tok ob' ex' rt false 0 None))
(* the notifier remembers when it last reminded the user *)
| lf_reminded e cvr ln st u :
    nth_error (w_threads w) 2 = Some PNtScan ->
    (forall t, ln = Some t -> t + c_auth_notify_interval (conf w) <= time_max ->
               t + c_auth_notify_interval (conf w) <= env_now e) ->
    life O w n i (LTick 2 e) (TSPending cvr ln st u) (TSPending cvr (Some (env_now e)) st u)
(* the browser comes back: with an error, or the exchange of the code fails or succeeds *)
| lf_refused tid e https bytes uri reason act ru cvr ln st u :
    nth_error (w_threads w) tid = Some (PHttpStart https bytes) ->
    parse_get O https bytes = Some uri -> lookup $"state" (query_pairs uri) = Some st ->
    lookup $"error" (query_pairs uri) = Some reason ->
    configured w n act -> account_redirect_uri O act (w_http w) (w_https w) = Val ru -> same_origin ru uri ->
    life O w n i (LTick tid e) (TSPending cvr ln st u) TSEmpty
| lf_exchange_failed tid e msg cvr ln st u :
    nth_error (w_threads w) tid = Some (PHttpFail i msg) ->
    life O w n i (LTick tid e) (TSPending cvr ln st u) TSEmpty
| lf_authorised tid e body v tok exs ex act cvr ln st u :
    nth_error (w_threads w) tid = Some (PHttpBody i body) ->
    o_json O body = inl v -> grants v tok exs ->
    configured w n act -> ends_at (conf w) act (env_now e) exs ex ->
    life O w n i (LTick tid e) (TSPending cvr ln st u)
      (TSActive (mkActive tok (env_now e) ex (json_str $"refresh_token" v) false 0 None))
(* a refresh starts, if there is a refresh token and none is under way *)
| lf_started tid e tok ob ex rt f la :
    nth_error (w_threads w) tid = Some (PRefStart i) ->
    life O w n i (LTick tid e) (TSActive (mkActive tok ob ex (Some rt) false f la))
      (TSActive (mkActive tok ob ex (Some rt) true f (Some (env_now e))))
| lf_not_refreshable tid e tok ob ex f la :
    nth_error (w_threads w) tid = Some (PRefStart i) ->
    life O w n i (LTick tid e) (TSActive (mkActive tok ob ex None false f la)) TSEmpty
(* the provider grants it, up to a time that can be represented or not, or turns it down *)
| lf_refreshed tid e m tok ob ex rt f la tok' exs rt' now ex' act :
    nth_error (w_threads w) tid = Some (PRefGot i m tok' exs rt' now) ->
    configured w n act -> ends_at (conf w) act now exs ex' ->
    life O w n i (LTick tid e) (TSActive (mkActive tok ob ex rt true f la))
      (TSActive (mkActive tok' now ex' rt' false 0 None))
| lf_unrepresentable tid e m tok ob ex rt f la tok' exs rt' now act :
    nth_error (w_threads w) tid = Some (PRefGot i m tok' exs rt' now) ->
    configured w n act -> no_end (conf w) act now exs ->
    life O w n i (LTick tid e) (TSActive (mkActive tok ob ex rt true f la)) TSEmpty
| lf_turned_down tid e m msg tok ob ex rt f la :
    nth_error (w_threads w) tid = Some (PRefPerm i m msg) ->
    life O w n i (LTick tid e) (TSActive (mkActive tok ob ex rt true f la)) TSEmpty
(* the provider cannot be reached: counted, and the command is asked every sixth time *)
| lf_unreachable tid e m msg tok ob ex rt f la :
    nth_error (w_threads w) tid = Some (PRefTransient i m msg) ->
    c_transient_error_if_cmd (conf w) = None \/ ((f + 1) mod 6 <> 0)%N ->
    life O w n i (LTick tid e) (TSActive (mkActive tok ob ex rt true f la))
      (TSActive (mkActive tok ob ex rt false (f + 1) (Some (env_now e))))
| lf_command tid e m msg cmd tok ob ex rt f la :
    nth_error (w_threads w) tid = Some (PRefTransient i m msg) ->
    c_transient_error_if_cmd (conf w) = Some cmd -> ((f + 1) mod 6 = 0)%N ->
    life O w n i (LTick tid e) (TSActive (mkActive tok ob ex rt true f la))
      (TSActive (mkActive tok ob ex rt true (f + 1) (Some (env_now e))))
| lf_command_ok tid e m tok ob ex rt f la :
    nth_error (w_threads w) tid = Some (PRefCmdDone i m true) ->
    life O w n i (LTick tid e) (TSActive (mkActive tok ob ex rt true f la))
      (TSActive (mkActive tok ob ex rt false f la))
| lf_command_failed tid e m tok ob ex rt f la :
    nth_error (w_threads w) tid = Some (PRefCmdDone i m false) ->
    life O w n i (LTick tid e) (TSActive (mkActive tok ob ex rt true f la)) TSEmpty.
