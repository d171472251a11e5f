(** The concrete situations shown beside the theorems of Props*.v. *)
From Verif Require Import Base Time Utf8 Url Json Oracles Config Dump State Http Timers Server
  SpecServer Reach Scenario Runs.

(** The [j]-th observation splits the trace. *)
Lemma split_at {A} (t : list A) j x : nth_error t j = Some x -> t = firstn j t ++ x :: skipn (S j) t.
Proof.
  revert j. induction t as [|y t IH]; intros [|j] H; try discriminate H; cbn in *.
  - injection H as ->. reflexivity.
  - f_equal. apply IH. exact H.
Qed.

(** Asking the server and reading the answer; [n] is the number of steps. *)
Definition ask (req : str) (t : Z) (n : nat) : list label :=
  main (client req (tick (sec t))) :: many n 0 (tick (sec t)).

(** Account "a" is authorised and its token shown. *)
Definition w_shown : world := after w_auth (ask $"showtoken:withurl a" 1010 1).

(** Its token lasts thirty thousand years. *)
Definition w_far : world := after (start conf1) (authorise $"Ytok").

(** Account "a" keeps its security-relevant fields, "b" does not. *)
Definition conf2 : str :=
  $"auth_notify_cmd = " ++ q ++ $"notify2" ++ q ++ $"; " ++ conf_account $"a" $"refresh_retry = 1m;"
  ++ conf_account $"b" ($"login_hint = " ++ q ++ $"me" ++ q ++ $"; redirect_uri = " ++ q ++ $"http://localhost/x" ++ q ++ $";").

Definition reload_env (s : str) (t : Z) : env := file s (client $"reload:" (tick (sec t))).

(** Token revoked, then authorised again and shown. *)
Definition w_again : world :=
  after w_auth
    (ask $"revoke:a" 1020 3
     ++ [main (client $"showtoken:withurl a" (rand $"STATE" $"VERIF" (tick (sec 1030))))] ++ many 2 0 (tick (sec 1030))
     ++ [LHttpConn false (callback ($"state=" ++ state_of $"STATE" ++ $"&code=c0de"))]
     ++ many 2 5 (tick (sec 1031)) ++ [LTick 5 (posted (PRBody $"Rtok2") (tick (sec 1032)))]
     ++ many 4 5 (tick (sec 1033)) ++ ask $"showtoken:withurl a" 1040 1).

(** The exchange of account "a" is in flight: thread 4 has the response. *)
Definition w_exch : world :=
  after (start conf1)
    ([main (client $"showtoken:withurl a" (tick (sec 1000)))] ++ many 2 0 (tick (sec 1000))
     ++ [LHttpConn false (callback ($"state=" ++ state_of $"statebytes" ++ $"&code=c0de"))]
     ++ many 2 4 (tick (sec 1001)) ++ [LTick 4 (posted (PRBody $"Rtok") (tick (sec 1002)))]).

(** ... and the account is revoked meanwhile. *)
Definition w_exch_revoked : world := after w_exch (ask $"revoke:a" 1003 3).

(** A refresh of account "a" is in flight in thread 5. *)
Definition w_refreshing : world :=
  after w_auth (ask $"refresh:withurl a" 1020 2 ++ [LTick 5 (tick (sec 1021))]).

(** ... and another one has been asked for, in thread 6. *)
Definition w_refreshing2 : world := after w_refreshing (ask $"refresh:withurl a" 1022 2).

(** Account "a" waits for authorisation. *)
Definition w_pend : world := after (start conf1) (ask $"showtoken:withurl a" 1000 2).

(** ... and a browser request has come in, in thread 4. *)
Definition w_cb (query : str) : world := after w_pend [LHttpConn false (callback query)].
Definition good_query : str := $"state=" ++ state_of $"statebytes" ++ $"&code=c0de".

(** ... which is the right one: thread 4 is about to exchange the code. *)
Definition w_post : world := after (w_cb good_query) (many 2 4 (tick (sec 1001))).

(** Account "b" of [conf2], whose redirect URI is "http://localhost/x", waits for
    authorisation, and a browser request for path "/" has come in. *)
Definition w_path : world :=
  after (start conf2) (ask $"showtoken:withurl b" 1000 2 ++ [LHttpConn false (callback good_query)]).

(** The token of account "a" came without refresh token; thread 5 is about to
    refresh it. *)
Definition w_no_rt : world := after (start conf1) (authorise $"Ttok" ++ ask $"refresh:withurl a" 1020 2).

(** [k] refreshes, started as threads [tid], [tid]+1, ..., that fail to get
    through. *)
Fixpoint failing (k tid : nat) : list label :=
  match k with
  | O => []
  | S k' =>
      ask $"refresh:withurl a" 1020 2
      ++ [LTick tid (tick (sec 1021)); LTick tid (Scenario.posted (PRTransport TrDns $"no") (tick (sec 1022)))]
      ++ many 2 tid (tick (sec 1023)) ++ failing k' (S tid)
  end.

(** After six of them thread 10 is about to run the command. *)
Definition w_six : world :=
  after w_auth (failing 5 5 ++ ask $"refresh:withurl a" 1020 2
    ++ [LTick 10 (tick (sec 1021)); LTick 10 (Scenario.posted (PRTransport TrDns $"no") (tick (sec 1022)));
        LTick 10 (tick (sec 1023))]).

(** Meanwhile the account is revoked, and then the command fails. *)
Definition w_six_revoked : world :=
  after w_six (ask $"revoke:a" 1024 3 ++ [LTick 10 (cmd_result false (tick (sec 1025)))]).

(** ** The timers *)

(** The refresher has been woken by the new token of account "a" and is about
    to look at it. *)
Definition w_look : world := after w_auth (many 2 3 (tick (sec 1003))).

(** ... and has gone to sleep again. *)
Definition w_asleep : world := after w_look (many 3 3 (tick (sec 1003))).

(** The same with a token that lasts ten seconds. *)
Definition w_short : world := after (start conf1) (authorise $"Stok" ++ many 2 3 (tick (sec 1003))).

(** The longest duration a configuration file can express. *)
Definition longest : str := $"18446744073709551615s".

(** Account "a" is to be refreshed so long before its expiry that no clock can
    show the time; the refresher is about to look. *)
Definition conf_margin : str := conf_account $"a" ($"refresh_before_expiry = " ++ longest ++ $";").
Definition w_margin : world := after (start conf_margin) (authorise $"Rtok" ++ many 2 3 (tick (sec 1003))).

(** A refresh of account "a" has failed transiently at 1023 s; the refresher is
    about to look. *)
Definition w_failed : world := after w_auth (failing 1 5 ++ many 2 3 (tick (sec 1024))).

(** The same, with a pause between retries that is too long. *)
Definition conf_retry : str := conf_account $"a" ($"refresh_retry = " ++ longest ++ $";").
Definition w_failed_long : world :=
  after (start conf_retry)
    (authorise $"Rtok" ++ failing 1 5 ++ many 2 3 (tick (sec 5000))).

(** An authorisation of account "a" has been asked for and the notifier is about
    to look; it decided to remind the user, and does so; it is about to look
    again. *)
Definition w_nt_look : world := after w_pend (many 2 2 (tick (sec 1000))).
Definition w_nt_decided : world := after w_nt_look [nt (tick (sec 1000))].
Definition w_nt_asleep : world := after w_nt_decided (many 3 2 (tick (sec 1000))).

(** With an interval that is too long the notifier does not sleep. *)
Definition conf_interval : str :=
  $"auth_notify_cmd = " ++ q ++ $"notify" ++ q ++ $"; auth_notify_interval = " ++ longest ++ $"; "
  ++ conf_account $"a" [] ++ conf_account $"b" [].
Definition w_interval : world :=
  after (start conf_interval) (ask $"showtoken:withurl a" 1000 2 ++ many 2 2 (tick (sec 1000))).

(** The notifier has decided to remind the user, but before it does so the
    account is revoked. *)
Definition w_stale : world := after w_nt_decided (ask $"revoke:a" 1001 3 ++ [nt (tick (sec 1002))]).

(** Two events, one delivered, the other one being delivered. *)
Definition w_events : world :=
  after w_auth (ask $"revoke:a" 1010 3 ++ many 7 1 (tick (sec 1011))).
Definition w_events_done : world := after w_events (many 4 1 (tick (sec 1012))).

(** Without token_event_cmd. *)
Definition conf_quiet : str := conf_account $"a" [].
Definition w_events_left : world :=
  after (start conf_quiet) (authorise $"Rtok" ++ ask $"revoke:a" 1010 3 ++ many 4 1 (tick (sec 1011))).
