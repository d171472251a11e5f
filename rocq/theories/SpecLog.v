(** Vocabulary for the log. *)
From Verif Require Import Base Time Utf8 Base64 Url Json Oracles Config Dump State Http Timers Server Startup Log
  SpecServer SpecLife SpecUtf8.

(** What is said about bytes that are not UTF-8: [good] is the longest beginning
    that is; then there is either the beginning of a character, up to the end, or
    something that nothing can make a character of. *)
Inductive not_text : str -> str -> Prop :=
| nt_incomplete good bad :
    is_text good -> bad <> [] -> (forall c r, scalar c -> bad <> encoding c ++ r) -> begins_char bad ->
    not_text (good ++ bad) ($"incomplete utf-8 byte sequence from index " ++ dec_of_N (N.of_nat (List.length good)))
| nt_invalid good p rest :
    is_text good -> p <> [] -> (forall c r, scalar c -> p ++ rest <> encoding c ++ r) ->
    ~ begins_char (p ++ rest) ->
    List.length p = 1 \/ begins_char p ->
    (forall q r, p ++ rest = q ++ r -> begins_char q -> List.length q <= List.length p) ->
    not_text (good ++ p ++ rest)
      ($"invalid utf-8 sequence of " ++ dec_of_N (N.of_nat (List.length p))
       ++ $" bytes from index " ++ dec_of_N (N.of_nat (List.length good))).

(** What is wrong with a request that is not documented. *)
Inductive complaint : str -> str -> Prop :=
| cp_text req : ~ In ":"%char req -> is_text req ->
    complaint req ($"Syntactically invalid request '" ++ req ++ $"'")
| cp_bytes req : ~ In ":"%char req -> ~ is_text req ->
    complaint req $"Syntactically invalid request '<can't represent as UTF-8'"
| cp_command cmd rest m : ~ In ":"%char cmd -> not_text cmd m -> complaint (cmd ++ $":" ++ rest) m
| cp_argument cmd rest m :
    In cmd [$"refresh"; $"revoke"; $"showtoken"] -> not_text rest m -> complaint (cmd ++ $":" ++ rest) m
| cp_one_word cmd rest :
    In cmd [$"refresh"; $"showtoken"] -> ~ In " "%char rest -> complaint (cmd ++ $":" ++ rest) $"Invalid command"
| cp_unknown cmd rest :
    ~ In ":"%char cmd -> is_text cmd -> ~ In cmd [$"refresh"; $"restore"; $"revoke"; $"showtoken"] ->
    rest <> [] \/ ~ In cmd [$"dump"; $"info"; $"reload"; $"shutdown"; $"status"] ->
    complaint (cmd ++ $":" ++ rest) $"Invalid command".

(** Why a refresh of account [n] failed for good, in words, by what came back. *)
Inductive turned_down (O : oracles) (n : str) : post_result -> str -> Prop :=
| td_status code body : turned_down O n (PRStatus code (Some body)) (dec_of_N code ++ $": " ++ body)
| td_bare_status code : turned_down O n (PRStatus code None) (dec_of_N code)
| td_transport m : turned_down O n (PRTransport TrOther m) m
| td_no_json body m : o_json O body = inr m -> turned_down O n (PRBody body) ($"Refreshing " ++ n ++ $" failed: " ++ m)
| td_error body v m :
    o_json O body = inl v -> json_str $"error" v = Some m ->
    turned_down O n (PRBody body) ($"Refreshing " ++ n ++ $" failed: " ++ m)
| td_unexpected body v :
    o_json O body = inl v -> json_str $"error" v = None -> (forall tok exs, ~ grants v tok exs) ->
    turned_down O n (PRBody body) $"Received JSON in unexpected format".

(** ... and why it failed for now. *)
Inductive unreachable : post_result -> str -> Prop :=
| ur_body m : unreachable (PRBodyErr m) m
| ur_transport k m : k <> TrOther -> unreachable (PRTransport k m) m.

(** A command ended well. *)
Definition went_well (x : cmd_end) : Prop := exists out, x = CExit (Some 0%N) out.

(** Why a documented request gets no answer: a dump cannot be made, or the URL to
    be visited by the user. *)
Inductive no_answer (O : oracles) (w : world) (e : env) : str -> str -> Prop :=
| na_clock n a : holds w n (TSActive a) -> no_answer O w e $"dump:" $"SystemTime must be later than UNIX_EPOCH"
| na_cipher text : o_encrypt O (e_nonce e) text = None -> no_answer O w e $"dump:" $"Creating dump failed."
| na_url cmd wu n act m :
    In cmd [$"refresh:"; $"showtoken:"] -> configured w n act ->
    (forall cvr st u, ~ auth_url O (w_http w) (w_https w) act cvr st u) ->
    no_answer O w e (cmd ++ wu ++ $" " ++ n) m.

(** A line about a refresh, and what it is about.  [w] is where the server is. *)
Inductive refresh_line (O : oracles) (w : world) (n : str) : str -> Prop :=
(* the provider turned the refresh token down; *)
| rl_refused a rt r msg :
    holds w n (TSActive a) -> refresh_token a = Some rt -> refreshed_with (w_trace w) rt r -> turned_down O n r msg ->
    refresh_line O w n ($"Permanent refresh error for " ++ n ++ $": " ++ msg)
(* or granted a token for longer than can be represented; *)
| rl_expiry a rt body v tok exs now act :
    holds w n (TSActive a) -> refresh_token a = Some rt -> refreshed_with (w_trace w) rt (PRBody body) ->
    o_json O body = inl v -> grants v tok exs -> configured w n act -> no_end (lconfig (w_lk w)) act now exs ->
    refresh_line O w n ($"Permanent refresh error for " ++ n ++ $": Can't represent expiry")
(* the user's command said that the account should be given up; *)
| rl_command cmd why :
    In (OTransientCmd cmd n false) (w_trace w) ->
    refresh_line O w n ($"Permanent refresh error for " ++ n ++ $" : " ++ why)
(* the provider was not reached. *)
| rl_unreachable a rt r msg :
    holds w n (TSActive a) -> refresh_token a = Some rt -> refreshed_with (w_trace w) rt r -> unreachable r msg ->
    refresh_line O w n ($"Transitory refresh error for " ++ n ++ $" : " ++ msg).

(** What is said about a command: [n] is the account, [x] how the command ended.
    If it has no time limit, the output is passed on; *)
Inductive notify_said (cmd n : str) : cmd_end -> str -> Prop :=
| ns_shell m : notify_said cmd n (CNoShell m) m
| ns_not_run m : notify_said cmd n (CNotRun m) (n ++ $": error when running '" ++ cmd ++ $"': " ++ m)
| ns_not_waited m : notify_said cmd n (CWaitFailed m) (n ++ $": error when running '" ++ cmd ++ $"': " ++ m)
| ns_output code out :
    code <> Some 0%N -> is_text out ->
    notify_said cmd n (CExit code out) (n ++ $": error when running '" ++ cmd ++ $"': " ++ out)
| ns_bytes code out z :
    code <> Some 0%N -> ~ is_text out -> z = $">" \/ z = [] ->
    notify_said cmd n (CExit code out)
      (n ++ $": error when running '" ++ cmd ++ $"': <stderr not representable as UTF-8" ++ z).

(** otherwise the exit code. *)
Inductive event_said (cmd : str) : cmd_end -> str -> Prop :=
| es_shell m : event_said cmd (CNoShell m) m
| es_not_run m : event_said cmd (CNotRun m) ($"Couldn't execute '" ++ cmd ++ $"': " ++ m)
| es_code c out : c <> 0%N -> event_said cmd (CExit (Some c) out) ($"'" ++ cmd ++ $"' returned " ++ dec_of_N c)
| es_killed out : event_said cmd (CExit None out) ($"'" ++ cmd ++ $"' returned <Unknown exit code")
| es_timeout : event_said cmd CTimeout ($"'" ++ cmd ++ $"' exceeded timeout")
| es_not_waited m : event_said cmd (CWaitFailed m) ($"Waiting on '" ++ cmd ++ $"' failed: " ++ m).

(** The lines at level "error" that go with what a step does. *)
Inductive error_lines (x : cmd_end) : list obs -> list log_line -> Prop :=
| el_none os : (forall o, In o os -> match o with OErrLog _ _ | OAuthCmd _ _ _ | OErrCmd _ _ _ | OEventCmd _ _ _ => False | _ => True end) ->
    error_lines x os []
| el_log n msg : error_lines x [OErrLog n msg] [(LError, n ++ $": " ++ msg)]
| el_well os : went_well x -> (forall n msg, ~ In (OErrLog n msg) os) -> error_lines x os []
| el_notify o cmd n m :
    (exists u, o = OAuthCmd cmd n u) \/ (exists t, o = OErrCmd cmd n t) -> notify_said cmd n x m ->
    error_lines x [o] [(LError, m)]
| el_event cmd n ev m : event_said cmd x m -> error_lines x [OEventCmd cmd n ev] [(LError, m)].

(** The lines at level "warn": a request that is not documented or gets no
    answer, and a token granted for longer than can be represented. *)
Inductive warning (O : oracles) (w : world) : label -> str -> Prop :=
| wn_complaint e req m : e_client e = Some req -> complaint req m -> warning O w (LTick 0 e) m
| wn_no_answer e req m : e_client e = Some req -> documented req -> no_answer O w e req m -> warning O w (LTick 0 e) m
| wn_expiry tid e n i ts body v tok exs act :
    nth_error (w_threads w) tid = Some (PHttpBody i body) -> In (mkEntry n i ts) (details (w_lk w)) ->
    o_json O body = inl v -> grants v tok exs -> configured w n act -> no_end (lconfig (w_lk w)) act (env_now e) exs ->
    warning O w (LTick tid e) $"Can't represent expiry".
