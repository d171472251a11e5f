(** Vocabulary for stating what the server does over time, independent of how
    the model computes it.  Traces list what the outside world can see, oldest
    first. *)
From Verif Require Export SpecStatus.
From Verif Require Import Base Time Utf8 Base64 Url UrlLemmas Json Oracles Config Dump State Http Server.

(** The configuration in force after a trace: the last one put in force. *)
Fixpoint config_at (t : list obs) : option config :=
  match t with
  | [] => None
  | o :: t' =>
      match config_at t' with
      | Some c => Some c
      | None => match o with OConfig c => Some c | _ => None end
      end
  end.

(** Two versions of an account that pizauth treats as the same account. *)
Definition same_security (a b : account) : Prop :=
  a_name a = a_name b /\ a_auth_uri a = a_auth_uri b
  /\ a_auth_uri_fields a = a_auth_uri_fields b /\ a_client_id a = a_client_id b
  /\ a_client_secret a = a_client_secret b /\ a_redirect_uri a = a_redirect_uri b
  /\ a_scopes a = a_scopes b /\ a_token_uri a = a_token_uri b.

(** ... and likewise for the account data in a dump. *)
Definition agrees (d : account_dump) (a : account) : Prop :=
  ad_auth_uri d = a_auth_uri a /\ ad_auth_uri_fields d = a_auth_uri_fields a
  /\ ad_client_id d = a_client_id a /\ ad_client_secret d = a_client_secret a
  /\ ad_redirect_uri d = a_redirect_uri a /\ ad_scopes d = a_scopes a
  /\ ad_token_uri d = a_token_uri a.

(** Throughout the part [t'] of the history that follows [t], account [n] was
    configured as in [act] as far as security-relevant fields go. *)
Definition unchanged (n : str) (act : account) (t t' : list obs) : Prop :=
  forall pre suf, t' = pre ++ suf ->
    exists c a, config_at (t ++ pre) = Some c /\ lookup n (c_accounts c) = Some a
                /\ same_security a act.

(** A provider's answer that hands over the access token [tok]. *)
Definition token_response (O : oracles) (body tok : str) : Prop :=
  exists v, o_json O body = inl v /\ json_str $"error" v = None
            /\ json_str $"access_token" v = Some tok /\ json_str $"token_type" v = Some $"Bearer".

(** A POST made in the name of an account. *)
Definition authenticates (act : account) (pairs : list (str * str)) : Prop :=
  lookup $"client_id" pairs = Some (a_client_id act)
  /\ lookup $"client_secret" pairs = a_client_secret act.

(** The observation that delivered [tok] for account [n] configured as [act]: a
    provider's answer, or a dump holding it. *)
Definition delivers (O : oracles) (tok n : str) (act : account) (o : obs) : Prop :=
  match o with
  | OPost uri pairs (PRBody body) =>
      uri = a_token_uri act /\ authenticates act pairs /\ token_response O body tok
  | OClient req =>
      exists bytes plain d ad ob ex rt,
        req = $"restore:" ++ bytes
        /\ o_decrypt O (firstn 12 bytes) (skipn 12 bytes) = Some plain
        /\ deserialize plain = Some d
        /\ lookup n (d_accounts d) = Some (ad, DActive tok ob ex rt)
        /\ agrees ad act
  | _ => False
  end.

(** [G n act] held of some observation in [t], and account [n] has been
    configured like [act] ever since. *)
Definition since (G : str -> account -> obs -> Prop) (t : list obs) (n : str) (act : account) : Prop :=
  exists ta o tb, t = ta ++ o :: tb /\ G n act o /\ unchanged n act ta (o :: tb).

(** The POST with these fields redeems a code obtained through the
    authorisation URL [u]: it proves possession of the verifier behind the
    challenge in [u], for the same client and redirect URI. *)
Definition redeems (O : oracles) (u : url) (pairs : list (str * str)) : Prop :=
  exists v cid ru,
    lookup $"grant_type" pairs = Some $"authorization_code"
    /\ lookup $"code_verifier" pairs = Some v
    /\ In ($"code_challenge", b64_encode (o_sha256 O v)) (raw_pairs u)
    /\ In ($"code_challenge_method", $"S256") (raw_pairs u)
    /\ lookup $"client_id" pairs = Some cid /\ In ($"client_id", cid) (raw_pairs u)
    /\ lookup $"redirect_uri" pairs = Some ru /\ In ($"redirect_uri", ru) (raw_pairs u).

(** Since [t] began: a restore was asked for, or an authorisation of account
    [n] was asked for and a code obtained for it exchanged. *)
Definition reauthorised (O : oracles) (n : str) (t : list obs) : Prop :=
  (exists bytes, In (OClient ($"restore:" ++ bytes)) t)
  \/ exists ta u tb uri pairs body tc,
       t = ta ++ OAuthUrl n u :: tb ++ OPost uri pairs (PRBody body) :: tc /\ redeems O u pairs.

(** Account [n] is in token state [ts]. *)
Definition holds (w : world) (n : str) (ts : tokenstate) : Prop :=
  exists e, In e (details (w_lk w)) /\ d_name e = n /\ d_ts e = ts.

(** Account [n] is configured as [act]. *)
Definition configured (w : world) (n : str) (act : account) : Prop :=
  lookup n (c_accounts (lconfig (w_lk w))) = Some act.

(** The account version a thread is working on. *)
Fixpoint work_id (p : pc) : option account_id :=
  match p with
  | PDo _ k => work_id k
  | PRefStart i | PRefPost i _ _ _ _ | PRefBody i _ _ _ | PRefGot i _ _ _ _ _ | PRefPerm i _ _
  | PRefTransient i _ _ | PRefCmd i _ _ | PRefCmdDone i _ _
  | PHttpPost i _ _ _ | PHttpBody i _ | PHttpFail i _ => Some i
  | _ => None
  end.

(** The actions a thread is going to take next, before it looks at any shared
    state again. *)
Fixpoint will_do (p : pc) : list action :=
  match p with
  | PDo a k => a :: will_do k
  | _ => []
  end.

(** Bytewise lexicographic order. *)
Inductive str_le : str -> str -> Prop :=
| le_nil b : str_le [] b
| le_lt x y a b : (N_of_ascii x < N_of_ascii y)%N -> str_le (x :: a) (y :: b)
| le_eq x a b : str_le a b -> str_le (x :: a) (x :: b).

(** The label concerns account [n]. *)
Inductive concerns (O : oracles) (w : world) (n : str) : label -> Prop :=
| con_request e wu req :
    nth_error (w_threads w) 0 = Some PMain -> e_client e = Some req -> ~ In " "%char wu ->
    req = $"showtoken:" ++ wu ++ $" " ++ n \/ req = $"refresh:" ++ wu ++ $" " ++ n \/ req = $"revoke:" ++ n ->
    concerns O w n (LTick 0 e)
| con_callback tid e https bytes uri st cvr ln u :
    nth_error (w_threads w) tid = Some (PHttpStart https bytes) ->
    parse_get O https bytes = Some uri -> lookup $"state" (query_pairs uri) = Some st ->
    holds w n (TSPending cvr ln st u) ->
    concerns O w n (LTick tid e)
| con_work tid e p i ts :
    nth_error (w_threads w) tid = Some p -> work_id p = Some i ->
    In (mkEntry n i ts) (details (w_lk w)) ->
    concerns O w n (LTick tid e).

(** Steps that by their nature deal with all accounts. *)
Inductive global_step (w : world) : label -> Prop :=
| gl_reload e : nth_error (w_threads w) 0 = Some PMain -> e_client e = Some $"reload:" -> global_step w (LTick 0 e)
| gl_restore e bytes :
    nth_error (w_threads w) 0 = Some PMain -> e_client e = Some ($"restore:" ++ bytes) -> global_step w (LTick 0 e)
| gl_notify e : nth_error (w_threads w) 2 = Some PNtScan -> global_step w (LTick 2 e).

(** The token version a thread is refreshing. *)
Definition ref_id (p : pc) : option account_id :=
  match p with
  | PRefPost i _ _ _ _ | PRefBody i _ _ _ | PRefGot i _ _ _ _ _ | PRefPerm i _ _
  | PRefTransient i _ _ | PRefCmd i _ _ | PRefCmdDone i _ _ => Some i
  | _ => None
  end.

(** How many of the steps [ls] are steps of thread [tid]. *)
Definition is_tick (tid : nat) (l : label) : bool :=
  match l with LTick t _ => Nat.eqb t tid | _ => false end.

Definition own_steps (tid : nat) (ls : list label) : nat := List.length (filter (is_tick tid) ls).

(** A thread that is going to take the actions [l] and then go on as [k]. *)
Definition do_all (l : list action) (k : pc) : pc := fold_right PDo k l.

(** [u] is the authorisation URL for account [act], code verifier [cvr] and
    state [st], redirecting to the server on the given ports. *)
Definition auth_url (O : oracles) (hp hsp : option N) (act : account) (cvr st : str) (u : url) : Prop :=
  exists ru base,
    account_redirect_uri O act hp hsp = Val ru
    /\ o_url_parse O (a_auth_uri act) = Some base
    /\ u = extend_pairs base (auth_params act (b64_encode (o_sha256 O cvr)) (url_to_str ru) st).

(** How the URL of a pending authorisation is passed on. *)
Definition url_answer (wu : str) (u : url) : str :=
  $"pending:" ++ (if str_eqb wu $"withurl" then url_to_str u else []).

(** What is known about [Url::parse]: it accepts pizauth's default redirect
    URI, and http(s) URLs always have a host. *)
Record url_laws (O : oracles) : Prop := mkUrlLaws {
  ul_default : exists u, o_url_parse O $"http://localhost/" = Some u
                         /\ u_scheme u = $"http" /\ u_host u = Some $"localhost";
  ul_host : forall s u, o_url_parse O s = Some u -> u_scheme u = $"http" \/ u_scheme u = $"https" ->
              exists c h, u_host u = Some (c :: h);
}.

(** The requests the protocol documents. *)
Inductive documented : str -> Prop :=
| doc_dump : documented $"dump:"
| doc_info : documented $"info:"
| doc_reload : documented $"reload:"
| doc_refresh wu n : ~ In " "%char wu -> utf8_valid (wu ++ $" " ++ n) = true -> documented ($"refresh:" ++ wu ++ $" " ++ n)
| doc_restore bytes : documented ($"restore:" ++ bytes)
| doc_revoke n : utf8_valid n = true -> documented ($"revoke:" ++ n)
| doc_show wu n : ~ In " "%char wu -> utf8_valid (wu ++ $" " ++ n) = true -> documented ($"showtoken:" ++ wu ++ $" " ++ n)
| doc_shutdown : documented $"shutdown:"
| doc_status : documented $"status:".

(** Scheme, host and port of the request's URI. *)
Definition same_origin (a b : url) : Prop :=
  u_scheme a = u_scheme b /\ u_host a = u_host b /\ u_port a = u_port b.

(** The observation that handed over the refresh token [rt] for account [n]
    configured as [act]. *)
Definition gives_refresh (O : oracles) (rt n : str) (act : account) (o : obs) : Prop :=
  match o with
  | OPost uri pairs (PRBody body) =>
      uri = a_token_uri act /\ authenticates act pairs
      /\ exists v, o_json O body = inl v /\ json_str $"error" v = None /\ json_str $"refresh_token" v = Some rt
  | OClient req =>
      exists bytes plain d ad tok ob ex,
        req = $"restore:" ++ bytes
        /\ o_decrypt O (firstn 12 bytes) (skipn 12 bytes) = Some plain
        /\ deserialize plain = Some d
        /\ lookup n (d_accounts d) = Some (ad, DActive tok ob ex (Some rt))
        /\ agrees ad act
  | _ => False
  end.

(** The last request in the history, if it has not been answered. *)
Fixpoint unanswered (t : list obs) (r : option str) : option str :=
  match t with
  | [] => r
  | OClient req :: t' => unanswered t' (Some req)
  | OReply _ _ :: t' => unanswered t' None
  | _ :: t' => unanswered t' r
  end.

(** Replacing the state by [lk'] puts account [n] in token state [ts] and
    changes nothing else. *)
Definition becomes (w : world) (lk' : locked) (n : str) (ts : tokenstate) : Prop :=
  holds (set_lk w lk') n ts
  /\ lconfig lk' = lconfig (w_lk w)
  /\ (forall e, d_name e <> n -> In e (details lk') <-> In e (details (w_lk w))).

(** A provider's answer [v] hands over the token [tok], valid for [exs] seconds. *)
Definition grants (v : json) (tok : str) (exs : Z) : Prop :=
  json_str $"error" v = None /\ json_str $"access_token" v = Some tok
  /\ json_str $"token_type" v = Some $"Bearer" /\ json_u64 $"expires_in" v = Some exs.

(** How a refresh attempt can go wrong: for reasons that may go away ... *)
Definition transient (r : post_result) : Prop :=
  match r with
  | PRBodyErr _ | PRTransport TrConnectionFailed _ | PRTransport TrDns _ | PRTransport TrIo _ => True
  | _ => False
  end.

(** ... or for good. *)
Definition permanent (O : oracles) (r : post_result) : Prop :=
  match r with
  | PRStatus _ _ | PRTransport TrOther _ => True
  | PRBody body => forall v tok exs, o_json O body = inl v -> ~ grants v tok exs
  | _ => False
  end.

(** Version [i] of some account is current. *)
Definition current (w : world) (i : account_id) : Prop := exists e, In e (details (w_lk w)) /\ d_id e = i.

(** The refresh token [rt] was sent to a provider, which answered [r]. *)
Definition refreshed_with (t : list obs) (rt : str) (r : post_result) : Prop :=
  exists uri pairs, In (OPost uri pairs r) t /\ lookup $"refresh_token" pairs = Some rt.

Local Open Scope Z_scope.
(** The settings that apply to an account: its own, else the global one, else
    the default. *)
Definition first_of (own global : option Z) (default : Z) : Z :=
  match own, global with
  | Some d, _ => d
  | None, Some d => d
  | None, None => default
  end.

Definition secs (n : Z) : Z := n * 1000000000.

Definition max_age (act : account) (c : config) : Z :=
  first_of (a_refresh_at_least act) (c_refresh_at_least c) (secs 5400).
Local Close Scope Z_scope.

(** Why pizauth may take a token away from account [n]: *)
Inductive why_lost (O : oracles) (w : world) (n : str) (a : active) : label -> Prop :=
(* the user asked for it; *)
| lost_revoked e : e_client e = Some ($"revoke:" ++ n) -> why_lost O w n a (LTick 0 e)
(* a new configuration does without the account, or changes what the token depends on; *)
| lost_reloaded e c :
    e_client e = Some $"reload:" -> config_from_path O e = Val c ->
    (forall act act', configured w n act -> lookup n (c_accounts c) = Some act' -> ~ same_security act act') ->
    why_lost O w n a (LTick 0 e)
(* the provider turned a refresh down; *)
| lost_refused tid e rt r :
    refresh_token a = Some rt -> refreshed_with (w_trace w) rt r -> permanent O r -> why_lost O w n a (LTick tid e)
(* ... or granted it up to a time that cannot be represented; *)
| lost_expiry tid e rt body v tok exs now act :
    refresh_token a = Some rt -> refreshed_with (w_trace w) rt (PRBody body) ->
    o_json O body = inl v -> grants v tok exs -> configured w n act ->
    (time_max < now + secs exs)%Z -> (time_max < now + max_age act (lconfig (w_lk w)))%Z ->
    why_lost O w n a (LTick tid e)
(* the user's command said so after a multiple of six network failures in a row; *)
| lost_command tid e rt r cmd :
    refresh_token a = Some rt -> refreshed_with (w_trace w) rt r -> transient r ->
    In (OTransientCmd cmd n false) (w_trace w) -> fails a <> 0%N -> (fails a mod 6 = 0)%N ->
    why_lost O w n a (LTick tid e)
(* it was due or asked to be refreshed but came without refresh token. *)
| lost_no_refresh_token tid e i :
    nth_error (w_threads w) tid = Some (PRefStart i) -> In (mkEntry n i (TSActive a)) (details (w_lk w)) ->
    refresh_token a = None -> why_lost O w n a (LTick tid e).

(** What the steps of thread [tid] among [ls] saw. *)
Definition own_envs (tid : nat) (ls : list label) : list env :=
  flat_map (fun l => match l with LTick t e => if Nat.eqb t tid then [e] else [] | _ => [] end) ls.

(** [r] is what [rs], at most [k] attempts of which all but the last failed to
    get through, come to. *)
Inductive attempts : nat -> list post_result -> post_result -> Prop :=
| at_last k r : (forall t m, r <> PRTransport t m) -> attempts (S k) [r] r
| at_giveup t m : attempts 1 [PRTransport t m] (PRTransport t m)
| at_retry k t m rs r : attempts (S k) rs r -> attempts (S (S k)) (PRTransport t m :: rs) r.

(** Why an exchange with the token server at [uri] failed, in words, by what came
    of the last attempt. *)
Inductive exchange_reason (O : oracles) (uri : str) : post_result -> str -> Prop :=
| er_unreachable t m : exchange_reason O uri (PRTransport t m) ($"couldn't connect to " ++ uri)
| er_status code body : exchange_reason O uri (PRStatus code (Some body)) (dec_of_N code ++ $": " ++ body)
| er_bare_status code : exchange_reason O uri (PRStatus code None) (dec_of_N code)
| er_unreadable m : exchange_reason O uri (PRBodyErr m) m
| er_no_json body m : o_json O body = inr m -> exchange_reason O uri (PRBody body) ($"Invalid JSON: " ++ m)
| er_error body v m : o_json O body = inl v -> json_str $"error" v = Some m -> exchange_reason O uri (PRBody body) m
| er_unexpected body v :
    o_json O body = inl v -> json_str $"error" v = None -> (forall tok exs, ~ grants v tok exs) ->
    exchange_reason O uri (PRBody body) $"invalid response received".

(** How often account [n] got a new token; how often authorisation was asked for it. *)
Fixpoint count_new (n : str) (t : list obs) : nat :=
  match t with
  | [] => 0
  | OEvent m EvNew :: t' => (if str_eqb m n then 1 else 0) + count_new n t'
  | _ :: t' => count_new n t'
  end.

Fixpoint count_urls (n : str) (t : list obs) : nat :=
  match t with
  | [] => 0
  | OAuthUrl m _ :: t' => (if str_eqb m n then 1 else 0) + count_urls n t'
  | _ :: t' => count_urls n t'
  end.

(** The [state]s drawn at random in the main thread's steps. *)
Definition states_drawn (ls : list label) : list str :=
  flat_map (fun l => match l with LTick 0 e => [b64_encode (e_state_bytes e)] | _ => [] end) ls.

(** Account [n] waits for an authorisation with this [state]. *)
Definition awaits (w : world) (n st : str) : Prop := exists cvr ln u, holds w n (TSPending cvr ln st u).
