import json
P=[]
def p(title,statement,quantifier,why,anchors):
    P.append(dict(id="C%02d"%(len(P)+1),title=title,statement=statement,quantifier=quantifier,why_tests_cant=why,anchors=anchors))
S="src/server/state.rs"; R="src/server/refresher.rs"; M="src/server/mod.rs"; H="src/server/http_server.rs"; N="src/server/notifier.rs"; E="src/server/eventer.rs"; Q="src/server/request_token.rs"; C="src/config.rs"; U="src/user_sender.rs"
p("A shown token belongs to the current account configuration",
  "Whenever `pizauth show A` prints an access token, that token was delivered by a successful response of the token URI of the *currently configured* account A to a request made with A's current client id and secret, or was restored by `pizauth restore` from a dump whose entry for A agrees with the current configuration on every security-relevant field. A token obtained for an older version of the account is never shown.",
  "every configuration, every history of client requests, reloads, restores, browser callbacks, refreshes, provider replies and notifier/refresher/eventer activity, under every thread interleaving",
  "needs every interleaving of reloads with slow in-flight exchanges and refreshes",
  [S+":LockedState::update_conf",S+":CTGuard",M+":request (showtoken)",H+":request",R+":inner_refresh"])
p("Reload keeps exactly the tokens whose account is unchanged in every security-relevant field",
  "After a successful `pizauth reload`, an account keeps its token / pending authentication iff an account of that name existed before and agrees on name, auth_uri, auth_uri_fields, client_id, client_secret, redirect_uri, scopes and token_uri; every other account starts with no token; accounts not in the new configuration are gone; changing only refresh_at_least, refresh_before_expiry, refresh_retry or global options never drops a token.",
  "every pair of configurations, every token state, every hash map iteration order",
  "quantifies over all configuration pairs and map orders",
  [S+":LockedState::update_conf",C+":Account::secure_eq"])
p("A failed reload changes nothing",
  "If the configuration file cannot be read or is not valid, `pizauth reload` replies `error:` and the configuration, every account's token state and the wakeup schedule are unchanged.",
  "every file content that is rejected, every server state","all malformed inputs",
  [M+":request (reload)",C+":Config::from_path",S+":AuthenticatorState::update_conf"])
p("Revocation is final",
  "After `pizauth revoke A` has been acknowledged, no access token for A is ever shown again unless, after the revoke, a new authorisation for A was requested and its code exchanged, or a dump was restored. In particular no exchange or refresh that was in flight at the time of the revoke can bring a token back.",
  "every history and every interleaving of in-flight exchanges and refreshes with the revoke","schedules of in-flight network operations",
  [M+":request (revoke)",S+":CTGuard::tokenstate_replace",R+":inner_refresh",H+":request"])
p("In-flight work on an outdated account version has no effect",
  "When an account's configuration or token state changes while an exchange or refresh for it is in flight, the completion of that operation leaves every account's token state unchanged.",
  "every reachable state, every in-flight operation, every provider reply","ABA-style races over unbounded histories",
  [S+":AccountId",S+":CTGuard::is_act_id_valid",R+":sched_refresh",H+":request",H+":fail"])
p("Account versions are never reused",
  "Every account version identifier handed out is different from all previous ones, all current identifiers are distinct, and an identifier that has stopped being valid never becomes valid again.",
  "every history of operations","needs unbounded histories",
  [S+":AccountId::new",S+":LockedState::new",S+":LockedState::update_conf",S+":LockedState::restore",S+":CTGuard::tokenstate_replace",S+":CTGuard::tokenstate_set_ongoing_refresh"])
p("The server never panics",
  "No sequence of client requests, browser requests, provider replies, command outcomes, reloads and timer events makes the server hit an `unwrap` on nothing, a missing map key, a failing assertion or an `unreachable!` (which would abort the daemon and lose all tokens).",
  "every history and interleaving from every accepted start configuration","absence over all executions",
  [S+":CTGuard::account",S+":CTGuard::tokenstate",S+":LockedState::update_conf",S+":LockedState::restore",Q+":request_token",R+":sched_refresh",R+":inner_refresh",H+":request",C+":Account::redirect_uri"])
p("Every configured account, and nothing else, is known to the server",
  "In every reachable state the accounts that requests can name are exactly the accounts of the configuration last loaded; each has exactly one token state; `pizauth status` lists each of them exactly once, in sorted order, and reports `No accounts configured` never (if it can answer at all, see C07).",
  "every history","invariant over all histories",
  [S+":LockedState (invariant I1)",M+":request (status)"])
p("At most one refresh per token is in flight",
  "At any time at most one refresh request is in flight for a given version of an account's token; asking for a refresh while one is in flight starts no second one.",
  "every history and interleaving, including the refresher thread racing with `refresh` and `show`","thread interleavings",
  [R+":sched_refresh",M+":request (refresh, showtoken)"])
p("A refresh in progress is always being worked on and always ends",
  "Whenever an account is marked as having a refresh in progress there is exactly one live refresh attempt responsible for it, and that attempt, after a bounded number of its own steps, either replaces the token, discards it or clears the mark; the mark can never be left behind.",
  "every history and interleaving","stuck-flag bugs need particular interleavings",
  [R+":sched_refresh",R+":inner_refresh",S+":CTGuard::tokenstate_set_ongoing_refresh"])
p("`show` answers exactly according to the account's token state",
  "`pizauth show A` prints the stored access token iff A holds a token whose expiry is strictly later than now; a token that has expired is never printed; with no token it starts an authorisation and reports the URL; with a pending authorisation it reports that same URL and changes nothing; with an expired token it reports an error and starts a refresh unless one is in progress; for an unknown account it reports an error and changes nothing.",
  "every state, account name, clock value","decision table over all states and clock values",
  [M+":request (showtoken)"])
p("`refresh` answers exactly according to the account's token state",
  "`pizauth refresh A` with a token held schedules a refresh and exits 0, with none held starts a fresh authorisation (replacing a pending one, whose URL then stops working) and reports the new URL, and for an unknown account reports an error and changes nothing.",
  "every state and account name","decision table over all states",
  [M+":request (refresh)",Q+":request_token"])
p("Requests about one account never affect another",
  "show, refresh, revoke, a browser callback and the completion of an exchange or refresh for one account leave the token state of every other account unchanged.",
  "every reachable state and every pair of accounts","frame property over all states",
  [S+":CTGuard::tokenstate_replace",M+":request",H+":request",R+":sched_refresh"])
p("A browser request without a matching state has no effect",
  "A browser request that is malformed, has no `state` parameter, or whose `state` matches no pending authorisation changes nothing, contacts no provider and runs no command.",
  "every byte sequence sent to the HTTP(S) port, every server state","all inputs",
  [H+":request",H+":parse_get",S+":CTGuard::act_id_matching_token_state"])
p("A callback must arrive at the account's redirect URI",
  "A browser request whose state matches but whose URI differs from the redirect URI of the matched account is answered 404 and changes nothing.",
  "every request, every redirect URI, every port","all inputs",
  [H+":request",C+":Account::redirect_uri"])
p("PKCE: each code exchange proves possession of the verifier of the URL the user was sent to",
  "Every authorization_code POST carries a code_verifier v, client_id and redirect_uri such that an authorisation URL had earlier been issued for the same account with code_challenge = BASE64URL(SHA256(v)), code_challenge_method=S256, the same client_id and redirect_uri, and a `state` equal to the one in the browser request whose `code` is being exchanged.",
  "every history and interleaving","relates three points of an unbounded history",
  [Q+":request_token",H+":request"])
p("An authorisation can be completed at most once",
  "Once a code exchange has produced a token, or the authorisation was replaced, revoked, failed or dropped by a reload, a browser request with the same `state` no longer leads to any token.",
  "every history with distinct random states","replay over unbounded histories",
  [S+":CTGuard::act_id_matching_token_state",H+":request"])
p("A successful code exchange yields a token",
  "If the provider answers the code exchange of an authorisation that has not been replaced, revoked, failed or dropped by a reload with a valid token response, the account ends up holding that token and a token_new event is queued.",
  "every history and interleaving","race with the notifier thread",
  [H+":request",N+":Notifier::notifier"])
p("A failed code exchange is reported and reset",
  "If the code exchange of a still current authorisation fails (network, HTTP status, invalid JSON, `error` field, wrong shape, unrepresentable expiry) the account is reset to having no token and the user is notified exactly once, with the reason, through error_notify_cmd or the log.",
  "every provider reply, every history","all replies and races",
  [H+":request",H+":fail",N+":Notifier::notify_error"])
p("Network failures alone never discard a token",
  "A refresh that fails with a connection, DNS or I/O error keeps the access and refresh token, unless transient_error_if_cmd is configured, this was a multiple of six consecutive failures, and the command failed.",
  "every number of consecutive failures, every history","unbounded failure counts",
  [R+":sched_refresh",R+":inner_refresh",R+":TRANSIENT_ERROR_RETRIES"])
p("Permanent refresh failures discard the token and say so exactly once",
  "A refresh of a current token that fails permanently (HTTP error status, other transport error, invalid JSON, `error` field, unexpected shape) leaves the account without token and queues exactly one token_invalidated event for it.",
  "every provider reply, every state","all replies",
  [R+":inner_refresh",R+":sched_refresh"])
p("token_invalidated is queued iff a held token was invalidated",
  "Whenever pizauth itself discards a held access token (not through revoke or reload) a token_invalidated event for that account is queued, and such an event is queued only then.",
  "every history and interleaving","all histories",
  [R+":sched_refresh",R+":inner_refresh",H+":fail",E+":Eventer::token_event"])
p("A successful refresh stores exactly what the provider sent",
  "After a successful refresh of a current token the account holds the new access token with expiry = time of receipt + expires_in, failure count 0, and as refresh token: the new one if a string was sent, the previous one if none was sent; one token_refreshed event is queued.",
  "every provider reply and state","all replies",
  [R+":inner_refresh",M+":expiry_instant"])
p("Tokens are refreshed in time",
  "The refresher considers a token due no later than refresh_before_expiry before its expiry and no later than refresh_at_least after it was obtained, using the account's setting, else the global one, else 90s / 90min.",
  "every token, configuration and clock value, including values whose sums are not representable","arithmetic over all values",
  [R+":refresh_at",C+":Account::refresh_at_least",C+":Account::refresh_before_expiry"])
p("A freshly obtained token is not immediately refreshed",
  "A token that has just been obtained is not due for refresh at once.",
  "every expires_in and configuration","arithmetic over all values",
  [R+":refresh_at","CHANGES.md 0.2.0"])
p("Retries after transient failures are spaced",
  "After a refresh attempt failed transiently at time t the refresher itself does not start another attempt before t + refresh_retry, and considers one due at exactly that time.",
  "every token, configuration and clock value","arithmetic over all values",
  [R+":refresh_at",C+":Account::refresh_retry"])
p("The background threads never sleep more than 37 seconds when work lies ahead",
  "If some token has a due time, the wakeup deadline computed by the refresher is at most 37 seconds in the future and never later than the earliest due time; likewise for the notifier and pending authorisations.",
  "every state and clock value","all states",
  [R+":next_wakeup",N+":next_wakeup",M+":MAX_WAIT_SECS"])
p("No lost wakeups",
  "Whenever the refresher is asleep and nobody is about to wake it, its deadline is no later than the due time of every token; whenever the notifier is asleep and nobody is about to wake it, its deadline is no later than the time at which any pending authorisation should be notified.",
  "every history and interleaving of state changes with the condition-variable protocol","lost wakeups depend on exact interleavings",
  [R+":refresher",R+":notify_changes",N+":notifier",N+":notify_changes",Q+":request_token",S+":AuthenticatorState::update_conf",S+":AuthenticatorState::restore"])
p("Reminders for one authorisation are spaced by auth_notify_interval",
  "auth_notify_cmd is run for a pending authorisation as soon as the notifier runs after it was requested, and then again only when at least auth_notify_interval has passed since the previous notification of that authorisation.",
  "every history, interval and clock value","all values and histories",
  [N+":notifier",N+":notify_at"])
p("Notifications carry the right account and the current URL",
  "Every run of auth_notify_cmd has PIZAUTH_ACCOUNT set to an account with a pending authorisation and PIZAUTH_URL to the authorisation URL currently issued for that very account.",
  "every state","all states",
  [N+":notifier"])
p("Token events are delivered in order, one at a time, at most once",
  "The sequence of token_event_cmd runs is a subsequence of the sequence of queued events in the same order; two runs never overlap; if token_event_cmd is configured throughout, every queued event that precedes a run has been delivered (none is skipped).",
  "every history and interleaving","interleavings of producers with the eventer",
  [E+":Eventer::eventer",E+":Eventer::token_event"])
p("Queued token events do not linger",
  "Whenever the eventer is asleep the event queue is empty or a wakeup is under way.",
  "every history and interleaving","interleavings",
  [E+":Eventer::eventer"])
p("dump followed by restore preserves every held token",
  "Restoring into a server with the same accounts and no tokens a dump taken from another server gives every account that held a token the same access and refresh token, and leaves all others without token.",
  "every state, nonce, hash order and clock reading","all states; codec round trip",
  [S+":AuthenticatorState::dump",S+":AuthenticatorState::restore",S+":LockedState::dump",S+":LockedState::restore",S+":TokenState::dump",S+":TokenState::restore"])
p("restore only ever upgrades",
  "`pizauth restore` never changes the configuration, never touches an account that holds a token, never touches an account whose security-relevant configuration differs from the dump, never installs anything but a dumped token, and restoring the same dump twice is the same as once.",
  "every dump, every state","all dumps and states",
  [S+":LockedState::restore",C+":Account::secure_restorable"])
p("A dump that cannot be restored is rejected with an error",
  "If the input to `pizauth restore` is too short, fails authentication, cannot be decoded or has another version, nothing changes and `restore` reports an error.",
  "every byte sequence","all inputs",
  [S+":AuthenticatorState::restore",S+":LockedState::restore",M+":request (restore)"])
p("dump/restore shifts expiry times by at most the clock reading skew",
  "If time points are representable, the expiry restored differs (relative to the wall clock) from the dumped one by at most the time that passed between the clock readings taken while dumping and restoring.",
  "every clock reading sequence and every expiry in the past or future","arithmetic over all values",
  [S+":TokenState::dump (dump_instant)",S+":TokenState::restore (restore_instant)"])
p("The dump encoding is a faithful codec",
  "Decoding the serialised form of any dump yields that dump; serialisation fails only for times before 1970; decoding never reads past the input.",
  "every dump structure","unbounded structures",
  [S+":Dump",S+":TokenStateDump",C+":AccountDump"])
p("Dumps never contain pending authentication secrets",
  "The dump contains only names, security-relevant configuration and held tokens: two servers that differ only in pending authorisations (states, verifiers, URLs), failure counters or refresh marks produce the same dump contents.",
  "every pair of states","non-interference over all states",
  [S+":TokenState::dump",S+":LockedState::dump"])
p("Client and server agree on every request",
  "For every account name (including ones with spaces, colons, newlines or non-ASCII characters) the request sent by `show`, `refresh` and `revoke` is decoded by the server to exactly that command, URL preference and account name.",
  "every UTF-8 account name","all strings",
  [U+":show_token",U+":refresh",U+":revoke",M+":request"])
p("Client prints exactly the token",
  "`pizauth show A` exits 0 iff the server replied with an access token, and then prints exactly the stored token followed by a newline, whatever characters the token contains; every other reply leads to exit 1 and prints nothing on stdout.",
  "every reply and token","all strings",
  [U+":show_token","src/main.rs:main"])
p("Every request gets at most one reply and malformed requests change nothing",
  "Each client connection receives at most one reply; a request that is not one of the documented commands in the documented form changes no state and starts no activity.",
  "every byte sequence","all inputs",
  [M+":request"])
p("Time values mean what they say",
  "A time literal of digits followed by s, m, h or d denotes that number of seconds, minutes, hours or days, and is rejected iff the number or the resulting number of seconds is not below 2^64.",
  "every digit string and unit","unbounded digit strings and overflow boundary",
  [C+":time_str_to_duration","src/config.l:TIME"])
p("Every string can be written in the configuration file",
  "Escaping backslashes and quotes of any string and enclosing it in quotes yields one STRING lexeme whose value is that string, and each STRING lexeme is the escape of exactly one string.",
  "every string","all strings",
  [C+":unescape_str","src/config.l:STRING"])
p("The configuration parser accepts exactly the grammar",
  "A text is parsed iff its lexemes form a sentence of the grammar, and the parsed structure lists the items and fields in source order.",
  "every token sequence","all inputs",
  ["src/config.y","src/config.l","src/config_ast.rs"])
p("Account blocks: mandatory, unique and order-independent fields",
  "An account block is accepted iff it has auth_uri, client_id and token_uri, repeats no field, its URIs are http(s) URIs, its times are representable and login_hint does not clash with auth_uri_fields; acceptance and the resulting account do not depend on the order of the fields.",
  "every list of fields","all field lists and permutations",
  [C+":Account::from_fields",C+":check_not_assigned",C+":check_assigned"])
p("Top-level options: unique and order-independent",
  "A configuration repeating a top-level option is rejected; otherwise the options' effective values do not depend on their order; unspecified ones get the documented defaults.",
  "every list of top-level items","all lists and permutations",
  [C+":Config::from_str"])
p("An accepted configuration can receive every account's redirect",
  "If a configuration is accepted then at least one of the HTTP and HTTPS servers is on, there is at least one account, and no account has a redirect URI whose scheme's server is off.",
  "every configuration text","all inputs",
  [C+":Config::from_str",C+":Account::redirect_uri"])
p("login_hint is passed on",
  "A login_hint given in an account block appears as login_hint in the authorisation URL, as the equivalent auth_uri_fields entry would.",
  "every account block with a login_hint","all inputs",
  [C+":Account::from_fields",Q+":request_token","CHANGES.md 0.2.1","pizauth.conf.5"])
p("The authorisation URL carries exactly the right parameters",
  "The query of an authorisation URL decodes to: the query parameters of auth_uri, then pizauth's own parameters, then scope (space separated) if there are any scopes, then auth_uri_fields in the order written, repetitions included.",
  "every account, every string content of the fields","encoding round trip over all strings",
  [Q+":request_token"])
p("State and verifier survive URL transport",
  "The state and code verifier are 11 and 86 characters from the URL-safe alphabet, are different for different random bytes, and are transported through URL encoding unchanged; the verifier satisfies RFC 7636's 43..128 length bound.",
  "every random byte sequence","all byte sequences",
  [Q+":request_token",M+":STATE_LEN",M+":CODE_VERIFIER_LEN"])
p("HTTP requests are bounded and strictly parsed",
  "A browser request is accepted only if its first line is `GET <path> <version>`, the request line and headers total less than 16384 bytes and exactly one Host header (name compared case-insensitively) is present; the resulting URI is that host and path under the scheme of the server that received it.",
  "every byte sequence","all inputs",
  [H+":parse_get",H+":MAX_HTTP_REQUEST_SIZE"])
p("Refresh requests go to the right place with the right secrets",
  "Every refresh POST is sent to the token_uri configured, at the time the refresh started, for the account whose refresh token it carries, with that account's client_id and (iff configured) client_secret; a refresh token is never sent anywhere else.",
  "every history and interleaving","all histories",
  [R+":inner_refresh"])
p("Every browser connection is answered once and comes to an end",
  "A browser connection is answered exactly once and before anything else happens on its behalf; it then ends, reports one error for the account, or posts the authorisation code at least once and at most ten times (each time the same request, all but the last having failed to reach the provider) and after that does at most one more thing: report an error or announce the new token. It takes at most 17 steps of its own whatever the rest of the server does.",
  "every server state, every request, every outcome of the network, every interleaving","all interleavings and network outcomes",
  [H+":request",H+":fail"])
p("Every refresh posts at most once and comes to an end",
  "A refresh posts to the provider at most once and ends after at most 8 steps of its own; afterwards it announces a refreshed token only if the provider granted one, an invalidated one only if the provider turned it down for good (or granted a lifetime that cannot be represented, or the user's command gave up), and runs the user's command only after a transient error.",
  "every server state, every outcome of the network and the command, every interleaving","all interleavings and network outcomes",
  [R+":refresh",R+":inner_refresh"])
p("No part of the server ever gets stuck or dies",
  "As long as the server runs and no `status` request breaks it (C07), each of its threads can always take its next step, whatever the others do, unless it is a finished browser connection or refresh, waits for a client, or sleeps until its signal or timeout; the main, eventer, notifier and refresher threads never end.",
  "every reachable state, every thread","all interleavings; panics and deadlocks",
  [M+":server",E+":Eventer",N+":Notifier",R+":Refresher"])
p("The life cycle of a token",
  "An account's token state changes only in these ways: a client's request starts a new authorisation when there is no token; revoke, or a reload changing security-relevant fields, empties it; restore fills it when there is no token; a reminder changes only the time of the last reminder; a browser's error or a failed exchange of the current authorisation empties it; a successful exchange stores the granted token with its expiry time; a refresh marks it, then replaces it by the granted token, or empties it, or counts the failure, keeping token and expiry time. Nothing else ever changes it.",
  "every reachable state and step, every account","all states and interleavings",
  [S+":CTGuard::tokenstate_replace",S+":LockedState::update_conf",S+":LockedState::restore",R+":inner_refresh",H+":request",N+":Notifier::notify"])
p("Secrets leave the server only where they must",
  "Access tokens, refresh tokens and code verifiers influence nothing observable except the answer to `show`, the encrypted answer to `dump` and the refresh_token and code_verifier fields posted to the token URI: with other secrets in their place (and a verifier with the same hash) the server makes the same steps and everything else it sends, logs, runs or answers is the same.",
  "every pair of states and runs that differ in secrets only","relates pairs of runs (a hyperproperty)",
  [M+":request",S+":AuthenticatorState::dump",R+":inner_refresh",H+":request",N,E])
p("What a browser request with a known state does",
  "A browser request that carries the state of an account's pending authorisation and arrives at the right origin is answered and acted on in exactly one of three ways: with a code, 200 and the code is exchanged at the account's token URI, together with the verifier that belongs to this authorisation; with an error (even if it carries a code too), 400, the authorisation is abandoned and the error reported; with neither, 400 and nothing changes, so that the authorisation can still be completed.",
  "every reachable state, every request","all states and requests",
  [H+":request"])
p("Authorising works, whatever happened before",
  "Whatever the server has been through, if an account has no token then asking for one, visiting the URL handed out, and the provider granting the code leads to the token being shown: the user sees the URL, the browser the confirmation, the provider exactly one request with the right fields, token_event_cmd's queue one token_new event, and the next `show` prints the token.",
  "every reachable state, account and provider response","from every state a long history can lead to",
  [M+":request",Q+":request_token",H+":request"])
p("Refreshing works, whatever happened before",
  "Whatever the server has been through, if an account has a token with a refresh token and no refresh is under way then `pizauth refresh` reports success, sends exactly one request with the right fields to the token URI, and if the provider grants it, one token_refreshed event is raised and the next `show` prints the new token; a refresh token that is not replaced is kept.",
  "every reachable state, account and provider response","from every state a long history can lead to",
  [M+":request",R+":refresh",R+":inner_refresh"])
p("Everything the server keeps and says is text",
  "Every string of the configuration, every token, URL, name and message the server keeps, and everything it posts, passes to commands, logs, answers to browsers or replies to clients (dumps aside) is valid UTF-8, so that no conversion of bytes to strings anywhere can fail on data the server made itself; in particular `pizauth` can read every reply of its server. This holds whatever bytes are in configuration files, client requests, browser requests and dumps.",
  "every history; every configuration file, client request, browser request and dump","all byte strings in all places; multi-byte characters cut in the middle",
  [C,M+":request",H+":parse_get",H+":request",S+":AuthenticatorState::restore",U])
p("What each sub-command tells its user",
  "As long as the server runs (see C07 for when `status` breaks it), every `pizauth` command gets exactly one outcome, determined by the server's state: `show` exits 0 and prints the token iff the account has one that has not expired, and otherwise fails with a message (an unknown account is named; without a token the URL to visit is printed); `refresh` exits 0 iff a refresh is now scheduled or under way; `revoke`, `reload`, `restore` exit 0 iff what was asked for has been done, and otherwise fail with a message and change nothing; `status` prints one line per account, sorted; `shutdown` stops the server. Without a server every command fails saying so.",
  "every reachable server state, every command line argument that is text","all states; client and server composed",
  [U,M+":request","src/main.rs"])
p("show and refresh lead to an authorisation when only that can help",
  "If an account has no token, or one that has expired and cannot be refreshed, then `pizauth show` and `pizauth refresh` begin an authorisation (or find one under way) and tell the user the URL to visit, as the manual promises.",
  "every reachable server state, every account","all states",
  [M+":request",R+":inner_refresh"])
p("Asking for a refresh never costs a token that still works",
  "If an account has an unexpired token, then `pizauth refresh` (or a scheduled refresh) discards it only after the provider has been asked and has turned the refresh down.",
  "every reachable server state, every interleaving","all states and interleavings",
  [M+":request",R+":inner_refresh"])
p("A dump that reports success can be restored",
  "If `pizauth dump` exits 0 then giving its output to `pizauth restore` succeeds, on any server at any later time, and the dump itself changes nothing on the server.",
  "every pair of reachable server states","all states; all clock readings",
  [M+":request",S+":AuthenticatorState::dump",U+":dump"])
p("info tells the truth",
  "`pizauth info` shows the HTTP and HTTPS ports the server listens on (as decimal numbers, or `none`) and the server's public key as hexadecimal bytes, in the plain and in the JSON form; if no server answers, both forms say that none is running. Either way both forms give the name pizauth was called by, its version, the cache directory and the configuration file.",
  "every reachable server state, every port and key","all ports and keys; client and server composed",
  [M+":request","src/main.rs",U+":server_info"])
p("Counters never overflow",
  "The numbers that tell versions of accounts apart and the counts of failed refreshes never leave the range of their machine types, however long the server runs and whatever happens (below 2^64 steps and with at most 2^60 accounts per configuration), so that no arithmetic on them can panic or wrap round and mistake an old version for a new one.",
  "every run","runs of astronomic length",
  [S+":AuthenticatorState::next_account_id",R+":inner_refresh"])
p("Whatever the server has begun comes to an end",
  "If no thread that has something to do is neglected for ever, then every browser connection and every refresh ends, no token is marked as being refreshed for ever, the server always listens to clients again, and every reply, message and command it has decided on is really sent or run.",
  "every endless fair run","endless runs; all interleavings",
  [S,H+":request",R+":refresh",M+":request"])
p("Every token event reaches the user's command",
  "If token_event_cmd is set, every event that is raised is eventually handed to the command, whatever else is going on and however many events follow.",
  "every endless fair run","endless runs; lost wakeups; all interleavings",
  [E,S])
p("Every token does get refreshed",
  "If the clock goes on and sleeping threads wake up at the time they have set, then for every token that is due a request with its refresh token is eventually sent to the token URI, unless a client's command changes the account first (or, without refresh token, the token is dropped): no token is forgotten, in no state and no interleaving. A token is due at the latest when it has expired, and after a failed attempt when refresh_retry has gone by.",
  "every endless fair run, every account and token","endless runs; lost wakeups; all interleavings and clock readings",
  [R+":refresher",R+":next_wakeup",R+":refresh_at"])
p("Every pending authorisation is announced, again and again",
  "If auth_notify_cmd is set, the clock goes on and sleeping threads wake up at the time they have set, then for every pending authorisation the command is eventually run with its URL, and again each time auth_notify_interval has gone by, unless the authorisation ends or is replaced first.",
  "every endless fair run, every account","endless runs; lost wakeups; all interleavings and clock readings",
  [N+":notifier",N+":next_wakeup",N+":notify_at"])
p("The command line means what the manual says",
  "For every sequence of arguments pizauth does what the manual and the usual conventions for options say, or prints its usage and does nothing else: the sub-command is exactly the one named, account names are passed on unchanged whatever they contain, `--` protects names that begin with a dash, flags may be combined and stand anywhere, options that are repeated or unknown and missing or surplus arguments are refused.",
  "all argument lists (of UTF-8 strings)","infinitely many argument lists",
  ["src/main.rs"+":main"])
p("The configuration that is used is the one asked for",
  "`server -c file` uses that file; without -c the first file among $XDG_CONFIG_HOME/pizauth.conf and $HOME/.config/pizauth.conf is used; nothing else ever is.",
  "all argument lists, environments and file systems","infinitely many environments",
  ["src/main.rs"+":conf_path"])
p("The socket is out of reach of other users",
  "Once a pizauth command has got as far as using the cache directory, nobody but the user (and root) can enter the directory that holds the socket, whatever was there before and whatever the umask; no other files are touched. Directories that do not exist yet are no obstacle.",
  "all file systems, environments and users","arbitrary earlier contents, prepared by others",
  ["src/main.rs"+":cache_path"])
p("One server at a time",
  "At most one server runs per user, and it can be reached by the user's commands; a second one refuses to start and does not disturb the first; a socket left behind by a server that was killed is no obstacle.",
  "all interleavings of any number of servers being started and killed","races between processes",
  ["src/main.rs"+":main","src/server/mod.rs"+":server"])
p("The exit status of `server` is true",
  "`pizauth server` exits with 0 if the server started successfully or 1 otherwise.",
  "all ways of starting","failures of the system at every point",
  ["src/main.rs"+":main","src/server/mod.rs"+":server"])
p("The socket is kept from being cleaned up",
  "A running server renews the time stamps of its socket file often enough (every six hours) that the socket is not removed in periodic clean-ups of $XDG_RUNTIME_DIR.",
  "all ways of starting","takes hours; depends on what survives a fork",
  ["src/main.rs"+":main"])
p("A rejected configuration is reported with the place and the reason",
  "If an option, field or account block of a configuration file is wrong (repeated, renamed, not an HTTP(S) address, missing, contradictory, a time that does not fit) the file is rejected, at start and on reload, and the message gives the line and column of the first such thing, quotes the line and says what is wrong; what concerns the file as a whole is reported by name; no other file that follows the grammar is rejected.",
  "all texts, of any length","infinitely many files, each with many possible mistakes; which mistake comes first; columns counted in characters, not bytes",
  [C+":from_str",C+":from_fields",C+":error_at_span","src/config.y"])
p("Every configuration can be written, in any layout",
  "What a configuration file means does not depend on how its words are laid out: white space and `//` comments may be put anywhere between them, and are needed nowhere (as long as two words do not read as another one, which can only happen to `auth_uri`). Every configuration that meets the documented conditions (HTTP or HTTPS URIs, whole seconds, at least one account, some listener, redirects that can be received) with any texts whatever in its strings can be written down as a file that is read back as exactly that configuration, and no file is ever read as anything else.",
  "every token sequence, layout and configuration","all texts, strings and layouts; the converse speaks about all files",
  [C+":Config::from_path","src/config.l","src/config.y"])
p("What goes wrong can be read in the log",
  "A request that is not documented is logged as a warning that says what is wrong with it, a documented one is mentioned only if it cannot be answered. A token lost in a refresh is logged with the account and the reason, and so is every refresh that fails for now (unless transient_error_if_cmd is about to be asked). A command that does not end well is logged as an error with what is known about its end; a failed authorisation is, if there is no error_notify_cmd. Lines at level info, warn and error say nothing else and nothing untrue. Without -v the errors are shown, with -v also the warnings, with -vv everything.",
  "all requests, states and interleavings","arbitrary bytes as requests; failures of every kind in every state",
  [M+":server",R+":refresh",N+":notify_error","src/server/eventer.rs:run_event"])
p("Nothing secret is logged",
  "Whatever happens, at whatever verbosity, the log does not depend on the access tokens, refresh tokens and code verifiers that the server holds.",
  "all pairs of runs that differ in secrets only","a property of pairs of executions",
  [M+":server",R+":refresh",H+":request"])
p("The browser is told what happened",
  "Every request on the HTTP and HTTPS ports is answered, with a well-formed HTTP response that depends only on the request and on the authorisations that are waited for: one that cannot be read, carries an error or lacks a code is bad (400), one that lacks a state or came to another origin than the redirect URI's is not found (404), one with a state that nobody waits for is told to request a fresh token, and one with a code that the page can be closed. Nothing else is ever sent to a browser.",
  "all requests, states and interleavings","arbitrary bytes as requests in every state",
  [H+":request",H+":http_200",H+":http_404",H+":http_400"])
p("The client never takes anything else for success",
  "Whatever comes back from the socket (any bytes, nothing at all, a broken connection), a sub-command reports success and prints something only if the reply says so; replies that report an error or a URL to visit are passed on as error messages; everything else is quoted as malformed.",
  "all sub-commands and all replies","arbitrary bytes as replies",
  [U+":refresh",U+":show_token",U+":status",U+":dump"])
p("Commands are run as documented",
  "A command is run only if the configuration names it and there is a reason: a URL that was issued for the account, an authorisation of the account that failed, an event that happened to it, a refresh that did not get through. It is run by $SHELL -c with PIZAUTH_ACCOUNT and, as documented, PIZAUTH_URL, PIZAUTH_MSG or PIZAUTH_EVENT (one of the four documented words) set. transient_error_if_cmd is taken to approve exactly if it exits with status 0 in time.",
  "all configurations, states and interleavings","commands run in background threads while configuration and accounts change; texts under control of the other side",
  [N+":notifier",N+":notify_error",E+":eventer",R+":refresher"])
p("What the provider sends back is read as meant",
  "However a provider writes the parameters of the redirect (any characters escaped or not where that is allowed, digits of either case, plus signs for spaces, empty parameters), state, code and error are read as the texts that were meant; any query whatever is read as the URL standard says.",
  "all queries and all ways of writing parameters","infinitely many writings of the same parameters",
  [H+":request"])
p("A browser's request means the same however it arrives",
  "What is made of a browser's request depends on its bytes only, not on how they are cut into pieces on their way. It is answered as soon as it is complete, i.e. the empty line after the header has come (or the connection has ended, or what has come can no longer become acceptable), not earlier, and nothing sent afterwards changes the answer. A connection that breaks off before that counts as a bad request.",
  "all byte sequences, cut in any way","infinitely many ways of cutting infinitely many requests",
  [H+":parse_get"])
p("Browser requests are read up to a limit only",
  "A browser request of more than 16384 bytes is refused; no more than that is read of it.",
  "all byte sequences","unbounded inputs",
  [H+":parse_get"])
p("Requests are served whole, each once, clients in order",
  "However connections overlap, a client's request is taken up once, whole (exactly the bytes sent until the client ended its half), after all requests of clients that connected before it; a client whose connection breaks off has no effect. Every browser's request is handled at most once, as what was asked for, and not before it is complete. Apart from that the sockets neither add to nor take away from what the server can do.",
  "all interleavings of any number of connections, all cuts into pieces","arbitrary interleavings of unboundedly many connections",
  [M+":server",M+":request",H+":http_server",H+":request"])
p("Nobody can keep others from being served",
  "A client or browser that has sent its request in full is served, whatever other clients and browsers do or fail to do.",
  "all behaviours of any number of other connections","depends on others that never do something",
  [M+":server",M+":request",H+":http_server"])
p("Client secrets go to token URIs and nowhere else",
  "What the server does, answers, shows, runs and logs does not depend on the client secrets of the accounts, except that each is sent to its account's token URI and is in (encrypted) dumps. In particular no reply, web page, authorisation URL, command or log line contains one.",
  "all configurations, all pairs of runs that differ in client secrets only","a relation between two arbitrary runs",
  [M+":request",H+":request",R+":try_refresh",Q+":request_token",S+":dump",C+":from_str"])
p("The server runs until it is told to stop",
  "Unless a `status` request breaks it (C07), the server stops only because the last client it heard sent `shutdown`; stopping is the last thing it does. Told to stop, it does stop. As long as it has not been told, it can go on from every state it gets into, whatever clients, browsers, token servers, files and commands do: there is no state in which some thread is stuck for good, time cannot go on, or patient clients and browsers are not heard.",
  "all reachable states, all behaviours of the outside, infinite runs","existence of infinite runs from every state",
  [M+":request",M+":server",H+":http_server",R+":refresher",N+":notifier"])
p("`pizauth status` tells the truth, with the right dates",
  "If the wall clock and the monotonic clock run in step, `pizauth status` has one line for every account, which says exactly what its state is: no token, waiting for the user (and when they were last notified), a valid token (when it was obtained and when it expires), or an expired one (and when it was last tried to refresh it); the dates are those of these events by the wall clock. The same state is always shown with the same dates, whenever one asks.",
  "all states, all times of asking","all histories, times and clock readings",
  [M+":request",M+":instant_fmt"])
p("The threads share the server's data safely and nobody waits for ever",
  "What the server's threads share is guarded by mutexes: it is neither read nor changed by a thread that does not have the mutex, no two threads have one at the same time, and the outcome is the same as if every critical section happened at once. No thread waits for a mutex for ever: whoever has it gives it back after a few steps for which it needs nobody else. In particular a client that does not read its answer holds up nobody but later clients.",
  "all interleavings of all threads, at the level of taking and giving back mutexes","deadlocks and races depend on interleavings that tests do not control",
  [M+":request",R+":refresher",N+":notifier",E+":eventer",H+":request",S+":ct_lock"])
p("In a responsive system a token never expires unnoticed",
  "Suppose the refresher and refreshes take no longer for each of their steps than some time d, the provider answers within p and with tokens that live longer than 14d+p, `refresh_before_expiry` is more than 12d+p, and the user does not interfere. Then a token that is due is refreshed within 10d, and an account that once has a token has a valid one at every later time, which `pizauth show` prints. Outages of the provider of up to b do no harm if in addition `refresh_before_expiry` exceeds b plus `refresh_retry` plus 24d+3p, and the tokens live that long and 2d more.",
  "all runs, all schedulings that keep the deadlines, all delays d and p","a bound on all schedulings and all times",
  [R+":refresher",R+":try_refresh",R+":refresh_at",M+":request"])
p("The server listens where it was told and sends browsers back there",
  "A server that starts listens at the addresses that `http_listen` and `https_listen` name, at the port asked for or one that was free, and nowhere else; if it cannot, it ends with an error. The ports and the key that `info` shows are those of its listeners, at all times. The redirect URI in every authorisation URL leads a browser back to one of them, which speaks the protocol of that URI.",
  "all configurations, all answers of the operating system, all runs after that, with reloads","sockets, ports and other processes are outside unit tests; a reload at the wrong time is needed",
  [H+":http_server_setup",H+":https_server_setup",M+":server",C+":redirect_uri"])
p("In a responsive system the user is told of a pending authorisation in time",
  "Suppose the notifier takes no longer for each of its steps than some time d, signals reach it within d, and `auth_notify_cmd` is set. Then within 6d of the URL's being given out to a client `auth_notify_cmd` is started with the account's name and that URL, unless a client or a browser has ended the authorisation by then. From then on, at every time, it is started again within `auth_notify_interval` and 9d, until a client or a browser ends the authorisation; nothing else ends it.",
  "all runs, all schedulings that keep the deadlines, all delays d","a bound on all schedulings and all times",
  [N+":notifier",N+":next_wakeup",N+":notify_changes",M+":request"])
p("In a responsive system token events are reported in time, even if commands hang",
  "Suppose no `token_event_cmd` runs for longer than some time r (pizauth kills it after thirty seconds), the thread that starts these commands takes no longer for each of its own steps than some time d, and signals reach it within d; and `token_event_cmd` is set. Then, whatever else happens, every event that has happened by some time has been reported when another b(r + 3d) + 3d have passed, where b is the number of events not reported yet at that time. A command that hangs delays the following events but loses none.",
  "all runs, all schedulings that keep the deadlines, all delays d and r","a bound on all schedulings and all times",
  [E+":eventer",E+":token_event"])
p("In a responsive system a browser that comes back leads to a token, or to an error message, in time",
  "Suppose an attempt to reach the provider, with the pause after it, takes no longer than some time p, and everything else done for a browser no longer than some time d. Then every browser that connects has an answer within 2d, and nothing remains to be done for it after 6d+10p. If it brings the code for a pending authorisation, and the provider, whenever it is reached, hands over a token for it, then within 4d+10p the account has that token; or the provider could not be reached in ten attempts and the user has been told; or in the meantime there was a reload, or a client, a reminder or another browser has acted on that authorisation.",
  "all runs, all schedulings that keep the deadlines, all delays d and p","a bound on all schedulings and all times",
  [H+":request",H+":fail",H+":http_server",H+":https_server"])
p("In a responsive system every client and every browser is served in time",
  "Suppose every client has sent its request, or gone, within some time c of connecting, and the server takes no longer than some time d to read what has arrived and for each of its other steps. Then a client's request has been carried out and all of the answer sent within c + 3d and 4d for itself and for each client before it that is not served yet, unless the server has been shut down or has failed on a `status` with a time that has no date. A browser has its answer within 3d of the moment at which all of its request has arrived, whatever clients do.",
  "all runs with any number of clients and browsers, whose requests arrive in any pieces, all schedulings that keep the deadlines, all delays c and d","a bound on all schedulings and all times",
  [M+":server",M+":request",H+":request",H+":http_server",H+":https_server"])
p("What happens to an account depends on that account alone",
  "Take two servers, with whatever other accounts, that agree on one account: its configuration, its state, and the settings outside accounts. If whatever is done for that account, by a client, a browser or the provider, is done to both with the same input, then, whatever each does for its other accounts meanwhile and in whatever order, the same is seen of it at both: the same answers, URLs, requests to the provider, commands and events; and they agree on the account afterwards. When both look whom to remind, or what to refresh, at the same time, they remind for that account in both or in neither, and refresh it in both or in neither. When both read a new configuration, each its own but with the same in it for that account and outside accounts, or restore dumps, each its own but with the same in it for that account, at the same time, they agree on it afterwards.",
  "all pairs of servers, all interleavings of what they do for their other accounts","it compares all pairs of executions",
  [M+":request",H+":request",R+":try_refresh",R+":refresher",N+":notify_changes",S+":update_conf"])
p("In a responsive system whoever asks for a token is given a valid one in time",
  "Suppose clients send their request within c of connecting, the server takes no longer than d for a step, the refresher and refreshes no longer than d' for theirs, the provider answers within p, and the margins of C94 are kept, for an account that has a token and that the user leaves alone. Then whoever asks for its token, at any time and however many clients are waiting, receives, within c + 3d and 4d for themselves and for each client waiting before them, a token that was valid when their request was read; this holds through outages of the provider as well. A browser that brings the code for a pending authorisation leads, within 5d+10p of the moment at which its request has arrived, to the token the provider gives for that code; or the provider could not be reached in ten attempts and the user is told; or somebody else has acted on that authorisation. The only exceptions are that the server has been shut down or has failed on a `status` with a time that has no date.",
  "all runs with any number of clients and browsers, all schedulings that keep the deadlines, all delays","a bound on all schedulings and all times, over all threads and sockets",
  [M+":server",M+":request",R+":refresher",R+":try_refresh",H+":request",H+":http_server"])
p("The background threads look for work only when there is a reason to",
  "Between two moments at which the thread that refreshes tokens sets about looking at the accounts, either it has been told that something changed, or after the first it has set an alarm for a token that is to be refreshed (at the time it is due, or 37 seconds ahead) and the alarm has gone off. The same holds for the thread that reminds the user and pending authorisations. If nobody tells it anything and no token (no pending authorisation) is there, each looks at most once more: an idle server sleeps. And one thread is started for each refresh that falls due.",
  "all runs, all schedulings, all clocks, spurious wake-ups included","a busy loop has no effect a test of the results could see, and whether there is one depends on the interleaving",
  [R+":refresher",R+":next_wakeup",R+":sched_refresh",N+":notifier",N+":next_wakeup"])
p("A server that cannot start a thread does nothing wrong, and goes on",
  "If the system refuses to start threads, now and then and anywhere, the server is never in a state, and never does anything, that it could not be in or do if all threads were started: no token is shown, changed or sent that should not be. Apart from the thread for which no other could be started, everything goes on as before: clients are served, tokens refreshed, reminders given, browsers answered.",
  "all runs with any number of refused threads at any place, all schedulings","starting a thread fails under resource exhaustion only, and what counts is what happens afterwards in other threads",
  [R+":sched_refresh",R+":refresher",N+":notifier",N+":notify_error",H+":http_server",H+":https_server",S+":ct_lock"])
p("Who goes away before it is answered misses the answer, and nothing else changes",
  "If clients or browsers close their connection before their answer is written, any of them and at any time, then what they asked for is done all the same: tokens are revoked, configurations reloaded, refreshes started, codes exchanged. The server is afterwards in the state it would be in had they stayed, goes on serving everybody, has done the same towards providers and the user's commands, and of all answers exactly those to the ones who had gone are missing. A client is answered only when everything it asked for is done.",
  "all runs, any number of lost answers at any place, all schedulings","the answer has to be lost at the right moment, and the claim compares two executions",
  [M+":server",M+":request",H+":request",H+":http_200",H+":http_400",H+":http_404"])
p("A command that takes too long is stopped, and holds up nothing for ever",
  "However `token_event_cmd` and `transient_error_if_cmd` behave, whether they hang or start other processes, pizauth waits for them no longer than their limit (30 seconds, 3 minutes) and the moments the system needs to stop them; then, and not before, they are killed, and the shell is gone when pizauth goes on. A command that ends in time is judged by its own exit code: errors are taken to be transient only if `transient_error_if_cmd` has ended by itself with 0. So token events are reported in time without any assumption on how long commands run. The limits are those documented, every command has one, and nothing of a command is left running when its limit has passed.",
  "all behaviours of a command and of the processes it starts, all schedulings that keep the deadlines","hanging commands, background processes and races between ending and being killed cannot be enumerated by tests",
  [E+":eventer",R+":run_not_transient_error_if",N+":notifier",N+":notify_error"])
p("Running out of file descriptors loses nobody who waits",
  "However often a connection cannot be taken, because the process has no file descriptor left or because whoever connected has gone again, the server goes on taking connections: every client and every browser is taken once and in the order in which they came, or is still waiting, and only those are missing who have gone themselves. When there are descriptors again, all who have been waiting are taken. In the meantime a server to which nobody comes sleeps.",
  "all orders of arrivals, departures, failures and descriptors opened and closed","the failures depend on resource exhaustion at the right moment",
  [M+":server",H+":http_server",H+":https_server"])
p("The log tells of clients that have gone, once each",
  "For every client that closes its connection before its answer is written the log has one warning, with the reason given by the system, and for browsers none. All other lines are there as if they had stayed, and in the same order; what was wrong with a request is said whether or not the client has gone.",
  "all runs, any number of lost answers at any place, all schedulings","the answer has to be lost at the right moment, and the claim compares the logs of two executions",
  [M+":server",M+":request",H+":http_200",H+":http_400",H+":http_404"])
open("/verif/properties.jsonl","w").write("".join(json.dumps(x)+"\n" for x in P))
print(len(P))
for x in P: print(x["id"],x["title"])
