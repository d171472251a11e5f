{
 "C01": [
  "proved",
  "Every reply printing a token, in every trace of every reachable state."
 ],
 "C02": [
  "proved",
  "The step is given as an equation; kept entries keep their version too."
 ],
 "C03": [
  "proved",
  ""
 ],
 "C04": [
  "proved",
  "Trace statement plus what revoke itself does."
 ],
 "C05": [
  "proved",
  "For any thread working on a version that was current when the account or its token state changed."
 ],
 "C06": [
  "proved",
  "Identifiers are unbounded numbers in the model; the code uses u128."
 ],
 "C07": [
  "partial",
  "Every unwrap, index, assertion and unreachable! of the modelled code is an explicit Panic outcome, and so is a date RFC 2822 cannot express (chrono's to_rfc2822 panics beyond the year 9999). That one can happen: a provider that grants a token for ten thousand years makes `pizauth status` kill the server (C07_never_panics_refuted, F31). C07_only_status_panics_partial: a step panics if and only if it is such a request."
 ],
 "C08": [
  "proved",
  "C08_status_lists_all supposes that the request does not break the server (C07)."
 ],
 "C09": [
  "proved",
  ""
 ],
 "C10": [
  "proved",
  "Fairness is not assumed: the theorem counts the refresh thread's own steps."
 ],
 "C11": [
  "proved",
  "One theorem per token state; each gives the step as an equation. url_laws states what is assumed of Url::parse (accepts the default redirect URI, http(s) URLs have a host) and is shown to be satisfiable."
 ],
 "C12": [
  "proved",
  "That the replaced URL stops working is C17_completed_state_is_dead."
 ],
 "C13": [
  "proved",
  "Reminders touch all accounts at once; what they may do to any account is the second theorem."
 ],
 "C14": [
  "proved",
  ""
 ],
 "C15": [
  "partial",
  "Scheme, host and port must match (C15_wrong_origin_partial). The path is not compared by the code: C15_path_refuted."
 ],
 "C16": [
  "proved",
  ""
 ],
 "C17": [
  "proved",
  "The first theorem needs the random states to be distinct, the second does not. Exchanges already in flight when the authorisation ends are C05."
 ],
 "C18": [
  "partial",
  "Holds as long as the account version is unchanged and the expiry representable. C18_reminder_discards_token_refuted: a reminder sent during the exchange discards its result."
 ],
 "C19": [
  "partial",
  "All failures except an unrepresentable expiry. C19_unrepresentable_expiry_refuted: such a token is dropped silently and the account keeps waiting."
 ],
 "C20": [
  "proved",
  ""
 ],
 "C21": [
  "proved",
  ""
 ],
 "C22": [
  "partial",
  "Holds for tokens with refresh token, and in the other direction except after transient_error_if_cmd. C22_silent_loss_refuted and C22_spurious_event_refuted are the exceptions."
 ],
 "C23": [
  "proved",
  "Also covers unrepresentable expiries and a refresh_token that is not a string (which makes the code forget the refresh token)."
 ],
 "C24": [
  "partial",
  "C24_refreshed_in_time gives the exact due time for tokens with no refresh in progress and no failed attempt outstanding, provided expiry - refresh_before_expiry is a time the clock can show; C24_expired_tokens_refreshed needs no such proviso; C24_wakes_up_in_time shows the refresher wakes up by itself for it. C24_unrepresentable_margin_refuted: with a refresh_before_expiry whose subtraction underflows the token is only refreshed once expired."
 ],
 "C25": [
  "partial",
  "False as stated (C25_short_lived_token_refuted: a token that lasts no longer than refresh_before_expiry is due at once). C25_fresh_tokens_left_alone says exactly when a fresh token is due at once."
 ],
 "C26": [
  "partial",
  "C26_retry_time (exact time) and C26_retries_spaced (over every history) hold when last attempt + refresh_retry is a time the clock can show; C26_unrepresentable_pause_refuted: otherwise there is no pause at all. C20_network_failure_keeps_token says that a transient failure at time t sets the last attempt to t."
 ],
 "C27": [
  "proved",
  "The deadlines computed by the refresher and the notifier; due times that are 'now' (unrepresentable settings) are covered by the second disjunct."
 ],
 "C28": [
  "proved",
  "Both threads, every interleaving."
 ],
 "C29": [
  "partial",
  "C29_when_reminded and C29_reminders_spaced hold when last notification + auth_notify_interval is a time the clock can show; C29_unrepresentable_interval_refuted: otherwise the user is reminded at every wakeup."
 ],
 "C30": [
  "partial",
  "C30_reminders_true_when_decided: account and URL were right when the notifier decided. C30_stale_reminder_refuted: the command runs after the lock has been released, so the authorisation may be gone by then."
 ],
 "C31": [
  "proved",
  "Order, at most once, no overlap; none skipped while token_event_cmd stays configured."
 ],
 "C32": [
  "partial",
  "C32_no_event_left, C32_all_delivered and C32_woken_delivers_all hold while token_event_cmd is configured throughout; C32_no_command_refuted: without it the eventer takes one event off the queue per wakeup and leaves the rest."
 ],
 "C33": [
  "proved",
  "Per account of two arbitrary reachable servers; the cipher is an oracle with the law that decryption undoes encryption; all strings are Rust strings (valid UTF-8, shorter than 2^64). C33_dump_answered says when a dump succeeds."
 ],
 "C34": [
  "proved",
  ""
 ],
 "C35": [
  "partial",
  "False in full: C35_unreadable_dumps_rejected_refuted (the server drops the error of the inner restore and says ok, state.rs:139). The guarded theorems: nothing ever changes, and inputs that are too short or fail authentication get an error."
 ],
 "C36": [
  "proved",
  "End to end from dumping to restoring, for monotonic clocks with any offset to the wall clock."
 ],
 "C37": [
  "proved",
  ""
 ],
 "C38": [
  "proved",
  "Stated as non-interference between two servers."
 ],
 "C39": [
  "proved",
  ""
 ],
 "C40": [
  "proved",
  ""
 ],
 "C41": [
  "proved",
  ""
 ],
 "C42": [
  "proved",
  ""
 ],
 "C43": [
  "proved",
  ""
 ],
 "C44": [
  "proved",
  ""
 ],
 "C45": [
  "proved",
  ""
 ],
 "C46": [
  "proved",
  "Soundness and completeness with respect to a meaning of configuration texts; the order of the accounts (a hash map) is left open. With repeated account names the last block counts."
 ],
 "C47": [
  "partial",
  "Redirect URIs with lower-case scheme. C47_upper_case_scheme_refuted: HTTPS://... is accepted with the HTTPS server off, because the check is case-sensitive."
 ],
 "C48": [
  "partial",
  "False: C48_login_hint_passed_on_refuted gives a run, C48_login_hint_dropped shows the hint is always dropped."
 ],
 "C49": [
  "proved",
  "On bytes for all contents; C49_query_is_text carries it over to text where it is valid UTF-8. C49_text and C49_redirect_text: what is written out can be taken apart again in one way only, into just these parts."
 ],
 "C50": [
  "proved",
  ""
 ],
 "C51": [
  "proved",
  "Url::parse is an oracle. The bound is on what is accepted; how much of a single line is read before it is refused is not bounded by the code."
 ],
 "C52": [
  "proved",
  ""
 ],
 "C53": [
  "proved",
  ""
 ],
 "C54": [
  "proved",
  ""
 ],
 "C55": [
  "proved",
  "Network calls and commands always return in the model: each is one step with an outcome. Supposes that the step is not one of the status requests that break the server (C07)."
 ],
 "C56": [
  "proved",
  ""
 ],
 "C57": [
  "proved",
  "Relates two runs with the same clock, random states, requests and files. Timing and sizes on the wire are not modelled; whether encryption succeeds is assumed not to depend on the content."
 ],
 "C58": [
  "proved",
  "If several accounts await the same state (a repetition among 64 bit random numbers) the first one is taken; the theorems assume this one awaits it alone."
 ],
 "C59": [
  "proved",
  "For the run in which nothing else happens in between; what interference can do is the subject of C05, C18 and C56."
 ],
 "C60": [
  "proved",
  "For the run in which nothing else happens in between."
 ],
 "C61": [
  "proved",
  "Assumes that the HTTP client, JSON parser, URL serialisation and date formatting hand over strings, as their Rust types guarantee."
 ],
 "C62": [
  "proved",
  "For names that are valid UTF-8, the only ones a command line can deliver; the reply is assumed to be received whole. Supposes for `status` that it does not break the server (C07)."
 ],
 "C63": [
  "partial",
  "False for an expired token without refresh token: C63_show_refuted, C63_refresh_refuted. C63_without_token_partial proves it for accounts without token."
 ],
 "C64": [
  "partial",
  "False for a token without refresh token: C64_refresh_discards_refuted. C64_refreshable_tokens_partial proves it for tokens with a refresh token."
 ],
 "C65": [
  "partial",
  "False when dumping fails: the client takes the missing reply for an empty dump (C65_failed_dump_refuted). C65_dumps_restore_partial proves it for non-empty output."
 ],
 "C66": [
  "proved",
  "Assumes that the JSON parser reads objects of plain strings (json_law)."
 ],
 "C67": [
  "proved",
  "For runs of fewer than 2^64 - 1 steps of the model."
 ],
 "C68": [
  "proved",
  "Calls to the network and to commands are assumed to return, as their time limits provide."
 ],
 "C69": [
  "proved",
  "The command is assumed to end, as its time limit provides."
 ],
 "C70": [
  "proved",
  "Client commands that keep changing the account could keep putting the refresh off; the theorem then names the first of them."
 ],
 "C71": [
  "proved",
  ""
 ],
 "C72": [
  "proved",
  "For arguments that are UTF-8; others make pizauth panic. The library getopts is modelled from its source (0.2.21)."
 ],
 "C73": [
  "partial",
  "False in general: C73_missing_file_refuted (-c without a file silently means the default), C73_order_refuted (with XDG_CONFIG_HOME set, $HOME/.config is never looked at). C73_named_file and C73_default_partial say what is true."
 ],
 "C74": [
  "partial",
  "Proved for everybody but root; C74_root_refuted: root accepts a directory that somebody else has made. Links are not modelled. C74_available: missing directories are created."
 ],
 "C75": [
  "partial",
  "False in general: C75_race_refuted (two servers started at the same time over an old socket). Proved for servers that are started one after the other."
 ],
 "C76": [
  "partial",
  "False: C76_status_refuted (a detached server's failure to set up its ports comes after exit status 0). Statuses other than 0 are true."
 ],
 "C77": [
  "partial",
  "False for servers that detach themselves (C77_detached_refuted: the thread does not survive the fork); true with -d."
 ],
 "C78": [
  "partial",
  "Proved for everything but times: C78_reported_partial, C78_reload_partial; C78_rejected_because and C78_accepted_iff say that nothing else is rejected. False for times that are too large, which are reported without a place (C78_time_unplaced_refuted). The texts of syntax errors and the detail after `Invalid URI` are not modelled."
 ],
 "C79": [
  "proved",
  "Accounts come in the order of the hash map, so they are read back up to their order. That the generated LR parser accepts the grammar's language is trusted (see C44)."
 ],
 "C80": [
  "proved",
  "Every sixth transient failure with transient_error_if_cmd configured writes no line itself (part of the statement). How commands end and the words of URL and JSON errors are inputs."
 ],
 "C81": [
  "proved",
  "Assumes, as C57, that whether encryption succeeds does not depend on what is encrypted. Bodies of refused token requests are logged; they are taken not to be secret (they are the same in both runs)."
 ],
 "C82": [
  "partial",
  "What is shown is proved in full (C82_answer, C82_one_answer, C82_only_these). False for the form: the answers with status 400 and 404 are not HTTP responses (C82_status_line_refuted)."
 ],
 "C83": [
  "partial",
  "For all sub-commands that read a reply and all bytes. False for dump, which takes an unanswered request for a success (C83_dump_refuted); shutdown waits for no answer; for info see C66."
 ],
 "C84": [
  "partial",
  "Every process started is one of the documented ones, with its variables (C84_started), for all reachable histories; how transient_error_if_cmd's end is read (C84_transient_answer). That the system is asked to start it is proved only for texts without zero bytes (C84_runs_partial) and false otherwise (C84_zero_byte_refuted). How the system makes a process of it is an input."
 ],
 "C85": [
  "proved",
  "For all queries, against inductive definitions of reading and writing application/x-www-form-urlencoded. That the URL library finds the query in the address is part of the oracle."
 ],
 "C86": [
  "proved",
  "The reader of Wire.v takes its input in pieces, like BufReader on a socket. The specification of what is complete (SpecWire.unfinished) is independent of it."
 ],
 "C87": [
  "partial",
  "False as stated: the limit is tested between lines, so a line without end is read without end (C87_endless_line_refuted, F11). True: everything up to the last line break is below the limit."
 ],
 "C88": [
  "proved",
  "A transition system of the server with its connections (Wire.v), shown to have the same reachable server states as Server.v, for all interleavings."
 ],
 "C89": [
  "partial",
  "True of browsers, and of clients once those before them have ended. False in general: clients are read one after the other without a time limit, so one that connects and falls silent blocks all later ones (C89_silent_client, C89_silent_client_refuted, F29)."
 ],
 "C90": [
  "partial",
  "True of running servers, accepted files and dumps. False of the text with which a file is refused: it quotes the offending line, secret included (C90_error_text_refuted, F30)."
 ],
 "C91": [
  "proved",
  "Machine closure: from every reachable state not told to stop there is a fair, timely, endless run for every strategy of the outside; so the assumptions of C68-C71 never contradict what the server does. It supposes that no status request breaks the server (C07)."
 ],
 "C92": [
  "proved",
  "The text of a date is an oracle; dates out of the system's range are shown as <unknown time>."
 ],
 "C93": [
  "partial",
  "False in one respect, shown by C93_holds_up_nobody_refuted: status writes its answer with the state locked (F32). Everything else is proved; C93_no_deadlock_partial excepts that case and the breakdown of C07."
 ],
 "C94": [
  "proved",
  "For runs whose states carry times and in which no deadline is passed (SpecTimed.prompt); the provider's answers to refreshes are good (good_provider)."
 ],
 "C95": [
  "partial",
  "All but the last sentence is proved. The last one is false: listeners are made at the start only, so a reload can bring an account whose server is not running (C95_comes_back_refuted); and a blank before https:// gives it the HTTP server's port (C95_comes_back_blank_refuted). It is proved for plainly written redirect URIs whose kind of server is on."
 ],
 "C96": [
  "proved",
  "Runs with times (attentive, SpecTimed.v); an authorisation's end is a client's or a browser's doing. C96_again asks that no announcement be noted for a time to come, which C96_none_ahead and C96_none_ahead_at_start show to hold in every run from the start."
 ],
 "C97": [
  "proved",
  "Runs with times (reporting, SpecTimed.v). As in C32 and C69 an event counts as reported when its command has been started; token_event_cmd is set in every configuration loaded."
 ],
 "C98": [
  "proved",
  "Runs with times (browsing, SpecReturn.v). The state is assumed to belong to one account only (it is drawn at random); meddled names who may get in the way, a reminder included (F3)."
 ],
 "C99": [
  "proved",
  "Runs with times of the model with sockets (serving, SpecServe.v). That clients do not dawdle is an assumption: pizauth sets no time limit, and without it the claim is false (C89, F29). C99_same_runs carries C90 to C98 over to runs with sockets."
 ],
 "C100": [
  "proved",
  "A relational invariant (twins, SpecApart.v) kept by paired executions (together). Stronger than C13, which says that an account is left alone: here, nothing about the other accounts influences it. What the refresher, the notifier, reloads and restores do is compared when both servers do it."
 ],
 "C101": [
  "proved",
  "C99, C94 and C98 put together, in runs with times of the model with sockets: from what a client sends on its socket to the token it reads. Same assumptions as those."
 ],
 "C102": [
  "partial",
  "Proved: C102_refresher_has_reason_partial, C102_notifier_has_reason, C102_refresher_idle, C102_notifier_idle. Missing, because false: that one thread is started per refresh. Until the first thread started for a refresh gets the lock the alarm is in the past and the refresher starts another one each time round (C102_one_thread_per_refresh_refuted, F35); C09 says that only one of them refreshes."
 ],
 "C103": [
  "partial",
  "Proved: everything reachable with refused threads is reachable without (so every theorem about reachable states and traces carries over), who can be lost, that all others go on and clients are served unless the state's mutex is poisoned, and that this takes an error_notify_cmd. Missing, because false: a lost refresher, notifier or listener is lost for good while the server runs on; a thread refused for error_notify_cmd poisons the state's mutex and the next request ends the process; so does a thread refused for a client's refresh (the _refuted theorems, F36)."
 ],
 "C104": [
  "proved",
  "Hangup.v adds to every answer the possibility that it cannot be written. A run with lost answers is simulated by the run in which they arrive; the states are equal, and the traces are up to the answers lost. How much of an answer arrives before the client goes is not modelled."
 ],
 "C105": [
  "partial",
  "Child.v models the shell, the processes it starts and the thread that waits. Proved: the limits, that nothing is killed before them, that a command that ends in time counts, what a verdict means, that the shell is gone afterwards, and the bound for commands that pizauth may kill; with it the bound of C97 without its assumption on commands. Refuted: commands that may not be killed hold up events for ever, what the shell has started goes on, auth_notify_cmd and error_notify_cmd have no limit, and the manual's ten seconds for token_event_cmd are thirty."
 ],
 "C106": [
  "partial",
  "Accept.v models one listener, who waits at it and the descriptors of the process. Proved: nobody is lost and the order is kept, the loop goes on, all who wait are taken once there are descriptors. Refuted: without a descriptor the loop does not sleep but calls accept again and again (F38). What is done with those who are taken is in Wire.v and Server.v."
 ],
 "C107": [
  "partial",
  "HangupLog.v gives each line the step in which it is written, also for answers that are lost. Proved: one warning for each client whose answer is lost, none for browsers, and otherwise the log of the run in which they stay; if nobody goes it has the lines of Log.v (C80, C81), those about unknown commands after the answer. Refuted: that an unknown command is called invalid although its client has gone; the warning about the lost answer takes that place (F39)."
 ]
}