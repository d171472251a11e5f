{
 "claims": [
  {
   "property": "C01",
   "status": "proved",
   "theorems": [
    "C01_shown_token_is_current"
   ],
   "note": "Every reply printing a token, in every trace of every reachable state."
  },
  {
   "property": "C02",
   "status": "proved",
   "theorems": [
    "C02_reload_keeps_unchanged"
   ],
   "note": "The step is given as an equation; kept entries keep their version too."
  },
  {
   "property": "C03",
   "status": "proved",
   "theorems": [
    "C03_failed_reload_changes_nothing"
   ],
   "note": ""
  },
  {
   "property": "C04",
   "status": "proved",
   "theorems": [
    "C04_revocation_is_final",
    "C04_revoke_discards",
    "C04_revoke_unknown"
   ],
   "note": "Trace statement plus what revoke itself does."
  },
  {
   "property": "C05",
   "status": "proved",
   "theorems": [
    "C05_outdated_work_has_no_effect"
   ],
   "note": "For any thread working on a version that was current when the account or its token state changed."
  },
  {
   "property": "C06",
   "status": "proved",
   "theorems": [
    "C06_version_identifies_state",
    "C06_versions_distinct"
   ],
   "note": "Identifiers are unbounded numbers in the model; the code uses u128."
  },
  {
   "property": "C07",
   "status": "partial",
   "theorems": [
    "C07_never_panics_refuted",
    "C07_only_status_panics_partial",
    "C07_never_panics_partial"
   ],
   "note": "Every unwrap, index, assertion and unreachable! of the modelled code is an explicit Panic outcome, and so is a date RFC 2822 cannot express (chrono's to_rfc2822 panics beyond the year 9999). That one can happen: a provider that grants a token for ten thousand years makes `pizauth status` kill the server (C07_never_panics_refuted, F31). C07_only_status_panics_partial: a step panics if and only if it is such a request."
  },
  {
   "property": "C08",
   "status": "proved",
   "theorems": [
    "C08_accounts_known",
    "C08_status_lists_all"
   ],
   "note": "C08_status_lists_all supposes that the request does not break the server (C07)."
  },
  {
   "property": "C09",
   "status": "proved",
   "theorems": [
    "C09_one_refresh_per_version",
    "C09_asking_again_starts_nothing"
   ],
   "note": ""
  },
  {
   "property": "C10",
   "status": "proved",
   "theorems": [
    "C10_mark_has_unique_owner",
    "C10_refresh_never_blocks",
    "C10_refresh_ends",
    "C10_end_clears_mark"
   ],
   "note": "Fairness is not assumed: the theorem counts the refresh thread's own steps."
  },
  {
   "property": "C11",
   "status": "proved",
   "theorems": [
    "C11_show_unknown",
    "C11_show_starts_authorisation",
    "C11_show_repeats_url",
    "C11_show_with_token"
   ],
   "note": "One theorem per token state; each gives the step as an equation. url_laws states what is assumed of Url::parse (accepts the default redirect URI, http(s) URLs have a host) and is shown to be satisfiable."
  },
  {
   "property": "C12",
   "status": "proved",
   "theorems": [
    "C12_refresh_unknown",
    "C12_refresh_starts_authorisation",
    "C12_refresh_with_token"
   ],
   "note": "That the replaced URL stops working is C17_completed_state_is_dead."
  },
  {
   "property": "C13",
   "status": "proved",
   "theorems": [
    "C13_other_accounts_untouched",
    "C13_reminders_keep_states"
   ],
   "note": "Reminders touch all accounts at once; what they may do to any account is the second theorem."
  },
  {
   "property": "C14",
   "status": "proved",
   "theorems": [
    "C14_unmatched_callback"
   ],
   "note": ""
  },
  {
   "property": "C15",
   "status": "partial",
   "theorems": [
    "C15_wrong_origin_partial",
    "C15_path_refuted"
   ],
   "note": "Scheme, host and port must match (C15_wrong_origin_partial). The path is not compared by the code: C15_path_refuted."
  },
  {
   "property": "C16",
   "status": "proved",
   "theorems": [
    "C16_exchange_proves_possession"
   ],
   "note": ""
  },
  {
   "property": "C17",
   "status": "proved",
   "theorems": [
    "C17_completed_state_is_dead",
    "C17_no_more_tokens_than_authorisations"
   ],
   "note": "The first theorem needs the random states to be distinct, the second does not. Exchanges already in flight when the authorisation ends are C05."
  },
  {
   "property": "C18",
   "status": "partial",
   "theorems": [
    "C18_exchange_yields_token_partial",
    "C18_reminder_discards_token_refuted",
    "C18_answer_means"
   ],
   "note": "Holds as long as the account version is unchanged and the expiry representable. C18_reminder_discards_token_refuted: a reminder sent during the exchange discards its result."
  },
  {
   "property": "C19",
   "status": "partial",
   "theorems": [
    "C19_failed_exchange_partial",
    "C19_unrepresentable_expiry_refuted"
   ],
   "note": "All failures except an unrepresentable expiry. C19_unrepresentable_expiry_refuted: such a token is dropped silently and the account keeps waiting."
  },
  {
   "property": "C20",
   "status": "proved",
   "theorems": [
    "C20_network_failure_keeps_token",
    "C20_command_decides",
    "C20_why_tokens_go"
   ],
   "note": ""
  },
  {
   "property": "C21",
   "status": "proved",
   "theorems": [
    "C21_permanent_failure"
   ],
   "note": ""
  },
  {
   "property": "C22",
   "status": "partial",
   "theorems": [
    "C22_loss_is_announced_partial",
    "C22_only_losses_announced_partial",
    "C22_events_are_queued_as_scheduled",
    "C22_silent_loss_refuted",
    "C22_spurious_event_refuted"
   ],
   "note": "Holds for tokens with refresh token, and in the other direction except after transient_error_if_cmd. C22_silent_loss_refuted and C22_spurious_event_refuted are the exceptions."
  },
  {
   "property": "C23",
   "status": "proved",
   "theorems": [
    "C23_refresh_stores_answer",
    "C23_answer_means"
   ],
   "note": "Also covers unrepresentable expiries and a refresh_token that is not a string (which makes the code forget the refresh token)."
  },
  {
   "property": "C24",
   "status": "partial",
   "theorems": [
    "C24_refreshed_in_time",
    "C24_expired_tokens_refreshed",
    "C24_wakes_up_in_time",
    "C24_unrepresentable_margin_refuted",
    "C24_one_refresh_at_a_time",
    "C24_only_tokens_refreshed"
   ],
   "note": "C24_refreshed_in_time gives the exact due time for tokens with no refresh in progress and no failed attempt outstanding, provided expiry - refresh_before_expiry is a time the clock can show; C24_expired_tokens_refreshed needs no such proviso; C24_wakes_up_in_time shows the refresher wakes up by itself for it. C24_unrepresentable_margin_refuted: with a refresh_before_expiry whose subtraction underflows the token is only refreshed once expired."
  },
  {
   "property": "C25",
   "status": "partial",
   "theorems": [
    "C25_fresh_tokens_left_alone",
    "C25_short_lived_token_refuted"
   ],
   "note": "False as stated (C25_short_lived_token_refuted: a token that lasts no longer than refresh_before_expiry is due at once). C25_fresh_tokens_left_alone says exactly when a fresh token is due at once."
  },
  {
   "property": "C26",
   "status": "partial",
   "theorems": [
    "C26_retry_time",
    "C26_retries_spaced",
    "C26_unrepresentable_pause_refuted"
   ],
   "note": "C26_retry_time (exact time) and C26_retries_spaced (over every history) hold when last attempt + refresh_retry is a time the clock can show; C26_unrepresentable_pause_refuted: otherwise there is no pause at all. C20_network_failure_keeps_token says that a transient failure at time t sets the last attempt to t."
  },
  {
   "property": "C27",
   "status": "proved",
   "theorems": [
    "C27_refresher_deadline",
    "C27_notifier_deadline"
   ],
   "note": "The deadlines computed by the refresher and the notifier; due times that are 'now' (unrepresentable settings) are covered by the second disjunct."
  },
  {
   "property": "C28",
   "status": "proved",
   "theorems": [
    "C28_refresher_no_lost_wakeup",
    "C28_notifier_no_lost_wakeup"
   ],
   "note": "Both threads, every interleaving."
  },
  {
   "property": "C29",
   "status": "partial",
   "theorems": [
    "C29_when_reminded",
    "C29_reminders_spaced",
    "C29_unrepresentable_interval_refuted"
   ],
   "note": "C29_when_reminded and C29_reminders_spaced hold when last notification + auth_notify_interval is a time the clock can show; C29_unrepresentable_interval_refuted: otherwise the user is reminded at every wakeup."
  },
  {
   "property": "C30",
   "status": "partial",
   "theorems": [
    "C30_reminders_true_when_decided",
    "C30_stale_reminder_refuted"
   ],
   "note": "C30_reminders_true_when_decided: account and URL were right when the notifier decided. C30_stale_reminder_refuted: the command runs after the lock has been released, so the authorisation may be gone by then."
  },
  {
   "property": "C31",
   "status": "proved",
   "theorems": [
    "C31_in_order_at_most_once",
    "C31_none_skipped",
    "C31_one_at_a_time"
   ],
   "note": "Order, at most once, no overlap; none skipped while token_event_cmd stays configured."
  },
  {
   "property": "C32",
   "status": "partial",
   "theorems": [
    "C32_no_event_left",
    "C32_all_delivered",
    "C32_woken_delivers_all",
    "C32_no_command_refuted"
   ],
   "note": "C32_no_event_left, C32_all_delivered and C32_woken_delivers_all hold while token_event_cmd is configured throughout; C32_no_command_refuted: without it the eventer takes one event off the queue per wakeup and leaves the rest."
  },
  {
   "property": "C33",
   "status": "proved",
   "theorems": [
    "C33_dump_then_restore",
    "C33_dump_answered",
    "C33_dump_then_restore_strings"
   ],
   "note": "Per account of two arbitrary reachable servers; the cipher is an oracle with the law that decryption undoes encryption; all strings are Rust strings (valid UTF-8, shorter than 2^64). C33_dump_answered says when a dump succeeds."
  },
  {
   "property": "C34",
   "status": "proved",
   "theorems": [
    "C34_restore_only_upgrades",
    "C34_restore_twice"
   ],
   "note": ""
  },
  {
   "property": "C35",
   "status": "partial",
   "theorems": [
    "C35_unauthentic_dumps_rejected_partial",
    "C35_unreadable_dumps_change_nothing_partial",
    "C35_unreadable_dumps_rejected_refuted"
   ],
   "note": "False in full: C35_unreadable_dumps_rejected_refuted (the server drops the error of the inner restore and says ok, state.rs:139). The guarded theorems: nothing ever changes, and inputs that are too short or fail authentication get an error."
  },
  {
   "property": "C36",
   "status": "proved",
   "theorems": [
    "C36_restored_times",
    "C36_restored_times_strings"
   ],
   "note": "End to end from dumping to restoring, for monotonic clocks with any offset to the wall clock."
  },
  {
   "property": "C37",
   "status": "proved",
   "theorems": [
    "C37_codec_faithful",
    "C37_serialisation_fails_only_before_1970",
    "C37_serialisation_never_panics",
    "C37_decoding_reads_a_prefix"
   ],
   "note": ""
  },
  {
   "property": "C38",
   "status": "proved",
   "theorems": [
    "C38_dumps_hide_pending_authorisations"
   ],
   "note": "Stated as non-interference between two servers."
  },
  {
   "property": "C39",
   "status": "proved",
   "theorems": [
    "C39_requests_unambiguous",
    "C39_requests_documented",
    "C39_show_served",
    "C39_show_starts_authorisation",
    "C39_refresh_served",
    "C39_refresh_starts_authorisation",
    "C39_revoke_served"
   ],
   "note": ""
  },
  {
   "property": "C40",
   "status": "proved",
   "theorems": [
    "C40_show_exit_status",
    "C40_show_output",
    "C40_show_end_to_end",
    "C40_show_strings"
   ],
   "note": ""
  },
  {
   "property": "C41",
   "status": "proved",
   "theorems": [
    "C41_at_most_one_reply",
    "C41_undocumented_requests_do_nothing",
    "C41_queries_do_nothing"
   ],
   "note": ""
  },
  {
   "property": "C42",
   "status": "proved",
   "theorems": [
    "C42_time_values",
    "C42_rejected",
    "C42_lexeme"
   ],
   "note": ""
  },
  {
   "property": "C43",
   "status": "proved",
   "theorems": [
    "C43_string_lexeme",
    "C43_string_value",
    "C43_lexemes_are_strings"
   ],
   "note": ""
  },
  {
   "property": "C44",
   "status": "proved",
   "theorems": [
    "C44_lexer",
    "C44_parser",
    "C44_unambiguous"
   ],
   "note": ""
  },
  {
   "property": "C45",
   "status": "proved",
   "theorems": [
    "C45_account_block",
    "C45_order_irrelevant",
    "C45_fields_of_text"
   ],
   "note": ""
  },
  {
   "property": "C46",
   "status": "proved",
   "theorems": [
    "C46_accepted_means",
    "C46_meaningful_accepted",
    "C46_order_irrelevant",
    "C46_order_irrelevant_distinct",
    "C46_items_of_text"
   ],
   "note": "Soundness and completeness with respect to a meaning of configuration texts; the order of the accounts (a hash map) is left open. With repeated account names the last block counts."
  },
  {
   "property": "C47",
   "status": "partial",
   "theorems": [
    "C47_redirects_receivable_partial",
    "C47_upper_case_scheme_refuted"
   ],
   "note": "Redirect URIs with lower-case scheme. C47_upper_case_scheme_refuted: HTTPS://... is accepted with the HTTPS server off, because the check is case-sensitive."
  },
  {
   "property": "C48",
   "status": "partial",
   "theorems": [
    "C48_login_hint_dropped",
    "C48_login_hint_passed_on_refuted"
   ],
   "note": "False: C48_login_hint_passed_on_refuted gives a run, C48_login_hint_dropped shows the hint is always dropped."
  },
  {
   "property": "C49",
   "status": "proved",
   "theorems": [
    "C49_text",
    "C49_redirect_text",
    "C49_one_reading",
    "C49_authorisation_urls",
    "C49_query_is_text"
   ],
   "note": "On bytes for all contents; C49_query_is_text carries it over to text where it is valid UTF-8. C49_text and C49_redirect_text: what is written out can be taken apart again in one way only, into just these parts."
  },
  {
   "property": "C50",
   "status": "proved",
   "theorems": [
    "C50_base64url",
    "C50_alphabet",
    "C50_lengths",
    "C50_injective",
    "C50_survives_encoding"
   ],
   "note": ""
  },
  {
   "property": "C51",
   "status": "proved",
   "theorems": [
    "C51_browser_requests"
   ],
   "note": "Url::parse is an oracle. The bound is on what is accepted; how much of a single line is read before it is refused is not bounded by the code."
  },
  {
   "property": "C52",
   "status": "proved",
   "theorems": [
    "C52_refresh_requests"
   ],
   "note": ""
  },
  {
   "property": "C53",
   "status": "proved",
   "theorems": [
    "C53_connections_end",
    "C53_connection_history"
   ],
   "note": ""
  },
  {
   "property": "C54",
   "status": "proved",
   "theorems": [
    "C54_refreshes_end",
    "C54_refresh_history"
   ],
   "note": ""
  },
  {
   "property": "C55",
   "status": "proved",
   "theorems": [
    "C55_never_stuck",
    "C55_permanent_threads"
   ],
   "note": "Network calls and commands always return in the model: each is one step with an outcome. Supposes that the step is not one of the status requests that break the server (C07)."
  },
  {
   "property": "C56",
   "status": "proved",
   "theorems": [
    "C56_life_of_a_token"
   ],
   "note": ""
  },
  {
   "property": "C57",
   "status": "proved",
   "theorems": [
    "C57_secrets_step",
    "C57_secrets"
   ],
   "note": "Relates two runs with the same clock, random states, requests and files. Timing and sizes on the wire are not modelled; whether encryption succeeds is assumed not to depend on the content."
  },
  {
   "property": "C58",
   "status": "proved",
   "theorems": [
    "C58_code",
    "C58_refused",
    "C58_useless"
   ],
   "note": "If several accounts await the same state (a repetition among 64 bit random numbers) the first one is taken; the theorems assume this one awaits it alone."
  },
  {
   "property": "C59",
   "status": "proved",
   "theorems": [
    "C59_authorisation_works"
   ],
   "note": "For the run in which nothing else happens in between; what interference can do is the subject of C05, C18 and C56."
  },
  {
   "property": "C60",
   "status": "proved",
   "theorems": [
    "C60_refresh_begins",
    "C60_refresh_works"
   ],
   "note": "For the run in which nothing else happens in between."
  },
  {
   "property": "C61",
   "status": "proved",
   "theorems": [
    "C61_configuration_is_text",
    "C61_state_is_text",
    "C61_output_is_text",
    "C61_replies_are_readable",
    "C61_text_is_utf8",
    "C61_repair",
    "C61_repair_text"
   ],
   "note": "Assumes that the HTTP client, JSON parser, URL serialisation and date formatting hand over strings, as their Rust types guarantee."
  },
  {
   "property": "C62",
   "status": "proved",
   "theorems": [
    "C62_exactly_one_result",
    "C62_show",
    "C62_refresh",
    "C62_revoke",
    "C62_reload",
    "C62_restore",
    "C62_status",
    "C62_shutdown",
    "C62_without_server"
   ],
   "note": "For names that are valid UTF-8, the only ones a command line can deliver; the reply is assumed to be received whole. Supposes for `status` that it does not break the server (C07)."
  },
  {
   "property": "C63",
   "status": "partial",
   "theorems": [
    "C63_without_token_partial",
    "C63_show_refuted",
    "C63_refresh_refuted"
   ],
   "note": "False for an expired token without refresh token: C63_show_refuted, C63_refresh_refuted. C63_without_token_partial proves it for accounts without token."
  },
  {
   "property": "C64",
   "status": "partial",
   "theorems": [
    "C64_refreshable_tokens_partial",
    "C64_refresh_discards_refuted"
   ],
   "note": "False for a token without refresh token: C64_refresh_discards_refuted. C64_refreshable_tokens_partial proves it for tokens with a refresh token."
  },
  {
   "property": "C65",
   "status": "partial",
   "theorems": [
    "C65_dumps_restore_partial",
    "C65_dump_changes_nothing",
    "C65_failed_dump_refuted"
   ],
   "note": "False when dumping fails: the client takes the missing reply for an empty dump (C65_failed_dump_refuted). C65_dumps_restore_partial proves it for non-empty output."
  },
  {
   "property": "C66",
   "status": "proved",
   "theorems": [
    "C66_running",
    "C66_not_running",
    "C66_itself"
   ],
   "note": "Assumes that the JSON parser reads objects of plain strings (json_law)."
  },
  {
   "property": "C67",
   "status": "proved",
   "theorems": [
    "C67_counters_bounded",
    "C67_counters_fit"
   ],
   "note": "For runs of fewer than 2^64 - 1 steps of the model."
  },
  {
   "property": "C68",
   "status": "proved",
   "theorems": [
    "C68_connections_and_refreshes_end",
    "C68_listens_again",
    "C68_said",
    "C68_marks_end"
   ],
   "note": "Calls to the network and to commands are assumed to return, as their time limits provide."
  },
  {
   "property": "C69",
   "status": "proved",
   "theorems": [
    "C69_events_are_delivered"
   ],
   "note": "The command is assumed to end, as its time limit provides."
  },
  {
   "property": "C70",
   "status": "proved",
   "theorems": [
    "C70_refreshed",
    "C70_fresh",
    "C70_failed"
   ],
   "note": "Client commands that keep changing the account could keep putting the refresh off; the theorem then names the first of them."
  },
  {
   "property": "C71",
   "status": "proved",
   "theorems": [
    "C71_announced"
   ],
   "note": ""
  },
  {
   "property": "C72",
   "status": "proved",
   "theorems": [
    "C72_means",
    "C72_usage",
    "C72_unambiguous",
    "C72_every_account",
    "C72_plain_account",
    "C72_verbosity"
   ],
   "note": "For arguments that are UTF-8; others make pizauth panic. The library getopts is modelled from its source (0.2.21)."
  },
  {
   "property": "C73",
   "status": "partial",
   "theorems": [
    "C73_named_file",
    "C73_default_partial",
    "C73_order_refuted",
    "C73_missing_file_refuted"
   ],
   "note": "False in general: C73_missing_file_refuted (-c without a file silently means the default), C73_order_refuted (with XDG_CONFIG_HOME set, $HOME/.config is never looked at). C73_named_file and C73_default_partial say what is true."
  },
  {
   "property": "C74",
   "status": "partial",
   "theorems": [
    "C74_private_partial",
    "C74_available",
    "C74_root_refuted"
   ],
   "note": "Proved for everybody but root; C74_root_refuted: root accepts a directory that somebody else has made. Links are not modelled. C74_available: missing directories are created."
  },
  {
   "property": "C75",
   "status": "partial",
   "theorems": [
    "C75_one_server_partial",
    "C75_reached_partial",
    "C75_second_refused",
    "C75_restarts",
    "C75_race_refuted"
   ],
   "note": "False in general: C75_race_refuted (two servers started at the same time over an old socket). Proved for servers that are started one after the other."
  },
  {
   "property": "C76",
   "status": "partial",
   "theorems": [
    "C76_failure_partial",
    "C76_success_partial",
    "C76_status_refuted"
   ],
   "note": "False: C76_status_refuted (a detached server's failure to set up its ports comes after exit status 0). Statuses other than 0 are true."
  },
  {
   "property": "C77",
   "status": "partial",
   "theorems": [
    "C77_touched_partial",
    "C77_only_running",
    "C77_detached_refuted"
   ],
   "note": "False for servers that detach themselves (C77_detached_refuted: the thread does not survive the fork); true with -d."
  },
  {
   "property": "C78",
   "status": "partial",
   "theorems": [
    "C78_reported_partial",
    "C78_rejected_because",
    "C78_accepted_iff",
    "C78_whole",
    "C78_time",
    "C78_place_unique",
    "C78_reload_partial",
    "C78_time_unplaced_refuted"
   ],
   "note": "Proved for everything but times: C78_reported_partial, C78_reload_partial; C78_rejected_because and C78_accepted_iff say that nothing else is rejected. False for times that are too large, which are reported without a place (C78_time_unplaced_refuted). The texts of syntax errors and the detail after `Invalid URI` are not modelled."
  },
  {
   "property": "C79",
   "status": "proved",
   "theorems": [
    "C79_layout",
    "C79_meaning",
    "C79_layout_irrelevant",
    "C79_every_configuration",
    "C79_only_such_configurations"
   ],
   "note": "Accounts come in the order of the hash map, so they are read back up to their order. That the generated LR parser accepts the grammar's language is trusted (see C44)."
  },
  {
   "property": "C80",
   "status": "proved",
   "theorems": [
    "C80_malformed",
    "C80_documented",
    "C80_lost_token",
    "C80_counted_failure",
    "C80_info_lines",
    "C80_unrepresentable",
    "C80_warnings",
    "C80_errors",
    "C80_shown"
   ],
   "note": "Every sixth transient failure with transient_error_if_cmd configured writes no line itself (part of the statement). How commands end and the words of URL and JSON errors are inputs."
  },
  {
   "property": "C81",
   "status": "proved",
   "theorems": [
    "C81_step",
    "C81_log"
   ],
   "note": "Assumes, as C57, that whether encryption succeeds does not depend on what is encrypted. Bodies of refused token requests are logged; they are taken not to be secret (they are the same in both runs)."
  },
  {
   "property": "C82",
   "status": "partial",
   "theorems": [
    "C82_answer",
    "C82_one_answer",
    "C82_only_these",
    "C82_well_formed_partial",
    "C82_status_line_refuted"
   ],
   "note": "What is shown is proved in full (C82_answer, C82_one_answer, C82_only_these). False for the form: the answers with status 400 and 404 are not HTTP responses (C82_status_line_refuted)."
  },
  {
   "property": "C83",
   "status": "partial",
   "theorems": [
    "C83_any_reply",
    "C83_one_meaning",
    "C83_broken",
    "C83_unanswered_partial",
    "C83_dump_refuted"
   ],
   "note": "For all sub-commands that read a reply and all bytes. False for dump, which takes an unanswered request for a success (C83_dump_refuted); shutdown waits for no answer; for info see C66."
  },
  {
   "property": "C84",
   "status": "partial",
   "theorems": [
    "C84_started",
    "C84_runs_partial",
    "C84_transient_answer",
    "C84_zero_byte_refuted"
   ],
   "note": "Every process started is one of the documented ones, with its variables (C84_started), for all reachable histories; how transient_error_if_cmd's end is read (C84_transient_answer). That the system is asked to start it is proved only for texts without zero bytes (C84_runs_partial) and false otherwise (C84_zero_byte_refuted). How the system makes a process of it is an input."
  },
  {
   "property": "C85",
   "status": "proved",
   "theorems": [
    "C85_read",
    "C85_any_writing"
   ],
   "note": "For all queries, against inductive definitions of reading and writing application/x-www-form-urlencoded. That the URL library finds the query in the address is part of the oracle."
  },
  {
   "property": "C86",
   "status": "proved",
   "theorems": [
    "C86_pieces",
    "C86_waits",
    "C86_asks",
    "C86_settled"
   ],
   "note": "The reader of Wire.v takes its input in pieces, like BufReader on a socket. The specification of what is complete (SpecWire.unfinished) is independent of it."
  },
  {
   "property": "C87",
   "status": "partial",
   "theorems": [
    "C87_lines_partial",
    "C87_endless_line_refuted"
   ],
   "note": "False as stated: the limit is tested between lines, so a line without end is read without end (C87_endless_line_refuted, F11). True: everything up to the last line break is below the limit."
  },
  {
   "property": "C88",
   "status": "proved",
   "theorems": [
    "C88_same_server",
    "C88_in_order",
    "C88_browsers_once",
    "C88_not_early"
   ],
   "note": "A transition system of the server with its connections (Wire.v), shown to have the same reachable server states as Server.v, for all interleavings."
  },
  {
   "property": "C89",
   "status": "partial",
   "theorems": [
    "C89_browsers_partial",
    "C89_clients_partial",
    "C89_silent_client",
    "C89_silent_client_refuted"
   ],
   "note": "True of browsers, and of clients once those before them have ended. False in general: clients are read one after the other without a time limit, so one that connects and falls silent blocks all later ones (C89_silent_client, C89_silent_client_refuted, F29)."
  },
  {
   "property": "C90",
   "status": "partial",
   "theorems": [
    "C90_start",
    "C90_step",
    "C90_traces",
    "C90_log",
    "C90_dumps",
    "C90_file",
    "C90_error_text_refuted"
   ],
   "note": "True of running servers, accepted files and dumps. False of the text with which a file is refused: it quotes the offending line, secret included (C90_error_text_refuted, F30)."
  },
  {
   "property": "C91",
   "status": "proved",
   "theorems": [
    "C91_only_when_told",
    "C91_for_good",
    "C91_when_told",
    "C91_goes_on"
   ],
   "note": "Machine closure: from every reachable state not told to stop there is a fair, timely, endless run for every strategy of the outside; so the assumptions of C68-C71 never contradict what the server does. It supposes that no status request breaks the server (C07)."
  },
  {
   "property": "C92",
   "status": "proved",
   "theorems": [
    "C92_status_is_right",
    "C92_dates_stay"
   ],
   "note": "The text of a date is an oracle; dates out of the system's range are shown as <unknown time>."
  },
  {
   "property": "C93",
   "status": "partial",
   "theorems": [
    "C93_no_new_states",
    "C93_all_states",
    "C93_mutual_exclusion",
    "C93_changed_under_lock",
    "C93_read_under_lock",
    "C93_no_deadlock_partial",
    "C93_released_when_read",
    "C93_held_up",
    "C93_holds_up_nobody_refuted"
   ],
   "note": "False in one respect, shown by C93_holds_up_nobody_refuted: status writes its answer with the state locked (F32). Everything else is proved; C93_no_deadlock_partial excepts that case and the breakdown of C07."
  },
  {
   "property": "C94",
   "status": "proved",
   "theorems": [
    "C94_refresh_begins_in_time",
    "C94_always_valid",
    "C94_always_shown",
    "C94_survives_outages"
   ],
   "note": "For runs whose states carry times and in which no deadline is passed (SpecTimed.prompt); the provider's answers to refreshes are good (good_provider)."
  },
  {
   "property": "C95",
   "status": "partial",
   "theorems": [
    "C95_listens_as_told",
    "C95_starts_if_possible",
    "C95_shows_its_ports",
    "C95_serves_browsers",
    "C95_comes_back_partial",
    "C95_comes_back_unless_reloaded_partial",
    "C95_comes_back_refuted",
    "C95_comes_back_blank_refuted"
   ],
   "note": "All but the last sentence is proved. The last one is false: listeners are made at the start only, so a reload can bring an account whose server is not running (C95_comes_back_refuted); and a blank before https:// gives it the HTTP server's port (C95_comes_back_blank_refuted). It is proved for plainly written redirect URIs whose kind of server is on."
  },
  {
   "property": "C96",
   "status": "proved",
   "theorems": [
    "C96_first",
    "C96_again",
    "C96_none_ahead",
    "C96_none_ahead_at_start"
   ],
   "note": "Runs with times (attentive, SpecTimed.v); an authorisation's end is a client's or a browser's doing. C96_again asks that no announcement be noted for a time to come, which C96_none_ahead and C96_none_ahead_at_start show to hold in every run from the start."
  },
  {
   "property": "C97",
   "status": "proved",
   "theorems": [
    "C97_in_time",
    "C97_event"
   ],
   "note": "Runs with times (reporting, SpecTimed.v). As in C32 and C69 an event counts as reported when its command has been started; token_event_cmd is set in every configuration loaded."
  },
  {
   "property": "C98",
   "status": "proved",
   "theorems": [
    "C98_answered",
    "C98_served",
    "C98_token_in_time"
   ],
   "note": "Runs with times (browsing, SpecReturn.v). The state is assumed to belong to one account only (it is drawn at random); meddled names who may get in the way, a reminder included (F3)."
  },
  {
   "property": "C99",
   "status": "proved",
   "theorems": [
    "C99_same_runs",
    "C99_clients",
    "C99_browsers"
   ],
   "note": "Runs with times of the model with sockets (serving, SpecServe.v). That clients do not dawdle is an assumption: pizauth sets no time limit, and without it the claim is false (C89, F29). C99_same_runs carries C90 to C98 over to runs with sockets."
  },
  {
   "property": "C100",
   "status": "proved",
   "theorems": [
    "C100_lockstep",
    "C100_others",
    "C100_runs",
    "C100_reminders",
    "C100_refreshes"
   ],
   "note": "A relational invariant (twins, SpecApart.v) kept by paired executions (together). Stronger than C13, which says that an account is left alone: here, nothing about the other accounts influences it. What the refresher, the notifier, reloads and restores do is compared when both servers do it."
  },
  {
   "property": "C101",
   "status": "proved",
   "theorems": [
    "C101_answered",
    "C101_shown",
    "C101_any_time",
    "C101_outages",
    "C101_code"
   ],
   "note": "C99, C94 and C98 put together, in runs with times of the model with sockets: from what a client sends on its socket to the token it reads. Same assumptions as those."
  },
  {
   "property": "C102",
   "status": "partial",
   "theorems": [
    "C102_refresher_has_reason_partial",
    "C102_notifier_has_reason",
    "C102_refresher_idle",
    "C102_notifier_idle",
    "C102_one_thread_per_refresh_refuted"
   ],
   "note": "Proved: C102_refresher_has_reason_partial, C102_notifier_has_reason, C102_refresher_idle, C102_notifier_idle. Missing, because false: that one thread is started per refresh. Until the first thread started for a refresh gets the lock the alarm is in the past and the refresher starts another one each time round (C102_one_thread_per_refresh_refuted, F35); C09 says that only one of them refreshes."
  },
  {
   "property": "C103",
   "status": "partial",
   "theorems": [
    "C103_nothing_wrong",
    "C103_who_is_lost",
    "C103_poison",
    "C103_others_go_on",
    "C103_clients_served",
    "C103_unconcerned_go_on",
    "C103_down",
    "C103_lost_for_good",
    "C103_refreshing_goes_on_refuted",
    "C103_poison_is_fatal",
    "C103_poison_freezes",
    "C103_survives_refuted",
    "C103_refresh_ends_it_refuted",
    "C103_browsers_served_refuted"
   ],
   "note": "Proved: everything reachable with refused threads is reachable without (so every theorem about reachable states and traces carries over), who can be lost, that all others go on and clients are served unless the state's mutex is poisoned, and that this takes an error_notify_cmd. Missing, because false: a lost refresher, notifier or listener is lost for good while the server runs on; a thread refused for error_notify_cmd poisons the state's mutex and the next request ends the process; so does a thread refused for a client's refresh (the _refuted theorems, F36)."
  },
  {
   "property": "C104",
   "status": "proved",
   "theorems": [
    "C104_as_if_answered",
    "C104_the_rest_happens",
    "C104_reachable",
    "C104_seen_as_ever",
    "C104_no_panic",
    "C104_answered_last",
    "C104_mutex_given_back"
   ],
   "note": "Hangup.v adds to every answer the possibility that it cannot be written. A run with lost answers is simulated by the run in which they arrive; the states are equal, and the traces are up to the answers lost. How much of an answer arrives before the client goes is not modelled."
  },
  {
   "property": "C105",
   "status": "partial",
   "theorems": [
    "C105_over_in_time_partial",
    "C105_not_stuck",
    "C105_limits",
    "C105_not_before",
    "C105_in_time_counts",
    "C105_verdict",
    "C105_approval",
    "C105_shell_gone",
    "C105_unlimited",
    "C105_events_in_time_partial",
    "C105_refresh_goes_on_partial",
    "C105_all_stopped_refuted",
    "C105_unkillable_refuted",
    "C105_ten_seconds_refuted",
    "C105_all_limited_refuted"
   ],
   "note": "Child.v models the shell, the processes it starts and the thread that waits. Proved: the limits, that nothing is killed before them, that a command that ends in time counts, what a verdict means, that the shell is gone afterwards, and the bound for commands that pizauth may kill; with it the bound of C97 without its assumption on commands. Refuted: commands that may not be killed hold up events for ever, what the shell has started goes on, auth_notify_cmd and error_notify_cmd have no limit, and the manual's ten seconds for token_event_cmd are thirty."
  },
  {
   "property": "C106",
   "status": "partial",
   "theorems": [
    "C106_nobody_lost",
    "C106_keeps_on",
    "C106_taken",
    "C106_after_all",
    "C106_idle_refuted"
   ],
   "note": "Accept.v models one listener, who waits at it and the descriptors of the process. Proved: nobody is lost and the order is kept, the loop goes on, all who wait are taken once there are descriptors. Refuted: without a descriptor the loop does not sleep but calls accept again and again (F38). What is done with those who are taken is in Wire.v and Server.v."
  },
  {
   "property": "C107",
   "status": "partial",
   "theorems": [
    "C107_one_warning_each",
    "C107_rest_as_ever",
    "C107_nobody_goes",
    "C107_nothing_else",
    "C107_unknown_said_refuted"
   ],
   "note": "HangupLog.v gives each line the step in which it is written, also for answers that are lost. Proved: one warning for each client whose answer is lost, none for browsers, and otherwise the log of the run in which they stay; if nobody goes it has the lines of Log.v (C80, C81), those about unknown commands after the answer. Refuted: that an unknown command is called invalid although its client has gone; the warning about the lost answer takes that place (F39)."
  }
 ]
}
