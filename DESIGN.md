# Formal model of pizauth: design

Everything is in Rocq (Coq 8.16.1), under `rocq/theories`, using the Coq
standard library only.  The properties are in `properties.jsonl`, the theorems
that carry them in `MANIFEST.json`, attempts to break the theorems with wrong
programs in `seeded/LOG.jsonl`.

1. [Shape of the model](#1-shape-of-the-model)
2. [What is modelled, and what is not](#2-what-is-modelled-and-what-is-not)
3. [Trusted base](#3-trusted-base)
4. [Property by property](#4-property-by-property)
5. [Where the code and the properties disagree](#5-where-the-code-and-the-properties-disagree)
6. [Files](#6-files)

## 1. Shape of the model

* **Data.** Rust `String`s and byte buffers are byte lists (`list ascii`);
  UTF-8 validity is a function on them.  `Instant` / `SystemTime` / `Duration`
  are `Z` nanoseconds with the exact representable range of the Unix `std`
  types, so `checked_add`/`checked_sub` fail where they do in Rust.  `HashMap`s
  are association lists; iteration order is an arbitrary "hash" supplied by the
  environment, so every theorem holds for every order.
* **Failure.** Every function returns `Val`, `Err` or `Panic`; `unwrap`,
  `HashMap` indexing, `assert!` and `unreachable!` become `Panic`.
* **External code.** URL parsing, JSON parsing, SHA-256, ChaCha20-Poly1305 and
  date formatting are fields of a record `oracles` (Oracles.v) that every
  theorem quantifies over.  Laws that a theorem needs are hypotheses of that
  theorem (see 3.3).
* **Environment.** Clock readings, random bytes, file contents, provider
  replies, command outcomes, bytes received on sockets and scheduling are
  inputs (`env`, `label`) over which theorems quantify.  Clocks are arbitrary
  unless a theorem says otherwise: nothing assumes that time moves forward.
* **Concurrency.** The whole server is a labelled transition system
  (`Server.step`): one step is one critical section of a mutex or one external
  interaction of one thread.  Each thread is a program counter (`pc`);
  straight-line code between critical sections is the constructor `PDo action
  rest`.  Steps append to an observable trace (requests, replies, HTTP
  responses, POSTs with their result, commands run, URLs issued, configurations
  loaded).  `reachable` is: started from any accepted configuration file, then
  any sequence of steps in any interleaving.
* **Mutexes.** In Server.v a critical section is a single step.  Locks.v takes it apart
  (`fstep`): a thread takes the mutex, does its work, gives the mutex back, and the others
  run meanwhile.  C93 shows that this leads to no other states, that what a mutex guards is
  neither read nor written without it, and that nobody waits for it for ever.
* **Condition variables.** Each background thread has its predicate and a flag
  "blocked and not yet notified" (`cv`).  Spurious wakeups and timeouts are
  allowed at any time (`e_wake`).

Model files contain no proofs.  `Props1.v` to `Props36.v` contain the property
theorems (each closed by `exact lemma`, except the refutations, which compute a
witness), `Print Assumptions` below each, and an `Example` beside each theorem
showing a concrete case that meets its hypotheses.  Specifications used in the
statements that are not model definitions are in the `Spec*.v` files.

## 2. What is modelled, and what is not

| Code | Model | Remarks |
|---|---|---|
| config.l | ConfigLex.v | longest match, earliest rule; bytes instead of characters in the catch-all rule (a parse error either way) |
| config.y, config_ast.rs | ConfigParse.v | recursive descent; equal to an inductive grammar (C44); that lrpar's LR tables accept that grammar is trusted |
| config.rs:18-30, 50-668 | Config.v, Located.v | Config.v: everything but the places in error messages; Located.v: the spans of config.y, `error_at_span` and the functions that use them (what the server runs; Locate.v: the two agree but for the places).  Not modelled: the texts of syntax errors and the detail after `Invalid URI`; release semantics for `debug_assert!` (see F15) |
| server/state.rs | State.v, Dump.v | complete (bincode and serde's `SystemTime` written out); ids unbounded instead of `u128`, failure counts unbounded instead of `u64`, which C67 justifies |
| server/mod.rs:65-322 | State.v (`expiry_instant`), Server.v (`request` and below) | complete; the RFC 2822 text of a date is an oracle, which may have none: `to_rfc2822` panics outside the years 0 to 9999 (chrono 0.4.39, modelled from memory of its documentation) |
| server/mod.rs:324-406, http_server.rs:373-442 | Server.v (`init_world`), Listen.v (`server_setup`) | name resolution, `bind` and certificate generation are inputs; what the threads do before the Unix socket is bound, if that fails, is left out; pledge/unveil (OpenBSD) not modelled |
| server/request_token.rs | Server.v (`request_token`) | complete |
| server/http_server.rs:38-372 | Http.v, Server.v (`http_*`) | complete except the six second pause between attempts (no step of its own) and TLS |
| server/refresher.rs | Timers.v, Server.v (`ref_*`, `rf_scan`) | complete; running `transient_error_if_cmd` is one step whose outcome is an input; Command.v says how it follows from the way the process ends (timeouts, missing `SHELL`, non-zero status: all "failed") |
| server/notifier.rs | Timers.v, Server.v (`notify_scan`, `nt_scan`, `http_notify`) | commands are fire and forget: the observation is the attempt to run one |
| server/eventer.rs | Server.v (`PEv*`) | start and end of a command are separate observations; the time limit, killing and reaping are in Child.v (C105) |
| server/mod.rs:81-83, 397-403, http_server.rs:280-323, 386-465 | Wire.v | reading in pieces, the queue of clients, one thread per browser; `accept` always succeeds here |
| the loops mod.rs:398, http_server.rs:390, 449 | Accept.v | who waits, descriptors, calls of `accept` that fail; `EINTR` (repeated by the standard library) and full backlogs are not modelled |
| the uses of `thread::spawn` in server/*.rs | Spawn.v | a thread that cannot be started: who panics, which mutex is poisoned, what follows (elsewhere threads are always started); threads that are started before the main loop are not among them |
| `write_all` in mod.rs:100-299, 400-402 and http_server.rs:358-372 | Hangup.v | an answer that cannot be written because whom it is for has gone; how much of it arrived before is left out (elsewhere answers are always written) |
| `warn!` in mod.rs:400-402 after mod.rs:299-301 | HangupLog.v | the log with such answers; the text of the system's error is an input |
| commands being waited for: refresher.rs:176-199, eventer.rs:83-106, notifier.rs:94-106, 150-162 | Child.v | the shell, its offspring, the thread that waits; `wait` after `kill` does not fail; stdout and stderr are one stream; `wait_timeout` sees the end or the limit in either order when both have come |
| the uses of `Mutex` in server/*.rs | Locks.v | which critical section takes which mutex; only `status` keeps one while it writes |
| the `log` calls of server/*.rs, main.rs:332-353 | Log.v | which lines a step writes, at which level, and which levels `-v` lets through; how a command ends is an input, and its line is attributed to the step that starts it; the `debug!` lines (debug builds only), lines about replies that cannot be written and the TLS handshake's are left out |
| user_sender.rs, main.rs:149-411 | Client.v | requests, interpretation of replies, standard output, error message and exit status, both forms of `info` (JSON as a value, not its printed text), connections that break off |
| main.rs:130-149 and the start of each branch, getopts 0.2.21 | Cli.v | complete for the options pizauth declares; the library was modelled from memory of its source, which is not in the sandbox |
| main.rs:38-128, 285-354, compat/ | Startup.v | paths, cache directory, choice of the configuration file; server processes sharing one socket path, one step per system call that matters; paths are plain strings (no links), nobody else removes the socket |
| url, form_urlencoded, base64, serde_json accessors, str::from_utf8, from_utf8_lossy, trim | Url.v, Base64.v, Json.v, Utf8.v, Http.v | as far as pizauth uses them; `Url::parse` and the JSON parser themselves are oracles |

Not modelled at all: memory, the operating system's handling of sockets (beyond
Wire.v), TLS.

Simplifications inside modelled code:

* In Server.v a connection delivers its request at once.  Wire.v puts sockets in
  front of it, on which bytes arrive in pieces and other sides fall silent or
  break off; C88 shows that both have the same reachable states.  A browser's
  thread appears in Server.v when its request has been read.
* In Locks.v threads that are started with a mutex in hand (mod.rs:235, notifier.rs:142-169)
  are started after it has been given back; and some requests that fail early take the
  mutex of the state nevertheless.
* Reading a request, and pure computations between two critical sections, are
  merged with the critical section that follows.  They touch no shared state.
* A clock reading is an input of the step in which it happens; steps that take
  several readings get several independent ones (`e_clk e 0`, `1`, ...).
* Replies are written in a step of their own, always successfully.  Hangup.v
  lets `write_all` fail; C104 shows that then nothing but those replies is missing.
* `notify_one` wakes the single waiter; setting the predicate and notifying are
  one step since they happen under the predicate's mutex.
* `Url` values carry scheme, userinfo, host, port, path, query and fragment;
  `set_port` and serialisation are concrete.

## 3. Trusted base

### 3.1 Coq

Coq's kernel and `coqc` 8.16.1, its `vm_compute` (used in examples, in
refutations and in finite case analyses), and the standard library.

### 3.2 Axioms

`Print Assumptions` says *Closed under the global context* for every theorem
in `Props1.v` to `Props36.v`, i.e. for every theorem in `MANIFEST.json`: no
axiom is used, neither of ours nor of the standard library.  There are no
axioms, admitted proofs, functors or module types in the development.

`coqchk -o` lists seven constants `Coq.ssr.ssrunder.Under_rel.*`.  They are
loaded because the standard library's own tactics load ssreflect; they are a
sealed module's fields, and nothing here depends on them.

### 3.3 Hypotheses about external code

Universally quantified oracles need no trust.  These laws appear as hypotheses
of particular theorems and would have to be true of the real libraries:

| Law | Used by | Says |
|---|---|---|
| `url_laws O` | C11, C12, C39 (starting an authorisation), C49 (text of redirect URIs) | `Url::parse` accepts `http://localhost/`; parsing an http(s) URL yields one with a host |
| `url_parts O` | C49 (text of URLs) | the parts of a parsed http(s) URL do not contain the characters that end them (no `/?#` in user and host, no `?#` in the path, no `#` in the query; the path starts with `/`) |
| `cipher_law O` | C33, C36 | decrypting what was encrypted under the same nonce returns it |
| encryption succeeds | C33 (`C33_dump_answered`) | ChaCha20-Poly1305 does not fail on inputs of this size |
| `text` conditions | C33, C36, C37 | strings are valid UTF-8 and shorter than 2^64 bytes, as every Rust `String` is; C61 derives the UTF-8 part for the server's strings from what comes in (`C33_dump_then_restore_strings`, `C36_restored_times_strings`, `C40_show_strings`), so that only the lengths (`fits`) are assumed |
| `text_laws O`, `utf8_posts` | C61 and the `_strings` theorems | URLs serialise to ASCII; strings in parsed JSON, JSON error messages, dates, HTTP response bodies and error messages are strings |
| `scheme_law O` | C95 | the scheme of a URL written without blanks and control characters is what stands before its first colon, in lower case |
| `net_laws sys` | C95 | a socket that listens has the port asked for, or some other than 0, and an address nobody else listens at |
| `json_law O` | C66 | the JSON parser reads an object whose members are strings of printable ASCII without quotes and backslashes |

Each is shown satisfiable by the toy oracles of Scenario.v (`json_law`: Props9.v; `scheme_law`, `net_laws`: Props23.v).

C68-C71 speak about endless runs and assume of the operating system (SpecFair.v):
`fair` - a thread that has something to do is not neglected for ever (which
includes that calls to the network and commands return, as their time limits
provide); `timely` - a thread that sleeps until a time wakes up after it;
`passes` - the clock eventually shows more than the time in question.  Endless.v
gives a run that meets all of them; C91 shows that from every state of a server
not told to stop there is one, whatever comes from outside, so that the
assumptions never contradict what the server does.

C94 speaks about runs with times (`prompt`, SpecTimed.v): every state is entered at
some time, clocks read in a step show a time during that step, and the refresher and
the threads it starts stay no longer than `d` at a program point (`p` at those at
which they wait for the provider or a command); a signal, and waking up for one or at the time set,
takes no longer than `d` either.  Since only deadlines are assumed, not that time goes
on, runs that stand still are included.  Nothing is assumed of other threads, but
that a signal they owe the refresher is sent within `d`.
TimedCase.v and FlakyCase.v give runs that meet all of it, the latter with a failed attempt.
C96 assumes the same of the notifier (`attentive`); RemindCase.v gives a run of two
minutes that meets it with a `d` of one second.
C97 assumes it of the eventer (`reporting`), with a limit `r` for the commands it runs; in ReportCase.v
one of them hangs for 31 s.
C98 assumes it of the threads of browsers (`browsing`, SpecReturn.v), with a limit `p` for an attempt to
reach the provider and the pause after it; in ReturnCase.v two attempts fail in one run, all ten in another.
C99 assumes it of the main thread and of the threads that read from browsers, in runs of the model with sockets
(`serving`, SpecServe.v), and of clients that they send their request within `c`; in ServeCase.v a client that
takes four seconds keeps another waiting.
C101 makes the assumptions of C94, C98 and C99 together; TurnCase.v gives runs that meet them, with a token that is
renewed while a client is asking for it, and with a failed attempt to renew it.
C105 assumes of the process that waits for a command (`job_prompt`, SpecChild.v) that it takes its steps within `d` and
that a killed process is gone within `g`, and that killing is permitted (`can_be_killed`); `serving_events` says the same
of the eventer in the model of the server.  The cases beside the theorems in Props33.v meet these assumptions.

### 3.4 Reading

That the definitions say what the Rust says is established by reading only;
each definition cites the lines it models.

## 4. Property by property

P: proved in full.  p: partial; the theorems ending in `_refuted` show why the
full statement is false of the code, the others say what is true.

| | | Theorems (lemma file) | How |
|---|---|---|---|
| C01 | P | `shown_token_is_current` (Shown) | invariant tying every held token to the POST or restore in the trace that delivered it (Origin), and every reply to a held token |
| C02, C03 | P | `reload_keeps_unchanged`, `failed_reload_changes_nothing` (Basic) | the step as an equation against a relational specification |
| C04 | P | `revocation_is_final`, `revoke_discards`, `revoke_unknown` (Revoke, Decide) | invariant relative to the revoke in the trace |
| C05, C06 | P | `outdated_work_has_no_effect`, `version_identifies_state`, `versions_distinct` (Basic) | freshness of ids along runs |
| C07 | partial | `panics_only` (Reach), `breaks_down_panics`, `dates_for_all` (Basic) | inductive invariant containing the code's I1: a step panics if and only if it is a `status` request with a time to show that has no date; refuted as stated, F31 |
| C08 | P | `accounts_known`, `status_lists` (Basic) | as above; the texts of all lines are spelt out in SpecStatus.v |
| C09, C10 | P | `one_refresh_per_version`, `mark_has_unique_owner`, `refresh_never_blocks`, `refresh_ends`, `end_clears_mark` (Own), `asking_again_starts_nothing` (Decide) | ownership invariant between marks and threads, rank function |
| C11, C12, C13 | P | one theorem per kind of token state (Decide), `other_accounts_untouched`, `reminders_keep_states` (Basic) | case analysis; frame lemma over all steps |
| C14 | P | `unmatched_callback` (Decide) | case analysis |
| C15 | p | `wrong_origin_partial` (Decide); `path_refuted` | scheme, host and port are compared, the path is not |
| C16, C17 | P | `exchange_proves_possession` (Pend), `completed_state_is_dead`, `no_more_tokens_than_authorisations` (Exchange) | invariant on pending states, exchanging threads and issued URLs; counting on the trace |
| C18 | p | `exchange_yields_token_partial` (Exchange); `reminder_discards_token_refuted`; `grants_iff` (AnswerLemmas) | computation of the thread's run from the POST to the stored token; the answers that grant one described by their members (SpecAnswer) |
| C19 | p | `failed_exchange_partial` (Exchange); `unrepresentable_expiry_refuted` | same, per kind of failure |
| C20 | P | `network_failure_keeps_token`, `command_decides` (Refresh), `why_tokens_go` (Loss) | same; the last by cases over all steps |
| C21, C23 | P | `permanent_failure`, `refresh_stores_answer` (Refresh) | same |
| C22 | p | `loss_is_announced_partial`, `only_losses_announced_partial`, `events_are_queued_as_scheduled` (Loss); `silent_loss_refuted`, `spurious_event_refuted` | cases over all steps; invariant on threads about to announce |
| C24 | p | six theorems (Sched, Wake); `unrepresentable_margin_refuted` | arithmetic on due times; wakeup invariant |
| C25 | p | `fresh_tokens_left_alone` (Sched); `short_lived_token_refuted` | arithmetic |
| C26 | p | `retry_time` (Sched), `retries_spaced` (Retry); `unrepresentable_pause_refuted` | invariant over histories |
| C27, C28 | P | `refresher_deadline`, `notifier_deadline` (Sched), `refresher_no_lost_wakeup`, `notifier_no_lost_wakeup` (Wake) | condvar protocol invariant |
| C29 | p | `when_reminded`, `reminders_spaced` (Remind); `unrepresentable_interval_refuted` | invariant over histories |
| C30 | p | `reminders_true_when_decided` (Remind); `stale_reminder_refuted` | invariant on commands about to run |
| C31 | P | `in_order_at_most_once`, `none_skipped`, `one_at_a_time` (Events) | invariant: queued = delivered ++ in hand ++ queue |
| C32 | p | `no_event_left`, `all_delivered`, `woken_delivers_all` (Events); `no_command_refuted` | condvar invariant |
| C33, C34, C36, C38 | P | DumpLemmas | round trip, functional specification of restore, clock arithmetic, non-interference |
| C35 | p | two `_partial` theorems (DumpLemmas); `unreadable_dumps_rejected_refuted` | |
| C37 | P | Codec | induction over the encoders |
| C39, C40, C41 | P | ClientLemmas, Decide, Dialog | string lemmas; counting requests and replies on the trace |
| C42, C43, C44 | P | Lexing, ConfigParseProofs, Blocks, Reads | the lexer equals an inductive definition of maximal munch, the parser an inductive grammar |
| C45, C46 | P | Blocks, Tops, Reads | equal to a declarative meaning of blocks and files; invariance under permutation |
| C47 | p | `redirects_receivable_partial` (Reads); `upper_case_scheme_refuted` | |
| C48 | p | `login_hint_dropped` (Links); `login_hint_passed_on_refuted` | |
| C49, C50, C51 | P | Links, UrlLemmas, HttpLemmas, Encoding | round trips; the request parser equals a declarative specification |
| C52 | P | `refresh_requests` (RefreshOrigin) | invariant on refreshing threads |
| C53, C54 | P | `connection_bounded`, `connection_history`, `refresh_bounded`, `refresh_history` (Sessions) | a measure that every own step of a worker decreases; a grammar of what it may still say, by induction over the run |
| C55 | P | `enabled_or_waiting`, `permanent_threads` (Sessions) | case analysis over the invariant; calls to the network and to commands are steps that always return |
| C56 | P | `life_step` (Life) | every step's effect on one entry, against the transition relation `life` of SpecLife |
| C57 | P | `secrets_step`, `secrets_run` (Secrets) | simulation between two runs that differ in secrets only (non-interference); covers what is sent, not how long it takes |
| C58 | P | `code`, `refused`, `useless` (Complete) | the step as an equation, against the independent description of the matching request |
| C59, C60 | P | `authorisation_works`, `refresh_begins`, `refresh_works` (Complete) | composing the step equations of all parties into one run, started in an arbitrary reachable state; exact trace and state at the end |
| C61 | P | `reach_txt` (Texts), `config_path_text` (TextConfig) | invariant: every byte list kept, about to be used, or shown is valid UTF-8; cutting UTF-8 at ASCII bytes (Utf8Lemmas) for the lexer and the request parser; the tests of Utf8.v against the definition of the encoding of scalar values, and lossy decoding against an inductive description (SpecUtf8, Utf8Spec) |
| C62 | P | `show_result` and so on (User) | the server's step as an equation, composed with the client's reading of the reply |
| C63 | p | `without_token_partial` (User); `show_refuted`, `refresh_refuted` | same |
| C64 | p | `refreshable_tokens_partial` (User, from Loss); `refresh_discards_refuted` | cases over all steps |
| C65 | p | `dumps_restore_partial`, `dump_changes_nothing` (User, from DumpLemmas); `failed_dump_refuted` | C33 seen from the clients |
| C66 | P | `running`, `not_running`, `itself` (User) | decimal and hexadecimal printing against their meaning; invariant on the public key |
| C67 | P | `counters_bounded`, `counters_fit` (Counters) | induction over the run: each step adds at most one number per account and two more |
| C68 | P | `thread_ends`, `main_returns`, `said_done`, `marks_end` (Fair) | endless fair runs (SpecFair): a thread that is not at rest is scheduled at its program point; the measure of C53; ownership of marks (C10) |
| C69 | P | `events_get_delivered` (Fair) | fairness and the wakeup invariant of the eventer (Events) give progress; induction on the number of events |
| C70 | P | `refreshed`, `fresh_ripe`, `failed_ripe` (Fair) | the refresher looks again and again; at a look past the due time it spawns a refresh; who can change an idle token's entry |
| C71 | P | `announced` (Fair) | same for the notifier |
| C72 | P | `line_means`, `line_usage`, `asks_unambiguous`, `every_account`, `plain_account` (CliLemmas) | the parser against an inductive definition of command lines (SpecCli), both directions |
| C73 | p | `named_file` (CliLemmas), `conf_documented` (StartupLemmas); `missing_file_refuted`, `order_refuted` | case analysis |
| C74 | p | `cache_private`, `cache_available` (StartupLemmas); `root_refuted` | case analysis over what was there and what the system answers |
| C75 | p | `one_server`, `served_reached`, `second_refused`, `restarts` (StartupLemmas); `race_refuted` | invariant over all interleavings of processes |
| C76 | p | `failure_reported`, `success_reported` (StartupLemmas); `status_refuted` | invariant on processes |
| C77 | p | `touched`, `detached_untouched`, `touches_living` (StartupLemmas); `detached_refuted` | same invariant |
| C78 | p | `fault_reported`, `rejected_because`, `accepted_iff`, `whole_fault_reported` (Report2); `time_unplaced_refuted` | the loops over fields and items against a definition of the first thing wrong (SpecReport), both directions; spans of the parser against positions of tokens; unique division of tokens into productions |
| C79 | P | `layout_iff` (Layout); `written_read`, `read_writable`, `layout_irrelevant_val` (Writing) | induction over layouts and over lexings; a writer (tree, tokens, text) composed with the converses of C44 to C46 |
| C80 | P | `malformed_log`, `documented_log` (LogLemmas); `info_sound`, `loss_logged`, `failure_logged`, `warn_sound`, `expiry_logged`, `errors_of`, `shown_all` (LogFacts) | cases over the steps; invariant on threads about to report a failed refresh (`says`); the texts of the UTF-8 errors against the encoding (SpecLog) |
| C81 | P | `sim_log`, `sim_run_log` (LogFacts) | the simulation of C57 |
| C82 | p | `browser_shown`, `shows_one`, `only_pages`, `page_ok` (PageLemmas); `bare_status_bad` | cases of the handler against a table of answers (SpecPages), invariant on threads and the trace; the syntax of RFC 9112 |
| C83 | p | `any_reply`, `understood_unique`, `unanswered`, `broken_connection` (Replies); `C83_dump_refuted` | cases by the word in front of the first colon |
| C84 | p | `commands_started_for`, `run_plain`, `answer_ok` (CommandLemmas); `C84_zero_byte_refuted` | invariant on the threads about to run a command and on the commands in the trace; cases over how a process ends |
| C85 | P | `form_read_iff`, `writing_read` (Encoding) | inductive definitions of reading and of writing forms (SpecEncoding); induction over both |
| C86 | P | `pieces_irrelevant`, `waits_iff`, `got_iff`, `settled` (WireLemmas, WireNet) | reading in pieces equals reading the whole; the waiting states against a declarative definition (SpecWire), both directions |
| C87 | p | `lines_bounded` (WireLemmas); `C87_endless_line_refuted` | same |
| C88 | P | `complete_net`, `requests_in_order`, `browsers_once`, `read_due` (WireNet) | refinement in both directions; invariants relating the trace to the connections |
| C89 | p | `due_read`, `get_served`, `silent_blocks` (WireNet); `C89_silent_client_refuted` | construction of a run of the main thread; induction over runs in which the silent client stays silent |
| C90 | p | `sw_step`, `sw_run` (Clients), `sw_run_log`, `sw_dumps`, `sw_file` (ClientFacts); `C90_error_text_refuted` | simulation between two servers whose secrets are related by a one-to-one function (SpecClients); files that differ in `client_secret` fields only give configurations related the same way |
| C91 | P | `stopped_because`, `told_stops` (Stop), `goes_on_for_ever` (GoOn) | invariant on who is about to halt and why; conversely a run is constructed in which connections are accepted and threads get their turn (thread `k - (sqrt k)^2` at time `k`), sleepers are woken when their time is past, and C55 says that whoever does not go has nothing to do; all under the proviso that no `status` request breaks the server (C07) |
| C92 | P | `all_told`, `dates_stay` (Dates) | from C08's exact texts; with clocks in step the wall clock's time for an instant does not depend on when one asks |
| C93 | p | `fine_inv`, `guarded`, `blind`, `no_deadlock`, `held_up`, `prompt_fine` (LockLemmas); `C93_holds_up_nobody_refuted` | critical sections taken apart into taking a mutex, working, giving it back; invariant on who has what; non-interference of what a step does not lock; construction of the holder's steps; induction over runs in which the client does not read |
| C94 | P | `begins_in_time`, `valid_for_ever`, `shown_for_ever`, `valid_in_outages` (TimedShow), from `past_due`, `always_valid` (Timed), `valid_through_outages` (TimedRetry) | timed runs (SpecTimed): every state has a time at which it is entered, no deadline is passed; the way of a due token through the refresher's program points bounds the time until it is marked, the refresh's program points the time until the next token is there; induction over tokens; with outages: induction over the stages of attempts since the first failed one |
| C95 | p | `setup_listens`, `setup_succeeds`, `setup_never_panics`, `setup_ports`, `run_ports`, `only_listeners`, `url_comes_back`, `started_comes_back` (ListenLemmas) | start-up as a function of the operating system's answers (Listen.v); ports are constant along runs; with C49, the redirect URI's port is that of a listener; refuted in full by a reload and by a blank before the scheme (F33, F34) |
| C96 | P | `told_first`, `told_until_over`, `still_none_ahead`, `fresh_none_ahead` (TimedNotify) | timed runs as for C94; the way of a signal, or of the notifier's alarm, through its program points bounds the time until it notes the announcement down; the command follows within `d`; who else can change a pending entry is read off Steps.v |
| C97 | P | `delivered_soon`, `event_reported` (TimedEvents) | timed runs as for C94; each program point of the eventer bounds the time until the next command is started; induction on the number of events not reported yet |
| C98 | P | `browser_answered`, `browser_served`, `browser_token` (TimedReturn) | timed runs as for C94; the time still needed decreases with every step of the thread (`cost`); as long as nobody else acts the entry, the configuration and the ports stay as they are (`calm`), so every step is known |
| C99 | P | `net_endless`, `clients_served`, `browsers_answered` (TimedServe) | timed runs as for C94, with sockets; the main thread has at most three things to do after a request (`main_three`); induction over the clients still to be served |
| C100 | P | `lockstep`, `other_step`, `together_twins`, `reminders_both`, `refreshes_both` (Apart) | a relation between the worlds of two servers (`twins`) that every pair of matching steps, and every step for another account, keeps; induction over the paired executions |
| C101 | P | `client_answered`, `token_shown`, `token_any_time`, `token_in_outages`, `code_redeemed` (TimedTurn) | C99 gives the step at which a client is served; between it and the next client's turn the main thread does all it has decided to do (`all_done`, induction over what is left to do); C94 says that the token is valid at that step; for browsers C99 and C98, one after the other |
| C102 | p | `refresher_has_reason`, `notifier_has_reason`, `refresher_idle`, `notifier_idle` (Spin); `refresh_flood` (SpinCase) | invariant since the last look: the flag is down, and the alarm set is one computed since (`rf_calm`, `nt_calm`); what `next_wakeup` returns is the due time of some account or 37 s ahead; refuted in part: threads are started until one of them gets going (F35), by induction on their number |
| C103 | p | `frail_world`, `lost_inv`, `poison_inv`, `others_go_on`, `main_goes_on`, `unconcerned_go_on`, `down_why`, `lost_for_good`, `poison_fatal`, `poison_freezes`, `deaf_for_good` (SpawnLemmas) | Spawn.v puts failures around Server.v: a thread that panics is one that is never scheduled again, so the states are the same; invariants on who is lost and where they stand; which role starts which threads (`in_character`); refuted in part by four runs (F36) |
| C104 | P | `as_if_answered`, `losses_harmless`, `gone_reachable`, `panics_anyway`, `seen_as_ever`, `reply_last`, `gone_releases` (HangupLemmas) | Hangup.v lets any answer be lost: for a client the rest of `request` is skipped, for a browser the thread goes on; no step depends on what has been seen so far (`step_retrace`), a client's answer is the last thing done for it (`answers_last`, invariant), so a simulation with the run in which they stay |
| C105 | p | `over_in_time`, `in_time_counts`, `jinv_run`, `stuck_until`, `can_go_on`, `waited_brief`, `serving_reports`, `events_in_time` (ChildLemmas) | Child.v: a transition system of the shell, its offspring and the thread that waits; one invariant over the labels so far (`jinv`); the bound by following the four whiles (waiting, killing, dying, reaping) one after the other (`phases`); then the assumption of C97 on commands is derived; refuted in part (F37) |
| C106 | p | `dinv_run`, `loop_waits`, `all_taken`, `taken_after_all`, `calls_fail` (AcceptLemmas) | Accept.v: a queue, a number of descriptors, `accept`; invariant: those taken and then those waiting are the arrivals without some who have gone; refuted in part (F38) |
| C107 | p | `gone_logged`, `warned_rest`, `nobody_goes`, `nothing_else` (HangupLogLemmas) | HangupLog.v: the line about an unknown command comes after its answer, and not at all if that is lost; simulation as for C104, with the logs compared line by line (`warned`); against Log.v up to that delay (a permutation, with the line still owed as invariant); refuted in part (F39) |

## 5. Where the code and the properties disagree

The theorem named refutes the property as stated; the run it constructs can be
followed in the code.

* **F1** `restore` swallows errors: state.rs:139 binds the `Result` of the inner
  `restore` to a variable and drops it, so an undecodable dump, or one of another
  version, is answered `ok:` (C35_unreadable_dumps_rejected_refuted).
* **F2** `login_hint` is parsed, checked against `auth_uri_fields`, and dropped
  (config.rs:473-497); it never reaches the authorisation URL
  (C48_login_hint_passed_on_refuted, C48_login_hint_dropped).
* **F3** A reminder sent while a code exchange is in flight gives the account a
  new version (notifier.rs:84), so the exchange's token is discarded although
  the authorisation is still the current one, and the single-use code is spent
  (C18_reminder_discards_token_refuted).
* **F4** A token without refresh token is silently emptied when its refresh is
  due (refresher.rs:238-241): no `token_invalidated` (C22_silent_loss_refuted).
* **F5** After `transient_error_if_cmd` fails, `token_invalidated` is queued even
  if the account has changed meanwhile and nothing was invalidated
  (refresher.rs:120-134, C22_spurious_event_refuted).
* **F6** With `token_event_cmd` unset the eventer takes one event off the queue
  and leaves the rest there until the next event (eventer.rs:69-75); setting the
  command later by `reload` runs it for stale events (C32_no_command_refuted).
* **F7** The check that a redirect URI's server is on is case-sensitive
  (config.rs:208-224), `Url::parse` and `redirect_uri` (config.rs:547-562) are
  not: `HTTPS://...` passes with the HTTPS server off
  (C47_upper_case_scheme_refuted).  Also, servers are started only at start-up,
  so a configuration loaded later can pass the check although its server is not
  running.
* **F8** A code exchange whose token has an unrepresentable expiry leaves the
  authorisation pending without telling anybody (http_server.rs:223 `?`;
  C19_unrepresentable_expiry_refuted).
* **F9** If last notification + `auth_notify_interval` is unrepresentable the
  interval is ignored instead of being endless: a reminder at every wakeup
  (notifier.rs:69-75, C29_unrepresentable_interval_refuted).
* **F10** A token whose lifetime is at most `refresh_before_expiry` is due at once,
  and again as soon as it has been refreshed (C25_short_lived_token_refuted).
* **F11** The 16 KiB limit on browser requests is tested between lines: a single
  line of any length is read first (http_server.rs:285, 304; C87_endless_line_refuted).
* **F12** The redirect URI's path is not compared (http_server.rs:84-87,
  C15_path_refuted), contrary to the comment above it.
* **F13** Some failing requests get no reply at all: `refresh:x` and `showtoken:x`
  without a space, `dump:` when serialisation fails.  The client takes an empty
  reply to `dump` for an empty dump and exits 0 (C65_failed_dump_refuted).
* **F14** Not contradicting a property, but surprising: of two accounts with the
  same name the last one wins silently; any HTTP status error during a refresh,
  including 5xx, discards the token; `"refresh_token": null` in a refresh reply
  drops the refresh token.
* **F15** `debug_assert!(!spans.is_empty())` in config.rs can fail in debug
  builds; the model follows release builds.
* **F16** Unrepresentable `expiry - refresh_before_expiry`: the token is refreshed
  only once expired, and the refresher does not sleep in between
  (refresher.rs:402-404, C24_unrepresentable_margin_refuted).  Unrepresentable
  `last attempt + refresh_retry`: no pause between attempts
  (C26_unrepresentable_pause_refuted).
* **F17** A reminder's command runs after the lock has been released, so its
  authorisation may have been revoked or replaced by then
  (C30_stale_reminder_refuted).
* **F18** For an expired token without refresh token `show` says "Refreshing
  initiated" and `refresh` exits 0, although nothing can be refreshed and no
  authorisation is begun (mod.rs:156-160, 228-237; C63_show_refuted,
  C63_refresh_refuted); and `refresh` throws away a token without refresh token
  that is still good (refresher.rs:238-241; C64_refresh_discards_refuted).
* **F19** `-c` without a file (`server -c`, `server -c -d`, `--config`) is accepted
  and means the default configuration (main.rs:287 `optflagopt`, :104;
  C73_missing_file_refuted); `--config file` is refused.
* **F20** With `XDG_CONFIG_HOME` set and no `pizauth.conf` there, pizauth gives up
  instead of looking at `$HOME/.config` as its manual says (main.rs:106-126;
  C73_order_refuted).
* **F21** Root's pizauth accepts a runtime directory under `/tmp` that somebody else
  has created, since `chmod` succeeds for root (main.rs:83-94; C74_root_refuted).
* **F22** Checking for a running server and removing its socket are separate steps:
  of two servers started at the same time over an old socket, one can remove the
  other's new socket; both run, one unreachable (main.rs:296-302; C75_race_refuted).
* **F23** `pizauth server` reports 0 as soon as it has detached itself, before
  ports and socket are set up (main.rs:342, 350; C76_status_refuted).
* **F24** The thread that renews the socket's time stamps is started before
  `daemon` forks (main.rs:310, 342); only the calling thread survives a fork, so a
  detached server never renews them (C77_detached_refuted).
* **F25** A time that is too large is rejected with `Invalid time: ...` and no line
  or column: `time_str_to_duration` is called without the lexer and its errors are
  passed on by `?` (config.rs:114, 162-179, 428-444, 599; C78_time_unplaced_refuted).
* **F26** Answers with status 400 and 404 are not HTTP: RFC 9112 requires a space
  after the status code even if there is no reason phrase, the code writes
  `HTTP/1.1 404\r\n` (http_server.rs:366-372; C82_status_line_refuted).  Browsers
  are lenient.
* **F27** `pizauth dump` succeeds and prints nothing if the server closes the
  connection without having answered (user_sender.rs:20-22); what is then restored
  from is refused by every server (C83_dump_refuted).
* **F28** What the browser brings back as `error` is percent-decoded and becomes
  `PIZAUTH_MSG`; with a zero byte in it (`error=%00`) the standard library refuses
  to start `error_notify_cmd`, so the user is not told that the authorisation
  failed, and the log has only `nul byte found in provided data` instead of the
  reason (http_server.rs:96-113, notifier.rs:146-152; C84_zero_byte_refuted).
  Similarly, a `transient_error_if_cmd` that cannot be started at all (e.g. without
  `SHELL`) counts as having disapproved, so the token is lost (C84_transient_answer).
* **F29** Clients are read one after the other to the end of their input without a
  time limit (mod.rs:83, 398-402).  A client that connects to the socket and neither
  sends nor closes keeps the server from serving any other client (browsers and
  refreshes go on; C89_silent_client_refuted).  pizauth's own client shuts down its
  sending half at once, so it takes a stopped or foreign process.
* **F30** `error_at_span` quotes the line of the configuration file it complains
  about (config.rs:649-668).  If that line holds a `client_secret` (set twice, or an
  account written on one line), the secret is in the text, which goes to whoever asked
  for a reload, or to standard error at start (C90_error_text_refuted).  The socket is
  only accessible to the user, so this matters where that output is kept.
* **F31** `pizauth status` can kill the server.  `instant_fmt` (mod.rs:306-322) formats
  dates with chrono's `to_rfc2822`, which panics for years beyond 9999.  The expiry
  of a token is whatever the provider says: `expires_in` of 10^12 seconds is accepted
  and represented, and from then on `pizauth status` panics in the main thread, that
  is, ends the process and loses all tokens (C07_never_panics_refuted).  No other request,
  browser, provider or timer can (C07_only_status_panics_partial).
* **F32** `status` writes its answer with the state locked (mod.rs:250-295).  A client that
  asks for the status and does not read, with an answer that is larger than what the
  operating system buffers for a socket (about 200 kB on Linux: thousands of accounts), does not
  only hold up other clients (C89) but everything: no refresh, no browser's callback, no notification
  (C93_holds_up_nobody_refuted).  All other requests unlock the state first.
* **F33** Listening sockets are made at the start only (mod.rs:353-360), but a reload checks redirect
  URIs against the new file's `http_listen` and `https_listen` (config.rs:208-224).  Started with
  `http_listen = none` and reloaded with a file that needs HTTP, the server hands out URLs with
  a redirect to `http://localhost/`, i.e. port 80, where it does not listen
  (C95_comes_back_refuted).
* **F34** `Url::parse` drops blanks around a URL, the tests for the prefix `https` (config.rs:208,
  554) do not: with `redirect_uri = " https://localhost/"` the browser is sent to the HTTP server's
  port to speak TLS there (C95_comes_back_blank_refuted; the parser used in the proof drops
  leading spaces as the url crate's documentation says).
* **F35** A refresh is marked as under way by the thread started for it, not by the refresher that
  decides on it (refresher.rs:57-71, 471-486).  Until that thread gets hold of the state's lock the
  refresher finds the token due, its alarm in the past, and starts another thread, as often as it
  gets round (C102_one_thread_per_refresh_refuted).  Only the first one refreshes (C09), but the
  number of threads is not bounded by anything but the scheduler, and `thread::spawn` panics
  if the system refuses another one.
* **F36** `thread::spawn` panics if the system refuses a thread.  In the refresher
  (refresher.rs:485), the notifier (notifier.rs:88) and the listeners (http_server.rs:392, 459) that silently
  ends all refreshing, all reminders, all authorisations until the server is restarted.  In `notify_error`
  (notifier.rs:142-144) the guard of the state's mutex is a temporary of the `match` and still there: the
  mutex is poisoned, all threads die at their next use of it, and the process with the next client.
  In `sched_refresh` called for a client (mod.rs:158, 235) the process ends at once (C103_*_refuted).
  F35 makes many threads, and so this, more likely than it need be.
* **F37** A command that takes too long is killed with `child.kill().ok()` and then waited for without a limit
  (eventer.rs:100-101, refresher.rs:191-192).  If the shell has become a program of another user (shells run the
  last command in their own place, so `sudo ...` is enough) the kill fails, the error is dropped, and the wait lasts
  as long as that program: no token event is reported any more, or a refresh never ends
  (C105_unkillable_refuted).  Only the shell is killed: what it has started goes on (C105_all_stopped_refuted).
  `auth_notify_cmd` and `error_notify_cmd` are run with `Command::output`, which waits without a limit for whoever
  holds the output open, background processes included (C105_all_limited_refuted); each keeps its thread that long.
* **F38** `listener.incoming().flatten()` (mod.rs:398, http_server.rs:390, 449) skips failed calls of `accept`
  without a pause.  Out of descriptors the call fails at once, so each of the three loops uses a processor
  fully until some are closed (C106_idle_refuted); F35 is a way to get there.
* **F39** An unknown command is logged as `Invalid command` after its answer has been written (mod.rs:299-301).  If the
  client has gone, the `?` returns the error of `write_all` instead, so the log tells of a broken pipe and not of the
  invalid command (C107_unknown_said_refuted); C80 is about clients that wait for their answer.
* pizauth.conf.5 gives `token_event_cmd` 10 seconds, the code 30 (eventer.rs:18; C105_ten_seconds_refuted).
* The branch of `fail` for accounts that hold a token (http_server.rs:262,
  272-276) is dead code: an exchange's version is that of a pending
  authorisation, and an account that got a token has another version
  (`no_dead_notify` in Loss.v).

## 6. Files

In the order of `_CoqProject`:

* Model: Base, Time, Utf8, Base64, Url, Json, Oracles, ConfigLex, ConfigParse,
  Config, Located, Dump, State, Http, Timers, Server, Client, Cli, Startup, Log, Command, Wire, Locks, Listen, Spawn, Hangup, HangupLog, Child, Accept.
* Specifications: SpecGrammar, SpecConfig, SpecLex, SpecBlocks, SpecReport, SpecLayout, SpecHttp,
  SpecDump, SpecServer, SpecLinks, SpecRestore, SpecTimers, SpecSessions, SpecLife,
  SpecSecrets, SpecUtf8, SpecText, SpecPages, SpecUser, SpecReplies, SpecFair, SpecCli,
  SpecStartup, SpecLog, SpecEncoding, SpecCommand, SpecWire, SpecClients,
  SpecStop, SpecStatus, SpecDates, SpecLocks, SpecTimed, SpecReturn, SpecServe, SpecListen,
  SpecApart, SpecTurn, SpecSpin, SpecSpawn, SpecHangup, SpecHangupLog, SpecAnswer, SpecChild, SpecAccept.
* Lemmas on the sequential parts: BaseLemmas, StateLemmas, ConfigParseProofs,
  LexLemmas, ConfigLemmas, UrlLemmas, Lexing, Blocks, Tops, Reads, Places, Locate, Faults, Report, Report2,
  Layout, Writing, HttpLemmas,
  Codec, DumpLemmas, ClientLemmas, Replies, Links, Utf8Lemmas, Utf8Spec, TextConfig, CliLemmas,
  StartupLemmas, Encoding.
* Server: Steps (a relational summary of every critical section), Inv (the
  functions of Server.v do nothing else), Reach (induction over reachable
  worlds), Own, Trace, Origin, Reply, Shown, Dialog, Pend, Revoke, Basic,
  Decide, RefreshOrigin, Refresh, Loss, Exchange, Wake, Sched, Retry, Remind,
  Events, Sessions, Life, Secrets, Complete, Texts, User, PageLemmas, UrlText, Counters, Fair, LogLemmas, LogFacts,
  CommandLemmas, WireLemmas, WireNet,
  Clients, ClientFacts, Stop, GoOn, Dates, LockLemmas, Timed, TimedRetry, TimedShow, TimedNotify, TimedEvents, TimedReturn, TimedServe, ListenLemmas, Apart, TimedTurn, Spin, SpawnLemmas, HangupLemmas, HangupLogLemmas, AnswerLemmas, ChildLemmas, AcceptLemmas.
* Concrete runs for examples and refutations: Scenario, Runs, Cases,
  Endless, TimedCase, FlakyCase, RemindCase, ReportCase, ReturnCase, ServeCase, ApartCase, TurnCase, SpinCase, SpawnCase.
* Properties: Props1 to Props36.

`tools/manifest.py` regenerates `MANIFEST.json` from the `Props*.v` files and
`tools/status.json`.
