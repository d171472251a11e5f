(** What pizauth.conf(5) says about the commands. *)
From Verif Require Import Base Url Json Oracles Config State Server SpecServer Log Command.

(** "The event types are: ..." *)
Inductive event_type : token_event -> str -> Prop :=
| et_invalidated : event_type EvInvalidated $"token_invalidated"
| et_new : event_type EvNew $"token_new"
| et_refreshed : event_type EvRefresh $"token_refreshed"
| et_revoked : event_type EvRevoked $"token_revoked".

(** The process is the shell, running [cmd] with these variables set and no others. *)
Definition runs_shell (shell cmd : str) (vars : list (str * str)) (p : process) : Prop :=
  p_exe p = shell /\ p_args p = [$"-c"; cmd] /\ p_vars p = vars.

(** What a process started after the history [t] can be for. *)
Inductive started_for (shell : str) (t : list obs) (p : process) : Prop :=
| sf_auth c cmd n u :
    In (OConfig c) t -> c_auth_notify_cmd c = Some cmd -> In (OAuthUrl n u) t ->
    runs_shell shell cmd [($"PIZAUTH_ACCOUNT", n); ($"PIZAUTH_URL", url_to_str u)] p -> started_for shell t p
| sf_error c cmd n u reason :
    config_at t = Some c -> c_error_notify_cmd c = Some cmd -> In (OAuthUrl n u) t ->
    runs_shell shell cmd
      [($"PIZAUTH_ACCOUNT", n); ($"PIZAUTH_MSG", $"Authentication for " ++ n ++ $" failed: " ++ reason)] p ->
    started_for shell t p
| sf_event c cmd n ev word :
    In (OConfig c) t -> c_token_event_cmd c = Some cmd -> In (OEvent n ev) t -> event_type ev word ->
    runs_shell shell cmd [($"PIZAUTH_ACCOUNT", n); ($"PIZAUTH_EVENT", word)] p -> started_for shell t p
| sf_transient c cmd n rt r :
    In (OConfig c) t -> c_transient_error_if_cmd c = Some cmd -> refreshed_with t rt r -> transient r ->
    runs_shell shell cmd [($"PIZAUTH_ACCOUNT", n)] p -> started_for shell t p.

(** The texts the commands are told. *)
Definition without_zero (s : str) : Prop := ~ In "000"%char s.

(** What is said about a [transient_error_if_cmd] that does not approve. *)
Inductive disapproves (cmd : str) : cmd_end -> str -> Prop :=
| da_shell m : disapproves cmd (CNoShell m) m
| da_not_run m : disapproves cmd (CNotRun m) ($"Couldn't execute '" ++ cmd ++ $"': " ++ m)
| da_code c out : c <> 0%N -> disapproves cmd (CExit (Some c) out) ($"'" ++ cmd ++ $"' returned " ++ dec_of_N c)
| da_killed out : disapproves cmd (CExit None out) ($"'" ++ cmd ++ $"' returned <Unknown exit code>")
| da_timeout : disapproves cmd CTimeout ($"'" ++ cmd ++ $"' exceeded timeout")
| da_not_waited m : disapproves cmd (CWaitFailed m) ($"Waiting on '" ++ cmd ++ $"' failed: " ++ m).
