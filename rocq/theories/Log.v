(** What the server logs: the lines that a step writes, with their levels
    (the macros of the crate [log]).  Which of them can be seen depends on [-v]
    (/repo/src/main.rs:332-353, [Startup.log_level]).  The [debug!] lines exist in
    debug builds only (notifier.rs:41, 48; refresher.rs:454, 461) and are left
    out; so is http_server.rs:452-454, before a TLS connection is served. *)
From Verif Require Import Base Time Utf8 Base64 Url Json Oracles Config Dump State Http Timers Server Startup.

(** What [error!], [warn!], [info!] get: level and text. *)
Definition log_line := (level * str)%type.

(** How a command run for the user ended: SHELL is not set, it could not be run,
    it ended with a status ([None]: killed by a signal) and an output, it took
    too long, or it could not be waited for.
    (refresher.rs:168-201, eventer.rs:76-108, notifier.rs:88-109, 144-165) *)
Inductive cmd_end :=
| CNoShell (m : str)
| CNotRun (m : str)
| CExit (code : option N) (out : str)
| CTimeout
| CWaitFailed (m : str).

(** refresher.rs:184-187, eventer.rs:90-93; the words for no code differ. *)
Definition code_text (unknown : str) (code : option N) : str :=
  match code with Some n => dec_of_N n | None => unknown end.

(** eventer.rs:76-108: [None] if there is nothing to complain about. *)
Definition event_complaint (cmd : str) (x : cmd_end) : option str :=
  match x with
  | CNoShell m => Some m
  | CNotRun m => Some ($"Couldn't execute '" ++ cmd ++ $"': " ++ m)
  | CExit (Some 0%N) _ => None
  | CExit code _ => Some ($"'" ++ cmd ++ $"' returned " ++ code_text $"<Unknown exit code" code)
  | CTimeout => Some ($"'" ++ cmd ++ $"' exceeded timeout")
  | CWaitFailed m => Some ($"Waiting on '" ++ cmd ++ $"' failed: " ++ m)
  end.

(** notifier.rs:88-109 and 144-165 (the two texts for output that is not UTF-8
    differ by a [>]); there is no time limit, and waiting is part of running. *)
Definition notify_complaint (unreadable name cmd : str) (x : cmd_end) : option str :=
  match x with
  | CNoShell m => Some m
  | CNotRun m | CWaitFailed m => Some (name ++ $": error when running '" ++ cmd ++ $"': " ++ m)
  | CExit (Some 0%N) _ | CTimeout => None
  | CExit _ out =>
      Some (name ++ $": error when running '" ++ cmd ++ $"': " ++ (if utf8_valid out then out else unreadable))
  end.

(** A line if there is something to say. *)
Definition complain (l : level) (o : option str) : list log_line :=
  match o with Some m => [(l, m)] | None => [] end.

(** What a step depends on besides: how the command it starts will end (the
    line is attributed to the start), and what the refresher says about a
    [transient_error_if_cmd] that failed (refresher.rs:168-203). *)
Record asides := mkAsides { x_end : cmd_end; x_why : str }.

(** mod.rs:98-301: the last arm of the match, which answers the client and then
    returns an error all the same. *)
Definition unknown_command (cmd rest : str) : bool :=
  let empty := match rest with [] => true | _ => false end in
  negb ((str_eqb cmd $"dump" || str_eqb cmd $"info" || str_eqb cmd $"reload"
         || str_eqb cmd $"shutdown" || str_eqb cmd $"status") && empty
        || str_eqb cmd $"refresh" || str_eqb cmd $"restore" || str_eqb cmd $"revoke" || str_eqb cmd $"showtoken").

(** mod.rs:400-402 *)
Definition client_log (O : oracles) (e : env) (w : world) (req : str) : list log_line :=
  match request O e w req with
  | Err m => [(LWarn, m)]
  | _ =>
      match split_first ":"%char req with
      | Some (cmd, rest) => if unknown_command cmd rest then [(LWarn, $"Invalid command")] else []
      | None => []
      end
  end.

(** http_server.rs:393-395, 462-464: an error of the whole function. *)
Definition http_log (c : cs) : list log_line :=
  match c with Err m => [(LWarn, m)] | _ => [] end.

(** refresher.rs:76: the line about a refresh turned down for good. *)
Definition permanent_line (name msg : str) : log_line := (LInfo, $"Permanent refresh error for " ++ name ++ $": " ++ msg).
(** refresher.rs:130: with a space before the colon *)
Definition command_line (name msg : str) : log_line := (LInfo, $"Permanent refresh error for " ++ name ++ $" : " ++ msg).
Definition transitory_line (name msg : str) : log_line := (LInfo, $"Transitory refresh error for " ++ name ++ $" : " ++ msg).

(** refresher.rs:338-342 and 75-77 *)
Definition got_log (lk : locked) (i : account_id) (name : str) (expires_in now : Z) : list log_line :=
  if is_act_id_valid lk i then
    match expiry_instant lk i now expires_in with
    | Err m => [permanent_line name m]
    | _ => []
    end
  else [].

(** refresher.rs:87-147: nothing is said if the command is going to be asked. *)
Definition transient_log (lk : locked) (i : account_id) (name msg : str) : list log_line :=
  if is_act_id_valid lk i then
    match ct_tokenstate lk i with
    | Val (TSActive a) =>
        if (N.succ (fails a) mod transient_error_retries =? 0)%N
           && is_some (c_transient_error_if_cmd (lconfig lk))
        then [] else [transitory_line name msg]
    | _ => []
    end
  else [].

(** What a thread that stands at [p] logs; the places are at the functions above. *)
Definition thread_log (O : oracles) (w : world) (p : pc) (e : env) (x : asides) : list log_line :=
  match p with
  | PMain => match e_client e with Some req => client_log O e w req | None => [] end
  | PRefGot i name _ ex _ now => got_log (w_lk w) i name ex now
  (* refresher.rs:75-77 *)
  | PRefPerm i name msg => if is_act_id_valid (w_lk w) i then [permanent_line name msg] else []
  | PRefTransient i name msg => transient_log (w_lk w) i name msg
  (* refresher.rs:120-131 *)
  | PRefCmdDone _ name ok => if ok then [] else [command_line name (x_why x)]
  | PHttpStart https bytes => http_log (http_start O w https bytes)
  | PHttpBody i body => http_log (http_body O e (w_lk w) i body)
  (* notifier.rs:142-168 *)
  | PHttpNotify name msg _ =>
      match c_error_notify_cmd (lconfig (w_lk w)) with
      | Some cmd => complain LError (notify_complaint $"<stderr not representable as UTF-8>" name cmd (x_end x))
      | None => [(LError, name ++ $": " ++ msg)]
      end
  | PDo (AEmit (OAuthCmd cmd name _)) _ =>
      complain LError (notify_complaint $"<stderr not representable as UTF-8" name cmd (x_end x))
  | PEvRun cmd _ _ => complain LError (event_complaint cmd (x_end x))
  | _ => []
  end.

(** The lines written during a step. *)
Definition log_of (O : oracles) (w : world) (l : label) (x : asides) : list log_line :=
  match l with
  | LTick tid e =>
      match nth_error (w_threads w) tid with
      | Some p => thread_log O w p e x
      | None => []
      end
  | LHttpConn _ _ => []
  end.

(** The log of a whole run. *)
Fixpoint run_log (O : oracles) (w : world) (ls : list (label * asides)) : list log_line :=
  match ls with
  | [] => []
  | (l, x) :: ls' =>
      match step O w l with
      | SNext w' => log_of O w l x ++ run_log O w' ls'
      | _ => []
      end
  end.

(** What [-v], given [v] times, lets through. (main.rs:332-340) *)
Definition level_no (l : level) : nat :=
  match l with LError => 1 | LWarn => 2 | LInfo => 3 | LDebug => 4 | LTrace => 5 end.

(** main.rs:332-340 and [stderrlog::verbosity] (main.rs:344-348). *)
Definition shown_at (v : nat) (l : list log_line) : list log_line :=
  filter (fun x => Nat.leb (level_no (fst x)) (level_no (log_level v))) l.
