(** The commands run for the user: which process is started with which
    environment, and what comes of it.  The system's part (whether the shell can
    be executed, how it ends, whether in time) is an input. *)
From Verif Require Import Base Url Json Oracles Config State Server Log.

(** A process to be started: the program, its arguments, the variables that are
    set besides the inherited ones, and whether its input and outputs are
    /dev/null.
    (refresher.rs:169-175, eventer.rs:78-82, notifier.rs:90-94, 146-150) *)
Record process := mkProcess { p_exe : str; p_args : list str; p_vars : list (str * str); p_silent : bool }.

(** [Command::new(s).env(..).args(["-c", &cmd])]
    (refresher.rs:169-174, eventer.rs:78-81, notifier.rs:90-93, 146-149) *)
Definition shell_process (shell cmd : str) (vars : list (str * str)) (silent : bool) : process :=
  mkProcess shell [$"-c"; cmd] vars silent.

(** The process behind an observation (refresher.rs:169-174, eventer.rs:78-81, notifier.rs:90-93,
    146-149). *)
Definition command_of (shell : str) (o : obs) : option process :=
  match o with
  (* notifier.rs:90-94 *)
  | OAuthCmd cmd n u =>
      Some (shell_process shell cmd [($"PIZAUTH_ACCOUNT", n); ($"PIZAUTH_URL", u)] false)
  (* notifier.rs:146-150 *)
  | OErrCmd cmd n m =>
      Some (shell_process shell cmd [($"PIZAUTH_ACCOUNT", n); ($"PIZAUTH_MSG", m)] false)
  (* eventer.rs:78-82, and 28-36 for the names *)
  | OEventCmd cmd n ev =>
      Some (shell_process shell cmd [($"PIZAUTH_ACCOUNT", n); ($"PIZAUTH_EVENT", event_name ev)] false)
  (* refresher.rs:169-175 *)
  | OTransientCmd cmd n _ =>
      Some (shell_process shell cmd [($"PIZAUTH_ACCOUNT", n)] true)
  | _ => None
  end.

(** What is handed to the system ends at the first zero byte; the standard library
    refuses to start a process with one inside
    ([std::sys::unix::process::Command::saw_nul]).
    (refresher.rs:175, eventer.rs:82, notifier.rs:94, 150) *)
Definition has_nul (s : str) : bool := existsb (Ascii.eqb "000"%char) s.
Definition saw_nul (p : process) : bool :=
  has_nul (p_exe p) || existsb has_nul (p_args p)
  || existsb (fun kv => has_nul (fst kv) || has_nul (snd kv)) (p_vars p).

(** notifier.rs:88, 144; eventer.rs:76; refresher.rs:168: [shell] is
    [env::var("SHELL")], [fate p] what the system makes of [p]. *)
Definition run_command (shell : str + str) (fate : process -> cmd_end) (o : obs) : option cmd_end :=
  match shell with
  | inr m => option_map (fun _ => CNoShell m) (command_of [] o)
  | inl s =>
      option_map (fun p => if saw_nul p then CNotRun $"nul byte found in provided data" else fate p) (command_of s o)
  end.

(** refresher.rs:167-203: [None] is [Ok(())]. *)
Definition transient_answer (cmd : str) (x : cmd_end) : option str :=
  match x with
  | CNoShell m => Some m
  | CNotRun m => Some ($"Couldn't execute '" ++ cmd ++ $"': " ++ m)
  | CExit (Some 0%N) _ => None
  | CExit code _ => Some ($"'" ++ cmd ++ $"' returned " ++ code_text $"<Unknown exit code>" code)
  | CTimeout => Some ($"'" ++ cmd ++ $"' exceeded timeout")
  | CWaitFailed m => Some ($"Waiting on '" ++ cmd ++ $"' failed: " ++ m)
  end.

(** What the rest of the model is told about [transient_error_if_cmd].
    (refresher.rs:108-136) *)
Definition cmd_ok (cmd : str) (x : cmd_end) : bool :=
  match transient_answer cmd x with None => true | Some _ => false end.
