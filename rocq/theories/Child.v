(** Waiting for a command run for the user (refresher.rs:176-199, eventer.rs:83-106,
    notifier.rs:94-106, 150-162): the shell that was started, the processes it
    starts in turn, and the thread that waits for it.

    [token_event_cmd] and [transient_error_if_cmd] are waited for with
    [wait_timeout] (crate wait-timeout), killed when they take too long and then
    reaped; the other two are run with [Command::output], which reads their output
    to its end and then waits, without a limit.

    Simplified: [Child::wait] after [kill] does not fail (it could for a process
    that is not a child any more only); stdout and stderr are one stream. *)
From Verif Require Import Base Time Url Json Oracles Config State Server Startup Log.
Local Open Scope Z_scope.

(** refresher.rs:27 *)
Definition transient_limit : Z := from_secs (3 * 60).
(** eventer.rs:18 *)
Definition event_limit : Z := from_secs 30.

(** The shell runs, has been sent SIGKILL, has ended (with a code unless a signal
    ended it) and not been waited for, or has been waited for.
    (refresher.rs:177-192, eventer.rs:84-102) *)
Inductive shell_state :=
| ShAlive
| ShKilled
| ShEnded (code : option N)
| ShReaped.

(** Where the thread that waits is: in [wait_timeout] or [output]
    (refresher.rs:177, eventer.rs:84, notifier.rs:94, 150), before [kill]
    (refresher.rs:191, eventer.rs:100), in [wait] (refresher.rs:192, eventer.rs:101),
    or past that. *)
Inductive wait_pc :=
| WWait
| WKill
| WReap
| WOver (x : cmd_end).

(** A command being waited for: the limit if there is one, when it was started, what
    time it is, the shell, for each process started by it and not over whether it
    holds the output open, what has been written to the output, the thread.
    (refresher.rs:169-199, eventer.rs:78-106, notifier.rs:90-106, 146-162) *)
Record job := mkJob {
  j_limit : option Z;
  j_start : Z;
  j_now : Z;
  j_shell : shell_state;
  j_kids : list bool;
  j_out : str;
  j_pc : wait_pc }.

(** The command has just been started (refresher.rs:175, eventer.rs:82, notifier.rs:94, 150). *)
Definition job_start (limit : option Z) (t : Z) : job := mkJob limit t t ShAlive [] [] WWait.

(** Which limit the command behind an observation has: refresher.rs:177,
    eventer.rs:84, notifier.rs:94, 150. *)
Definition limit_of (o : obs) : option (option Z) :=
  match o with
  | OEventCmd _ _ _ => Some (Some event_limit)
  | OTransientCmd _ _ _ => Some (Some transient_limit)
  | OAuthCmd _ _ _ | OErrCmd _ _ _ => Some None
  | _ => None
  end.

(** What can happen: time passes; the shell ends; a process is started, ends, writes;
    the thread sees that the command is over, that the time is up, that it cannot
    wait; it kills (which works or not: it does not if the shell has become a
    program of another user, such as sudo), and reaps.
    (refresher.rs:177-199, eventer.rs:84-106, notifier.rs:94-106, 150-162) *)
Inductive jlabel :=
| JTime (t : Z)
| JShellExit (code : option N)
| JFork (holds : bool)
| JKidExit (i : nat)
| JWrite (s : str)
| JSeen
| JGiveUp
| JWaitFails (m : str)
| JKill (works : bool)
| JReap.

(** A job with one part replaced: what the steps below change (refresher.rs:177-199,
    eventer.rs:84-106, notifier.rs:94-106, 150-162). *)
Definition at_time (j : job) (t : Z) : job :=
  mkJob (j_limit j) (j_start j) t (j_shell j) (j_kids j) (j_out j) (j_pc j).
(** ... the shell; refresher.rs:177, 191-192, eventer.rs:84, 100-101. *)
Definition with_shell (j : job) (s : shell_state) : job :=
  mkJob (j_limit j) (j_start j) (j_now j) s (j_kids j) (j_out j) (j_pc j).
(** ... the processes it started; refresher.rs:175, eventer.rs:82, notifier.rs:94, 150. *)
Definition with_kids (j : job) (l : list bool) : job :=
  mkJob (j_limit j) (j_start j) (j_now j) (j_shell j) l (j_out j) (j_pc j).
(** ... the output; notifier.rs:94, 150. *)
Definition with_out (j : job) (s : str) : job :=
  mkJob (j_limit j) (j_start j) (j_now j) (j_shell j) (j_kids j) s (j_pc j).
(** ... where the thread is; refresher.rs:177-199, eventer.rs:84-106. *)
Definition with_pc (j : job) (p : wait_pc) : job :=
  mkJob (j_limit j) (j_start j) (j_now j) (j_shell j) (j_kids j) (j_out j) p.

(** The shell still runs (refresher.rs:177, eventer.rs:84, notifier.rs:94, 150). *)
Definition shell_runs (s : shell_state) : bool :=
  match s with ShAlive | ShKilled => true | _ => false end.

(** Somebody has the output open: [read2] in [Command::output] goes on (notifier.rs:94, 150). *)
Definition output_open (j : job) : bool := shell_runs (j_shell j) || existsb (fun b => b) (j_kids j).

(** Remove the [i]th: a process started by the shell ends (notifier.rs:94, 150). *)
Fixpoint drop_nth (i : nat) (l : list bool) : list bool :=
  match i, l with
  | _, [] => []
  | O, _ :: r => r
  | S i', x :: r => x :: drop_nth i' r
  end.

(** One step (refresher.rs:177-199, eventer.rs:84-106, notifier.rs:94-106, 150-162). *)
Definition jstep (j : job) (l : jlabel) : option job :=
  match l with
  | JTime t => if j_now j <=? t then Some (at_time j t) else None
  | JShellExit code => if shell_runs (j_shell j) then Some (with_shell j (ShEnded code)) else None
  | JFork holds =>
      if (if holds then output_open j else shell_runs (j_shell j) || negb (List.length (j_kids j) =? 0)%nat)
      then Some (with_kids j (j_kids j ++ [holds])) else None
  | JKidExit i => if (i <? List.length (j_kids j))%nat then Some (with_kids j (drop_nth i (j_kids j))) else None
  | JWrite s => if output_open j then Some (with_out j (j_out j ++ s)) else None
  | JSeen =>
      match j_pc j, j_shell j, j_limit j with
      (* refresher.rs:178-189, eventer.rs:86-98: Ok(Some(status)) *)
      | WWait, ShEnded code, Some _ => Some (with_pc (with_shell j ShReaped) (WOver (CExit code [])))
      (* notifier.rs:96, 152 *)
      | WWait, ShEnded code, None =>
          if output_open j then None else Some (with_pc (with_shell j ShReaped) (WOver (CExit code (j_out j))))
      | _, _, _ => None
      end
  (* refresher.rs:190, eventer.rs:99: Ok(None) *)
  | JGiveUp =>
      match j_pc j, j_limit j with
      | WWait, Some d => if j_start j + d <=? j_now j then Some (with_pc j WKill) else None
      | _, _ => None
      end
  (* refresher.rs:195, eventer.rs:104, notifier.rs:105, 161 *)
  | JWaitFails m => match j_pc j with WWait => Some (with_pc j (WOver (CWaitFailed m))) | _ => None end
  (* refresher.rs:191, eventer.rs:100: child.kill().ok() *)
  | JKill works =>
      match j_pc j, j_shell j with
      | WKill, ShAlive => Some (with_pc (if works then with_shell j ShKilled else j) WReap)
      | WKill, _ => Some (with_pc j WReap)
      | _, _ => None
      end
  (* refresher.rs:192-193, eventer.rs:101-102 *)
  | JReap =>
      match j_pc j, j_shell j with
      | WReap, ShEnded _ => Some (with_pc (with_shell j ShReaped) (WOver CTimeout))
      | _, _ => None
      end
  end.

(** Any number of them (refresher.rs:177-199, eventer.rs:84-106, notifier.rs:94-106, 150-162). *)
Fixpoint jrun (j : job) (ls : list jlabel) : option job :=
  match ls with
  | [] => Some j
  | l :: r => match jstep j l with Some j1 => jrun j1 r | None => None end
  end.
