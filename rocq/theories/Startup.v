(** Starting up: the paths of the cache directory and the configuration file
    (/repo/src/main.rs:70-128), and server processes that share one socket path
    (main.rs:285-354; /repo/src/server/mod.rs:324-406 as far as it can fail). *)
From Verif Require Import Base.
Local Open Scope N_scope.

(** * Paths *)

(** [PathBuf::push] (main.rs:73-79, 97, 109-118, mod.rs:59) *)
Definition ends_in_slash (p : str) : bool :=
  match rev p with
  | c :: _ => Ascii.eqb c "/"%char
  | [] => false
  end.

(** main.rs:73-79, 97, 109-118, mod.rs:59. *)
Definition push (p s : str) : str :=
  if starts_with $"/" s then s
  else match p with
       | [] => s
       | _ => if ends_in_slash p then p ++ s else p ++ $"/" ++ s
       end.

(** The environment variables and the user's name. (main.rs:72-79, 108-111) *)
Record vars := mkVars {
  v_runtime_dir : option str;   (** XDG_RUNTIME_DIR *)
  v_tmpdir : option str;
  v_user : str;
  v_config_home : option str;   (** XDG_CONFIG_HOME *)
  v_home : option str;
}.

(** main.rs:71-81 *)
Definition runtime_path (v : vars) : str :=
  match v_runtime_dir v with
  | Some s => push [] s
  | None =>
      push (match v_tmpdir v with
            | Some s => push [] s
            | None => push [] $"/tmp"
            end) ($"runtime-" ++ v_user v)
  end.

(** main.rs:38, 97 and :40, server/mod.rs:57-61 *)
Definition cache_leaf (v : vars) : str := push (runtime_path v) $"pizauth".
Definition sock_path (cache : str) : str := push cache $"pizauth.sock".

(** * The cache directory *)

(** What is known of a file: its owner and its permissions. (main.rs:84-87) *)
Record node := mkNode { n_owner : N; n_mode : N }.

(** Paths are taken as they are written: no links, no two names for one file.
    (main.rs:84-87) *)
Definition files := str -> option node.

(** A file system with one file more, or another instead. *)
Definition put (p : str) (n : node) (f : files) : files := fun q => if str_eqb p q then Some n else f q.

(** How the operating system answers: whether a file that is there can be seen,
    the mode of a new directory, and whether calls fail for reasons of their own.
    (main.rs:84-87) *)
Record answers := mkAnswers {
  an_seen : str -> bool;
  an_mode : str -> N;
  an_mkdir : str -> bool;
  an_chmod : str -> bool;
}.

(** [Path::exists], [fs::create_dir], [fs::set_permissions] (0700) as user
    [me]: 0 is root, who may change everybody's files. (main.rs:84) *)
Definition path_exists (a : answers) (f : files) (p : str) : bool :=
  match f p with Some _ => an_seen a p | None => false end.

(** main.rs:85. *)
Definition create_dir (me : N) (a : answers) (f : files) (p : str) : option files :=
  match f p with
  | Some _ => None
  | None => if an_mkdir a p then Some (put p (mkNode me (an_mode a p)) f) else None
  end.

(** main.rs:87, in octal there. *)
Definition mode_0700 : N := 448.

(** main.rs:87. *)
Definition set_0700 (me : N) (a : answers) (f : files) (p : str) : option files :=
  match f p with
  | None => None
  | Some n =>
      if ((n_owner n =? me) || (me =? 0)) && an_chmod a p
      then Some (put p (mkNode (n_owner n) mode_0700) f) else None
  end.

(** main.rs:83-94, the closure [md]; [None]: [fatal], exit status 1. *)
Definition make_private (me : N) (a : answers) (f : files) (p : str) : option files :=
  match (if path_exists a f p then Some f else create_dir me a f p) with
  | Some f1 => set_0700 me a f1 p
  | None => None
  end.

(** main.rs:70-101 *)
Definition cache_path (me : N) (a : answers) (v : vars) (f : files) : option (str * files) :=
  match make_private me a f (runtime_path v) with
  | Some f1 =>
      match make_private me a f1 (cache_leaf v) with
      | Some f2 => Some (cache_leaf v, f2)
      | None => None
      end
  | None => None
  end.

(** * The configuration file *)

(** main.rs:103-128; [opt] is the value of [-c]. *)
Definition conf_path (v : vars) (is_file : str -> bool) (opt : option str) : option str :=
  match opt with
  | Some p => Some p
  | None =>
      match (match v_config_home v with
             | Some s => Some (push [] s)
             | None => match v_home v with
                       | Some s => Some (push (push [] s) $".config")
                       | None => None
                       end
             end) with
      | None => None
      | Some d => let p := push d $"pizauth.conf" in if is_file p then Some p else None
      end
  end.

(** * Logging *)

(** main.rs:332-338; without daemonising, [stderrlog] does the same. *)
Inductive level := LError | LWarn | LInfo | LDebug | LTrace.

(** main.rs:332-338. *)
Definition log_level (v : nat) : level :=
  match v with
  | 0%nat => LError
  | 1%nat => LWarn
  | 2%nat => LInfo
  | 3%nat => LDebug
  | _ => LTrace
  end.

(** * Server processes *)

(** Where a process that runs [pizauth server] is. *)
Inductive ppc :=
| SCheck       (** main.rs:296 *)
| SConnect     (** :298 *)
| SRemove      (** :302 *)
| SConf        (** :321-322 *)
| SDetach      (** :324-342, unless [-d] *)
| SSetup       (** server/mod.rs:354-395: ports, certificate, threads *)
| SBind        (** mod.rs:397 *)
| SServe       (** mod.rs:398-403 *)
| SEnd.

(** [p_status]: the exit status seen by whoever started it.  [p_touches]: the
    thread that renews the socket file's time stamps (main.rs:309-319) exists. *)
Record process := mkProcess {
  p_detach : bool;
  p_pc : ppc;
  p_status : option N;
  p_touches : bool;
}.

(** What is at the socket's path: nothing, a socket with the process that
    listens to it, or something nobody listens to. (main.rs:296-302, mod.rs:397) *)
Inductive sock_file := NoFile | Listening (pid : nat) | Unattended.

(** A machine with one socket path: what is there, and the processes that were
    started as [pizauth server] (main.rs:285-354). *)
Record host := mkHost { h_sock : sock_file; h_procs : list process }.

(** What happens: somebody runs [pizauth server]; a process goes on, the call it
    is about to make succeeding or not; a process is killed (as [pizauth
    shutdown] does, mod.rs:245-248); the time stamps are renewed. *)
Inductive event :=
| EStart (detach : bool)
| EGo (pid : nat) (succeeds : bool)
| EKill (pid : nat)
| ETouch (pid : nat).

(** The process goes on to the next part of main.rs:295-350. *)
Definition goto (p : process) (c : ppc) : process := mkProcess (p_detach p) c (p_status p) (p_touches p).

(** A process ends; its starter, if still waiting, sees the status.
    (main.rs:58, 300, 352) *)
Definition quit (p : process) (status : N) : process :=
  mkProcess (p_detach p) SEnd (match p_status p with Some s => Some s | None => Some status end) false.

(** [daemon]: the starter sees status 0; the process goes on in a child that has
    no other thread. (main.rs:342) *)
Definition detached (p : process) : process := mkProcess (p_detach p) SSetup (Some 0) false.

(** main.rs:310 *)
Definition with_toucher (p : process) : process := mkProcess (p_detach p) SConf (p_status p) true.

(** One process changed. *)
Definition set_proc (h : host) (pid : nat) (p : process) : host := mkHost (h_sock h) (list_set pid p (h_procs h)).

(** A process does its next call, which [succeeds] or not (main.rs:295-354,
    mod.rs:397). *)
Definition go (h : host) (pid : nat) (p : process) (succeeds : bool) : option host :=
  match p_pc p with
  | SCheck =>
      Some (set_proc h pid (match h_sock h with
                            | NoFile => with_toucher p
                            | _ => goto p SConnect
                            end))
  | SConnect =>
      Some (set_proc h pid (match h_sock h with
                            | Listening _ => quit p 1
                            | _ => goto p SRemove
                            end))
  | SRemove =>
      Some (mkHost (if succeeds then NoFile else h_sock h) (list_set pid (with_toucher p) (h_procs h)))
  | SConf =>
      Some (set_proc h pid (if succeeds then goto p (if p_detach p then SDetach else SSetup) else quit p 1))
  | SDetach => Some (set_proc h pid (if succeeds then detached p else quit p 1))
  | SSetup => Some (set_proc h pid (if succeeds then goto p SBind else quit p 1))
  | SBind =>
      match h_sock h, succeeds with
      | NoFile, true => Some (mkHost (Listening pid) (list_set pid (goto p SServe) (h_procs h)))
      | _, _ => Some (set_proc h pid (quit p 1))
      end
  | SServe | SEnd => None
  end.

(** When a process dies its socket file stays.
    (main.rs:296-302 is about such files.) *)
Definition abandoned (s : sock_file) (pid : nat) : sock_file :=
  match s with
  | Listening q => if Nat.eqb q pid then Unattended else s
  | _ => s
  end.

(** A server is started, goes on, or dies. *)
Definition host_step (h : host) (e : event) : option host :=
  match e with
  | EStart d => Some (mkHost (h_sock h) (h_procs h ++ [mkProcess d SCheck None false]))
  | EGo pid b =>
      match nth_error (h_procs h) pid with
      | Some p => go h pid p b
      | None => None
      end
  | EKill pid =>
      match nth_error (h_procs h) pid with
      | Some p => match p_pc p with
                  | SEnd => None
                  | _ => Some (mkHost (abandoned (h_sock h) pid) (list_set pid (quit p 143) (h_procs h)))
                  end
      | None => None
      end
  | ETouch pid =>
      match nth_error (h_procs h) pid with
      | Some p => if p_touches p then Some h else None
      | None => None
      end
  end.

(** Before any server has been started there may be a file from earlier.
    (main.rs:296) *)
Definition fresh_host (s : sock_file) : host := mkHost s [].

(** One thing after another. *)
Fixpoint host_run (h : host) (es : list event) : option host :=
  match es with
  | [] => Some h
  | e :: es' => match host_step h e with
                | Some h' => host_run h' es'
                | None => None
                end
  end.
