(** Vocabulary for starting up. *)
From Verif Require Import Base Startup.
Local Open Scope N_scope.

(** User [u] (0 is root) may enter a directory with this owner and mode: the
    execute bits for the owner, the group and everybody else. *)
Definition may_enter (u : N) (n : node) : Prop :=
  u = 0
  \/ (u = n_owner n /\ N.testbit (n_mode n) 6 = true)
  \/ (u <> n_owner n /\ (N.testbit (n_mode n) 3 = true \/ N.testbit (n_mode n) 0 = true)).

(** pizauth(1): "checks for the configuration file (in order) at
    $XDG_CONFIG_HOME/pizauth.conf, $HOME/.config/pizauth.conf". *)
Definition documented_places (v : vars) : list str :=
  match v_config_home v with Some d => [d ++ $"/pizauth.conf"] | None => [] end
  ++ match v_home v with Some d => [d ++ $"/.config/pizauth.conf"] | None => [] end.

(** [p] is the first of [l] with property [is_file]. *)
Definition first_file (is_file : str -> bool) (l : list str) (p : str) : Prop :=
  exists l1 l2, l = l1 ++ p :: l2 /\ is_file p = true /\ forall q, In q l1 -> is_file q = false.

(** A name of a directory as one expects it. *)
Definition neat (d : str) : Prop := d <> [] /\ ends_in_slash d = false.

(** The directory for run-time files: XDG_RUNTIME_DIR, or else a directory of the
    user's own for temporary files. *)
Definition runtime_dir (v : vars) (d : str) : Prop :=
  v_runtime_dir v = Some d
  \/ v_runtime_dir v = None
     /\ exists t, (v_tmpdir v = Some t \/ v_tmpdir v = None /\ t = $"/tmp") /\ neat t
                  /\ d = t ++ $"/runtime-" ++ v_user v.

(** [d] is the user's, or nobody has it yet, and the operating system does not
    stand in the way. *)
Definition free_for (me : N) (a : answers) (f : files) (d : str) : Prop :=
  an_seen a d = true /\ an_mkdir a d = true /\ an_chmod a d = true
  /\ forall n, f d = Some n -> n_owner n = me \/ me = 0.

(** What may be at the socket's path before any server has been started. *)
Definition leftover (s : sock_file) : Prop := forall pid, s <> Listening pid.

Definition is_at (h : host) (pid : nat) (c : ppc) : Prop :=
  exists p, nth_error (h_procs h) pid = Some p /\ p_pc p = c.

Definition serves (h : host) (pid : nat) : Prop := is_at h pid SServe.

(** A server that has begun to look round but does not serve yet. *)
Definition starting (h : host) (pid : nat) : Prop :=
  exists c, is_at h pid c /\ In c [SConnect; SRemove; SConf; SDetach; SSetup; SBind].

(** Never have two servers been starting at the same time. *)
Definition one_at_a_time (s : sock_file) (es : list event) : Prop :=
  forall es1 es2 h i j, es = es1 ++ es2 -> host_run (fresh_host s) es1 = Some h ->
    starting h i -> starting h j -> i = j.

(** A client that connects to the socket reaches process [pid]. *)
Definition reaches (h : host) (pid : nat) : Prop := h_sock h = Listening pid.

(** The status that the starter of process [pid] has seen. *)
Definition status_of (h : host) (pid : nat) (s : N) : Prop :=
  exists p, nth_error (h_procs h) pid = Some p /\ p_status p = Some s.

Definition started_with (h : host) (pid : nat) (detach : bool) : Prop :=
  exists p, nth_error (h_procs h) pid = Some p /\ p_detach p = detach.

(** Levels of logging, from quiet to loud. *)
Definition loudness (l : level) : nat :=
  match l with LError => 0 | LWarn => 1 | LInfo => 2 | LDebug => 3 | LTrace => 4 end.
