(** What is expected of commands that take long. *)
From Verif Require Import Base Time Url Json Oracles Config State Http Timers Server SpecServer SpecTimers SpecFair SpecTimed
  Startup Log Command Child.
Local Open Scope Z_scope.

(** The thread does not wait any more. *)
Definition job_over (j : job) : Prop := exists x, j_pc j = WOver x.

(** What the processes wrote. *)
Definition writes (ls : list jlabel) : str :=
  List.concat (flat_map (fun l => match l with JWrite s => [s] | _ => [] end) ls).

(** An endless run of a command started at [t]. *)
Definition job_runs (js : nat -> job) (ls : nat -> option jlabel) (limit : option Z) (t : Z) : Prop :=
  js O = job_start limit t
  /\ forall k, match ls k with Some l => jstep (js k) l = Some (js (S k)) | None => js (S k) = js k end.

(** The time of each state. *)
Definition clock (js : nat -> job) (k : nat) : Z := j_now (js k).

(** A command with the limit [m], started at [t]: the thread that waits notices within [d] that the
    command has ended or that the time is up, takes no longer than [d] to kill it and
    to reap it, and a process that is killed is gone within [g]. *)
Record job_prompt (js : nat -> job) (m t d g : Z) : Prop := mkJobPrompt {
  jp_alarm : forall k j, (k <= j)%nat -> (forall i, (k <= i)%nat -> (i <= j)%nat -> j_pc (js i) = WWait) ->
    clock js (S j) <= Z.max (clock js k) (t + m) + d;
  jp_end : brief (clock js) (fun i => j_pc (js i) = WWait /\ exists code, j_shell (js i) = ShEnded code) d;
  jp_kill : brief (clock js) (fun i => j_pc (js i) = WKill) d;
  jp_dies : brief (clock js) (fun i => j_pc (js i) = WReap /\ j_shell (js i) = ShKilled) g;
  jp_reap : brief (clock js) (fun i => j_pc (js i) = WReap /\ exists code, j_shell (js i) = ShEnded code) d;
}.

(** The steps of the thread that waits, when all goes well; each brings it nearer to
    the end. *)
Definition own_step (l : jlabel) : Prop := In l [JSeen; JGiveUp; JKill true; JReap].
Definition steps_left (j : job) : nat :=
  match j_pc j with WWait => 3 | WKill => 2 | WReap => 1 | WOver _ => 0 end.

(** Killing it is permitted. *)
Definition can_be_killed (ls : nat -> option jlabel) : Prop := forall k, ls k <> Some (JKill false).

(** Whenever [Q] holds for a while, somebody waits for a command with the limit [m]
    all that while, and goes on within [d] when that is over. *)
Definition waited (tau : nat -> Z) (Q : nat -> Prop) (m d g : Z) : Prop :=
  forall k j, (k <= j)%nat -> (forall i, (k <= i)%nat -> (i <= j)%nat -> Q i) ->
    exists js jls t n, job_runs js jls (Some m) t /\ job_prompt js m t d g /\ can_be_killed jls
      /\ t <= tau k /\ ~ job_over (js n) /\ tau (S j) <= clock js n + d.

(** The thread that reports events, as in [reporting] (SpecTimed.v), but nothing is
    assumed about how long a command runs: each is waited for as Child.v says. *)
Record serving_events (O : oracles) (ws : nat -> world) (ls : nat -> option label) (tau : nat -> Z) (d g : Z) : Prop := {
  se_endless : endless O ws ls;
  se_forward : forall k, tau k <= tau (S k);
  se_point : forall q, q <> PEvRunning -> eventer_limit d d q = Some d ->
    brief tau (fun i => nth_error (w_threads (ws i)) 1 = Some q) d;
  se_running : waited tau (fun i => nth_error (w_threads (ws i)) 1 = Some PEvRunning) event_limit d g;
  se_signal : forall tid,
    brief tau (fun i => exists q, nth_error (w_threads (ws i)) tid = Some q /\ In ASigEventer (will_do q)) d;
  se_notified : brief tau (fun i => nth_error (w_threads (ws i)) 1 = Some PEvBlocked /\ cv_waiting (w_ev (ws i)) = false) d;
}.
