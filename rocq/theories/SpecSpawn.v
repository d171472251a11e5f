(** Specification: what becomes of a server that cannot start threads. *)
From Verif Require Import Base Url Oracles Config State Server SpecServer Locks Spawn.

Inductive frail_reachable (O : oracles) : frail -> Prop :=
| xr_start e c hp hsp pk :
    config_from_path O e = Val c -> frail_reachable O (frail_start (init_world c hp hsp pk))
| xr_step f l f' : frail_reachable O f -> xstep O f l = Some f' -> frail_reachable O f'.

(** What may happen to a server in state [f]. *)
Inductive leads (O : oracles) : frail -> frail -> Prop :=
| ld_refl f : leads O f f
| ld_step f l f1 f2 : xstep O f l = Some f1 -> leads O f1 f2 -> leads O f f2.

(** Thread [tid] has panicked. *)
Definition lost (f : frail) (tid : nat) : Prop := In tid (x_dead f).

(** The process is still there. *)
Definition up (f : frail) : Prop := x_down f = false /\ w_alive (x_world f) = true.

(** Thread [tid] is the notifier or the refresher, and about to start a thread: for
    the user's command, or for a refresh. *)
Definition refused (f : frail) (tid : nat) : Prop :=
  (tid = 2 /\ exists cmd n u k, nth_error (w_threads (x_world f)) 2 = Some (PDo (AEmit (OAuthCmd cmd n u)) k))
  \/ (tid = 3 /\ exists i k, nth_error (w_threads (x_world f)) 3 = Some (PDo (ASpawnRefresh i) k)).
