(** When the background threads have a reason to look for work. *)
From Verif Require Import Base Time Url Oracles Config State Timers Server SpecServer SpecTimers SpecFair.
Local Open Scope Z_scope.

(** At time [k] the refresher, or the notifier, stops waiting and sets about
    looking at the accounts. *)
Definition refresher_stirs (ws : nat -> world) (k : nat) : Prop := ~ looking (ws k) /\ looking (ws (S k)).
Definition notifier_stirs (ws : nat -> world) (k : nat) : Prop := ~ inspecting (ws k) /\ inspecting (ws (S k)).

(** At time [k] some thread takes action [a]. *)
Definition takes (ws : nat -> world) (ls : nat -> option label) (a : action) (k : nat) : Prop :=
  exists tid e p, ls k = Some (LTick tid e) /\ nth_error (w_threads (ws k)) tid = Some (PDo a p).

(** The clock of [e] shows [now] at one of its readings. *)
Definition reads (e : env) (now : Z) : Prop := exists i, now = ri1 (e_clk e i).

(** An alarm for something due at [u]: at that time, or earlier because nobody
    sleeps longer than 37 seconds. *)
Definition alarm (e : env) (u t : Z) : Prop := t = u \/ (t = ri1 (e_clk e 0%nat) + secs 37 /\ t <= u).

(** In [w], for a reader of the clock of [e], there is a token to be refreshed
    and the alarm for it is [t]. *)
Definition refresh_ahead (w : world) (e : env) (t : Z) : Prop :=
  exists n act a now u,
    configured w n act /\ holds w n (TSActive a) /\ ongoing a = false /\ reads e now
    /\ (time_ok (expiry a) -> refresh_time act (conf w) now a u) /\ alarm e u t.

(** The same for a pending authorisation of which to remind the user. *)
Definition reminder_ahead (w : world) (e : env) (t : Z) : Prop :=
  exists n cvr ln st url now u,
    holds w n (TSPending cvr ln st url) /\ reads e now /\ remind_time (conf w) now ln u /\ alarm e u t.

(** Between [i] and [j] thread [tid] has set an alarm, for something [ahead],
    and it has gone off. *)
Definition alarmed (ws : nat -> world) (ls : nat -> option label) (ahead : world -> env -> Z -> Prop)
    (tid i j : nat) : Prop :=
  exists y e e' t, (i < y < j)%nat /\ ls y = Some (LTick tid e) /\ ahead (ws y) e t
    /\ ls j = Some (LTick tid e') /\ t < env_now e'.
