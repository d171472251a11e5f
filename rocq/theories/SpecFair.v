(** Endless runs of the server in which no thread is neglected. *)
From Verif Require Import Base Time Utf8 Base64 Url Json Oracles Config Dump State Http Timers Server SpecServer
  SpecTimers SpecSessions.

(** The server's states, one after the other, and what happened in between; it
    may happen that nothing does. *)
Record endless (O : oracles) (ws : nat -> world) (ls : nat -> option label) : Prop := mkEndless {
  en_start : reachable O (ws 0);
  en_next : forall k, match ls k with
                      | Some l => step O (ws k) l = SNext (ws (S k))
                      | None => ws (S k) = ws k
                      end;
}.

(** Thread [tid] has nothing to do: it is over, or waits for a client, or sleeps. *)
Inductive rests (w : world) : nat -> Prop :=
| rest_over tid : over w tid -> rests w tid
| rest_client : nth_error (w_threads w) 0 = Some PMain -> rests w 0
| rest_eventer : eventer_sleeps w -> rests w 1
| rest_notifier t : notifier_sleeps w t -> rests w 2
| rest_refresher t : refresher_sleeps w t -> rests w 3.

(** Thread [tid] makes a step at time [k]. *)
Definition goes (ls : nat -> option label) (k tid : nat) : Prop := exists e, ls k = Some (LTick tid e).

(** Every thread that has something to do gets round to it. *)
Definition fair (ws : nat -> world) (ls : nat -> option label) : Prop :=
  forall tid k, tid < List.length (w_threads (ws k)) ->
    exists j, k <= j /\ (rests (ws j) tid \/ goes ls j tid).

(** From some time on the clock shows more than [t]. *)
Definition passes (ls : nat -> option label) (t : Z) : Prop :=
  exists k0, forall k tid e i, k0 <= k -> ls k = Some (LTick tid e) -> (t < ri1 (e_clk e i))%Z.

(** A sleeper that has set a time wakes up, and the clock gets past that time. *)
Definition timely (ws : nat -> world) (ls : nat -> option label) : Prop :=
  forall k d,
    (refresher_sleeps (ws k) (Some d) ->
     passes ls d /\ exists j, k <= j /\ ~ refresher_sleeps (ws j) (Some d))
    /\ (notifier_sleeps (ws k) (Some d) ->
        passes ls d /\ exists j, k <= j /\ ~ notifier_sleeps (ws j) (Some d)).

(** At time [k] the account version [e] is changed in a step of a client's
    request. *)
Definition changed_by_client (ws : nat -> world) (ls : nat -> option label) (k : nat) (e : entry) : Prop :=
  goes ls k 0 /\ In e (details (w_lk (ws k))) /\ ~ In e (details (w_lk (ws (S k)))).

(** What is observed in the step made at time [k]. *)
Definition observed (ws : nat -> world) (k : nat) : list obs :=
  skipn (List.length (w_trace (ws k))) (w_trace (ws (S k))).

(** At time [k] a new token is asked for at [uri] with the refresh token [r]. *)
Definition asks (ws : nat -> world) (k : nat) (uri r : str) : Prop :=
  exists pairs res, observed ws k = [OPost uri pairs res]
    /\ In ($"grant_type", $"refresh_token") pairs /\ In ($"refresh_token", r) pairs.

(** From time [k] on, when the clock shows more than [t], it is time to refresh
    the token [a] of account [n]. *)
Definition ripe (ws : nat -> world) (k : nat) (n : str) (a : active) (t : Z) : Prop :=
  forall j act now, k <= j -> configured (ws j) n act -> (t < now)%Z ->
    exists d, refresh_time act (conf (ws j)) now a d /\ (d <= t)%Z.
