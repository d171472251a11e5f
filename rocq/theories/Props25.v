(** In a responsive system token events are reported in time. *)
From Verif Require Import Base BaseLemmas Time Utf8 Base64 Url Json Oracles Config Dump State Http Timers Server
  SpecServer SpecTimers SpecSessions SpecFair SpecTimed TimedEvents ReportCase Scenario Runs Cases Endless.
Local Open Scope Z_scope.

(** ** C97: events are reported in time, even if commands hang

    The times of the states are [tau]; no command runs for longer than [r], after
    thirty seconds it is killed; the thread that starts the commands and the
    signals to it take no longer than [d] ([reporting]).  Then every event that
    has not been reported costs at most [r + 3 * d], and [3 * d] more are needed
    if the thread has to be woken first. *)

Theorem C97_in_time O ws ls tau d r k j :
  reporting O ws ls tau d r -> 0 <= d -> 0 <= r -> (forall i, events_wanted (w_trace (ws i))) -> (k <= j)%nat ->
  tau k + backlog (ws k) * (r + 3 * d) + 3 * d < tau (S j) ->
  exists rest, delivered (w_trace (ws j)) = queued (w_trace (ws k)) ++ rest.
Proof. exact (fun A D R W => delivered_soon O ws ls tau d r A D R W k j). Qed.
Print Assumptions C97_in_time.

Theorem C97_event O ws ls tau d r k j n ev :
  reporting O ws ls tau d r -> 0 <= d -> 0 <= r -> (forall i, events_wanted (w_trace (ws i))) -> (k <= j)%nat ->
  tau k + backlog (ws k) * (r + 3 * d) + 3 * d < tau (S j) ->
  In (OEvent n ev) (w_trace (ws k)) -> exists cmd, In (OEventCmd cmd n ev) (w_trace (ws j)).
Proof. exact (event_reported O ws ls tau d r k j n ev). Qed.
Print Assumptions C97_event.

(** The command for a new token hangs for 31 s; meanwhile the user revokes the
    token, and that is reported when the command has been killed. *)
Example C97_case :
  reporting toy hang_at hang_step hang_time (sec 1) (sec 31) /\ 0 <= sec 1 /\ 0 <= sec 31
  /\ (forall i, events_wanted (w_trace (hang_at i)))
  /\ backlog (hang_at 20) = 1 /\ hang_time 20 = sec 1010
  /\ hang_time 20 + backlog (hang_at 20) * (sec 31 + 3 * sec 1) + 3 * sec 1 < hang_time 31
  /\ queued (w_trace (hang_at 20)) = [($"a", EvNew); ($"a", EvRevoked)]
  /\ delivered (w_trace (hang_at 24)) = [($"a", EvNew)] /\ hang_time 24 = sec 1034
  /\ delivered (w_trace (hang_at 30)) = [($"a", EvNew); ($"a", EvRevoked)].
Proof.
  split; [exact hang_reporting|]. split; [vm_compute; discriminate|]. split; [vm_compute; discriminate|].
  split; [exact hang_wanted|]. compute_all.
Qed.
