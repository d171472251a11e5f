(** C91: the server runs until it is told to stop. *)
From Verif Require Import Base BaseLemmas Time Utf8 Base64 Url Json Oracles ConfigLex ConfigParse Config Dump State Http
  Timers Server SpecServer SpecTimers SpecSessions SpecFair SpecStop Reach Stop GoOn Scenario Runs Cases.

(** A server that has stopped was told to by the last client it heard; stopping
    was the last thing it did, and it did so once. *)
Theorem C91_only_when_told O w :
  reachable O w -> w_alive w = false ->
  exists t, w_trace w = t ++ [OShutdown] /\ ~ In OShutdown t /\ told_to_stop t.
Proof. exact (stopped_because O w). Qed.
Print Assumptions C91_only_when_told.

(** After that nothing happens. *)
Theorem C91_for_good O w l : w_alive w = false -> step O w l = SStuck.
Proof. exact (stopped_for_good O w l). Qed.
Print Assumptions C91_for_good.

(** Told to stop, it does stop. *)
Theorem C91_when_told O ws ls k :
  endless O ws ls -> fair_while_up ws ls -> told_to_stop (w_trace (ws k)) -> exists j, k <= j /\ w_alive (ws j) = false.
Proof. exact (told_stops O ws ls k). Qed.
Print Assumptions C91_when_told.

(** Otherwise it can go on for ever from every state, whatever comes from
    outside: no thread is neglected, time goes by, clients and browsers are
    heard. *)
Theorem C91_goes_on O w t0 out conn :
  reachable O w -> w_alive w = true -> ~ told_to_stop (w_trace w) ->
  (forall k v, e_client (out k v) <> Some $"shutdown:") ->
  (forall k v e, reachable O v -> same_inputs e (out k v) -> ~ breaks_down O v (LTick 0 e)) ->
  exists ws ls, carries_on O w t0 out conn ws ls.
Proof. exact (goes_on_for_ever O w t0 out conn). Qed.
Print Assumptions C91_goes_on.

(** * Cases *)

Definition w_told : world := after w_auth [main (client $"shutdown:" (tick (sec 1010)))].
Definition w_stopped : world := after w_told [main (tick (sec 1010))].

Example C91_case :
  reachable toy w_auth /\ w_alive w_auth = true /\ ~ told_to_stop (w_trace w_auth)
  /\ reachable toy w_told /\ w_alive w_told = true /\ told_to_stop (w_trace w_told)
  /\ reachable toy w_stopped /\ w_alive w_stopped = false.
Proof.
  split; [reach_after|]. split; [vm_compute; reflexivity|]. split.
  { intros (t1 & t2 & E & _). assert (In (OClient $"shutdown:") (w_trace w_auth)) as X by (rewrite E; apply in_or_app; right; left; reflexivity).
    clear E. revert X. vm_compute. intros X. repeat (destruct X as [X|X]; [discriminate X|]). exact X. }
  split; [reach_after|]. split; [vm_compute; reflexivity|]. split.
  { exists (w_trace w_auth), []. split; [vm_compute; reflexivity|]. intros r []. }
  split; [reach_after|]. vm_compute. reflexivity.
Qed.

(** For example it can go on from there with a client that asks for the token of
    account "a" over and over, and a browser that calls. *)
Example C91_goes_on_case :
  exists ws ls, carries_on toy w_auth (sec 1010) (fun _ _ => client $"showtoken:withurl a" (tick 0))
                  (fun _ _ => Some (false, callback $"state=x")) ws ls
    /\ forall k, exists j, k <= j /\ In (OClient $"showtoken:withurl a") (observed ws j).
Proof.
  destruct C91_case as (R & A & NT & _).
  destruct (C91_goes_on toy w_auth (sec 1010) (fun _ _ => client $"showtoken:withurl a" (tick 0))
              (fun _ _ => Some (false, callback $"state=x")) R A NT) as (ws & ls & C).
  { intros k v X. vm_compute in X. discriminate X. }
  { intros k v e _ SI. apply not_status. destruct SI as (_ & _ & _ & -> & _). discriminate. }
  exists ws, ls. split; [exact C|]. intros k. apply (co_heard _ _ _ _ _ _ _ C). intros j _. reflexivity.
Qed.

(** A fair run in which the server is told to stop. *)
Example C91_when_told_case :
  exists ws ls, endless toy ws ls /\ fair_while_up ws ls /\ told_to_stop (w_trace (ws 0)).
Proof.
  destruct C91_case as (_ & _ & _ & R & _ & TS & _).
  exists (fun k => match k with 0 => w_told | _ => w_stopped end),
         (fun k => match k with 0 => Some (main (tick (sec 1010))) | _ => None end).
  split; [|split; [|exact TS]].
  - constructor; [exact R|]. intros [|k]; [vm_compute; reflexivity|reflexivity].
  - intros tid k L. exists (S k). split; [lia|]. left. vm_compute. reflexivity.
Qed.
