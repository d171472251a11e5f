(** C53-C57: what single threads do from start to end, the life cycle of a token,
    and where secrets may flow. *)
From Verif Require Import Base BaseLemmas Time Utf8 Base64 Url Json Oracles Config Dump State Http Timers Server
  SpecServer SpecTimers SpecRestore SpecSessions SpecLife SpecSecrets Reach Sessions Life Secrets Scenario Runs Cases.

(** * C53 *)

Theorem C53_connections_end O w https bytes w1 ls w2 :
  reachable O w -> step O w (LHttpConn https bytes) = SNext w1 -> run O w1 ls = Some (SNext w2) ->
  own_steps (List.length (w_threads w)) ls <= 17.
Proof. exact (connection_bounded O w https bytes w1 ls w2). Qed.
Print Assumptions C53_connections_end.

Theorem C53_connection_history O w https bytes w1 ls w2 :
  reachable O w -> step O w (LHttpConn https bytes) = SNext w1 -> run O w1 ls = Some (SNext w2) ->
  over w2 (List.length (w_threads w)) ->
  conversation (said O (List.length (w_threads w)) w1 ls).
Proof. exact (connection_history O w https bytes w1 ls w2). Qed.
Print Assumptions C53_connection_history.

(** A connection that posts twice, with other threads running in between. *)
Definition talk : list label :=
  many 2 4 (tick (sec 1001)) ++ [LTick 4 (Scenario.posted (PRTransport TrDns $"no") (tick (sec 1002)))]
  ++ ask $"showtoken:withurl b" 1002 2 ++ [LTick 4 (Scenario.posted (PRBody $"Rtok") (tick (sec 1003)))]
  ++ many 4 4 (tick (sec 1004)).

Example C53_case :
  reachable toy w_pend /\ List.length (w_threads w_pend) = 4
  /\ step toy w_pend (LHttpConn false (callback good_query)) = SNext (w_cb good_query)
  /\ run toy (w_cb good_query) talk = Some (SNext (after (w_cb good_query) talk))
  /\ over (after (w_cb good_query) talk) 4 /\ own_steps 4 talk = 8
  /\ exists resp pairs, said toy 4 (w_cb good_query) talk
       = [OHttpResp resp; OPost $"https://token.example/t" pairs (PRTransport TrDns $"no");
          OPost $"https://token.example/t" pairs (PRBody $"Rtok"); OEvent $"a" EvNew].
Proof.
  split; [unfold w_pend; reach_after|]. compute_all.
  eexists _, _. vm_compute. reflexivity.
Qed.

(** * C54 *)

Theorem C54_refreshes_end O w t e w1 ls w2 p :
  reachable O w -> step O w (LTick t e) = SNext w1 ->
  nth_error (w_threads w1) (List.length (w_threads w)) = Some p ->
  run O w1 ls = Some (SNext w2) ->
  own_steps (List.length (w_threads w)) ls <= 8.
Proof. exact (refresh_bounded O w t e w1 ls w2 p). Qed.
Print Assumptions C54_refreshes_end.

Theorem C54_refresh_history O w t e w1 ls w2 p :
  reachable O w -> step O w (LTick t e) = SNext w1 ->
  nth_error (w_threads w1) (List.length (w_threads w)) = Some p ->
  run O w1 ls = Some (SNext w2) ->
  over w2 (List.length (w_threads w)) ->
  refresh_session O (said O (List.length (w_threads w)) w1 ls).
Proof. exact (refresh_history O w t e w1 ls w2 p). Qed.
Print Assumptions C54_refresh_history.

(** A refresh that reaches the provider. *)
Definition w_asking : world := after w_auth [main (client $"refresh:withurl a" (tick (sec 1020)))].
Definition renew : list label :=
  [LTick 5 (tick (sec 1021)); LTick 5 (Scenario.posted (PRBody $"Rnew") (tick (sec 1022)))]
  ++ many 5 5 (tick (sec 1023)).

Example C54_case :
  let e := tick (sec 1020) in
  let w1 := after w_asking [main e] in
  reachable toy w_asking /\ List.length (w_threads w_asking) = 5
  /\ step toy w_asking (LTick 0 e) = SNext w1
  /\ (exists p, nth_error (w_threads w1) 5 = Some p)
  /\ run toy w1 renew = Some (SNext (after w1 renew))
  /\ over (after w1 renew) 5 /\ own_steps 5 renew = 7
  /\ exists pairs, said toy 5 w1 renew
       = [OPost $"https://token.example/t" pairs (PRBody $"Rnew"); OEvent $"a" EvRefresh].
Proof.
  cbv zeta. split; [unfold w_asking, w_auth; reach_after|]. compute_all.
  - eexists. vm_compute. reflexivity.
  - eexists. vm_compute. reflexivity.
Qed.

(** * C55 *)

Theorem C55_never_stuck O w tid e :
  reachable O w -> w_alive w = true -> tid < List.length (w_threads w) -> ~ breaks_down O w (LTick tid e) ->
  (over w tid /\ 4 <= tid) \/ waits w e tid \/ exists w', step O w (LTick tid e) = SNext w'.
Proof. exact (enabled_or_waiting O w tid e). Qed.
Print Assumptions C55_never_stuck.

Theorem C55_permanent_threads O w tid :
  reachable O w -> tid < 4 -> exists p, nth_error (w_threads w) tid = Some p /\ p <> PDone.
Proof. exact (permanent_threads O w tid). Qed.
Print Assumptions C55_permanent_threads.

(** With an authorisation done, the refresher asleep and a refresh in flight:
    the browser's thread is over, the main thread and the refresher wait, the
    refresh and the notifier can go on. *)
Definition w_mixed : world :=
  after w_asleep (ask $"refresh:withurl a" 1020 2 ++ [LTick 5 (tick (sec 1021))]).

Example C55_case :
  let e := tick (sec 1030) in
  reachable toy w_mixed /\ (forall tid, ~ breaks_down toy w_mixed (LTick tid e))
  /\ w_alive w_mixed = true /\ List.length (w_threads w_mixed) = 6
  /\ over w_mixed 4 /\ waits w_mixed e 0
  /\ (exists w', step toy w_mixed (LTick 5 e) = SNext w') /\ (exists w', step toy w_mixed (LTick 2 e) = SNext w').
Proof.
  cbv zeta. split; [unfold w_mixed, w_asleep, w_look, w_auth; reach_after|].
  split; [intros tid; apply not_status; discriminate|]. compute_all.
  - apply wt_client; vm_compute; reflexivity.
  - eexists. vm_compute. reflexivity.
  - eexists. vm_compute. reflexivity.
Qed.

(** * C56 *)

Theorem C56_life_of_a_token O w l w' n i ts ts' :
  reachable O w -> step O w l = SNext w' -> In (mkEntry n i ts) (details (w_lk w)) -> holds w' n ts' ->
  life O w n i l ts ts'.
Proof. exact (life_step O w l w' n i ts ts'). Qed.
Print Assumptions C56_life_of_a_token.

(** The step in which thread 4 stores the token of account "a". *)
Example C56_case :
  exists i cvr ln st u a,
    let e := tick (sec 1003) in
    reachable toy w_exch /\ step toy w_exch (LTick 4 e) = SNext (after w_exch [LTick 4 e])
    /\ In (mkEntry $"a" i (TSPending cvr ln st u)) (details (w_lk w_exch))
    /\ holds (after w_exch [LTick 4 e]) $"a" (TSActive a)
    /\ access_token a = $"tok" /\ expiry a = sec 4603.
Proof.
  do 6 eexists. cbv zeta. split; [unfold w_exch; reach_after|].
  split; [vm_compute; reflexivity|]. split; [vm_compute; left; reflexivity|].
  split; [unfold holds; eexists; split; [vm_compute; left; reflexivity|split; reflexivity]|].
  split; vm_compute; reflexivity.
Qed.

(** * C57 *)

Theorem C57_secrets_step O w1 w2 l1 l2 w1' :
  cipher_uniform O -> same_but_secrets O w1 w2 -> alike_label O l1 l2 -> step O w1 l1 = SNext w1' ->
  exists w2', step O w2 l2 = SNext w2' /\ same_but_secrets O w1' w2'.
Proof. exact (secrets_step O w1 w2 l1 l2 w1'). Qed.
Print Assumptions C57_secrets_step.

Theorem C57_secrets O ls1 ls2 w1 w2 w1' :
  cipher_uniform O -> same_but_secrets O w1 w2 -> Forall2 (alike_label O) ls1 ls2 ->
  run O w1 ls1 = Some (SNext w1') ->
  exists w2', run O w2 ls2 = Some (SNext w2') /\ map blur (w_trace w1') = map blur (w_trace w2').
Proof. exact (secrets_traces O ls1 ls2 w1 w2 w1'). Qed.
Print Assumptions C57_secrets.

(** Two runs in which the provider grants different tokens.  What is shown
    differs, the rest does not. *)
Definition until_shown (body : str) : list label := authorise body ++ ask $"showtoken:withurl a" 1010 1.

Example C57_case :
  cipher_uniform toy /\ same_but_secrets toy (start conf1) (start conf1)
  /\ Forall2 (alike_label toy) (until_shown $"Rtok") (until_shown $"Rother")
  /\ run toy (start conf1) (until_shown $"Rtok") = Some (SNext (after (start conf1) (until_shown $"Rtok")))
  /\ last (w_trace (after (start conf1) (until_shown $"Rtok"))) OShutdown
     = OReply $"showtoken:withurl a" $"access_token:tok"
  /\ last (w_trace (after (start conf1) (until_shown $"Rother"))) OShutdown
     = OReply $"showtoken:withurl a" $"access_token:other".
Proof.
  split; [intros n p p' H; discriminate H|]. split; [split; reflexivity|].
  split; [|compute_all].
  assert (forall e, alike toy e e) as R by (intros e; constructor; auto).
  repeat (apply Forall2_cons; [first [apply al_conn | apply al_tick; apply R | idtac]|]); [|apply Forall2_nil].
  apply al_tick. constructor; try reflexivity. right. exists $"Rtok", $"Rother".
  split; [reflexivity|]. split; reflexivity.
Qed.
