(** C67-C71: counters that never overflow; everything begun comes to an end. *)
From Verif Require Import Base BaseLemmas Time Utf8 Base64 Url Json Oracles Config Dump State Http Timers Server
  SpecServer SpecTimers SpecSessions SpecFair Reach Counters Fair Scenario Runs Cases Endless.

(** * C67 *)

Theorem C67_counters_bounded O e c hp hsp pk ls w m :
  config_from_path O e = Val c -> run O (init_world c hp hsp pk) ls = Some (SNext w) ->
  (forall c', In (OConfig c') (w_trace w) -> (N.of_nat (List.length (c_accounts c')) <= m)%N) ->
  (account_count (w_lk w) <= (m + 2) * (1 + N.of_nat (List.length ls)))%N
  /\ (forall e0 a, In e0 (details (w_lk w)) -> d_ts e0 = TSActive a -> (fails a <= N.of_nat (List.length ls))%N).
Proof. exact (counters_bounded O e c hp hsp pk ls w m). Qed.
Print Assumptions C67_counters_bounded.

(** With at most 2^60 accounts and fewer than 2^64 - 1 steps the counters stay
    within the code's types. *)
Theorem C67_counters_fit O e c hp hsp pk ls w :
  config_from_path O e = Val c -> run O (init_world c hp hsp pk) ls = Some (SNext w) ->
  (forall c', In (OConfig c') (w_trace w) -> (N.of_nat (List.length (c_accounts c')) <= 2 ^ 60)%N) ->
  (N.of_nat (List.length ls) < 2 ^ 64 - 1)%N ->
  (account_count (w_lk w) < 2 ^ 128)%N
  /\ forall e0, In e0 (details (w_lk w)) ->
       (d_id e0 < 2 ^ 128)%N /\ (forall a, d_ts e0 = TSActive a -> (fails a < 2 ^ 64)%N).
Proof. exact (counters_fit O e c hp hsp pk ls w). Qed.
Print Assumptions C67_counters_fit.

Definition at_most (m : N) (t : list obs) : bool :=
  forallb (fun o => match o with OConfig c => (N.of_nat (List.length (c_accounts c)) <=? m)%N | _ => true end) t.

Lemma at_most_all m t : at_most m t = true ->
  forall c, In (OConfig c) t -> (N.of_nat (List.length (c_accounts c)) <= m)%N.
Proof.
  intros B c I. unfold at_most in B. rewrite forallb_forall in B. specialize (B _ I). cbn beta iota in B.
  apply N.leb_le. exact B.
Qed.

(** The life of a token. *)
Example C67_case :
  config_from_path toy (env_file conf1) = Val (conf_of conf1)
  /\ run toy (init_world (conf_of conf1) 8080 8443 $"key") life = Some (SNext (after (start conf1) life))
  /\ (forall c', In (OConfig c') (w_trace (after (start conf1) life)) -> (N.of_nat (List.length (c_accounts c')) <= 2)%N)
  /\ (N.of_nat (List.length life) < 2 ^ 64 - 1)%N
  /\ account_count (w_lk (after (start conf1) life)) = 8%N.
Proof.
  split; [vm_compute; reflexivity|]. split; [exact (after_run _ _ life_runs)|].
  split; [apply at_most_all; vm_compute; reflexivity|]. compute_all.
Qed.

(** * C68 *)

Theorem C68_connections_and_refreshes_end O ws ls k tid :
  endless O ws ls -> fair ws ls -> 4 <= tid -> tid < List.length (w_threads (ws k)) ->
  exists j, k <= j /\ over (ws j) tid.
Proof. exact (fun EN FA => thread_ends O ws ls EN FA k tid). Qed.
Print Assumptions C68_connections_and_refreshes_end.

Theorem C68_listens_again O ws ls k :
  endless O ws ls -> fair ws ls -> exists j, k <= j /\ nth_error (w_threads (ws j)) 0 = Some PMain.
Proof. exact (fun EN FA => main_returns O ws ls EN FA k). Qed.
Print Assumptions C68_listens_again.

Theorem C68_said O ws ls k o :
  endless O ws ls -> fair ws ls -> under_way (ws k) (AEmit o) -> exists j, k <= j /\ observed ws j = [o].
Proof. exact (fun EN FA => said_done O ws ls EN FA k o). Qed.
Print Assumptions C68_said.

Theorem C68_marks_end O ws ls k e a :
  endless O ws ls -> fair ws ls -> In e (details (w_lk (ws k))) -> d_ts e = TSActive a -> ongoing a = true ->
  exists j, k <= j /\ ~ In e (details (w_lk (ws j))).
Proof. exact (fun EN FA => marks_end O ws ls EN FA k e a). Qed.
Print Assumptions C68_marks_end.

(** At times 33 and 34 a refresh is about to begin and in flight, at time 2 a
    reply is about to be sent. *)
Example C68_case :
  endless toy life_at life_step /\ fair life_at life_step
  /\ (5 < List.length (w_threads (life_at 33)) /\ ~ over (life_at 33) 5)
  /\ (exists r, under_way (life_at 2) (AEmit r))
  /\ exists e a, In e (details (w_lk (life_at 34))) /\ d_ts e = TSActive a /\ ongoing a = true.
Proof.
  split; [exact life_endless|]. split; [exact life_fair|]. split.
  - split; [vm_compute; repeat constructor|]. intros H. vm_compute in H. discriminate H.
  - split.
    + eexists. exists 0. eexists. split; [vm_compute; reflexivity|]. vm_compute. left. reflexivity.
    + do 2 eexists. split; [vm_compute; left; reflexivity|]. split; reflexivity.
Qed.

(** * C69 *)

Theorem C69_events_are_delivered O ws ls k :
  endless O ws ls -> fair ws ls -> (forall j, events_wanted (w_trace (ws j))) ->
  exists j rest, k <= j /\ delivered (w_trace (ws j)) = queued (w_trace (ws k)) ++ rest.
Proof. exact (fun EN FA WA => events_get_delivered O ws ls EN FA WA k). Qed.
Print Assumptions C69_events_are_delivered.

(** Both events of the run are delivered. *)
Example C69_case :
  endless toy life_at life_step /\ fair life_at life_step /\ (forall j, events_wanted (w_trace (life_at j)))
  /\ queued (w_trace (life_at 39)) = [($"a", EvNew); ($"a", EvInvalidated)]
  /\ delivered (w_trace (life_at 39)) = [($"a", EvNew)]
  /\ delivered (w_trace (life_at 47)) = [($"a", EvNew); ($"a", EvInvalidated)].
Proof.
  split; [exact life_endless|]. split; [exact life_fair|]. split; [intros j; apply (life_conf j)|]. compute_all.
Qed.

(** * C70 *)

Theorem C70_refreshed O ws ls k e0 a t :
  endless O ws ls -> fair ws ls -> timely ws ls -> passes ls t ->
  In e0 (details (w_lk (ws k))) -> d_ts e0 = TSActive a -> ongoing a = false -> time_ok (expiry a) ->
  ripe ws k (d_name e0) a t ->
  exists i, k <= i /\
   (changed_by_client ws ls i e0
    \/ (exists act r j, configured (ws i) (d_name e0) act /\ refresh_token a = Some r /\ i <= j
          /\ asks ws j (a_token_uri act) r)
    \/ (refresh_token a = None /\ holds (ws (S i)) (d_name e0) TSEmpty)).
Proof.
  exact (fun EN FA TI PS I A G TK RI => refreshed O ws ls EN FA TI k e0 a t A G (proj2 TK) RI I PS).
Qed.
Print Assumptions C70_refreshed.

Theorem C70_fresh O ws ls k n a :
  endless O ws ls -> ongoing a = false -> last_attempt a = None -> ripe ws k n a (expiry a).
Proof. exact (fun EN => fresh_ripe O ws ls EN k n a). Qed.
Print Assumptions C70_fresh.

Theorem C70_failed ws k n a l t :
  ongoing a = false -> last_attempt a = Some l -> (t <= time_max)%Z ->
  (forall j act, k <= j -> configured (ws j) n act -> (l + retry_gap act (conf (ws j)) <= t)%Z) ->
  ripe ws k n a t.
Proof. exact (failed_ripe ws k n a l t). Qed.
Print Assumptions C70_failed.

(** The token of the run, long before it expires. *)
Example C70_case :
  endless toy life_at life_step /\ fair life_at life_step /\ timely life_at life_step
  /\ exists e a, passes life_step (expiry a) /\ In e (details (w_lk (life_at 29))) /\ d_ts e = TSActive a
       /\ ongoing a = false /\ last_attempt a = None /\ time_ok (expiry a) /\ refresh_token a = Some $"r"
       /\ asks life_at 34 $"https://token.example/t" $"r".
Proof.
  split; [exact life_endless|]. split; [exact life_fair|]. split; [exact life_timely|].
  do 2 eexists. split; [apply life_passes|]. split; [vm_compute; left; reflexivity|]. split; [reflexivity|].
  split; [reflexivity|]. split; [reflexivity|]. split; [vm_compute; split; intros X; discriminate X|]. split; [reflexivity|].
  do 2 eexists. split; [vm_compute; reflexivity|]. split; vm_compute; [right; right; left|right; left]; reflexivity.
Qed.

(** * C71 *)

Theorem C71_announced O ws ls k e0 t cvr ln st u :
  endless O ws ls -> fair ws ls -> timely ws ls -> passes ls t -> (t <= time_max)%Z ->
  In e0 (details (w_lk (ws k))) -> d_ts e0 = TSPending cvr ln st u ->
  (forall j l, k <= j -> ln = Some l -> (l + c_auth_notify_interval (conf (ws j)) <= t)%Z) ->
  (forall j, k <= j -> c_auth_notify_cmd (conf (ws j)) <> None) ->
  exists i, k <= i /\
   ((exists tid, tid <> 2 /\ goes ls i tid /\ In e0 (details (w_lk (ws i))) /\ ~ In e0 (details (w_lk (ws (S i)))))
    \/ exists cmd, observed ws i = [OAuthCmd cmd (d_name e0) (url_to_str u)]).
Proof. exact (fun EN FA TI PS TM I P => announced O ws ls EN FA TI k e0 t cvr ln st u P I TM PS). Qed.
Print Assumptions C71_announced.

(** The authorisation the run begins with. *)
Example C71_case :
  endless toy life_at life_step /\ fair life_at life_step /\ timely life_at life_step
  /\ (forall j, c_auth_notify_cmd (conf (life_at j)) <> None)
  /\ passes life_step 0 /\ (0 <= time_max)%Z
  /\ exists e cvr st u, In e (details (w_lk (life_at 3))) /\ d_ts e = TSPending cvr None st u
       /\ exists cmd, observed life_at 6 = [OAuthCmd cmd (d_name e) (url_to_str u)].
Proof.
  split; [exact life_endless|]. split; [exact life_fair|]. split; [exact life_timely|].
  split; [intros j; apply (life_conf j)|]. split; [apply life_passes|]. split; [vm_compute; discriminate|].
  do 4 eexists. split; [vm_compute; left; reflexivity|]. split; [reflexivity|]. eexists. vm_compute. reflexivity.
Qed.
