(** C102: the background threads look for work only when there is a reason to. *)
From Verif Require Import Base Time Utf8 Url Json Oracles Config Dump State Http Timers Server SpecServer SpecTimers
  SpecSessions SpecFair SpecSpin Spin Scenario Runs Cases Endless TimedCase SpinCase.
Local Open Scope Z_scope.

(** Between two looks the refresher has been told of a change, or, after the
    first, it has set an alarm for a token and the alarm has gone off. *)
Theorem C102_refresher_has_reason_partial O ws ls i j :
  endless O ws ls -> (i < j)%nat -> refresher_stirs ws i -> refresher_stirs ws j ->
  (exists x, (i < x < j)%nat /\ takes ws ls ASigRefresher x) \/ alarmed ws ls refresh_ahead 3 i j.
Proof. exact (fun EN => refresher_has_reason O ws ls EN i j). Qed.
Print Assumptions C102_refresher_has_reason_partial.

(** So with the notifier and pending authorisations. *)
Theorem C102_notifier_has_reason O ws ls i j :
  endless O ws ls -> (i < j)%nat -> notifier_stirs ws i -> notifier_stirs ws j ->
  (exists x, (i < x < j)%nat /\ takes ws ls ASigNotifier x) \/ alarmed ws ls reminder_ahead 2 i j.
Proof. exact (fun EN => notifier_has_reason O ws ls EN i j). Qed.
Print Assumptions C102_notifier_has_reason.

(** If nobody tells it anything and there is no token to refresh, the refresher
    looks at most once. *)
Theorem C102_refresher_idle O ws ls k :
  endless O ws ls ->
  (forall x, (k <= x)%nat -> ~ takes ws ls ASigRefresher x) ->
  (forall x n a, (k <= x)%nat -> holds (ws x) n (TSActive a) -> ongoing a = true) ->
  forall i j, (k <= i)%nat -> (k <= j)%nat -> refresher_stirs ws i -> refresher_stirs ws j -> i = j.
Proof. exact (fun EN => refresher_idle O ws ls EN k). Qed.
Print Assumptions C102_refresher_idle.

(** So with the notifier if no authorisation is pending. *)
Theorem C102_notifier_idle O ws ls k :
  endless O ws ls ->
  (forall x, (k <= x)%nat -> ~ takes ws ls ASigNotifier x) ->
  (forall x n cvr ln st u, (k <= x)%nat -> ~ holds (ws x) n (TSPending cvr ln st u)) ->
  forall i j, (k <= i)%nat -> (k <= j)%nat -> notifier_stirs ws i -> notifier_stirs ws j -> i = j.
Proof. exact (fun EN => notifier_idle O ws ls EN k). Qed.
Print Assumptions C102_notifier_idle.

(** But an alarm for a token goes off again and again until a thread started to
    refresh it gets going: there is a state from which the refresher alone, while
    the clock stands still, starts as many threads as you like for one token. *)
Theorem C102_one_thread_per_refresh_refuted :
  exists w e i a,
    reachable toy w /\ In (mkEntry $"a" i (TSActive a)) (details (w_lk w)) /\ ongoing a = false
    /\ forall n, exists ls w',
         Forall (eq (LTick 3 e)) ls /\ run toy w ls = Some (SNext w')
         /\ w_lk w' = w_lk w /\ w_threads w' = w_threads w ++ repeat (PRefStart i) n.
Proof. exact refresh_flood. Qed.
Print Assumptions C102_one_thread_per_refresh_refuted.

(** A refresher that looks three times, the second time because it slept for 37
    seconds, the third because a token was due. *)
Example C102_case :
  endless toy soon_at soon_step
  /\ refresher_stirs soon_at 1 /\ refresher_stirs soon_at 6 /\ refresher_stirs soon_at 11
  /\ alarmed soon_at soon_step refresh_ahead 3 1 6 /\ alarmed soon_at soon_step refresh_ahead 3 6 11.
Proof.
  assert (forall i j, (1 <= i)%nat -> (j <= 11)%nat -> (i < j)%nat -> refresher_stirs soon_at i -> refresher_stirs soon_at j ->
      alarmed soon_at soon_step refresh_ahead 3 i j) as H.
  { intros i j L1 L2 L Si Sj. destruct (C102_refresher_has_reason_partial _ _ _ _ _ soon_endless L Si Sj) as [(x & B & T)|A]; [|exact A].
    exfalso. apply (soon_untold x); [lia|exact T]. }
  split; [exact soon_endless|].
  assert (refresher_stirs soon_at 1) as S1 by (apply soon_stirs; cbn; auto).
  assert (refresher_stirs soon_at 6) as S2 by (apply soon_stirs; cbn; auto).
  assert (refresher_stirs soon_at 11) as S3 by (apply soon_stirs; cbn; auto).
  split; [exact S1|]. split; [exact S2|]. split; [exact S3|].
  split; apply H; try assumption; lia.
Qed.

(** A notifier that looks twice. *)
Example C102_case_notifier :
  endless toy waiting_at waiting_step /\ notifier_stirs waiting_at 4 /\ notifier_stirs waiting_at 10
  /\ alarmed waiting_at waiting_step reminder_ahead 2 4 10.
Proof.
  assert (notifier_stirs waiting_at 4) as S1 by (apply waiting_stirs; cbn; auto).
  assert (notifier_stirs waiting_at 10) as S2 by (apply waiting_stirs; cbn; auto).
  split; [exact waiting_endless|]. split; [exact S1|]. split; [exact S2|].
  destruct (C102_notifier_has_reason _ _ _ 4 10 waiting_endless ltac:(lia) S1 S2) as [(x & B & T)|A]; [|exact A].
  exfalso. apply (waiting_untold x); [lia|exact T].
Qed.

(** A token is revoked: the refresher looks once more and never again. *)
Example C102_case_idle :
  endless toy gone_at gone_step /\ refresher_stirs gone_at 5
  /\ forall i, (1 <= i)%nat -> refresher_stirs gone_at i -> i = 5%nat.
Proof.
  split; [exact gone_endless|]. split; [exact gone_stirs|]. intros i L Si.
  apply (C102_refresher_idle toy gone_at gone_step 1 gone_endless); try assumption; try lia; try exact gone_stirs.
  - intros x _. apply gone_untold.
  - intros x n a Lx. apply gone_nothing. exact Lx.
Qed.
