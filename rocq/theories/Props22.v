(** C94: tokens are refreshed in time. *)
From Verif Require Import Base BaseLemmas Time Utf8 Base64 Url Json Oracles Config Dump State Http Timers Server
  SpecServer SpecTimers SpecSessions SpecFair SpecTimed SpecRestore Reach Fair Timed TimedRetry TimedShow Scenario Runs Cases Endless TimedCase FlakyCase.
Local Open Scope Z_scope.

(** A token that ought to be refreshed does not stay as it is for more than ten
    times what a step may take. *)
Theorem C94_refresh_begins_in_time O ws ls tau d p s j e0 a t :
  prompt O ws ls tau d p -> 0 <= d ->
  d_ts e0 = TSActive a -> ongoing a = false -> time_ok (expiry a) -> ripe ws s (d_name e0) a t ->
  (s <= j)%nat -> (forall i, (s <= i)%nat -> (i <= j)%nat -> In e0 (details (w_lk (ws i)))) ->
  tau (S j) <= Z.max t (tau s) + 10 * d.
Proof. exact (begins_in_time O ws ls tau d p s j e0 a t). Qed.
Print Assumptions C94_refresh_begins_in_time.

(** An account that once has a token always has one that is valid. *)
Theorem C94_always_valid O ws ls tau d p k j n a lo hi m :
  prompt O ws ls tau d p -> 0 <= d -> 0 <= p ->
  undisturbed ws ls k n -> good_provider O ws k n lo hi ->
  (forall i act, (k <= i)%nat -> configured (ws i) n act -> m <= margin act (conf (ws i)) <= tau k - time_min) ->
  (forall i, tau i + hi <= time_max) ->
  12 * d + p < m -> 14 * d + p < lo ->
  holds (ws k) n (TSActive a) -> ongoing a = false -> last_attempt a = None -> refresh_token a <> None ->
  tau k + 12 * d + p < expiry a -> expiry a <= time_max ->
  (k <= j)%nat ->
  exists a', holds (ws j) n (TSActive a') /\ tau (S j) < expiry a'.
Proof. exact (valid_for_ever O ws ls tau d p k j n a lo hi m). Qed.
Print Assumptions C94_always_valid.

(** So whoever asks for it gets one. *)
Theorem C94_always_shown O ws ls tau d p k j n a lo hi m e wu :
  prompt O ws ls tau d p -> 0 <= d -> 0 <= p ->
  undisturbed ws ls k n -> good_provider O ws k n lo hi ->
  (forall i act, (k <= i)%nat -> configured (ws i) n act -> m <= margin act (conf (ws i)) <= tau k - time_min) ->
  (forall i, tau i + hi <= time_max) ->
  12 * d + p < m -> 14 * d + p < lo ->
  holds (ws k) n (TSActive a) -> ongoing a = false -> last_attempt a = None -> refresh_token a <> None ->
  tau k + 12 * d + p < expiry a -> expiry a <= time_max ->
  (k <= j)%nat ->
  nth_error (w_threads (ws j)) 0 = Some PMain -> ls j = Some (LTick 0 e) ->
  ~ In " "%char wu -> utf8_valid (wu ++ $" " ++ n) = true ->
  let show := $"showtoken:" ++ wu ++ $" " ++ n in
  e_client e = Some show ->
  exists a', holds (ws j) n (TSActive a') /\ env_now e < expiry a'
    /\ just_answers O (ws j) e show ($"access_token:" ++ access_token a').
Proof. exact (shown_for_ever O ws ls tau d p k j n a lo hi m e wu). Qed.
Print Assumptions C94_always_shown.

(** A run in which a token is due at 1053 seconds and refreshed at 1056; the
    token is shown before and after the new one is there. *)
Example C94_case :
  prompt toy soon_at soon_step soon_time (sec 100) (sec 100)
  /\ undisturbed soon_at soon_step 0 $"a" /\ good_provider toy soon_at 0 $"a" (sec 3600) (sec 3600)
  /\ (forall i act, configured (soon_at i) $"a" act -> sec 2000 <= margin act (conf (soon_at i)) <= soon_time 0 - time_min)
  /\ (forall i, soon_time i + sec 3600 <= time_max)
  /\ 12 * sec 100 + sec 100 < sec 2000 /\ 14 * sec 100 + sec 100 < sec 3600
  /\ (exists a, holds (soon_at 0) $"a" (TSActive a) /\ ongoing a = false /\ last_attempt a = None /\ refresh_token a <> None
        /\ soon_time 0 + 12 * sec 100 + sec 100 < expiry a /\ expiry a <= time_max)
  /\ asks soon_at 15 $"https://token.example/t" $"r"
  /\ observed soon_at 17 = [OReply $"showtoken:withurl a" $"access_token:tok"]
  /\ observed soon_at 24 = [OReply $"showtoken:withurl a" $"access_token:new"].
Proof.
  split; [exact soon_prompt|]. split; [exact soon_undisturbed|]. split; [exact soon_provider|].
  split; [intros i act C; rewrite (soon_margin i act C); vm_compute; split; discriminate|].
  split; [intros i; pose proof (proj2 (soon_within i)) as W; apply (Z.le_trans _ (sec 1060 + sec 3600)); [lia|vm_compute; discriminate]|].
  split; [vm_compute; reflexivity|]. split; [vm_compute; reflexivity|]. split.
  - eexists. split; [eexists; split; [vm_compute; left; reflexivity|split; reflexivity]|].
    split; [reflexivity|]. split; [reflexivity|]. split; [discriminate|]. split; vm_compute; [reflexivity|discriminate].
  - split; [|compute_all]. do 2 eexists. split; [vm_compute; reflexivity|].
    split; vm_compute; [right; right; left|right; left]; reflexivity.
Qed.

(** The same for the first theorem: the token, from the beginning until it is
    refreshed. *)
Example C94_case_ripe :
  exists e0 a, d_ts e0 = TSActive a /\ ongoing a = false /\ time_ok (expiry a) /\ ripe soon_at 0 (d_name e0) a (sec 1053)
    /\ (forall i, (i <= 14)%nat -> In e0 (details (w_lk (soon_at i)))) /\ ~ In e0 (details (w_lk (soon_at 15))).
Proof. exact soon_ripe. Qed.

(** It need not be possible to reach the provider all the time: outages no longer
    than [b] do no harm if that leaves time to try again. *)
Theorem C94_survives_outages O ws ls tau d p k j n a lo hi m b g :
  prompt O ws ls tau d p -> 0 <= d -> 0 <= p -> 0 <= b -> 0 <= g ->
  undisturbed ws ls k n -> flaky_provider O ws tau k n lo hi b ->
  (forall i act, (k <= i)%nat -> configured (ws i) n act ->
     m <= margin act (conf (ws i)) <= tau k - time_min /\ retry_gap act (conf (ws i)) <= g) ->
  (forall i, tau i + hi <= time_max) ->
  b + g + 24 * d + 3 * p < m -> b + g + 26 * d + 3 * p < lo ->
  holds (ws k) n (TSActive a) -> ongoing a = false -> last_attempt a = None -> refresh_token a <> None ->
  tau k + b + g + 24 * d + 3 * p < expiry a -> expiry a <= time_max ->
  (k <= j)%nat ->
  exists a', holds (ws j) n (TSActive a') /\ tau (S j) < expiry a'.
Proof. exact (valid_in_outages O ws ls tau d p k j n a lo hi m b g). Qed.
Print Assumptions C94_survives_outages.

(** A run in which the token is due at 1053 seconds, the attempt at 1056 seconds
    fails and that at 1071 succeeds. *)
Example C94_case_outage :
  prompt toy late_at late_step late_time (sec 100) (sec 100)
  /\ undisturbed late_at late_step 0 $"a" /\ flaky_provider toy late_at late_time 0 $"a" (sec 3600) (sec 3600) (sec 100)
  /\ (forall i act, configured (late_at i) $"a" act ->
        sec 3000 <= margin act (conf (late_at i)) <= late_time 0 - time_min /\ retry_gap act (conf (late_at i)) <= sec 10)
  /\ (forall i, late_time i + sec 3600 <= time_max)
  /\ sec 100 + sec 10 + 24 * sec 100 + 3 * sec 100 < sec 3000 /\ sec 100 + sec 10 + 26 * sec 100 + 3 * sec 100 < sec 3600
  /\ (exists a, holds (late_at 0) $"a" (TSActive a) /\ ongoing a = false /\ last_attempt a = None /\ refresh_token a <> None
        /\ late_time 0 + sec 100 + sec 10 + 24 * sec 100 + 3 * sec 100 < expiry a /\ expiry a <= time_max)
  /\ fails_at late_at $"a" 15 /\ tries late_at $"a" 28 (PRBody $"Rnew").
Proof.
  split; [exact late_prompt|]. split; [exact late_undisturbed|]. split; [exact late_provider|].
  split; [intros i act C; destruct (late_settings i act C) as [-> ->]; vm_compute; repeat split; discriminate|].
  split; [intros i; pose proof (proj2 (late_within i)) as W; apply (Z.le_trans _ (sec 1073 + sec 3600)); [lia|vm_compute; discriminate]|].
  split; [vm_compute; reflexivity|]. split; [vm_compute; reflexivity|]. split; [|split].
  - eexists. split; [eexists; split; [vm_compute; left; reflexivity|split; reflexivity]|].
    split; [reflexivity|]. split; [reflexivity|]. split; [discriminate|]. split; vm_compute; [reflexivity|discriminate].
  - exists (PRTransport TrDns $"no"). split; [|exact I]. do 4 eexists.
    split; [eexists; split; [vm_compute; left; reflexivity|split; reflexivity]|]. split; [reflexivity|].
    split; [vm_compute; reflexivity|]. vm_compute. right. left. reflexivity.
  - do 4 eexists. split; [eexists; split; [vm_compute; left; reflexivity|split; reflexivity]|]. split; [reflexivity|].
    split; [vm_compute; reflexivity|]. vm_compute. right. left. reflexivity.
Qed.
