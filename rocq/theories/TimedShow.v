(** What follows for the user from tokens being refreshed in time. *)
From Verif Require Import Base BaseLemmas Time Utf8 Base64 Url Json Oracles Config Dump State Http Timers Server
  StateLemmas ConfigLemmas Steps Inv Reach SpecServer SpecTimers SpecSessions SpecFair SpecTimed SpecRestore Basic Refresh Decide Wake Fair Timed TimedRetry.
Local Open Scope Z_scope.

Lemma begins_in_time O ws ls tau d p s j e0 a t :
  prompt O ws ls tau d p -> 0 <= d ->
  d_ts e0 = TSActive a -> ongoing a = false -> time_ok (expiry a) -> ripe ws s (d_name e0) a t ->
  (s <= j)%nat -> (forall i, (s <= i)%nat -> (i <= j)%nat -> In e0 (details (w_lk (ws i)))) ->
  tau (S j) <= Z.max t (tau s) + 10 * d.
Proof.
  intros PR D0 ACT OG EX RI L TH.
  refine (past_due O ws ls tau d p PR D0 s e0 a t ACT OG _ s j (le_n s) L TH).
  intros i act now x LI AC LT DU.
  destruct (RI i act now LI AC LT) as (y & RT & LY).
  destruct (settings_nonneg _ _ _ _ (reach_at O ws ls (pr_endless _ _ _ _ _ _ PR) i) AC) as (MG & _).
  apply due_time in RT; [|apply EX|exact MG]. unfold conf in RT. congruence.
Qed.

Lemma valid_for_ever O ws ls tau d p k j n a lo hi m :
  prompt O ws ls tau d p -> 0 <= d -> 0 <= p ->
  undisturbed ws ls k n -> good_provider O ws k n lo hi ->
  (forall i act, (k <= i)%nat -> configured (ws i) n act -> m <= margin act (conf (ws i)) <= tau k - time_min) ->
  (forall i, tau i + hi <= time_max) ->
  12 * d + p < m -> 14 * d + p < lo ->
  holds (ws k) n (TSActive a) -> ongoing a = false -> last_attempt a = None -> refresh_token a <> None ->
  tau k + 12 * d + p < expiry a -> expiry a <= time_max ->
  (k <= j)%nat ->
  exists a', holds (ws j) n (TSActive a') /\ tau (S j) < expiry a'.
Proof.
  intros PR D0 P0 UN GP MG TM S1 S2 (e & I & NM & ACT) OG LA RT SL EX L.
  apply (always_valid O ws ls tau d p PR D0 k n lo hi m P0 UN GP MG TM S1 S2 e a j I); [|exact SL|exact L].
  repeat (split; [assumption|]). lia.
Qed.

Lemma shown_for_ever O ws ls tau d p k j n a lo hi m e wu :
  prompt O ws ls tau d p -> 0 <= d -> 0 <= p ->
  undisturbed ws ls k n -> good_provider O ws k n lo hi ->
  (forall i act, (k <= i)%nat -> configured (ws i) n act -> m <= margin act (conf (ws i)) <= tau k - time_min) ->
  (forall i, tau i + hi <= time_max) ->
  12 * d + p < m -> 14 * d + p < lo ->
  holds (ws k) n (TSActive a) -> ongoing a = false -> last_attempt a = None -> refresh_token a <> None ->
  tau k + 12 * d + p < expiry a -> expiry a <= time_max ->
  (k <= j)%nat ->
  nth_error (w_threads (ws j)) 0 = Some PMain -> ls j = Some (LTick 0 e) ->
  ~ In " "%char wu -> utf8_valid (wu ++ $" " ++ n) = true ->
  let show := $"showtoken:" ++ wu ++ $" " ++ n in
  e_client e = Some show ->
  exists a', holds (ws j) n (TSActive a') /\ env_now e < expiry a'
    /\ just_answers O (ws j) e show ($"access_token:" ++ access_token a').
Proof.
  intros PR D0 P0 UN GP MG TM S1 S2 H OG LA RT SL EX L A LS NS U show CL.
  destruct (valid_for_ever O ws ls tau d p k j n a lo hi m PR D0 P0 UN GP MG TM S1 S2 H OG LA RT SL EX L) as (a' & HO & LT).
  pose proof (pr_clock _ _ _ _ _ _ PR j 0%nat e 0%nat LS) as CK. fold (env_now e) in CK.
  exists a'. split; [exact HO|]. split; [lia|].
  destruct HO as ([n' i ts] & I & NM & ACT). cbn in NM, ACT. subst n' ts.
  pose proof (en_next _ _ _ (pr_endless _ _ _ _ _ _ PR) j) as N. rewrite LS in N.
  unfold just_answers. subst show.
  rewrite (show_active O (ws j) e wu n (reach_at O ws ls (pr_endless _ _ _ _ _ _ PR) j) (step_alive _ _ _ _ N) A NS U i a' CL I).
  destruct (Z.ltb_spec (env_now e) (expiry a')); [reflexivity|lia].
Qed.

Lemma valid_in_outages O ws ls tau d p k j n a lo hi m b g :
  prompt O ws ls tau d p -> 0 <= d -> 0 <= p -> 0 <= b -> 0 <= g ->
  undisturbed ws ls k n -> flaky_provider O ws tau k n lo hi b ->
  (forall i act, (k <= i)%nat -> configured (ws i) n act ->
     m <= margin act (conf (ws i)) <= tau k - time_min /\ retry_gap act (conf (ws i)) <= g) ->
  (forall i, tau i + hi <= time_max) ->
  b + g + 24 * d + 3 * p < m -> b + g + 26 * d + 3 * p < lo ->
  holds (ws k) n (TSActive a) -> ongoing a = false -> last_attempt a = None -> refresh_token a <> None ->
  tau k + b + g + 24 * d + 3 * p < expiry a -> expiry a <= time_max ->
  (k <= j)%nat ->
  exists a', holds (ws j) n (TSActive a') /\ tau (S j) < expiry a'.
Proof.
  intros PR D0 P0 B0 G0 UN FP CF TM S1 S2 (e & I & NM & ACT) OG LA RT SL EX L.
  apply (valid_through_outages O ws ls tau d p PR D0 P0 k n lo hi m b g B0 G0 UN FP
           (fun i act K C => proj1 (CF i act K C)) (fun i act K C => proj2 (CF i act K C)) TM S1 S2 e a j I); [|lia|exact L].
  repeat (split; [assumption|]). lia.
Qed.
