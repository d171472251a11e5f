(** C101: in a responsive system whoever asks for a token is given a valid one, and
    whoever comes back with a code has a token, in time. *)
From Verif Require Import Base Time Utf8 Url Json Oracles Config Dump State Http Timers Server SpecServer SpecTimers
  SpecSessions SpecFair SpecTimed SpecReturn Wire SpecWire SpecServe SpecTurn WireNet TimedTurn Scenario Runs Cases
  ReturnCase ServeCase TurnCase.
Local Open Scope Z_scope.

(** What the server decides to say to a client that has sent its request it says
    before the client's deadline. *)
Theorem C101_answered O ns ls es tau d c k j n req :
  serving O ns ls es tau d c -> 0 <= d -> 0 <= c ->
  has_sent (ns k) n req -> (n_next (ns k) <= n)%nat -> (k <= j)%nat ->
  (forall x, (k <= x)%nat -> (x <= j)%nat -> ~ next_breaks O (es x) (ns x)) ->
  deadline ns tau d c k n < tau (S j) ->
  w_alive (n_world (ns j)) = false
  \/ exists i e x, (k <= i)%nat /\ (i < x)%nat /\ (x <= j)%nat /\ tau x <= deadline ns tau d c k n
       /\ turn ns ls i n e req
       /\ step O (worlds ns i) (LTick 0 (with_client e req)) = SNext (worlds ns (S i))
       /\ labels O ns ls i = Some (LTick 0 (with_client e req))
       /\ forall q o, nth_error (w_threads (n_world (ns (S i)))) 0 = Some q -> In (AEmit o) (will_do q) ->
          exists y, (i < y)%nat /\ (y < x)%nat /\ observed (worlds ns) y = [o].
Proof. exact (fun S D C => client_answered O ns ls es tau d c S D C k j n req). Qed.
Print Assumptions C101_answered.

(** Whoever asks for a token that is valid all the time is given one in time. *)
Theorem C101_shown O ns ls es tau d c k j m n wu :
  serving O ns ls es tau d c -> 0 <= d -> 0 <= c -> clocked (labels O ns ls) tau ->
  let req := $"showtoken:" ++ wu ++ $" " ++ n in
  has_sent (ns k) m req -> (n_next (ns k) <= m)%nat -> (k <= j)%nat ->
  ~ In " "%char wu -> utf8_valid (wu ++ $" " ++ n) = true ->
  (forall x, (k <= x)%nat -> (x <= j)%nat -> ~ next_breaks O (es x) (ns x)) ->
  valid_throughout (worlds ns) tau k j n ->
  deadline ns tau d c k m < tau (S j) ->
  w_alive (n_world (ns j)) = false \/ shown_token ns ls tau k j (deadline ns tau d c k m) m n req.
Proof. exact (fun S D C K => token_shown O ns ls es tau d c S D C K k j m n wu). Qed.
Print Assumptions C101_shown.

(** Since [s] account [n] has a token; from then on no client changes anything about
    it, and the provider answers well.  Then at any later time whoever asks for
    the token is given a valid one in time. *)
Theorem C101_any_time O ns ls es tau d c d' p s k j m n a lo hi mg wu :
  serving O ns ls es tau d c -> 0 <= d -> 0 <= c ->
  prompt O (worlds ns) (labels O ns ls) tau d' p -> 0 <= d' -> 0 <= p ->
  undisturbed (worlds ns) (labels O ns ls) s n -> good_provider O (worlds ns) s n lo hi ->
  (forall i act, (s <= i)%nat -> configured (worlds ns i) n act -> mg <= margin act (conf (worlds ns i)) <= tau s - time_min) ->
  (forall i, tau i + hi <= time_max) ->
  12 * d' + p < mg -> 14 * d' + p < lo ->
  holds (worlds ns s) n (TSActive a) -> ongoing a = false -> last_attempt a = None -> refresh_token a <> None ->
  tau s + 12 * d' + p < expiry a -> expiry a <= time_max ->
  (s <= k)%nat -> (k <= j)%nat ->
  let req := $"showtoken:" ++ wu ++ $" " ++ n in
  has_sent (ns k) m req -> (n_next (ns k) <= m)%nat ->
  ~ In " "%char wu -> utf8_valid (wu ++ $" " ++ n) = true ->
  (forall x, (k <= x)%nat -> (x <= j)%nat -> ~ next_breaks O (es x) (ns x)) ->
  deadline ns tau d c k m < tau (S j) ->
  w_alive (worlds ns j) = false \/ shown_token ns ls tau k j (deadline ns tau d c k m) m n req.
Proof. exact (token_any_time O ns ls es tau d c d' p s k j m n a lo hi mg wu). Qed.
Print Assumptions C101_any_time.

(** So it is when the provider cannot be reached now and then. *)
Theorem C101_outages O ns ls es tau d c d' p s k j m n a lo hi mg b g wu :
  serving O ns ls es tau d c -> 0 <= d -> 0 <= c ->
  prompt O (worlds ns) (labels O ns ls) tau d' p -> 0 <= d' -> 0 <= p -> 0 <= b -> 0 <= g ->
  undisturbed (worlds ns) (labels O ns ls) s n -> flaky_provider O (worlds ns) tau s n lo hi b ->
  (forall i act, (s <= i)%nat -> configured (worlds ns i) n act ->
     mg <= margin act (conf (worlds ns i)) <= tau s - time_min /\ retry_gap act (conf (worlds ns i)) <= g) ->
  (forall i, tau i + hi <= time_max) ->
  b + g + 24 * d' + 3 * p < mg -> b + g + 26 * d' + 3 * p < lo ->
  holds (worlds ns s) n (TSActive a) -> ongoing a = false -> last_attempt a = None -> refresh_token a <> None ->
  tau s + b + g + 24 * d' + 3 * p < expiry a -> expiry a <= time_max ->
  (s <= k)%nat -> (k <= j)%nat ->
  let req := $"showtoken:" ++ wu ++ $" " ++ n in
  has_sent (ns k) m req -> (n_next (ns k) <= m)%nat ->
  ~ In " "%char wu -> utf8_valid (wu ++ $" " ++ n) = true ->
  (forall x, (k <= x)%nat -> (x <= j)%nat -> ~ next_breaks O (es x) (ns x)) ->
  deadline ns tau d c k m < tau (S j) ->
  w_alive (worlds ns j) = false \/ shown_token ns ls tau k j (deadline ns tau d c k m) m n req.
Proof. exact (token_in_outages O ns ls es tau d c d' p s k j m n a lo hi mg b g wu). Qed.
Print Assumptions C101_outages.

(** A browser whose request has come, and which brings a code for account [n]: within
    [5 * d + 10 * p] of that the account has the token the provider gives for the
    code, or the provider could not be reached ten times and the user is told, or
    somebody else has acted on the account. *)
Theorem C101_code O ns ls es tau d c p k j m b uri n i cvr st ln u code lo hi :
  serving O ns ls es tau d c -> 0 <= d ->
  browsing O (worlds ns) (labels O ns ls) tau d p -> 0 <= p -> (k <= j)%nat ->
  nth_error (n_browsers (ns k)) m = Some b -> b_read b = false -> browser_asks O b uri ->
  brings O (worlds ns k) uri n i cvr st ln u code ->
  (forall x m, (k <= x)%nat -> (x <= j)%nat -> awaits (worlds ns x) m st -> m = n) ->
  (forall x res, (k <= x)%nat -> (x < j)%nat -> redeems_code (worlds ns) x code res ->
     good_answer O lo hi res \/ exists t m, res = PRTransport t m) ->
  tau (S j) + hi <= time_max ->
  tau k + 5 * d + 10 * p < tau (S j) ->
  w_alive (n_world (ns j)) = false
  \/ exists g, (k <= g)%nat /\ (g < j)%nat /\ ls g = Some (NRead m)
     /\ (token_from O (worlds ns) k j n code
         \/ (out_of_reach (worlds ns) k j code /\ told_error (worlds ns) k j n)
         \/ meddled (worlds ns) (labels O ns ls) k j (List.length (w_threads (worlds ns g))) (mkEntry n i (TSPending cvr ln st u))).
Proof. exact (fun S D => code_redeemed O ns ls es tau d c S D p k j m b uri n i cvr st ln u code lo hi). Qed.
Print Assumptions C101_code.

(** The token is renewed at 1054 seconds, while the client takes from 1052 to 1056
    seconds to ask for it. *)
Example C101_case :
  serving toy renewed_at renewed_step renewed_env renewed_time (sec 1) (sec 16) /\ 0 <= sec 1 /\ 0 <= sec 16
  /\ prompt toy (worlds renewed_at) (labels toy renewed_at renewed_step) renewed_time (sec 1) (sec 1)
  /\ undisturbed (worlds renewed_at) (labels toy renewed_at renewed_step) 0 $"a"
  /\ good_provider toy (worlds renewed_at) 0 $"a" (sec 3600) (sec 3600)
  /\ (forall i act, configured (worlds renewed_at i) $"a" act ->
        sec 2000 <= margin act (conf (worlds renewed_at i)) <= renewed_time 0 - time_min)
  /\ (forall i, renewed_time i + sec 3600 <= time_max)
  /\ 12 * sec 1 + sec 1 < sec 2000 /\ 14 * sec 1 + sec 1 < sec 3600
  /\ (exists a, holds (worlds renewed_at 0) $"a" (TSActive a) /\ ongoing a = false /\ last_attempt a = None
        /\ refresh_token a <> None /\ renewed_time 0 + 12 * sec 1 + sec 1 < expiry a /\ expiry a <= time_max
        /\ access_token a = $"tok")
  /\ has_sent (renewed_at 25) 1 ($"showtoken:" ++ $"withurl" ++ $" " ++ $"a")
  /\ (n_next (renewed_at 25) <= 1)%nat
  /\ ~ In " "%char $"withurl" /\ utf8_valid ($"withurl" ++ $" " ++ $"a") = true
  /\ (forall x, ~ next_breaks toy (renewed_env x) (renewed_at x))
  /\ deadline renewed_at renewed_time (sec 1) (sec 16) 25 1 < renewed_time 28
  /\ observed (worlds renewed_at) 26 = [OReply $"showtoken:withurl a" $"access_token:new"].
Proof.
  split; [exact renewed_serving|]. split; [vm_compute; discriminate|]. split; [vm_compute; discriminate|].
  split; [exact renewed_prompt|]. split; [exact renewed_undisturbed|]. split; [exact renewed_provider|].
  split; [intros i act C; rewrite (renewed_margin i act C); vm_compute; split; discriminate|].
  split; [intros i; pose proof (renewed_within i) as W; apply (Z.le_trans _ (sec 1090 + sec 3600)); [lia|vm_compute; discriminate]|].
  split; [vm_compute; reflexivity|]. split; [vm_compute; reflexivity|].
  split.
  { eexists. split; [eexists; split; [vm_compute; left; reflexivity|split; vm_compute; reflexivity]|].
    split; [reflexivity|]. split; [reflexivity|]. split; [discriminate|]. split; [vm_compute; reflexivity|].
    split; [vm_compute; discriminate|reflexivity]. }
  split; [eexists; split; vm_compute; reflexivity|]. split; [vm_compute; lia|].
  split; [intros H; vm_compute in H; repeat (destruct H as [H|H]; [discriminate H|]); exact H|]. split; [vm_compute; reflexivity|]. split; [exact renewed_unbroken|].
  split; vm_compute; reflexivity.
Qed.

(** The browser's request comes in two pieces. *)
Example C101_case_code :
  serving toy obtain_at obtain_step obtain_env obtain_time (sec 1) 0 /\ 0 <= sec 1
  /\ browsing toy (worlds obtain_at) (labels toy obtain_at obtain_step) obtain_time (sec 1) (sec 1)
  /\ (exists b, nth_error (n_browsers (obtain_at 11)) 0 = Some b /\ b_read b = false /\ browser_asks toy b code_url)
  /\ (exists i cvr ln u, brings toy (worlds obtain_at 11) code_url $"a" i cvr (state_of $"statebytes") ln u $"c0de")
  /\ (forall x m, (11 <= x)%nat -> (x <= 24)%nat -> awaits (worlds obtain_at x) m (state_of $"statebytes") -> m = $"a")
  /\ (forall x res, (11 <= x)%nat -> (x < 24)%nat -> redeems_code (worlds obtain_at) x $"c0de" res ->
        good_answer toy (sec 3600) (sec 3600) res \/ exists t m, res = PRTransport t m)
  /\ obtain_time 25 + sec 3600 <= time_max
  /\ obtain_time 11 + 5 * sec 1 + 10 * sec 1 < obtain_time 25
  /\ token_from toy (worlds obtain_at) 11 24 $"a" $"c0de".
Proof.
  split; [exact obtain_serving|]. split; [vm_compute; discriminate|]. split; [exact obtain_browsing|].
  split; [eexists; split; [vm_compute; reflexivity|]; split; [reflexivity|apply got_iff; vm_compute; reflexivity]|].
  split.
  { do 4 eexists. split; [vm_compute; left; reflexivity|vm_compute; reflexivity|vm_compute; reflexivity|vm_compute; reflexivity|].
    do 2 eexists. split; [vm_compute; reflexivity|]. split; [vm_compute; reflexivity|]. split; [|split]; vm_compute; reflexivity. }
  split; [intros x m _ L; apply (slow_unique (worlds obtain_at) x 24); [vm_compute; reflexivity|exact L]|].
  split; [intros x res _ L; apply (slow_answers (worlds obtain_at) x 24); [vm_compute; reflexivity|exact L]|].
  split; [vm_compute; discriminate|]. split; [vm_compute; reflexivity|].
  exists 14%nat, 15%nat, $"Rtok". do 2 eexists. split; [lia|]. split; [lia|]. split; [lia|].
  split; [do 2 eexists; split; [vm_compute; reflexivity|left; reflexivity]|].
  split; [vm_compute; reflexivity|]. split; [|split; [|eexists; split; [vm_compute; left; reflexivity|split; vm_compute; reflexivity]]]; vm_compute; reflexivity.
Qed.

(** The attempt to renew the token at 1054 seconds fails, that at 1065 seconds
    succeeds; meanwhile a client is given the old token, which is still valid. *)
Example C101_case_outages :
  serving toy outage_at outage_step outage_env outage_time (sec 1) (sec 15) /\ 0 <= sec 15
  /\ prompt toy (worlds outage_at) (labels toy outage_at outage_step) outage_time (sec 1) (sec 1)
  /\ undisturbed (worlds outage_at) (labels toy outage_at outage_step) 0 $"a"
  /\ flaky_provider toy (worlds outage_at) outage_time 0 $"a" (sec 3600) (sec 3600) 0
  /\ fails_at (worlds outage_at) $"a" 10
  /\ (forall i act, configured (worlds outage_at i) $"a" act ->
        sec 3000 <= margin act (conf (worlds outage_at i)) <= outage_time 0 - time_min
        /\ retry_gap act (conf (worlds outage_at i)) <= sec 10)
  /\ (forall i, outage_time i + sec 3600 <= time_max)
  /\ 0 + sec 10 + 24 * sec 1 + 3 * sec 1 < sec 3000 /\ 0 + sec 10 + 26 * sec 1 + 3 * sec 1 < sec 3600
  /\ (exists a, holds (worlds outage_at 0) $"a" (TSActive a) /\ ongoing a = false /\ last_attempt a = None
        /\ refresh_token a <> None /\ outage_time 0 + 0 + sec 10 + 24 * sec 1 + 3 * sec 1 < expiry a /\ expiry a <= time_max)
  /\ has_sent (outage_at 21) 1 ($"showtoken:" ++ $"withurl" ++ $" " ++ $"a")
  /\ (n_next (outage_at 21) <= 1)%nat
  /\ (forall x, ~ next_breaks toy (outage_env x) (outage_at x))
  /\ deadline outage_at outage_time (sec 1) (sec 15) 21 1 < outage_time 40
  /\ observed (worlds outage_at) 22 = [OReply $"showtoken:withurl a" $"access_token:tok"]
  /\ (exists a, holds (worlds outage_at 39) $"a" (TSActive a) /\ access_token a = $"new").
Proof.
  split; [exact outage_serving|]. split; [vm_compute; discriminate|].
  split; [exact outage_prompt|]. split; [exact outage_undisturbed|]. split; [exact outage_provider|].
  split.
  { exists (PRTransport TrDns $"no"). split; [|exact I]. do 4 eexists. split; [eexists; split; [vm_compute; left; reflexivity|split; vm_compute; reflexivity]|].
    split; [reflexivity|]. split; [vm_compute; reflexivity|]. vm_compute. intuition. }
  split; [intros i act C; destruct (outage_settings i act C) as [-> ->]; vm_compute; repeat split; discriminate|].
  split; [intros i; pose proof (outage_within i) as W; apply (Z.le_trans _ (sec 1100 + sec 3600)); [lia|vm_compute; discriminate]|].
  split; [vm_compute; reflexivity|]. split; [vm_compute; reflexivity|].
  split.
  { eexists. split; [eexists; split; [vm_compute; left; reflexivity|split; vm_compute; reflexivity]|].
    split; [reflexivity|]. split; [reflexivity|]. split; [discriminate|]. split; [vm_compute; reflexivity|].
    vm_compute; discriminate. }
  split; [eexists; split; vm_compute; reflexivity|]. split; [vm_compute; lia|].
  split; [exact outage_unbroken|]. split; [vm_compute; reflexivity|]. split; [vm_compute; reflexivity|].
  eexists. split; [eexists; split; [vm_compute; left; reflexivity|split; vm_compute; reflexivity]|reflexivity].
Qed.
