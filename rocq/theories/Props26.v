(** In a responsive system browsers are served, and what they bring is used, in time. *)
From Verif Require Import Base BaseLemmas Time Utf8 Base64 Url Json Oracles Config Dump State Http Timers Server
  SpecServer SpecTimers SpecSessions SpecFair SpecTimed SpecReturn TimedReturn ReturnCase Scenario Runs Cases Endless.
Local Open Scope Z_scope.

(** ** C98: a browser that comes back leads to a token, or its user is told why not, in time

    The times of the states are [tau]; an attempt to reach the provider takes no
    longer than [p], everything else a browser's thread does no longer than [d]
    ([browsing]).  Then a browser has its answer within [2 * d], *)

Theorem C98_answered O ws ls tau d p k j tid https bytes :
  browsing O ws ls tau d p -> 0 <= d -> 0 <= p -> (k <= j)%nat ->
  nth_error (w_threads (ws k)) tid = Some (PHttpStart https bytes) ->
  tau k + 2 * d < tau (S j) ->
  exists x r, (k <= x)%nat /\ (x < j)%nat /\ goes ls x tid /\ observed ws x = [OHttpResp r].
Proof. exact (fun B D P L A => browser_answered O ws ls tau d p B D k j tid https bytes A L). Qed.
Print Assumptions C98_answered.

(** its thread has ended within [6 * d + 10 * p], *)

Theorem C98_served O ws ls tau d p k j tid https bytes :
  browsing O ws ls tau d p -> 0 <= d -> 0 <= p -> (k <= j)%nat ->
  nth_error (w_threads (ws k)) tid = Some (PHttpStart https bytes) ->
  tau k + 6 * d + 10 * p < tau (S j) -> over (ws j) tid.
Proof. exact (fun B D P L A => browser_served O ws ls tau d p B D P k j tid https bytes A L). Qed.
Print Assumptions C98_served.

(** and if it brings a code for account [n], and the provider answers with a token
    whenever it can be reached, then within [4 * d + 10 * p] the account has that
    token, or the provider could not be reached ten times and the user is told,
    or somebody else has acted on the account: a reload, a client, a reminder, or
    another browser. *)

Theorem C98_token_in_time O ws ls tau d p k j tid https bytes n i cvr st ln u code lo hi :
  browsing O ws ls tau d p -> 0 <= d -> 0 <= p -> (k <= j)%nat ->
  nth_error (w_threads (ws k)) tid = Some (PHttpStart https bytes) ->
  comes_back O (ws k) https bytes n i cvr st ln u code ->
  (forall x m, (k <= x)%nat -> (x <= j)%nat -> awaits (ws x) m st -> m = n) ->
  (forall x res, (k <= x)%nat -> (x < j)%nat -> redeems_code ws x code res ->
     good_answer O lo hi res \/ exists t m, res = PRTransport t m) ->
  tau (S j) + hi <= time_max ->
  tau k + 4 * d + 10 * p < tau (S j) ->
  token_from O ws k j n code
  \/ (out_of_reach ws k j code /\ told_error ws k j n)
  \/ meddled ws ls k j tid (mkEntry n i (TSPending cvr ln st u)).
Proof.
  exact (fun B D P L A C U AN R => browser_token O ws ls tau d p B D P k tid https bytes n i cvr st ln u code C j U lo hi AN R A L).
Qed.
Print Assumptions C98_token_in_time.

(** Two attempts fail, the third gives the token. *)
Example C98_case :
  browsing toy twice_at twice_step twice_time (sec 1) (sec 6) /\ 0 <= sec 1 /\ 0 <= sec 6
  /\ nth_error (w_threads (twice_at 5)) 4 = Some (PHttpStart false coming)
  /\ (exists i cvr ln u, comes_back toy (twice_at 5) false coming $"a" i cvr (state_of $"statebytes") ln u $"c0de")
  /\ (forall x m, (5 <= x)%nat -> (x <= 21)%nat -> awaits (twice_at x) m (state_of $"statebytes") -> m = $"a")
  /\ (forall x res, (5 <= x)%nat -> (x < 21)%nat -> redeems_code twice_at x $"c0de" res ->
        good_answer toy (sec 3600) (sec 3600) res \/ exists t m, res = PRTransport t m)
  /\ twice_time 22 + sec 3600 <= time_max
  /\ twice_time 5 + 6 * sec 1 + 10 * sec 6 < twice_time 22
  /\ token_from toy twice_at 5 21 $"a" $"c0de".
Proof.
  split; [exact twice_browsing|]. split; [vm_compute; discriminate|]. split; [vm_compute; discriminate|].
  split; [vm_compute; reflexivity|].
  split.
  { do 4 eexists. split; [vm_compute; left; reflexivity|]. do 3 eexists. split; [vm_compute; reflexivity|].
    split; [vm_compute; reflexivity|]. split; [vm_compute; reflexivity|]. split; [vm_compute; reflexivity|].
    split; [vm_compute; reflexivity|]. split; [vm_compute; reflexivity|]. split; [|split]; vm_compute; reflexivity. }
  split; [intros x m _ L; apply (slow_unique twice_at x 21); [vm_compute; reflexivity|exact L]|].
  split; [intros x res _ L; apply (slow_answers twice_at x 21); [vm_compute; reflexivity|exact L]|].
  split; [vm_compute; discriminate|]. split; [vm_compute; reflexivity|].
  exists 9%nat, 10%nat, $"Rtok". do 2 eexists. split; [lia|]. split; [lia|]. split; [lia|].
  split; [do 2 eexists; split; [vm_compute; reflexivity|left; reflexivity]|].
  split; [vm_compute; reflexivity|]. split; [|split; [|eexists; split; [vm_compute; left; reflexivity|split; vm_compute; reflexivity]]]; vm_compute; reflexivity.
Qed.

(** None of ten attempts succeeds. *)
Example C98_case_never :
  browsing toy never_at never_step never_time (sec 1) (sec 6)
  /\ nth_error (w_threads (never_at 5)) 4 = Some (PHttpStart false coming)
  /\ (exists i cvr ln u, comes_back toy (never_at 5) false coming $"a" i cvr (state_of $"statebytes") ln u $"c0de")
  /\ (forall x m, (5 <= x)%nat -> (x <= 19)%nat -> awaits (never_at x) m (state_of $"statebytes") -> m = $"a")
  /\ (forall x res, (5 <= x)%nat -> (x < 19)%nat -> redeems_code never_at x $"c0de" res ->
        good_answer toy (sec 3600) (sec 3600) res \/ exists t m, res = PRTransport t m)
  /\ never_time 20 + sec 3600 <= time_max
  /\ never_time 5 + 6 * sec 1 + 10 * sec 6 < never_time 20
  /\ told_error never_at 5 19 $"a".
Proof.
  split; [exact never_browsing|]. split; [vm_compute; reflexivity|].
  split.
  { do 4 eexists. split; [vm_compute; left; reflexivity|]. do 3 eexists. split; [vm_compute; reflexivity|].
    split; [vm_compute; reflexivity|]. split; [vm_compute; reflexivity|]. split; [vm_compute; reflexivity|].
    split; [vm_compute; reflexivity|]. split; [vm_compute; reflexivity|]. split; [|split]; vm_compute; reflexivity. }
  split; [intros x m _ L; apply (slow_unique never_at x 19); [vm_compute; reflexivity|exact L]|].
  split; [intros x res _ L; apply (slow_answers never_at x 19); [vm_compute; reflexivity|exact L]|].
  split; [vm_compute; discriminate|]. split; [vm_compute; reflexivity|].
  eexists 18%nat, _. split; [lia|]. split; [lia|]. split; [vm_compute; reflexivity|]. eexists. right. eexists. reflexivity.
Qed.
