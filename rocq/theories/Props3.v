(** C24-C32: the background threads: refreshing, reminding, telling of events. *)
From Verif Require Import Base BaseLemmas Time Utf8 Base64 Url Json Oracles Config Dump State Http Timers Server
  SpecServer Reach Trace SpecTimers Refresh Wake Sched Retry Remind Events Scenario Runs Cases.
Local Open Scope Z_scope.

(** An environment whose clock goes on by a nanosecond with every reading. *)
Definition ticking (t : Z) : env :=
  mkEnv (fun k => let x := t + Z.of_nat k in mkReads x x x x) $"statebytes" $"verifier bytes" $"noncenonceno"
    None None (fun _ => 0%N) (fun n => n) (PRTransport TrOther []) true false.

(** * C24 *)

(** Looking at a token nobody is refreshing and with no failed attempt
    outstanding, the refresher decides to refresh it exactly from
    [refresh_before_expiry] before its expiry on, or from [refresh_at_least]
    after it was obtained on. *)
Theorem C24_refreshed_in_time O w e n act a :
  reachable O w -> looking w -> configured w n act -> holds w n (TSActive a) ->
  ongoing a = false -> last_attempt a = None ->
  time_min <= expiry a - margin act (conf w) -> env_now e <= time_max ->
  decides O w e n
  <-> (expiry a - margin act (conf w) <= env_now e \/ obtained a + max_age act (conf w) <= env_now e).
Proof. exact (decides_fresh O w e n act a). Qed.
Print Assumptions C24_refreshed_in_time.

(** It does so even with a setting of [refresh_before_expiry] that leads to a
    time no clock can show, but then only once the token has expired. *)
Theorem C24_expired_tokens_refreshed O w e n act a :
  reachable O w -> looking w -> configured w n act -> holds w n (TSActive a) ->
  ongoing a = false -> last_attempt a = None -> env_now e <= time_max ->
  expiry a <= env_now e \/ obtained a + max_age act (conf w) <= env_now e ->
  decides O w e n.
Proof. exact (decides_late O w e n act a). Qed.
Print Assumptions C24_expired_tokens_refreshed.

(** Asleep, with nobody about to wake it, it wakes up by itself in time to do
    so. *)
Theorem C24_wakes_up_in_time O w until n act a t e1 e2 e3 :
  reachable O w -> w_alive w = true -> refresher_sleeps w until -> ~ under_way w ASigRefresher ->
  configured w n act -> holds w n (TSActive a) -> ongoing a = false -> last_attempt a = None ->
  time_ok (expiry a) -> time_min <= expiry a - margin act (conf w) ->
  t = Z.min (expiry a - margin act (conf w)) (obtained a + max_age act (conf w)) ->
  e_wake e1 = true -> t < env_now e2 -> t <= env_now e3 -> env_now e3 <= time_max ->
  exists w2, run O w [LTick 3 e1; LTick 3 e2] = Some (SNext w2) /\ looking w2 /\ decides O w2 e3 n.
Proof. exact (refreshed_from_sleep O w until n act a t e1 e2 e3). Qed.
Print Assumptions C24_wakes_up_in_time.

(** Which settings count: the account's, else the global ones, else 90 s, 90
    min, 40 s. *)
Example C24_settings :
  margin (mkAccount $"a" [] [] [] None [] None None None [] []) (conf w_auth) = secs 90
  /\ max_age (mkAccount $"a" [] [] [] None [] None None None [] []) (conf w_auth) = secs (90 * 60)
  /\ retry_gap (mkAccount $"a" [] [] [] None [] None None None [] []) (conf w_auth) = secs 40
  /\ exists act, configured w_margin $"a" act /\ margin act (conf w_margin) = secs 18446744073709551615.
Proof.
  split; [vm_compute; reflexivity|]. split; [vm_compute; reflexivity|]. split; [vm_compute; reflexivity|].
  eexists. split; vm_compute; reflexivity.
Qed.

Example C24_case :
  (exists act a, reachable toy w_look /\ looking w_look /\ configured w_look $"a" act /\ holds w_look $"a" (TSActive a)
    /\ ongoing a = false /\ last_attempt a = None /\ time_min <= expiry a - margin act (conf w_look)
    /\ expiry a - margin act (conf w_look) = secs 4513)
  /\ decides toy w_look (tick (sec 4513)) $"a" /\ ~ decides toy w_look (tick (sec 4513 - 1)) $"a"
  /\ (exists until act a, reachable toy w_asleep /\ refresher_sleeps w_asleep until /\ ~ under_way w_asleep ASigRefresher
    /\ configured w_asleep $"a" act /\ holds w_asleep $"a" (TSActive a)).
Proof.
  assert (exists act a, reachable toy w_look /\ looking w_look /\ configured w_look $"a" act /\ holds w_look $"a" (TSActive a)
    /\ ongoing a = false /\ last_attempt a = None /\ time_min <= expiry a - margin act (conf w_look)
    /\ expiry a - margin act (conf w_look) = secs 4513 /\ obtained a + max_age act (conf w_look) = secs 6403) as H.
  { do 2 eexists. split; [unfold w_look, w_auth; reach_after|].
    split; [split; vm_compute; reflexivity|]. split; [vm_compute; reflexivity|].
    split; [eexists; split; [vm_compute; left; reflexivity|]; split; vm_compute; reflexivity|].
    split; [vm_compute; reflexivity|]. split; [vm_compute; reflexivity|].
    split; [vm_compute; discriminate|]. split; vm_compute; reflexivity. }
  destruct H as (act & a & R & LK & C & H & OG & LA & M & E1 & E2).
  split; [exists act, a; tauto|]. split; [|split].
  - apply (C24_refreshed_in_time toy w_look _ _ act a); try assumption; [vm_compute; discriminate|].
    left. rewrite E1. vm_compute. discriminate.
  - intros D. apply (C24_refreshed_in_time toy w_look _ _ act a) in D; try assumption; [|vm_compute; discriminate].
    rewrite E1, E2 in D. destruct D as [D|D]; vm_compute in D; apply D; reflexivity.
  - do 3 eexists. split; [unfold w_asleep, w_look, w_auth; reach_after|].
    split; [split; vm_compute; reflexivity|]. split.
    + intros (tid & p & N & I). vm_compute in N.
      destruct tid as [|[|[|[|[|tid]]]]]; try (injection N as <-; destruct I); try discriminate N.
      destruct tid; discriminate N.
    + split; [vm_compute; reflexivity|].
      eexists; split; [vm_compute; left; reflexivity|]; split; vm_compute; reflexivity.
Qed.

(** The first theorem does not hold for every setting: if the time from which
    the token is to be refreshed lies before the earliest one the clock can
    show, the token is only refreshed once it has expired. *)
Theorem C24_unrepresentable_margin_refuted :
  exists w e act a,
    reachable toy w /\ looking w /\ configured w $"a" act /\ holds w $"a" (TSActive a)
    /\ ongoing a = false /\ last_attempt a = None /\ env_now e <= time_max
    /\ expiry a - margin act (conf w) <= env_now e /\ ~ decides toy w e $"a".
Proof.
  assert (reachable toy w_margin) as R by (unfold w_margin; reach_after).
  assert (looking w_margin) as LK by (split; vm_compute; reflexivity).
  assert (exists act a, configured w_margin $"a" act /\ holds w_margin $"a" (TSActive a)
    /\ ongoing a = false /\ last_attempt a = None /\ expiry a = sec 4603 /\ obtained a = sec 1003
    /\ margin act (conf w_margin) = secs 18446744073709551615
    /\ max_age act (conf w_margin) = secs 5400) as (act & a & C & H & OG & LA & EX & OB & MG & MA).
  { do 2 eexists. split; [vm_compute; reflexivity|].
    split; [eexists; split; [vm_compute; left; reflexivity|]; split; vm_compute; reflexivity|]. compute_all. }
  exists w_margin, (ticking (sec 4000)), act, a.
  split; [exact R|]. split; [exact LK|]. split; [exact C|]. split; [exact H|]. split; [exact OG|].
  split; [exact LA|]. split; [vm_compute; discriminate|].
  split; [rewrite EX, MG; vm_compute; discriminate|]. intros D.
  apply (decides_no_margin toy w_margin (ticking (sec 4000)) $"a" act a) in D; try assumption.
  - rewrite EX, OB, MA in D. destruct D as [D|D]; vm_compute in D; apply D; reflexivity.
  - rewrite EX, MG. vm_compute. reflexivity.
  - vm_compute. discriminate.
  - intros k. cbn [e_clk ticking ri1 env_now]. lia.
Qed.
Print Assumptions C24_unrepresentable_margin_refuted.

(** A token being refreshed is left alone, whatever the time. *)
Theorem C24_one_refresh_at_a_time O w e n a :
  reachable O w -> looking w -> holds w n (TSActive a) -> ongoing a = true -> ~ decides O w e n.
Proof. exact (decides_ongoing O w e n a). Qed.
Print Assumptions C24_one_refresh_at_a_time.

(** Only tokens are refreshed. *)
Theorem C24_only_tokens_refreshed O w e n :
  reachable O w -> looking w -> decides O w e n -> exists a, holds w n (TSActive a) /\ ongoing a = false.
Proof. exact (decides_active O w e n). Qed.
Print Assumptions C24_only_tokens_refreshed.

(** * C25 *)

(** A token the refresher looks at the very moment it has been obtained is
    refreshed at once exactly if it does not last longer than
    [refresh_before_expiry], or [refresh_at_least] is zero. *)
Theorem C25_fresh_tokens_left_alone O w e n act a :
  reachable O w -> looking w -> configured w n act -> holds w n (TSActive a) ->
  ongoing a = false -> last_attempt a = None -> time_ok (obtained a) -> time_ok (expiry a) ->
  (forall k, ri1 (e_clk e k) = obtained a) ->
  decides O w e n <-> (expiry a - obtained a <= margin act (conf w) \/ max_age act (conf w) <= 0).
Proof. exact (decides_at_once O w e n act a). Qed.
Print Assumptions C25_fresh_tokens_left_alone.

(** So a token may be refreshed at once: one that lasts ten seconds is, with
    the default of 90 s. *)
Theorem C25_short_lived_token_refuted :
  exists w e act a,
    reachable toy w /\ looking w /\ configured w $"a" act /\ holds w $"a" (TSActive a)
    /\ ongoing a = false /\ last_attempt a = None /\ time_ok (obtained a) /\ time_ok (expiry a)
    /\ (forall k, ri1 (e_clk e k) = obtained a) /\ obtained a < expiry a /\ decides toy w e $"a".
Proof.
  assert (reachable toy w_short) as R by (unfold w_short; reach_after).
  assert (looking w_short) as LK by (split; vm_compute; reflexivity).
  exists w_short, (tick (sec 1003)). do 2 eexists.
  split; [exact R|]. split; [exact LK|]. split; [vm_compute; reflexivity|].
  split; [eexists; split; [vm_compute; left; reflexivity|]; split; vm_compute; reflexivity|].
  split; [vm_compute; reflexivity|]. split; [vm_compute; reflexivity|].
  split; [split; vm_compute; discriminate|]. split; [split; vm_compute; discriminate|].
  split; [intros k; vm_compute; reflexivity|]. split; [vm_compute; reflexivity|].
  do 4 eexists. split; [vm_compute; reflexivity|]. split; [vm_compute; reflexivity|].
  split; [left; reflexivity|]. vm_compute. left. reflexivity.
Qed.
Print Assumptions C25_short_lived_token_refuted.

Example C25_case :
  ~ decides toy w_look (tick (sec 1003)) $"a".
Proof.
  assert (exists act a, configured w_look $"a" act /\ holds w_look $"a" (TSActive a)
    /\ ongoing a = false /\ last_attempt a = None /\ expiry a = sec 4603 /\ obtained a = sec 1003
    /\ margin act (conf w_look) = secs 90
    /\ max_age act (conf w_look) = secs 5400) as (act & a & C & H & OG & LA & EX & OB & MG & MA).
  { do 2 eexists. split; [vm_compute; reflexivity|].
    split; [eexists; split; [vm_compute; left; reflexivity|]; split; vm_compute; reflexivity|]. compute_all. }
  intros D. apply (C25_fresh_tokens_left_alone toy w_look (tick (sec 1003)) $"a" act a) in D; try assumption.
  - rewrite EX, OB, MG, MA in D. destruct D as [D|D]; vm_compute in D; apply D; reflexivity.
  - unfold w_look, w_auth; reach_after.
  - split; vm_compute; reflexivity.
  - rewrite OB. split; vm_compute; discriminate.
  - rewrite EX. split; vm_compute; discriminate.
  - intros k. rewrite OB. vm_compute. reflexivity.
Qed.

(** * C26 *)

(** A token whose last attempt was made at [l] is refreshed exactly from
    [refresh_retry] later on, if a clock can show that time.  (C20 says that a
    network failure at time t makes t the time of the last attempt.) *)
Theorem C26_retry_time O w e n act a l :
  reachable O w -> looking w -> configured w n act -> holds w n (TSActive a) ->
  ongoing a = false -> last_attempt a = Some l -> l + retry_gap act (conf w) <= time_max ->
  decides O w e n <-> l + retry_gap act (conf w) <= env_now e.
Proof. exact (decides_retry O w e n act a l). Qed.
Print Assumptions C26_retry_time.

(** Whatever happens in between, as long as no token is obtained (nor restored)
    for the account, the refresher starts no attempt earlier than
    [refresh_retry] after the last one. *)
Theorem C26_retries_spaced O w1 n a t ls w2 e act T :
  reachable O w1 -> holds w1 n (TSActive a) -> last_attempt a = Some t ->
  run O w1 ls = Some (SNext w2) ->
  (forall tid e', In (LTick tid e') ls ->
     t <= env_now e' <= T /\ forall bytes, e_client e' <> Some ($"restore:" ++ bytes)) ->
  (forall os ev, w_trace w2 = w_trace w1 ++ os -> ev = EvNew \/ ev = EvRefresh ->
     ~ In (OEvent n ev) os /\ ~ under_way w2 (APushEvent n ev)) ->
  t <= T -> configured w2 n act -> T + retry_gap act (conf w2) <= time_max ->
  looking w2 -> decides O w2 e n -> t + retry_gap act (conf w2) <= env_now e.
Proof. exact (retries_spaced O w1 n a t ls w2 e act T). Qed.
Print Assumptions C26_retries_spaced.

Definition w_failed_at : world := after w_auth (failing 1 5).

Example C26_case :
  (exists act a, reachable toy w_failed /\ looking w_failed /\ configured w_failed $"a" act
     /\ holds w_failed $"a" (TSActive a) /\ ongoing a = false /\ last_attempt a = Some (sec 1023)
     /\ sec 1023 + retry_gap act (conf w_failed) = sec 1063)
  /\ decides toy w_failed (tick (sec 1063)) $"a"
  /\ ~ decides toy w_failed (tick (sec 1063 - 1)) $"a"
  /\ (exists a, reachable toy w_failed_at /\ holds w_failed_at $"a" (TSActive a) /\ last_attempt a = Some (sec 1023)
      /\ run toy w_failed_at (many 2 3 (tick (sec 1024))) = Some (SNext w_failed)
      /\ w_trace w_failed = w_trace w_failed_at
      /\ forall ev, ~ under_way w_failed (APushEvent $"a" ev)).
Proof.
  assert (exists act a, reachable toy w_failed /\ looking w_failed /\ configured w_failed $"a" act
     /\ holds w_failed $"a" (TSActive a) /\ ongoing a = false /\ last_attempt a = Some (sec 1023)
     /\ sec 1023 + retry_gap act (conf w_failed) = sec 1063) as (act & a & R & LK & C & H & OG & LA & E).
  { do 2 eexists. split; [unfold w_failed, w_auth; reach_after|]. split; [split; vm_compute; reflexivity|].
    split; [vm_compute; reflexivity|].
    split; [eexists; split; [vm_compute; left; reflexivity|]; split; vm_compute; reflexivity|].
    split; [vm_compute; reflexivity|]. split; vm_compute; reflexivity. }
  split; [exists act, a; tauto|]. split; [|split].
  - apply (C26_retry_time toy w_failed _ _ act a (sec 1023)); try assumption; rewrite E; vm_compute; discriminate.
  - intros D. apply (C26_retry_time toy w_failed _ _ act a (sec 1023)) in D; try assumption; rewrite E in *.
    + vm_compute in D. apply D. reflexivity.
    + vm_compute. discriminate.
  - eexists. split; [unfold w_failed_at, w_auth; reach_after|].
    split; [eexists; split; [vm_compute; left; reflexivity|]; split; vm_compute; reflexivity|].
    split; [vm_compute; reflexivity|]. split; [vm_compute; reflexivity|]. split; [vm_compute; reflexivity|].
    intros ev (tid & p & N & I). vm_compute in N.
    destruct tid as [|[|[|[|[|[|tid]]]]]]; try (injection N as <-; destruct I); try discriminate N.
    destruct tid; discriminate N.
Qed.

(** A pause so long that no clock can show its end is none at all. *)
Theorem C26_unrepresentable_pause_refuted :
  exists w e act a l,
    reachable toy w /\ looking w /\ configured w $"a" act /\ holds w $"a" (TSActive a)
    /\ ongoing a = false /\ last_attempt a = Some l /\ env_now e <= time_max
    /\ env_now e < l + retry_gap act (conf w) /\ decides toy w e $"a".
Proof.
  assert (reachable toy w_failed_long) as R by (unfold w_failed_long; reach_after).
  assert (looking w_failed_long) as LK by (split; vm_compute; reflexivity).
  exists w_failed_long, (tick (sec 5000)). do 3 eexists.
  split; [exact R|]. split; [exact LK|]. split; [vm_compute; reflexivity|].
  split; [eexists; split; [vm_compute; left; reflexivity|]; split; vm_compute; reflexivity|].
  split; [vm_compute; reflexivity|]. split; [vm_compute; reflexivity|].
  split; [vm_compute; discriminate|]. split; [vm_compute; reflexivity|].
  do 4 eexists. split; [vm_compute; reflexivity|]. split; [vm_compute; reflexivity|].
  split; [left; reflexivity|]. vm_compute. left. reflexivity.
Qed.
Print Assumptions C26_unrepresentable_pause_refuted.

(** * C27 *)

(** Before going to sleep the refresher computes a deadline: at most 37 s
    ahead, and not later than the time any token is to be refreshed; none if
    there is nothing to refresh.  (If the due time is the present, as it is
    for the settings of C24_unrepresentable_margin_refuted, it keeps being the
    present.) *)
Theorem C27_refresher_deadline O w e w' :
  reachable O w -> nth_error (w_threads w) 3 = Some PRfTop -> step O w (LTick 3 e) = SNext w' ->
  exists until, nth_error (w_threads w') 3 = Some (PRfCheck until) /\ w_lk w' = w_lk w
    /\ (forall n act a, configured w n act -> holds w n (TSActive a) -> ongoing a = false -> time_ok (expiry a) ->
          exists d, until = Some d /\ d <= env_now e + secs 37
            /\ forall now t, refresh_time act (conf w) now a t -> d <= t \/ (t = now /\ now < d))
    /\ (until <> None -> exists n a, holds w n (TSActive a) /\ ongoing a = false).
Proof. exact (refresher_plans O w e w'). Qed.
Print Assumptions C27_refresher_deadline.

Theorem C27_notifier_deadline O w e w' :
  reachable O w -> nth_error (w_threads w) 2 = Some PNtTop -> step O w (LTick 2 e) = SNext w' ->
  (forall k, ri1 (e_clk e k) <= time_max) ->
  exists until, nth_error (w_threads w') 2 = Some (PNtCheck until) /\ w_lk w' = w_lk w
    /\ (forall n cvr ln st u now t, holds w n (TSPending cvr ln st u) -> remind_time (conf w) now ln t ->
          exists d, until = Some d /\ d <= env_now e + secs 37 /\ (d <= t \/ (t = now /\ now < d)))
    /\ (until <> None -> exists n cvr ln st u, holds w n (TSPending cvr ln st u)).
Proof. exact (notifier_plans O w e w'). Qed.
Print Assumptions C27_notifier_deadline.

Definition w_plan : world := after w_look (many 1 3 (tick (sec 1003))).
Definition w_nt_plan : world := after w_nt_decided (many 1 2 (tick (sec 1000))).

Example C27_case :
  (exists w' act a t, reachable toy w_plan /\ nth_error (w_threads w_plan) 3 = Some PRfTop
     /\ step toy w_plan (LTick 3 (tick (sec 1003))) = SNext w'
     /\ nth_error (w_threads w') 3 = Some (PRfCheck (Some (sec 1040)))
     /\ configured w_plan $"a" act /\ holds w_plan $"a" (TSActive a) /\ ongoing a = false /\ time_ok (expiry a)
     /\ refresh_time act (conf w_plan) 0 a t)
  /\ (exists w' cvr ln st u t, reachable toy w_nt_plan /\ nth_error (w_threads w_nt_plan) 2 = Some PNtTop
     /\ step toy w_nt_plan (LTick 2 (tick (sec 1000))) = SNext w'
     /\ nth_error (w_threads w') 2 = Some (PNtCheck (Some (sec 1037)))
     /\ holds w_nt_plan $"a" (TSPending cvr ln st u) /\ remind_time (conf w_nt_plan) 0 ln t).
Proof.
  split.
  - do 4 eexists. split; [unfold w_plan, w_look, w_auth; reach_after|]. split; [vm_compute; reflexivity|].
    split; [vm_compute; reflexivity|]. split; [vm_compute; reflexivity|]. split; [vm_compute; reflexivity|].
    split; [eexists; split; [vm_compute; left; reflexivity|]; split; vm_compute; reflexivity|].
    split; [vm_compute; reflexivity|]. split; [split; vm_compute; discriminate|].
    apply rt_fresh; [reflexivity|discriminate|vm_compute; discriminate].
  - do 6 eexists. split; [unfold w_nt_plan, w_nt_decided, w_nt_look, w_pend; reach_after|].
    split; [vm_compute; reflexivity|].
    split; [vm_compute; reflexivity|]. split; [vm_compute; reflexivity|].
    split; [eexists; split; [vm_compute; left; reflexivity|]; split; vm_compute; reflexivity|].
    apply rm_next. vm_compute. discriminate.
Qed.

(** * C28 *)

Theorem C28_refresher_no_lost_wakeup O w until :
  reachable O w -> refresher_sleeps w until -> ~ under_way w ASigRefresher ->
  forall n act a now t, configured w n act -> holds w n (TSActive a) -> time_ok (expiry a) ->
    refresh_time act (conf w) now a t ->
    exists d, until = Some d /\ (d <= t \/ (t = now /\ now < d)).
Proof. exact (refresher_no_lost_wakeup O w until). Qed.
Print Assumptions C28_refresher_no_lost_wakeup.

Theorem C28_notifier_no_lost_wakeup O w until :
  reachable O w -> notifier_sleeps w until -> ~ under_way w ASigNotifier ->
  forall n cvr ln st u now t, holds w n (TSPending cvr ln st u) -> remind_time (conf w) now ln t ->
    exists d, until = Some d /\ (d <= t \/ (t = now /\ now < d)).
Proof. exact (notifier_no_lost_wakeup O w until). Qed.
Print Assumptions C28_notifier_no_lost_wakeup.

Example C28_case :
  (exists act a t, reachable toy w_asleep /\ refresher_sleeps w_asleep (Some (sec 1040)) /\ ~ under_way w_asleep ASigRefresher
     /\ configured w_asleep $"a" act /\ holds w_asleep $"a" (TSActive a) /\ time_ok (expiry a)
     /\ refresh_time act (conf w_asleep) 0 a t)
  /\ (exists cvr ln st u t, reachable toy w_nt_asleep /\ notifier_sleeps w_nt_asleep (Some (sec 1037))
     /\ ~ under_way w_nt_asleep ASigNotifier
     /\ holds w_nt_asleep $"a" (TSPending cvr ln st u) /\ remind_time (conf w_nt_asleep) 0 ln t).
Proof.
  split.
  - do 3 eexists. split; [unfold w_asleep, w_look, w_auth; reach_after|].
    split; [split; vm_compute; reflexivity|].
    split.
    { intros (tid & p & N & I). vm_compute in N.
      destruct tid as [|[|[|[|[|tid]]]]]; try (injection N as <-; destruct I); try discriminate N.
      destruct tid; discriminate N. }
    split; [vm_compute; reflexivity|].
    split; [eexists; split; [vm_compute; left; reflexivity|]; split; vm_compute; reflexivity|].
    split; [split; vm_compute; discriminate|].
    apply rt_fresh; [reflexivity|discriminate|vm_compute; discriminate].
  - do 5 eexists. split; [unfold w_nt_asleep, w_nt_decided, w_nt_look, w_pend; reach_after|].
    split; [split; vm_compute; reflexivity|].
    split.
    { intros (tid & p & N & I). vm_compute in N.
      destruct tid as [|[|[|[|tid]]]]; try (injection N as <-; destruct I); try discriminate N.
      destruct tid; discriminate N. }
    split; [eexists; split; [vm_compute; left; reflexivity|]; split; vm_compute; reflexivity|].
    apply rm_next. vm_compute. discriminate.
Qed.

(** * C29 *)

(** The first reminder comes as soon as the notifier looks, the next ones once
    the interval has passed since the last one (or its end cannot be shown by
    a clock). *)
Theorem C29_when_reminded O w e cmd n u :
  reachable O w -> inspecting w ->
  reminds O w e cmd n u <->
  exists cvr ln st u0, holds w n (TSPending cvr ln st u0) /\ c_auth_notify_cmd (conf w) = Some cmd
    /\ u = url_to_str u0
    /\ (ln = None \/ exists l, ln = Some l
          /\ (time_max < l + c_auth_notify_interval (conf w) \/ l + c_auth_notify_interval (conf w) <= env_now e)).
Proof. exact (reminds_iff_due O w e cmd n u). Qed.
Print Assumptions C29_when_reminded.

(** Two decisions to remind the user of the same authorisation (no other URL has
    been given out for the account) are at least the interval apart, whatever
    happens in between. *)
Theorem C29_reminders_spaced O w0 e1 c1 n u1 w1 ls w2 e2 c2 u2 T :
  reachable O w0 -> inspecting w0 -> reminds O w0 e1 c1 n u1 -> step O w0 (LTick 2 e1) = SNext w1 ->
  run O w1 ls = Some (SNext w2) -> inspecting w2 -> reminds O w2 e2 c2 n u2 ->
  (forall os u, w_trace w2 = w_trace w1 ++ os -> ~ In (OAuthUrl n u) os) ->
  env_now e1 <= T -> (forall e, In (LTick 2 e) ls -> env_now e <= T) ->
  (forall w l1 l2, ls = l1 ++ l2 -> run O w1 l1 = Some (SNext w) -> T + c_auth_notify_interval (conf w) <= time_max) ->
  env_now e1 + c_auth_notify_interval (conf w2) <= env_now e2.
Proof. exact (reminders_spaced O w0 e1 c1 n u1 w1 ls w2 e2 c2 u2 T). Qed.
Print Assumptions C29_reminders_spaced.

(** Reminded at 1000 s, then woken up by the deadline and again reminded fifteen
    minutes later. *)
Definition again : list label :=
  [nt (tick (sec 1000))] ++ many 2 2 (tick (sec 1000)) ++ [nt (woken (tick (sec 1900)))] ++ [nt (tick (sec 1900))].
Definition w_again_look : world := after w_nt_decided again.

Example C29_case :
  exists cmd u,
    reachable toy w_nt_look /\ inspecting w_nt_look /\ reminds toy w_nt_look (tick (sec 1000)) cmd $"a" u
    /\ step toy w_nt_look (LTick 2 (tick (sec 1000))) = SNext w_nt_decided
    /\ run toy w_nt_decided again = Some (SNext w_again_look) /\ inspecting w_again_look
    /\ reminds toy w_again_look (tick (sec 1900)) cmd $"a" u
    /\ ~ reminds toy w_again_look (tick (sec 1899)) cmd $"a" u
    /\ c_auth_notify_interval (conf w_again_look) = secs 900.
Proof.
  assert (reachable toy w_nt_look) as R by (unfold w_nt_look, w_pend; reach_after).
  assert (reachable toy w_again_look) as R2 by (unfold w_again_look, w_nt_decided, w_nt_look, w_pend; reach_after).
  assert (inspecting w_nt_look) as IN by (split; vm_compute; reflexivity).
  assert (inspecting w_again_look) as IN2 by (split; vm_compute; reflexivity).
  do 2 eexists. split; [exact R|]. split; [exact IN|].
  split.
  { apply C29_when_reminded; [exact R|exact IN|]. do 4 eexists.
    split; [eexists; split; [vm_compute; left; reflexivity|]; split; vm_compute; reflexivity|].
    split; [vm_compute; reflexivity|]. split; [reflexivity|]. left. vm_compute. reflexivity. }
  split; [vm_compute; reflexivity|]. split; [vm_compute; reflexivity|]. split; [exact IN2|].
  split.
  { apply C29_when_reminded; [exact R2|exact IN2|]. do 4 eexists.
    split; [eexists; split; [vm_compute; left; reflexivity|]; split; vm_compute; reflexivity|].
    split; [vm_compute; reflexivity|]. split; [vm_compute; reflexivity|]. right. eexists.
    split; [vm_compute; reflexivity|]. right. vm_compute. discriminate. }
  split; [|vm_compute; reflexivity].
  intros D. apply C29_when_reminded in D; [|exact R2|exact IN2].
  destruct D as (cvr & ln & st & u0 & (e0 & I0 & N0 & T0) & _ & _ & [->|(l & -> & [D|D])]);
    vm_compute in I0; destruct I0 as [<-|[<-|[]]]; try discriminate N0; try discriminate T0.
  - cbn in T0. assert (l = 1000000000000) as -> by congruence. vm_compute in D. discriminate D.
  - cbn in T0. assert (l = 1000000000000) as -> by congruence. vm_compute in D. apply D. reflexivity.
Qed.

(** With an interval so long that no clock can show its end the user is reminded
    whenever the notifier looks. *)
Theorem C29_unrepresentable_interval_refuted :
  exists w0 e1 cmd u w1 ls w2 e2,
    reachable toy w0 /\ inspecting w0 /\ reminds toy w0 e1 cmd $"a" u /\ step toy w0 (LTick 2 e1) = SNext w1
    /\ run toy w1 ls = Some (SNext w2) /\ inspecting w2 /\ reminds toy w2 e2 cmd $"a" u
    /\ (forall os u, w_trace w2 = w_trace w1 ++ os -> ~ In (OAuthUrl $"a" u) os)
    /\ env_now e2 < env_now e1 + c_auth_notify_interval (conf w2).
Proof.
  assert (reachable toy w_interval) as R by (unfold w_interval; reach_after).
  set (w1 := after w_interval [nt (tick (sec 1000))]).
  set (ls := nt (tick (sec 1000)) :: ask $"showtoken:withurl b" 1001 2 ++ many 2 2 (tick (sec 1001))).
  assert (reachable toy (after w1 ls)) as R2 by (unfold w1, ls, w_interval; reach_after).
  assert (inspecting w_interval) as IN by (split; vm_compute; reflexivity).
  assert (inspecting (after w1 ls)) as IN2 by (split; vm_compute; reflexivity).
  exists w_interval, (tick (sec 1000)). do 2 eexists. exists w1, ls, (after w1 ls), (tick (sec 1001)).
  split; [exact R|]. split; [exact IN|].
  split.
  { apply C29_when_reminded; [exact R|exact IN|]. do 4 eexists.
    split; [eexists; split; [vm_compute; left; reflexivity|]; split; vm_compute; reflexivity|].
    split; [vm_compute; reflexivity|]. split; [reflexivity|]. left. vm_compute. reflexivity. }
  split; [vm_compute; reflexivity|]. split; [vm_compute; reflexivity|]. split; [exact IN2|].
  split.
  { apply C29_when_reminded; [exact R2|exact IN2|]. do 4 eexists.
    split; [eexists; split; [vm_compute; left; reflexivity|]; split; vm_compute; reflexivity|].
    split; [vm_compute; reflexivity|]. split; [vm_compute; reflexivity|]. right. eexists.
    split; [vm_compute; reflexivity|]. left. vm_compute. reflexivity. }
  split; [|vm_compute; reflexivity].
  intros os u E I.
  assert (forall o, In o (skipn (List.length (w_trace w1)) (w_trace (after w1 ls))) -> forall u0, o <> OAuthUrl $"a" u0) as N.
  { vm_compute. intros o X u0 ->. repeat (destruct X as [X|X]; [discriminate X|]). destruct X. }
  apply (N (OAuthUrl $"a" u)) with (u0 := u); [|reflexivity]. rewrite E, skipn_app, skipn_all, Nat.sub_diag. exact I.
Qed.
Print Assumptions C29_unrepresentable_interval_refuted.

(** * C30 *)

(** Every reminder goes back to a moment at which the notifier saw that very
    account waiting for authorisation, with that very URL, and the command
    configured. *)
Theorem C30_reminders_true_when_decided O w t1 cmd n u t2 :
  reachable O w -> w_trace w = t1 ++ OAuthCmd cmd n u :: t2 ->
  exists w1 e1 os cvr ln st u0,
    reachable O w1 /\ inspecting w1 /\ steps O w1 w /\ t1 = w_trace w1 ++ os
    /\ reminds O w1 e1 cmd n u
    /\ holds w1 n (TSPending cvr ln st u0) /\ c_auth_notify_cmd (conf w1) = Some cmd /\ u = url_to_str u0.
Proof. exact (reminder_decided O w t1 cmd n u t2). Qed.
Print Assumptions C30_reminders_true_when_decided.

Example C30_case :
  exists t1 cmd u t2, reachable toy w_nt_asleep /\ w_trace w_nt_asleep = t1 ++ OAuthCmd cmd $"a" u :: t2.
Proof.
  do 4 eexists. split; [unfold w_nt_asleep, w_nt_decided, w_nt_look, w_pend; reach_after|].
  apply (split_at _ 4). vm_compute. reflexivity.
Qed.

(** By the time the command is run, this need not be so any more. *)
Theorem C30_stale_reminder_refuted :
  exists w l w' cmd n u,
    reachable toy w /\ step toy w l = SNext w' /\ w_trace w' = w_trace w ++ [OAuthCmd cmd n u]
    /\ forall cvr ln st u0, ~ holds w n (TSPending cvr ln st u0).
Proof.
  set (w := after w_nt_decided (ask $"revoke:a" 1001 3)).
  exists w, (nt (tick (sec 1002))), w_stale. do 3 eexists.
  split; [unfold w, w_nt_decided, w_nt_look, w_pend; reach_after|].
  split; [vm_compute; reflexivity|]. split; [vm_compute; reflexivity|].
  intros cvr ln st u0 (e0 & I & N & T). vm_compute in I. destruct I as [<-|[<-|[]]]; discriminate T.
Qed.
Print Assumptions C30_stale_reminder_refuted.

(** * C31 *)

Theorem C31_in_order_at_most_once O w :
  reachable O w -> subseq (delivered (w_trace w)) (queued (w_trace w)).
Proof. exact (events_in_order O w). Qed.
Print Assumptions C31_in_order_at_most_once.

Theorem C31_none_skipped O w :
  reachable O w -> events_wanted (w_trace w) ->
  exists rest, queued (w_trace w) = delivered (w_trace w) ++ rest.
Proof. exact (events_none_skipped O w). Qed.
Print Assumptions C31_none_skipped.

Theorem C31_one_at_a_time O w :
  reachable O w ->
  (forall t1 c n ev t2, w_trace w = t1 ++ OEventCmd c n ev :: t2 -> running t1 0 = 0%nat)
  /\ (forall t1 t2, w_trace w = t1 ++ OEventCmdEnd :: t2 -> running t1 0 = 1%nat).
Proof. exact (events_one_at_a_time O w). Qed.
Print Assumptions C31_one_at_a_time.

Example C31_case :
  reachable toy w_events /\ events_wanted (w_trace w_events)
  /\ queued (w_trace w_events) = [($"a", EvNew); ($"a", EvRevoked)]
  /\ delivered (w_trace w_events) = [($"a", EvNew)]
  /\ delivered (w_trace w_events_done) = [($"a", EvNew); ($"a", EvRevoked)].
Proof.
  split; [unfold w_events, w_auth; reach_after|]. split; [|compute_all].
  intros c I. vm_compute in I. repeat (destruct I as [I|I]; [try discriminate I; injection I as <-; discriminate|]). destruct I.
Qed.

(** * C32 *)

(** While a command is configured: if the eventer sleeps there is no event
    left, or it is about to be woken; then it delivers all there are. *)
Theorem C32_no_event_left O w :
  reachable O w -> events_wanted (w_trace w) -> eventer_sleeps w ->
  w_evq w = [] \/ under_way w ASigEventer.
Proof. exact (eventer_no_lost_wakeup O w). Qed.
Print Assumptions C32_no_event_left.

Theorem C32_all_delivered O w :
  reachable O w -> events_wanted (w_trace w) -> eventer_sleeps w -> ~ under_way w ASigEventer ->
  delivered (w_trace w) = queued (w_trace w).
Proof. exact (eventer_done O w). Qed.
Print Assumptions C32_all_delivered.

Theorem C32_woken_delivers_all O w e cmd :
  reachable O w -> w_alive w = true -> cv_pred (w_ev w) = true ->
  nth_error (w_threads w) 1 = Some PEvTop \/ nth_error (w_threads w) 1 = Some PEvBlocked ->
  c_token_event_cmd (conf w) = Some cmd ->
  exists k w', run O w (repeat (LTick 1 e) k) = Some (SNext w')
    /\ w_evq w' = [] /\ delivered (w_trace w') = delivered (w_trace w) ++ w_evq w.
Proof. exact (eventer_drains O w e cmd). Qed.
Print Assumptions C32_woken_delivers_all.

Example C32_case :
  reachable toy w_events_done /\ events_wanted (w_trace w_events_done) /\ eventer_sleeps w_events_done
  /\ ~ under_way w_events_done ASigEventer
  /\ reachable toy w_auth /\ w_alive w_auth = true /\ cv_pred (w_ev w_auth) = true
  /\ nth_error (w_threads w_auth) 1 = Some PEvTop /\ w_evq w_auth = [($"a", EvNew)]
  /\ c_token_event_cmd (conf w_auth) = Some $"event".
Proof.
  split; [unfold w_events_done, w_events, w_auth; reach_after|].
  split.
  { intros c I. vm_compute in I. repeat (destruct I as [I|I]; [try discriminate I; injection I as <-; discriminate|]). destruct I. }
  split; [split; vm_compute; reflexivity|]. split.
  { intros (tid & p & N & I). vm_compute in N.
    destruct tid as [|[|[|[|[|tid]]]]]; try (injection N as <-; destruct I); try discriminate N.
    destruct tid; discriminate N. }
  split; [exact w_auth_reachable|]. compute_all.
Qed.

(** Without a command the eventer takes one event off the queue per wakeup and
    leaves the rest where they are. *)
Theorem C32_no_command_refuted :
  exists w, reachable toy w /\ w_alive w = true /\ eventer_sleeps w /\ ~ under_way w ASigEventer /\ w_evq w <> [].
Proof.
  exists w_events_left. split; [unfold w_events_left; reach_after|].
  split; [vm_compute; reflexivity|]. split; [split; vm_compute; reflexivity|]. split; [|vm_compute; discriminate].
  intros (tid & p & N & I). vm_compute in N.
  destruct tid as [|[|[|[|[|tid]]]]]; try (injection N as <-; destruct I); try discriminate N.
  destruct tid; discriminate N.
Qed.
Print Assumptions C32_no_command_refuted.
