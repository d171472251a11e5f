(** Servers that cannot start a thread. *)
From Verif Require Import Base BaseLemmas Time Utf8 Url Json Oracles Config Dump State Http Timers Server SpecServer
  SpecTimers SpecSessions SpecFair SpecTimed SpecStatus Reach Steps Inv Fair Timed Scenario Runs Cases Endless TimedCase
  Locks Spawn SpecSpawn SpawnLemmas.
Local Open Scope Z_scope.

(** A token is to be refreshed and no thread can be started for it. *)
Definition w_refuse : world := after w_soon (firstn 13 soon).
Definition f_refuse : frail := mkFrail w_refuse [3%nat] false (fun _ => false) false.

Lemma refuse_reachable : reachable toy w_refuse.
Proof. unfold w_refuse, w_soon. reach_after. Qed.

Lemma refuse_step : xstep toy (frail_start w_refuse) (XNoThread 3) = Some f_refuse.
Proof. vm_compute. reflexivity. Qed.

Lemma refuse_frail : frail_reachable toy f_refuse.
Proof. exact (xr_step _ _ _ _ (frail_of _ _ refuse_reachable) refuse_step). Qed.

Lemma refuse_up : up f_refuse.
Proof. split; vm_compute; reflexivity. Qed.

Lemma refuse_due : exists a i,
  nth_error (w_threads (x_world f_refuse)) 3 = Some (PDo (ASpawnRefresh i) PRfTop)
  /\ In (mkEntry $"a" i (TSActive a)) (details (w_lk (x_world f_refuse))) /\ ongoing a = false.
Proof.
  eexists. exists 2%N. split; [vm_compute; reflexivity|]. split; [vm_compute; left; reflexivity|reflexivity].
Qed.

(** Clients are still served. *)
Lemma refuse_serves :
  nth_error (w_threads (x_world f_refuse)) 0 = Some PMain
  /\ ~ breaks_down toy (x_world f_refuse) (LTick 0 (client $"showtoken:withurl a" (tick (sec 1056)))).
Proof.
  split; [vm_compute; reflexivity|]. intros H. inversion H as [tid e k e0 A N C ND SF Ht]; subst. vm_compute in C. discriminate C.
Qed.

(** The provider says no, and no thread can be started to tell the user. *)
Definition denied : list label :=
  [main (client $"showtoken:withurl a" (tick (sec 1000)))] ++ many 2 0 (tick (sec 1000))
  ++ [LHttpConn false (callback ($"error=access_denied&state=" ++ state_of $"statebytes"))]
  ++ many 2 4 (tick (sec 1001)).
Definition w_denied : world := after (start conf1) denied.
Definition f_denied : frail := mkFrail w_denied [4%nat] true (fun _ => false) false.

Lemma denied_reachable : reachable toy w_denied.
Proof. unfold w_denied. reach_after. Qed.

Lemma denied_step : xstep toy (frail_start w_denied) (XNoThread 4) = Some f_denied.
Proof. vm_compute. reflexivity. Qed.

Lemma denied_frail : frail_reachable toy f_denied.
Proof. exact (xr_step _ _ _ _ (frail_of _ _ denied_reachable) denied_step). Qed.

Lemma denied_up : up f_denied.
Proof. split; vm_compute; reflexivity. Qed.

Lemma denied_waits : nth_error (w_threads (x_world f_denied)) 0 = Some PMain.
Proof. vm_compute. reflexivity. Qed.

(** A client asks for a refresh and no thread can be started. *)
Definition w_asked : world := after w_soon [main (client $"refresh:withurl a" (tick (sec 1004)))].
Definition f_asked : frail := mkFrail w_asked [0%nat] false (fun _ => false) true.

Lemma asked_reachable : reachable toy w_asked.
Proof. unfold w_asked, w_soon. reach_after. Qed.

Lemma asked_step : xstep toy (frail_start w_asked) (XNoThread 0) = Some f_asked.
Proof. vm_compute. reflexivity. Qed.

Lemma refreshing_ends :
  exists f a i,
    frail_reachable toy f /\ up f /\ x_poison f = false
    /\ In (mkEntry $"a" i (TSActive a)) (details (w_lk (x_world f))) /\ ongoing a = false
    /\ forall f', leads toy f f' -> nth_error (w_threads (x_world f')) 3 = Some (PDo (ASpawnRefresh i) PRfTop).
Proof.
  destruct refuse_due as (a & i & N & I & OG). exists f_refuse, a, i.
  refine (conj refuse_frail (conj refuse_up (conj eq_refl (conj I (conj OG _))))).
  intros f' L. exact (proj2 (lost_for_good _ _ _ 3 refuse_frail L (or_introl eq_refl)) _ N).
Qed.

Lemma show_locks wu n : request_locks ($"showtoken:" ++ wu ++ $" " ++ n) = true.
Proof. reflexivity. Qed.

Lemma show_ends_it :
  exists f, frail_reachable toy f /\ up f
    /\ forall e wu n, e_client e = Some ($"showtoken:" ++ wu ++ $" " ++ n) ->
       exists f', xstep toy f (XStep (LTick 0 e)) = Some f' /\ x_down f' = true.
Proof.
  exists f_denied. refine (conj denied_frail (conj denied_up _)). intros e wu n C.
  exact (poison_fatal toy f_denied e _ denied_frail denied_up eq_refl denied_waits C (show_locks wu n)).
Qed.

Lemma refresh_ends_it :
  exists f f', frail_reachable toy f /\ up f /\ xstep toy f (XNoThread 0) = Some f' /\ x_down f' = true.
Proof.
  exists (frail_start w_asked), f_asked.
  refine (conj (frail_of _ _ asked_reachable) (conj _ (conj asked_step eq_refl))).
  split; vm_compute; reflexivity.
Qed.

(** A browser that found no thread. *)
Lemma browsers_shut_out :
  exists f f', frail_reachable toy f /\ xstep toy f (XNoBrowser false) = Some f' /\ up f'
    /\ forall f'' bytes, leads toy f' f'' -> xstep toy f'' (XStep (LHttpConn false bytes)) = None.
Proof.
  exists (frail_start w_asked), (mkFrail w_asked [] false (fun h => Bool.eqb h false || false) false).
  refine (conj (frail_of _ _ asked_reachable) (conj _ (conj _ _))).
  - vm_compute. reflexivity.
  - split; vm_compute; reflexivity.
  - intros f'' bytes L. exact (proj2 (deaf_for_good _ _ _ false L eq_refl) bytes).
Qed.
