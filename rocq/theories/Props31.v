(** C103: a server that cannot start a thread does nothing wrong. *)
From Verif Require Import Base Time Utf8 Url Json Oracles Config Dump State Http Timers Server SpecServer SpecTimers
  SpecStatus Locks Spawn SpecSpawn SpawnLemmas Scenario Runs Cases TimedCase SpawnCase.
Local Open Scope Z_scope.

(** Whatever threads could not be started: the server is in a state, and has done
    what it can be in and do if all threads are started.  So everything that is
    said about all reachable states and all traces holds here too. *)
Theorem C103_nothing_wrong O f : frail_reachable O f -> reachable O (x_world f).
Proof. exact (frail_world O f). Qed.
Print Assumptions C103_nothing_wrong.

(** Who is lost.  As long as the process is there and the mutex of the state is not
    poisoned, at most the notifier and the refresher are, each when it failed to
    start a thread. *)
Theorem C103_who_is_lost O f tid :
  frail_reachable O f -> x_down f = false -> x_poison f = false -> lost f tid -> refused f tid.
Proof.
  exact (fun R D P L => match proj2 (lost_inv O f R D tid L) with
                        | or_introl P' => match Bool.diff_true_false (eq_trans (eq_sym P') P) with end
                        | or_intror X => X
                        end).
Qed.
Print Assumptions C103_who_is_lost.

(** The mutex is poisoned only if the user has configured [error_notify_cmd]. *)
Theorem C103_poison O f :
  frail_reachable O f -> x_down f = false -> x_poison f = true ->
  exists c, In (OConfig c) (w_trace (x_world f)) /\ c_error_notify_cmd c <> None.
Proof. exact (poison_inv O f). Qed.
Print Assumptions C103_poison.

(** Unless it is, all others go on as if nothing had happened, ... *)
Theorem C103_others_go_on O f tid e w' :
  up f -> x_poison f = false -> ~ lost f tid -> step O (x_world f) (LTick tid e) = SNext w' ->
  xstep O f (XStep (LTick tid e)) = Some (mkFrail w' (x_dead f) false (x_deaf f) false).
Proof. exact (others_go_on O f tid e w'). Qed.
Print Assumptions C103_others_go_on.

(** ... and clients are served. *)
Theorem C103_clients_served O f e req :
  frail_reachable O f -> up f -> x_poison f = false ->
  nth_error (w_threads (x_world f)) 0 = Some PMain -> e_client e = Some req -> ~ breaks_down O (x_world f) (LTick 0 e) ->
  exists w', step O (x_world f) (LTick 0 e) = SNext w'
    /\ xstep O f (XStep (LTick 0 e)) = Some (mkFrail w' (x_dead f) false (x_deaf f) false).
Proof. exact (main_goes_on O f e req). Qed.
Print Assumptions C103_clients_served.

(** So do all others that can do without that mutex if it is poisoned. *)
Theorem C103_unconcerned_go_on O f tid e p w' :
  up f -> ~ lost f tid -> nth_error (w_threads (x_world f)) tid = Some p -> locks O p (e_client e) <> Some LkState ->
  step O (x_world f) (LTick tid e) = SNext w' ->
  xstep O f (XStep (LTick tid e)) = Some (mkFrail w' (x_dead f) (x_poison f) (x_deaf f) false).
Proof. exact (unconcerned_go_on O f tid e p w'). Qed.
Print Assumptions C103_unconcerned_go_on.

(** The process ends in a panic only with the main thread: because of [status]
    (C07), of a poisoned mutex, or of a refresh that a client asked for. *)
Theorem C103_down O f l f' :
  frail_reachable O f -> xstep O f l = Some f' -> x_down f' = true ->
  (exists e, l = XStep (LTick 0 e) /\ breaks_down O (x_world f) (LTick 0 e))
  \/ (x_poison f = true /\ exists e p, l = XStep (LTick 0 e) /\ nth_error (w_threads (x_world f)) 0 = Some p
        /\ locks O p (e_client e) = Some LkState)
  \/ (l = XNoThread 0 /\ exists i k, nth_error (w_threads (x_world f)) 0 = Some (PDo (ASpawnRefresh i) k)).
Proof. exact (down_why O f l f'). Qed.
Print Assumptions C103_down.

(** But who is lost is lost for good, ... *)
Theorem C103_lost_for_good O f f' tid :
  frail_reachable O f -> leads O f f' -> lost f tid ->
  lost f' tid /\ forall p, nth_error (w_threads (x_world f)) tid = Some p -> nth_error (w_threads (x_world f')) tid = Some p.
Proof. exact (lost_for_good O f f' tid). Qed.
Print Assumptions C103_lost_for_good.

(** ... so that one thread that could not be started ends all refreshing that
    nobody asks for, while the server runs on: a token is due, the refresher will
    never do anything again. *)
Theorem C103_refreshing_goes_on_refuted :
  exists f a i,
    frail_reachable toy f /\ up f /\ x_poison f = false
    /\ In (mkEntry $"a" i (TSActive a)) (details (w_lk (x_world f))) /\ ongoing a = false
    /\ forall f', leads toy f f' -> nth_error (w_threads (x_world f')) 3 = Some (PDo (ASpawnRefresh i) PRfTop).
Proof. exact refreshing_ends. Qed.
Print Assumptions C103_refreshing_goes_on_refuted.

(** A poisoned mutex ends the server with the next request that matters; ... *)
Theorem C103_poison_is_fatal O f e req :
  frail_reachable O f -> up f -> x_poison f = true ->
  nth_error (w_threads (x_world f)) 0 = Some PMain -> e_client e = Some req -> request_locks req = true ->
  exists f', xstep O f (XStep (LTick 0 e)) = Some f' /\ x_down f' = true.
Proof. exact (poison_fatal O f e req). Qed.
Print Assumptions C103_poison_is_fatal.

(** ... until then nothing about any account changes. *)
Theorem C103_poison_freezes O f f' :
  frail_reachable O f -> leads O f f' -> x_poison f = true ->
  x_poison f' = true /\ w_lk (x_world f') = w_lk (x_world f).
Proof. exact (poison_freezes O f f'). Qed.
Print Assumptions C103_poison_freezes.

(** It happens: an error the user could not be told of leaves a server that the
    next [show] ends. *)
Theorem C103_survives_refuted :
  exists f, frail_reachable toy f /\ up f
    /\ forall e wu n, e_client e = Some ($"showtoken:" ++ wu ++ $" " ++ n) ->
       exists f', xstep toy f (XStep (LTick 0 e)) = Some f' /\ x_down f' = true.
Proof. exact show_ends_it. Qed.
Print Assumptions C103_survives_refuted.

(** And it is enough that a client asks for a refresh. *)
Theorem C103_refresh_ends_it_refuted :
  exists f f', frail_reachable toy f /\ up f /\ xstep toy f (XNoThread 0) = Some f' /\ x_down f' = true.
Proof. exact refresh_ends_it. Qed.
Print Assumptions C103_refresh_ends_it_refuted.

(** A browser that finds no thread shuts out all that come after it. *)
Theorem C103_browsers_served_refuted :
  exists f f', frail_reachable toy f /\ xstep toy f (XNoBrowser false) = Some f' /\ up f'
    /\ forall f'' bytes, leads toy f' f'' -> xstep toy f'' (XStep (LHttpConn false bytes)) = None.
Proof. exact browsers_shut_out. Qed.
Print Assumptions C103_browsers_served_refuted.

(** A server without refresher that serves clients. *)
Example C103_case :
  frail_reachable toy f_refuse /\ up f_refuse /\ x_poison f_refuse = false /\ lost f_refuse 3 /\ refused f_refuse 3
  /\ exists w', step toy (x_world f_refuse) (LTick 0 (client $"showtoken:withurl a" (tick (sec 1056)))) = SNext w'.
Proof.
  split; [exact refuse_frail|]. split; [exact refuse_up|]. split; [reflexivity|].
  assert (lost f_refuse 3) as L by (left; reflexivity). split; [exact L|].
  split; [exact (C103_who_is_lost _ _ _ refuse_frail eq_refl eq_refl L)|].
  destruct (C103_clients_served _ _ (client $"showtoken:withurl a" (tick (sec 1056))) _ refuse_frail refuse_up eq_refl
              (proj1 refuse_serves) eq_refl (proj2 refuse_serves)) as (w' & S & _).
  exists w'. exact S.
Qed.

(** A poisoned one, in which the eventer can go on. *)
Example C103_case_poison :
  frail_reachable toy f_denied /\ up f_denied /\ x_poison f_denied = true
  /\ ~ lost f_denied 1 /\ nth_error (w_threads (x_world f_denied)) 1 = Some PEvTop
  /\ locks toy PEvTop (e_client (tick (sec 1002))) <> Some LkState
  /\ exists w', step toy (x_world f_denied) (LTick 1 (tick (sec 1002))) = SNext w'.
Proof.
  split; [exact denied_frail|]. split; [exact denied_up|]. split; [reflexivity|].
  split; [intros [E|[]]; discriminate E|]. split; [vm_compute; reflexivity|]. split; [discriminate|].
  eexists. vm_compute. reflexivity.
Qed.

(** A process that ends. *)
Example C103_case_down :
  exists f', frail_reachable toy (frail_start w_asked) /\ xstep toy (frail_start w_asked) (XNoThread 0) = Some f'
    /\ x_down f' = true.
Proof. exists f_asked. split; [exact (frail_of _ _ asked_reachable)|]. split; [exact asked_step|reflexivity]. Qed.
