(** Runs that come to rest, as endless runs, and one of them. *)
From Verif Require Import Base BaseLemmas Time Utf8 Url Json Oracles Config Dump State Http Timers Server SpecServer
  SpecTimers SpecSessions SpecFair Reach Steps Inv Scenario Runs Cases.

(** The run [ls] from [w] followed by nothing. *)
Definition then_rest (w : world) (ls : list label) (k : nat) : world := after w (firstn k ls).
Definition then_nothing (ls : list label) (k : nat) : option label := nth_error ls k.

(** Everything is at rest, nobody has set a time. *)
Definition restb (w : world) : bool :=
  match w_threads w with
  | PMain :: PEvBlocked :: PNtBlocked None :: PRfBlocked None :: ps =>
      cv_waiting (w_ev w) && cv_waiting (w_nt w) && cv_waiting (w_rf w)
      && forallb (fun p => match p with PDone => true | _ => false end) ps
  | _ => false
  end.

Lemma restb_rests w tid : restb w = true -> tid < List.length (w_threads w) -> rests w tid.
Proof.
  unfold restb. destruct (w_threads w) as [|p0 ps0] eqn:T; [discriminate|]. destruct p0; try discriminate.
  destruct ps0 as [|p1 ps1]; [discriminate|]. destruct p1; try discriminate.
  destruct ps1 as [|p2 ps2]; [discriminate|]. destruct p2 eqn:P2; try discriminate. destruct nw; [discriminate|].
  destruct ps2 as [|p3 ps]; [discriminate|]. destruct p3 eqn:P3; try discriminate. destruct nw; [discriminate|]. intros H L.
  apply andb_true_iff in H as [H D]. apply andb_true_iff in H as [H W3]. apply andb_true_iff in H as [W1 W2].
  destruct tid as [|[|[|[|tid]]]].
  - apply rest_client. rewrite T. reflexivity.
  - apply rest_eventer. split; [rewrite T; reflexivity|exact W1].
  - eapply rest_notifier. split; [rewrite T; reflexivity|exact W2].
  - eapply rest_refresher. split; [rewrite T; reflexivity|exact W3].
  - apply rest_over. unfold over. rewrite T. cbn. cbn in L.
    destruct (nth_error ps tid) as [p|] eqn:N; [|apply nth_error_None in N; lia].
    rewrite forallb_forall in D. specialize (D p (nth_error_In _ _ N)). destruct p; try discriminate D. reflexivity.
Qed.

Lemma restb_no_time w : restb w = true ->
  (forall d, ~ refresher_sleeps w (Some d)) /\ (forall d, ~ notifier_sleeps w (Some d)).
Proof.
  unfold restb. destruct (w_threads w) as [|p0 ps0] eqn:T; [discriminate|]. destruct p0; try discriminate.
  destruct ps0 as [|p1 ps1]; [discriminate|]. destruct p1; try discriminate.
  destruct ps1 as [|p2 ps2]; [discriminate|]. destruct p2 eqn:P2; try discriminate. destruct nw; [discriminate|].
  destruct ps2 as [|p3 ps]; [discriminate|]. destruct p3 eqn:P3; try discriminate. destruct nw; [discriminate|]. intros _. split; intros d [N _]; rewrite T in N; discriminate N.
Qed.

Lemma run_app w l1 l2 : run toy w (l1 ++ l2) =
  match run toy w l1 with Some (SNext w') => run toy w' l2 | x => x end.
Proof.
  revert w. induction l1 as [|l l1 IH]; intros w; [reflexivity|]. simpl.
  destruct (step toy w l); try reflexivity. apply IH.
Qed.

Section Rest.
Variable w : world.
Variable ls : list label.
Hypothesis R : reachable toy w.
Hypothesis RUN : runs w ls = true.

Lemma runs_firstn k : runs w (firstn k ls) = true.
Proof.
  unfold runs in *. rewrite <- (firstn_skipn k ls) in RUN. rewrite run_app in RUN.
  destruct (run toy w (firstn k ls)) as [[| |w']|]; try discriminate RUN; reflexivity.
Qed.

Lemma rest_endless : endless toy (then_rest w ls) (then_nothing ls).
Proof.
  constructor; [exact R|]. intros k. unfold then_rest, then_nothing.
  destruct (nth_error ls k) as [l|] eqn:N.
  - assert (firstn (S k) ls = firstn k ls ++ [l]) as E.
    { clear -N. revert k N. induction ls as [|x l0 IH]; intros [|k] N; try discriminate N.
      - cbn in N. injection N as ->. reflexivity.
      - cbn in N. change (x :: firstn (S k) l0 = x :: (firstn k l0 ++ [l])). f_equal. apply IH. exact N. }
    pose proof (after_run _ _ (runs_firstn k)) as A. pose proof (after_run _ _ (runs_firstn (S k))) as B.
    set (w1 := after w (firstn (S k) ls)) in *. clearbody w1. rewrite E, run_app, A in B. cbn [run] in B.
    destruct (step toy (after w (firstn k ls)) l) as [| |w']; try discriminate B. congruence.
  - apply nth_error_None in N. rewrite !firstn_all2 by lia. reflexivity.
Qed.

Hypothesis REST : restb (after w ls) = true.

Lemma then_rest_end k : List.length ls <= k -> then_rest w ls k = after w ls.
Proof. intros L. unfold then_rest. rewrite firstn_all2 by exact L. reflexivity. Qed.

Lemma threads_grow k d : List.length (w_threads (then_rest w ls k)) <= List.length (w_threads (then_rest w ls (k + d))).
Proof.
  induction d as [|d IH]; [rewrite Nat.add_0_r; lia|]. rewrite Nat.add_succ_r.
  pose proof (en_next _ _ _ rest_endless (k + d)) as N. destruct (then_nothing ls (k + d)) as [l|]; [|rewrite N; exact IH].
  assert (reachable toy (then_rest w ls (k + d))) as RK by (apply after_reachable; [apply runs_firstn|exact R]).
  destruct (step_ok _ _ _ _ (reach_inv _ _ RK) N) as (_ & _ & T & _).
  assert (List.length (w_threads (then_rest w ls (k + d))) <= List.length (w_threads (then_rest w ls (S (k + d))))) as G; [|lia].
  destruct T as [tid e p lk' p' os NT C|tid e p w' NT SY|https bytes X].
  - cbn. rewrite list_set_length. lia.
  - destruct SY; cbn; try (rewrite list_set_length; lia).
    destruct a; cbn; try (rewrite list_set_length; lia). rewrite app_length, list_set_length. lia.
  - cbn. rewrite app_length. lia.
Qed.

Lemma rest_fair : fair (then_rest w ls) (then_nothing ls).
Proof.
  intros tid k L. exists (k + List.length ls). split; [lia|]. left.
  pose proof (threads_grow k (List.length ls)) as G.
  rewrite (then_rest_end (k + List.length ls)) in G |- * by lia. apply restb_rests; [exact REST|lia].
Qed.

Lemma rest_passes t : passes (then_nothing ls) t.
Proof.
  exists (List.length ls). intros k tid e i L E. exfalso. unfold then_nothing in E.
  apply nth_error_None in L. congruence.
Qed.

Lemma rest_timely : timely (then_rest w ls) (then_nothing ls).
Proof.
  intros k d. split; intros _; (split; [apply rest_passes|]); exists (k + List.length ls); (split; [lia|]);
    rewrite then_rest_end by lia; apply (restb_no_time _ REST).
Qed.
End Rest.

(** The life of a token: account "a" is authorised and the user told; they
    authorise, the token is obtained, used up, and its renewal refused. *)
Definition life : list label :=
  ask $"showtoken:withurl a" 1000 2
  ++ many 6 2 (tick (sec 1001))
  ++ [LHttpConn false (callback ($"state=" ++ state_of $"statebytes" ++ $"&code=c0de"))]
  ++ many 2 4 (tick (sec 1001)) ++ [LTick 4 (posted (PRBody $"Rtok") (tick (sec 1002)))] ++ many 4 4 (tick (sec 1003))
  ++ many 7 1 (tick (sec 1004))
  ++ many 5 3 (tick (sec 1004))
  ++ [rf (woken (tick (sec 5000)))] ++ many 3 3 (tick (sec 5000))
  ++ [LTick 5 (tick (sec 5001)); LTick 5 (posted (PRBody $"Eno") (tick (sec 5002)))] ++ many 4 5 (tick (sec 5003))
  ++ many 8 1 (tick (sec 5004))
  ++ many 2 3 (tick (sec 5005))
  ++ [nt (woken (tick (sec 6000)))] ++ many 4 2 (tick (sec 6000)).

Definition life_at : nat -> world := then_rest (start conf1) life.
Definition life_step : nat -> option label := then_nothing life.

Lemma life_starts : reachable toy (start conf1).
Proof. reach_start. Qed.

Lemma life_runs : runs (start conf1) life = true.
Proof. vm_compute. reflexivity. Qed.

Lemma life_ends : restb (after (start conf1) life) = true.
Proof. vm_compute. reflexivity. Qed.

Lemma life_endless : endless toy life_at life_step.
Proof. exact (rest_endless _ _ life_starts life_runs). Qed.

Lemma life_fair : fair life_at life_step.
Proof. exact (rest_fair _ _ life_starts life_runs life_ends). Qed.

Lemma life_timely : timely life_at life_step.
Proof. exact (rest_timely _ _ life_ends). Qed.

Lemma life_passes t : passes life_step t.
Proof. exact (rest_passes _ t). Qed.

(** The configuration never changes. *)
Definition confb (w : world) : bool :=
  match c_auth_notify_cmd (lconfig (w_lk w)), c_token_event_cmd (lconfig (w_lk w)) with
  | Some _, Some _ => (c_auth_notify_interval (lconfig (w_lk w)) =? sec 900)%Z
                      && forallb (fun o => match o with OConfig c => is_some (c_token_event_cmd c) | _ => true end) (w_trace w)
  | _, _ => false
  end.

Lemma life_conf_all : forallb (fun k => confb (life_at k)) (seq 0 (S (List.length life))) = true.
Proof. vm_compute. reflexivity. Qed.

Lemma life_confb k : confb (life_at k) = true.
Proof.
  pose proof (proj1 (forallb_forall _ _) life_conf_all) as F.
  destruct (Nat.le_gt_cases k (List.length life)) as [L|G].
  - apply F. apply in_seq. lia.
  - assert (life_at k = life_at (List.length life)) as E by (unfold life_at; rewrite !then_rest_end by lia; reflexivity).
    rewrite E. apply F. apply in_seq. lia.
Qed.

Lemma confb_conf w : confb w = true ->
  c_auth_notify_cmd (conf w) <> None /\ c_auth_notify_interval (conf w) = sec 900 /\ events_wanted (w_trace w).
Proof.
  unfold confb, conf. intros B. destruct (c_auth_notify_cmd (lconfig (w_lk w))); [|discriminate B].
  destruct (c_token_event_cmd (lconfig (w_lk w))); [|discriminate B].
  apply andb_true_iff in B as [B1 B2]. apply Z.eqb_eq in B1. split; [discriminate|]. split; [exact B1|].
  intros c IN. rewrite forallb_forall in B2. specialize (B2 _ IN). cbn in B2. destruct (c_token_event_cmd c); [discriminate|discriminate B2].
Qed.

Lemma life_conf k :
  c_auth_notify_cmd (conf (life_at k)) <> None /\ c_auth_notify_interval (conf (life_at k)) = sec 900
  /\ events_wanted (w_trace (life_at k)).
Proof. exact (confb_conf _ (life_confb k)). Qed.
