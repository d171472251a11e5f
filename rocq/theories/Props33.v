(** C105: commands that take too long. *)
From Verif Require Import Base BaseLemmas Time Url Json Oracles Config State Http Timers Server SpecServer SpecTimers
  SpecSessions SpecFair SpecTimed TimedEvents Startup Log Command SpecCommand Child SpecChild ChildLemmas
  Scenario Runs Cases ReportCase.
Local Open Scope Z_scope.

(** However [token_event_cmd] or [transient_error_if_cmd] behaves, and whatever it
    starts, waiting for it is over [3 * d + g] after its limit at the latest, if
    pizauth may kill it.  Missing: that it may, see [C105_unkillable_refuted]. *)
Theorem C105_over_in_time_partial o m js ls t d g n :
  limit_of o = Some (Some m) -> job_runs js ls (Some m) t -> job_prompt js m t d g -> can_be_killed ls -> 0 <= d -> 0 <= g ->
  t + m + 3 * d + g < clock js n -> job_over (js n).
Proof.
  intros L R P C D G. assert (0 <= m) as M by (destruct o; try discriminate L; injection L as <-; vm_compute; discriminate).
  exact (over_in_time js ls m t d g R P C M D G n).
Qed.
Print Assumptions C105_over_in_time_partial.

(** What is asked of the thread there, it can do: when the command has ended or its
    limit has passed, the next step is possible and brings it nearer to the end; it
    is held up by a shell that has been killed and is not gone, and by nothing else. *)
Theorem C105_not_stuck m t ls j :
  jrun (job_start (Some m) t) ls = Some j -> ~ job_over j ->
  t + m <= j_now j \/ (exists code, j_shell j = ShEnded code) -> (j_pc j = WReap -> exists code, j_shell j = ShEnded code) ->
  exists l j', own_step l /\ jstep j l = Some j' /\ (steps_left j' < steps_left j)%nat
    /\ (j_pc j = WKill -> j_shell j = ShAlive -> j_shell j' = ShKilled).
Proof. exact (can_go_on m t ls j). Qed.
Print Assumptions C105_not_stuck.

(** The limits. *)
Theorem C105_limits o m :
  limit_of o = Some m <->
  (exists cmd n ev, o = OEventCmd cmd n ev /\ m = Some (secs 30))
  \/ (exists cmd n ok, o = OTransientCmd cmd n ok /\ m = Some (secs 180))
  \/ (exists cmd n u, o = OAuthCmd cmd n u /\ m = None) \/ (exists cmd n msg, o = OErrCmd cmd n msg /\ m = None).
Proof.
  split.
  - destruct o; intros L; try discriminate L; injection L as <-; eauto 9.
  - intros [(a & b & c & -> & ->)|[(a & b & c & -> & ->)|[(a & b & c & -> & ->)|(a & b & c & -> & ->)]]]; reflexivity.
Qed.
Print Assumptions C105_limits.

(** Nothing is killed before its limit. *)
Theorem C105_not_before limit t ls j w l1 l2 :
  jrun (job_start limit t) ls = Some j -> ls = l1 ++ JKill w :: l2 ->
  exists m j1, limit = Some m /\ jrun (job_start limit t) l1 = Some j1 /\ t + m <= j_now j1.
Proof. exact (killed_late limit t ls j w l1 l2). Qed.
Print Assumptions C105_not_before.

(** Whoever ends in time is taken at its word: [d] before the limit, or earlier. *)
Theorem C105_in_time_counts js ls m t d g x code n y :
  job_runs js ls (Some m) t -> job_prompt js m t d g ->
  j_pc (js x) = WWait -> j_shell (js x) = ShEnded code -> clock js x + d < t + m ->
  (x <= n)%nat -> j_pc (js n) = WOver y -> y = CExit code [] \/ exists e, y = CWaitFailed e.
Proof. intros R P W E L A B. exact (in_time_counts js ls m t d g x code R P W E L n A y B). Qed.
Print Assumptions C105_in_time_counts.

(** An exit code is the command's own, and "exceeded timeout" is true. *)
Theorem C105_verdict limit t ls j x :
  jrun (job_start limit t) ls = Some j -> j_pc j = WOver x ->
  (forall code out, x = CExit code out -> In (JShellExit code) ls /\ forall w, ~ In (JKill w) ls)
  /\ (x = CTimeout -> exists m, limit = Some m /\ t + m <= j_now j).
Proof.
  intros R P. split.
  - intros code out ->. exact (exit_verdict limit t ls j code out R P).
  - intros ->. exact (timeout_true limit t ls j R P).
Qed.
Print Assumptions C105_verdict.

(** A token survives repeated failures only if [transient_error_if_cmd] has ended, by
    itself, with code 0. *)
Theorem C105_approval limit t ls j cmd x :
  jrun (job_start limit t) ls = Some j -> j_pc j = WOver x -> cmd_ok cmd x = true ->
  In (JShellExit (Some 0%N)) ls /\ (forall w, ~ In (JKill w) ls).
Proof. exact (approved limit t ls j cmd x). Qed.
Print Assumptions C105_approval.

(** When pizauth goes on, the shell has ended and is gone, not even a zombie; unless the system
    would not let it wait. *)
Theorem C105_shell_gone limit t ls j x :
  jrun (job_start limit t) ls = Some j -> j_pc j = WOver x -> (forall m, x <> CWaitFailed m) ->
  j_shell j = ShReaped /\ exists code, In (JShellExit code) ls.
Proof. exact (shell_gone limit t ls j x). Qed.
Print Assumptions C105_shell_gone.

(** The other two commands are never killed, and pizauth has all of their output. *)
Theorem C105_unlimited t ls j :
  jrun (job_start None t) ls = Some j ->
  (forall w, ~ In (JKill w) ls)
  /\ (forall x, j_pc j = WOver x -> (exists m, x = CWaitFailed m)
        \/ exists code, x = CExit code (writes ls) /\ output_open j = false).
Proof. exact (no_limit t ls j). Qed.
Print Assumptions C105_unlimited.

(** So C97 holds without an assumption on how long commands run. *)
Theorem C105_events_in_time_partial O ws ls tau d g k j :
  serving_events O ws ls tau d g -> 0 <= d -> 0 <= g -> (forall i, events_wanted (w_trace (ws i))) -> (k <= j)%nat ->
  tau k + backlog (ws k) * (secs 30 + 7 * d + g) + 3 * d < tau (S j) ->
  exists rest, delivered (w_trace (ws j)) = queued (w_trace (ws k)) ++ rest.
Proof. exact (events_in_time O ws ls tau d g k j). Qed.
Print Assumptions C105_events_in_time_partial.

(** The same for refreshes: how long one is held up by [transient_error_if_cmd], which is
    part of the time [p] in C94 and C101. *)
Theorem C105_refresh_goes_on_partial (ws : nat -> world) tau tid i n cmd d g :
  waited tau (fun k => nth_error (w_threads (ws k)) tid = Some (PRefCmd i n cmd)) transient_limit d g -> 0 <= d -> 0 <= g ->
  brief tau (fun k => nth_error (w_threads (ws k)) tid = Some (PRefCmd i n cmd)) (secs 180 + 4 * d + g).
Proof. intros W. apply (waited_brief _ _ _ d g W). vm_compute. discriminate. Qed.
Print Assumptions C105_refresh_goes_on_partial.

(** * What is not true *)

(** What the shell has started is not stopped with it. *)
Theorem C105_all_stopped_refuted o m t :
  limit_of o = Some (Some m) -> 0 <= m ->
  exists ls j, jrun (job_start (Some m) t) ls = Some j /\ ~ In (JKill false) ls
    /\ j_pc j = WOver CTimeout /\ j_shell j = ShReaped /\ j_kids j = [true].
Proof.
  intros _ M. exists [JFork true; JTime (t + m); JGiveUp; JKill true; JShellExit None; JReap]. eexists.
  split; [|split; [cbn; intuition discriminate|]].
  - cbn. replace (t <=? t + m) with true by (symmetry; apply Z.leb_le; lia). cbn. rewrite Z.leb_refl. cbn. reflexivity.
  - auto.
Qed.
Print Assumptions C105_all_stopped_refuted.

(** If the shell has become a program that pizauth may not kill, there is no limit:
    pizauth tries once and then waits until that program ends by itself. *)
Theorem C105_unkillable_refuted o m t b :
  limit_of o = Some (Some m) -> 0 <= m -> 0 <= b ->
  exists ls j, jrun (job_start (Some m) t) ls = Some j /\ t + b <= j_now j
    /\ forall ls' j', jrun j ls' = Some j' -> job_over j' -> exists code, In (JShellExit code) ls'.
Proof.
  intros _ M B. exists [JTime (t + m + b); JGiveUp; JKill false]. eexists.
  split.
  - cbn. replace (t <=? t + m + b) with true by (symmetry; apply Z.leb_le; lia). cbn.
    replace (t + m <=? t + m + b) with true by (symmetry; apply Z.leb_le; lia). cbn. reflexivity.
  - cbn. split; [lia|].
    intros ls j1. apply stuck_until; reflexivity.
Qed.
Print Assumptions C105_unkillable_refuted.

(** pizauth.conf(5) gives [token_event_cmd] ten seconds; up to thirty nothing is done. *)
Theorem C105_ten_seconds_refuted cmd n ev t :
  exists m ls j, limit_of (OEventCmd cmd n ev) = Some m /\ jrun (job_start m t) ls = Some j
    /\ t + secs 10 < j_now j /\ j_pc j = WWait /\ jstep j JGiveUp = None.
Proof.
  exists (Some event_limit), [JTime (t + secs 29)],
    (mkJob (Some event_limit) t (t + secs 29) ShAlive [] [] WWait). split; [reflexivity|]. split.
  - unfold jrun, jstep, job_start. cbn [j_now]. replace (t <=? t + secs 29) with true by (symmetry; apply Z.leb_le; unfold secs; lia).
    reflexivity.
  - unfold jstep, at_time. cbn [j_now j_pc j_limit j_start]. split; [unfold secs; lia|]. split; [reflexivity|].
    replace (t + event_limit <=? t + secs 29) with false; [reflexivity|]. symmetry. apply Z.leb_gt.
    change event_limit with (secs 30). unfold secs. lia.
Qed.
Print Assumptions C105_ten_seconds_refuted.

(** [auth_notify_cmd] and [error_notify_cmd] have no limit, and even when the shell has
    ended at once pizauth waits for whatever it has left in the background, such as a
    browser. *)
Theorem C105_all_limited_refuted o t b :
  limit_of o = Some None -> 0 <= b ->
  exists ls j, jrun (job_start None t) ls = Some j /\ j_shell j = ShEnded (Some 0%N) /\ t + b <= j_now j
    /\ j_pc j = WWait /\ jstep j JSeen = None /\ jstep j JGiveUp = None.
Proof.
  intros _ B. exists [JFork true; JShellExit (Some 0%N); JTime (t + b)]. eexists. split.
  - cbn. replace (t <=? t + b) with true by (symmetry; apply Z.leb_le; lia). reflexivity.
  - cbn. split; [reflexivity|]. split; [lia|]. auto.
Qed.
Print Assumptions C105_all_limited_refuted.

(** * Cases *)

(** A command that starts another process and hangs; it is killed after thirty seconds. *)
Definition hung : list jlabel := [JFork true; JTime (sec 1033); JGiveUp; JKill true; JShellExit None; JReap].
Definition hung_at (k : nat) : job :=
  match jrun (job_start (Some event_limit) (sec 1003)) (firstn k hung) with
  | Some j => j
  | None => job_start None 0
  end.
Definition hung_step (k : nat) : option jlabel := nth_error hung k.

Lemma hung_after k : (6 <= k)%nat -> hung_at k = hung_at 6.
Proof. intros L. unfold hung_at. rewrite !firstn_all2 by (cbn; lia). reflexivity. Qed.

Lemma hung_runs : job_runs hung_at hung_step (Some event_limit) (sec 1003).
Proof.
  split; [reflexivity|]. intros k. destruct (Nat.lt_ge_cases k 6) as [L|G].
  - do 6 (destruct k as [|k]; [vm_compute; reflexivity|]). lia.
  - assert (hung_step k = None) as -> by (apply nth_error_None; cbn; lia). rewrite (hung_after k G), (hung_after (S k)) by lia. reflexivity.
Qed.

Lemma hung_clock k : (2 <= k)%nat -> clock hung_at k = sec 1033.
Proof.
  intros L. unfold clock. destruct (Nat.lt_ge_cases k 6) as [A|G]; [|rewrite hung_after by exact G; reflexivity].
  do 2 (destruct k as [|k]; [lia|]). do 4 (destruct k as [|k]; [vm_compute; reflexivity|]). lia.
Qed.

Lemma hung_brief Q b : 0 <= b -> ~ Q O -> ~ Q 1%nat -> brief (clock hung_at) Q b.
Proof.
  intros B A0 A1 k j L H. assert (2 <= k)%nat as K.
  { destruct k as [|[|k]]; [destruct (A0 (H O (le_n _) L))|destruct (A1 (H 1%nat (le_n _) L))|lia]. }
  rewrite !hung_clock by lia. lia.
Qed.

Lemma hung_prompt : job_prompt hung_at event_limit (sec 1003) (sec 1) (sec 1).
Proof.
  assert (0 <= sec 1) as P by (vm_compute; discriminate).
  constructor; try (apply hung_brief; [exact P| |]; vm_compute; intuition (try discriminate); destruct H0; discriminate).
  intros k j L _. assert (sec 1003 + event_limit = sec 1033) as -> by reflexivity.
  assert (clock hung_at (S j) <= sec 1033); [|lia].
  destruct j as [|j]; [vm_compute; discriminate|]. rewrite hung_clock by lia. lia.
Qed.

Lemma hung_killable : can_be_killed hung_step.
Proof.
  intros k H. apply nth_error_In in H. cbn in H. intuition discriminate.
Qed.

Example C105_case :
  limit_of (OEventCmd $"event" $"a" EvNew) = Some (Some event_limit)
  /\ job_runs hung_at hung_step (Some event_limit) (sec 1003) /\ job_prompt hung_at event_limit (sec 1003) (sec 1) (sec 1)
  /\ can_be_killed hung_step /\ j_pc (hung_at 5) = WReap /\ j_pc (hung_at 6) = WOver CTimeout
  /\ j_kids (hung_at 6) = [true] /\ j_shell (hung_at 6) = ShReaped.
Proof.
  split; [reflexivity|]. split; [exact hung_runs|]. split; [exact hung_prompt|]. split; [exact hung_killable|]. auto.
Qed.

Example C105_case_not_stuck :
  exists ls j, jrun (job_start (Some event_limit) (sec 1003)) ls = Some j /\ ~ job_over j
    /\ sec 1003 + event_limit <= j_now j /\ j_pc j = WKill.
Proof.
  exists [JFork true; JTime (sec 1033); JGiveUp]. eexists. split; [vm_compute; reflexivity|].
  split; [intros [x Q]; discriminate Q|]. split; [vm_compute; discriminate|reflexivity].
Qed.

(** The server of C97's case: its command does not end. *)
Example C105_case_events :
  serving_events toy hang_at hang_step hang_time (sec 1) (sec 1) /\ (forall i, events_wanted (w_trace (hang_at i)))
  /\ backlog (hang_at 20) = 1.
Proof.
  destruct hang_reporting as [A B C D E]. split; [|split; [exact hang_wanted|vm_compute; reflexivity]].
  constructor; try assumption.
  - intros q NE L. apply (C q (sec 1)). destruct q; try discriminate L; try reflexivity. contradiction.
  - intros k j L H. exists hung_at, hung_step, (sec 1003), 5%nat.
    split; [exact hung_runs|]. split; [exact hung_prompt|]. split; [exact hung_killable|].
    destruct (hang_running k (H k (le_n _) L)) as [X _]. destruct (hang_running j (H j L (le_n _))) as [_ Y].
    split; [exact X|]. split; [intros [x Q]; vm_compute in Q; discriminate Q|].
    rewrite hung_clock by lia. unfold sec, from_secs in *. cbn in *. lia.
Qed.

(** One that is done after a second, though what it has started goes on; and what a
    notification command writes. *)
Example C105_case_verdict :
  (exists j, jrun (job_start (Some transient_limit) 0) [JFork true; JTime (sec 1); JShellExit (Some 0%N); JSeen] = Some j
     /\ j_pc j = WOver (CExit (Some 0%N) []) /\ cmd_ok $"iftrans" (CExit (Some 0%N) []) = true /\ j_kids j = [true])
  /\ (exists j, jrun (job_start None 0) [JFork true; JWrite $"a"; JShellExit (Some 1%N); JWrite $"b"; JKidExit 0; JSeen] = Some j
        /\ j_pc j = WOver (CExit (Some 1%N) $"ab"))
  /\ limit_of (OAuthCmd $"auth" $"a" $"u") = Some None.
Proof. split; [eexists; repeat split|]. split; [eexists; repeat split|reflexivity]. Qed.

(** A command that ends ten seconds after its start, and this is noticed a
    second later. *)
Definition quick : list jlabel := [JTime (sec 1013); JShellExit (Some 3%N); JTime (sec 1013 + sec 1); JSeen].
Definition quick_at (m : Z) (k : nat) : job :=
  match jrun (job_start (Some m) (sec 1003)) (firstn k quick) with
  | Some j => j
  | None => job_start None 0
  end.
Definition quick_step (k : nat) : option jlabel := nth_error quick k.

Lemma quick_after m k : (4 <= k)%nat -> quick_at m k = quick_at m 4.
Proof. intros L. unfold quick_at. rewrite !firstn_all2 by (cbn; lia). reflexivity. Qed.

Lemma quick_clock m k : sec 1003 <= clock (quick_at m) k <= sec 1014.
Proof.
  unfold clock. destruct (Nat.lt_ge_cases k 4) as [A|G].
  - do 4 (destruct k as [|k]; [vm_compute; split; discriminate|]). lia.
  - rewrite quick_after by exact G. vm_compute. split; discriminate.
Qed.

Lemma quick_runs m : job_runs (quick_at m) quick_step (Some m) (sec 1003).
Proof.
  split; [reflexivity|]. intros k. destruct (Nat.lt_ge_cases k 4) as [L|G].
  - do 4 (destruct k as [|k]; [vm_compute; reflexivity|]). lia.
  - assert (quick_step k = None) as -> by (apply nth_error_None; cbn; lia).
    rewrite (quick_after m k G), (quick_after m (S k)) by lia. reflexivity.
Qed.

Lemma quick_prompt m : sec 11 <= m -> job_prompt (quick_at m) m (sec 1003) (sec 1) (sec 1).
Proof.
  intros M. assert (0 <= sec 1) as P by (vm_compute; discriminate).
  assert (forall k, (2 <= k)%nat -> sec 1013 <= clock (quick_at m) k) as Late.
  { intros k L. unfold clock. destruct (Nat.lt_ge_cases k 4) as [A|G]; [|rewrite quick_after by exact G; vm_compute; discriminate].
    do 2 (destruct k as [|k]; [lia|]). do 2 (destruct k as [|k]; [vm_compute; discriminate|]). lia. }
  assert (forall k, j_pc (quick_at m k) = WWait \/ exists x, j_pc (quick_at m k) = WOver x) as Two.
  { intros k. destruct (Nat.lt_ge_cases k 4) as [A|G].
    - do 4 (destruct k as [|k]; [left; reflexivity|]). lia.
    - rewrite quick_after by exact G. right. eexists. reflexivity. }
  assert (sec 1014 = sec 1003 + sec 11) as E1 by reflexivity. assert (sec 1014 = sec 1013 + sec 1) as E2 by reflexivity.
  constructor.
  - intros k j L _. pose proof (quick_clock m (S j)). lia.
  - intros k j L H. assert (2 <= k)%nat as K.
    { destruct (H k (le_n _) L) as [_ [c X]]. destruct k as [|[|k]]; [vm_compute in X; discriminate X..|lia]. }
    pose proof (Late k K). pose proof (quick_clock m (S j)). lia.
  - intros k j L H. exfalso. specialize (H k (le_n _) L). destruct (Two k) as [X|[x X]]; congruence.
  - intros k j L H. exfalso. specialize (H k (le_n _) L). destruct (Two k) as [X|[x X]]; destruct H; congruence.
  - intros k j L H. exfalso. specialize (H k (le_n _) L). destruct (Two k) as [X|[x X]]; destruct H; congruence.
Qed.

Example C105_case_counts :
  job_runs (quick_at event_limit) quick_step (Some event_limit) (sec 1003)
  /\ job_prompt (quick_at event_limit) event_limit (sec 1003) (sec 1) (sec 1)
  /\ j_pc (quick_at event_limit 2) = WWait /\ j_shell (quick_at event_limit 2) = ShEnded (Some 3%N)
  /\ clock (quick_at event_limit) 2 + sec 1 < sec 1003 + event_limit
  /\ j_pc (quick_at event_limit 4) = WOver (CExit (Some 3%N) []).
Proof.
  split; [apply quick_runs|]. split; [apply quick_prompt; vm_compute; discriminate|]. vm_compute. auto 6.
Qed.

(** A refresh that has failed six times asks whether that is transient, and is told after
    twelve seconds that it is not. *)
Definition asks (k : nat) : world :=
  match k with O => w_six | S _ => after w_six [LTick 10 (cmd_result false (tick (sec 1015)))] end.
Definition asks_time (k : nat) : Z := match k with O => sec 1003 | S _ => sec 1015 end.

Example C105_case_refresh :
  exists i, nth_error (w_threads (asks 0)) 10 = Some (PRefCmd i $"a" $"iftrans")
    /\ waited asks_time (fun k => nth_error (w_threads (asks k)) 10 = Some (PRefCmd i $"a" $"iftrans"))
         transient_limit (sec 1) (sec 1).
Proof.
  eexists. split; [vm_compute; reflexivity|]. intros k j L H.
  destruct j as [|j]; [|exfalso; specialize (H (S j) L (le_n _)); vm_compute in H; discriminate H].
  replace k with O in * by lia. exists (quick_at transient_limit), quick_step, (sec 1003), 3%nat.
  split; [apply quick_runs|]. split; [apply quick_prompt; vm_compute; discriminate|].
  split; [intros i X; apply nth_error_In in X; cbn in X; intuition discriminate|].
  split; [vm_compute; discriminate|]. split; [intros [x Q]; vm_compute in Q; discriminate Q|]. vm_compute. discriminate.
Qed.
