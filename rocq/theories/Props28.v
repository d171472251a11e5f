(** C100: what happens to an account depends on that account alone. *)
From Verif Require Import Base Time Utf8 Url Json Oracles Config Dump State Http Timers Server SpecServer SpecTimers
  SpecRestore Reach SpecApart Apart Scenario Runs Cases ApartCase.

(** Two servers that agree on an account do the same for it: a step of the first
    can be taken by the second, with the same to be seen of it, and they agree
    again. *)
Theorem C100_lockstep O n w1 w2 ps t1 t2 p e w1' :
  twins O n w1 w2 ps -> w_alive w2 = true -> In (t1, t2) ps -> nth_error (w_threads w1) t1 = Some p ->
  about O n w1 w2 p e -> step O w1 (LTick t1 e) = SNext w1' ->
  exists w2' os, step O w2 (LTick t2 e) = SNext w2'
    /\ w_trace w1' = w_trace w1 ++ os /\ w_trace w2' = w_trace w2 ++ os /\ twins O n w1' w2' ps.
Proof. exact (lockstep O n w1 w2 ps t1 t2 p e w1'). Qed.
Print Assumptions C100_lockstep.

(** A browser has come to a server with accounts "a" and "b", which both wait for
    one, and to one with "a" alone. *)
Definition two_waiting : world :=
  after (start conf1)
    (ask $"showtoken:withurl a" 1000 2
     ++ [main (client $"showtoken:withurl b" (rand $"STATE" $"VERIF" (tick (sec 1002))))] ++ many 2 0 (tick (sec 1002))
     ++ many 2 2 (tick (sec 1003)) ++ [LHttpConn false (callback good_query)]).
Definition one_waiting : world :=
  after (start conf1a)
    (ask $"showtoken:withurl a" 1000 2 ++ many 2 2 (tick (sec 1003)) ++ [LHttpConn false (callback good_query)]).

Lemma waiting_twins : twins toy $"a" two_waiting one_waiting [(4%nat, 4%nat)].
Proof.
  constructor.
  - unfold two_waiting. reach_after.
  - unfold one_waiting. reach_after.
  - constructor; [|vm_compute; reflexivity|vm_compute; reflexivity].
    do 3 eexists. split; [vm_compute; left; reflexivity|vm_compute; left; reflexivity].
  - vm_compute; reflexivity.
  - vm_compute; reflexivity.
  - repeat constructor; intros [].
  - repeat constructor; intros [].
  - intros t1 t2 [E|[]]. injection E as <- <-. do 2 eexists.
    split; [vm_compute; reflexivity|]. split; [vm_compute; reflexivity|apply al_http_start].
Qed.

Example C100_lockstep_case : exists p w1',
  twins toy $"a" two_waiting one_waiting [(4%nat, 4%nat)] /\ w_alive one_waiting = true
  /\ nth_error (w_threads two_waiting) 4 = Some p /\ about toy $"a" two_waiting one_waiting p (tick (sec 1005))
  /\ step toy two_waiting (LTick 4 (tick (sec 1005))) = SNext w1'
  /\ w_lk two_waiting <> w_lk one_waiting.
Proof.
  do 2 eexists. split; [apply waiting_twins|]. split; [vm_compute; reflexivity|].
  split; [vm_compute; reflexivity|]. split; [only_a|]. split; [vm_compute; reflexivity|].
  intros E. apply (f_equal (fun lk => List.length (details lk))) in E. vm_compute in E. discriminate E.
Qed.

(** What a server does for its other accounts makes no difference. *)
Theorem C100_others O n w1 w2 ps :
  twins O n w1 w2 ps ->
  (forall l w1', not_by (map fst ps) l -> elsewhere O n w1 l -> step O w1 l = SNext w1' -> twins O n w1' w2 ps)
  /\ (forall l w2', not_by (map snd ps) l -> elsewhere O n w2 l -> step O w2 l = SNext w2' -> twins O n w1 w2' ps).
Proof.
  exact (fun T => conj (fun l w1' => other_step O n w1 w2 ps l w1' T) (fun l w2' => other_step2 O n w1 w2 ps l w2' T)).
Qed.
Print Assumptions C100_others.

Example C100_others_case :
  let l := main (client $"revoke:b" (tick (sec 1006))) in
  exists w1', twins toy $"a" two_waiting one_waiting [(4%nat, 4%nat)]
  /\ not_by [4%nat] l /\ elsewhere toy $"a" two_waiting l /\ step toy two_waiting l = SNext w1'
  /\ details (w_lk w1') <> details (w_lk two_waiting).
Proof.
  cbv zeta. eexists. split; [apply waiting_twins|].
  split; [solve_not_by|]. split; [solve_elsewhere|].
  split; [apply one_step; vm_compute; reflexivity|vm_compute; discriminate].
Qed.

(** Whole executions: as long as both get the same input for account [n], the
    same is to be seen for it, and it ends in the same state. *)
Theorem C100_runs O n w1 w2 ps os1 os2 v1 v2 qs :
  twins O n w1 w2 ps -> together O n w1 w2 ps os1 os2 v1 v2 qs -> os1 = os2 /\ twins O n v1 v2 qs.
Proof. exact (together_twins O n w1 w2 ps os1 os2 v1 v2 qs). Qed.
Print Assumptions C100_runs.

(** An authorisation and a reload. *)
Example C100_runs_case : exists os1 os2 v1 v2,
  twins toy $"a" (start conf1) (start conf1a) []
  /\ together toy $"a" (start conf1) (start conf1a) [] os1 os2 v1 v2 []
  /\ List.length (details (w_lk v1)) = 2 /\ List.length (details (w_lk v2)) = 1
  /\ (exists i1 i2 act, In (mkEntry $"a" i1 (TSActive act)) (details (w_lk v1))
        /\ In (mkEntry $"a" i2 (TSActive act)) (details (w_lk v2)) /\ i1 <> i2)
  /\ (exists u req d, In (OPost u req d) os1) /\ (exists x, In (OHttpResp x) os1)
  /\ (exists x, In (OReply $"showtoken:withurl a" x) os1).
Proof.
  destruct together_case as (os1 & os2 & v1 & v2 & T & R). exists os1, os2, v1, v2.
  split; [apply twins_start|]. split; [exact T|exact R].
Qed.

(** Both read dumps, of a server with a token for "a", one with "b" besides. *)
Definition dumped (w : world) : str :=
  match auth_dump toy (w_lk w) (e_clk (tick (sec 1100))) (e_hash (tick (sec 1100))) (e_nonce (tick (sec 1100))) with
  | Val d => d
  | _ => []
  end.
Definition dump2 : str := dumped (after (start conf1) (authorise $"Rtok")).
Definition dump1 : str := dumped (after (start conf1a) (authorise $"Rtok")).
Definition restoring (d : str) : env := client ($"restore:" ++ d) (tick (sec 1200)).

Example C100_restore_case :
  let v1 := after (start conf1) [LTick 0 (restoring dump2)] in
  let v2 := after (start conf1a) [LTick 0 (restoring dump1)] in
  dump1 <> dump2
  /\ together toy $"a" (start conf1) (start conf1a) [] [] [] v1 v2 []
  /\ exists i1 i2 act, In (mkEntry $"a" i1 (TSActive act)) (details (w_lk v1))
       /\ In (mkEntry $"a" i2 (TSActive act)) (details (w_lk v2)) /\ i1 <> i2.
Proof.
  cbv zeta. split; [vm_compute; discriminate|]. split.
  - eapply (to_restore _ _ _ _ _ _ _ _ _ _ (restoring dump2) (restoring dump1) _ _ _ _ (e_clk (tick (sec 1200)) 0%nat));
      [apply to_start|intros t e _ []|intros t e _ []|vm_compute; reflexivity|vm_compute; reflexivity
      |reflexivity|reflexivity| | | |intros j; reflexivity|intros j; reflexivity
      |apply one_step; vm_compute; reflexivity|apply one_step; vm_compute; reflexivity].
    + split; [apply Nat.leb_le; vm_compute; reflexivity|]. eexists.
      split; [vm_compute; reflexivity|]. split; vm_compute; reflexivity.
    + split; [apply Nat.leb_le; vm_compute; reflexivity|]. eexists.
      split; [vm_compute; reflexivity|]. split; vm_compute; reflexivity.
    + vm_compute; reflexivity.
  - do 3 eexists. split; [vm_compute; left; reflexivity|]. split; [vm_compute; left; reflexivity|discriminate].
Qed.

(** Servers that look at the same time whom to remind send the same reminders for
    the account. *)
Theorem C100_reminders O n w1 w2 ps e1 e2 w1' w2' q1 q2 :
  twins O n w1 w2 ps -> env_now e1 = env_now e2 ->
  nth_error (w_threads w1) 2 = Some PNtScan -> nth_error (w_threads w2) 2 = Some PNtScan ->
  step O w1 (LTick 2 e1) = SNext w1' -> step O w2 (LTick 2 e2) = SNext w2' ->
  nth_error (w_threads w1') 2 = Some q1 -> nth_error (w_threads w2') 2 = Some q2 ->
  reminders_of n (will_do q1) = reminders_of n (will_do q2).
Proof. exact (reminders_both O n w1 w2 ps e1 e2 w1' w2' q1 q2). Qed.
Print Assumptions C100_reminders.

(** The first reminds of two accounts, the second of one. *)
Example C100_reminders_case : exists w1' w2' q1 q2,
  let e := tick (sec 1004) in
  twins toy $"a" two_waiting one_waiting [(4%nat, 4%nat)]
  /\ nth_error (w_threads two_waiting) 2 = Some PNtScan /\ nth_error (w_threads one_waiting) 2 = Some PNtScan
  /\ step toy two_waiting (LTick 2 e) = SNext w1' /\ step toy one_waiting (LTick 2 e) = SNext w2'
  /\ nth_error (w_threads w1') 2 = Some q1 /\ nth_error (w_threads w2') 2 = Some q2
  /\ List.length (reminders_of $"a" (will_do q1)) = 1 /\ will_do q1 <> will_do q2.
Proof.
  do 4 eexists. cbv zeta. split; [apply waiting_twins|].
  split; [vm_compute; reflexivity|]. split; [vm_compute; reflexivity|].
  split; [apply one_step; vm_compute; reflexivity|]. split; [apply one_step; vm_compute; reflexivity|].
  split; [vm_compute; reflexivity|]. split; [vm_compute; reflexivity|].
  split; [vm_compute; reflexivity|vm_compute; discriminate].
Qed.

(** Servers that look at the same time which tokens are due refresh the account's
    in both or in neither. *)
Theorem C100_refreshes O n w1 w2 ps e1 e2 w1' w2' q1 q2 i1 i2 :
  twins O n w1 w2 ps -> env_now e1 = env_now e2 -> steady_now e1 -> steady_now e2 ->
  nth_error (w_threads w1) 3 = Some PRfScan -> nth_error (w_threads w2) 3 = Some PRfScan ->
  step O w1 (LTick 3 e1) = SNext w1' -> step O w2 (LTick 3 e2) = SNext w2' ->
  nth_error (w_threads w1') 3 = Some q1 -> nth_error (w_threads w2') 3 = Some q2 ->
  current n (w_lk w1) i1 -> current n (w_lk w2) i2 ->
  In (ASpawnRefresh i1) (will_do q1) <-> In (ASpawnRefresh i2) (will_do q2).
Proof. exact (refreshes_both O n w1 w2 ps e1 e2 w1' w2' q1 q2 i1 i2). Qed.
Print Assumptions C100_refreshes.

(** Both have a token for "a", under different versions, and it is due. *)
Definition two_due : world :=
  after (start conf1) (authorise $"Rtok" ++ many 2 3 (tick (sec 1000000))).
Definition one_due : world :=
  after (start conf1a) (authorise $"Rtok" ++ many 2 3 (tick (sec 1000000))).

Example C100_refreshes_case : exists w1' w2' q1 q2 i1 i2,
  let e := tick (sec 1000000) in
  twins toy $"a" two_due one_due [] /\ steady_now e
  /\ nth_error (w_threads two_due) 3 = Some PRfScan /\ nth_error (w_threads one_due) 3 = Some PRfScan
  /\ step toy two_due (LTick 3 e) = SNext w1' /\ step toy one_due (LTick 3 e) = SNext w2'
  /\ nth_error (w_threads w1') 3 = Some q1 /\ nth_error (w_threads w2') 3 = Some q2
  /\ current $"a" (w_lk two_due) i1 /\ current $"a" (w_lk one_due) i2 /\ i1 <> i2
  /\ In (ASpawnRefresh i1) (will_do q1).
Proof.
  do 6 eexists. cbv zeta. split.
  { constructor.
    - unfold two_due. reach_after.
    - unfold one_due. reach_after.
    - constructor; [|vm_compute; reflexivity|vm_compute; reflexivity].
      do 3 eexists. split; [vm_compute; left; reflexivity|vm_compute; left; reflexivity].
    - vm_compute; reflexivity.
    - vm_compute; reflexivity.
    - constructor.
    - constructor.
    - intros t1 t2 []. }
  split; [intros j; vm_compute; reflexivity|].
  split; [vm_compute; reflexivity|]. split; [vm_compute; reflexivity|].
  split; [apply one_step; vm_compute; reflexivity|]. split; [apply one_step; vm_compute; reflexivity|].
  split; [vm_compute; reflexivity|]. split; [vm_compute; reflexivity|].
  split; [eexists; vm_compute; left; reflexivity|]. split; [eexists; vm_compute; left; reflexivity|].
  split; [discriminate|vm_compute; left; reflexivity].
Qed.
