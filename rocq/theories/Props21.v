(** C93: the threads share the server's data and do not get into each other's way. *)
From Verif Require Import Base BaseLemmas Time Oracles Config State Server SpecStatus Reach Locks SpecLocks LockLemmas
  Scenario Runs Cases.

(** Taking the mutexes step by step, the server gets into no state in which it
    would not be without them; and into all of those as long as the answers to
    [status] are read at once. *)
Theorem C93_no_new_states O f : fine_reachable O f -> reachable O (f_world f).
Proof. exact (fun F => fi_reach _ _ (fine_inv O f F)). Qed.
Print Assumptions C93_no_new_states.

Theorem C93_all_states O w : promptly O w -> exists f, fine_reachable O f /\ f_world f = w.
Proof. intros P. destruct (prompt_fine O w P) as (f & F & E & _). exact (ex_intro _ f (conj F E)). Qed.
Print Assumptions C93_all_states.

(** No two threads have the same mutex. *)
Theorem C93_mutual_exclusion O f t1 t2 l :
  fine_reachable O f -> holds_lock f t1 l -> holds_lock f t2 l -> t1 = t2.
Proof. exact (fun F => fi_excl _ _ (fine_inv O f F) t1 t2 l). Qed.
Print Assumptions C93_mutual_exclusion.

(** What a mutex guards is changed by the thread that has it, ... *)
Theorem C93_changed_under_lock O f lb f' l :
  fine_reachable O f -> fstep O f lb f' ->
  (exists t, by_thread lb t /\ holds_lock f t l) \/ guarded_same l (f_world f) (f_world f').
Proof. exact (guarded O f lb f' l). Qed.
Print Assumptions C93_changed_under_lock.

(** ... and read by it only: for anyone else something else might be there. *)
Theorem C93_read_under_lock O w tid p e l w2 :
  nth_error (w_threads w) tid = Some p -> locks O p (e_client e) <> Some l -> swapped w l w2 ->
  match step O w (LTick tid e), step O w2 (LTick tid e) with
  | SStuck, SStuck | SPanic, SPanic => True
  | SNext w', SNext w2' => swapped w' l w2'
  | _, _ => False
  end.
Proof.
  intros N NL S. assert (nth_error (w_threads w2) tid = Some p /\ w_alive w2 = w_alive w) as (N2 & A)
    by (destruct S; split; first [exact N|reflexivity]).
  unfold step. rewrite A, N, N2. destruct (w_alive w); [|exact I]. exact (blind O w tid p e l w2 NL S).
Qed.
Print Assumptions C93_read_under_lock.

(** Whoever has to wait for a mutex gets it after a few steps of the one who has
    it, for which that one needs nobody.  Except, so far (see below), for the
    mutex of the state if the answer to [status] is being written; or if the
    server breaks down in answering [status] (C07). *)
Theorem C93_no_deadlock_partial O f tid l :
  fine_reachable O f -> w_alive (f_world f) = true -> wants O f tid l ->
  exists f', fsteps O (fun lb => exists t, t <> tid /\ holds_lock f t l /\ by_thread lb t) f f'
    /\ ((exists f'', fstep O f' (FTake tid) f'')
        \/ (l = LkState /\ (writes_status f' \/ may_break O f'))).
Proof. exact (no_deadlock O f tid l). Qed.
Print Assumptions C93_no_deadlock_partial.

(** When the client reads the answer, the mutex is given back. *)
Theorem C93_released_when_read O f :
  fine_reachable O f -> w_alive (f_world f) = true -> writes_status f ->
  exists f1 f2, fstep O f (FWrite 0) f1 /\ fstep O f1 (FDrop 0) f2 /\ forall t, ~ holds_lock f2 t LkState.
Proof. exact (reading_releases O f). Qed.
Print Assumptions C93_released_when_read.

(** Until then the state does not change, and nobody who needs it gets on. *)
Theorem C93_held_up O f f' :
  fine_reachable O f -> writes_status f -> fsteps O (fun lb => ~ by_thread lb 0) f f' ->
  w_lk (f_world f') = w_lk (f_world f) /\ writes_status f'
  /\ forall tid p, nth_error (w_threads (f_world f)) tid = Some p -> f_phase f tid = Without ->
       (forall c, locks O p c = Some LkState) ->
       nth_error (w_threads (f_world f')) tid = Some p /\ f_phase f' tid = Without.
Proof. exact (held_up O f f'). Qed.
Print Assumptions C93_held_up.

(** * Cases *)

(** A refresh has been asked for; its thread (5) is about to look at the state. *)
Definition asked_refresh : list label := authorise $"Rtok" ++ ask $"refresh:withurl a" 1020 2.
Definition w_two : world := after (start conf1) asked_refresh.

Lemma start_prompt s : accepted s = true -> promptly toy (start s).
Proof.
  unfold accepted. intros H.
  destruct (config_from_path toy (env_file s)) as [c| |] eqn:E; try discriminate H.
  assert (conf_of s = c) as EC.
  { unfold config_from_path, env_file in E. cbn [e_file file] in E. destruct (Utf8.utf8_valid s); [|discriminate E].
    unfold conf_of. change (fun _ : str => 0%N) with (e_hash (file s (tick 0))). rewrite E. reflexivity. }
  unfold start. rewrite EC. eapply pr_start. exact E.
Qed.

Lemma w_two_prompt : promptly toy w_two.
Proof.
  eapply (prompt_run_ok toy asked_refresh (start conf1)); [apply start_prompt|]; vm_compute; reflexivity.
Qed.

Definition e_show : env := client $"showtoken:withurl a" (tick (sec 1021)).
Definition e_stat : env := client $"status:" (tick (sec 1021)).

(** It waits for the main thread, which shows a token. *)
Example C93_case_waits :
  exists f, fine_reachable toy f /\ w_alive (f_world f) = true /\ wants toy f 5 LkState /\ holds_lock f 0 LkState
    /\ nth_error (w_threads (f_world f)) 0 = Some PMain.
Proof.
  destruct (prompt_fine toy w_two w_two_prompt) as (f0 & F & E & Q).
  destruct Q as [Q|(_ & (txt & k & N) & _)]; [|exfalso; rewrite E in N; vm_compute in N; discriminate N].
  eexists. split.
  { eapply fr_step; [exact F|]. apply (fs_take toy f0 0 PMain e_show LkState); try (rewrite E; vm_compute; reflexivity).
    - apply Q.
    - vm_compute. reflexivity.
    - rewrite E. vm_compute. discriminate.
    - intros t. rewrite (Q t). discriminate. }
  cbn [f_world f_phase]. rewrite E. split; [vm_compute; reflexivity|]. split; [|split; [reflexivity|vm_compute; reflexivity]].
  assert (exists i, nth_error (w_threads w_two) 5 = Some (PRefStart i)) as (i & N) by (eexists; vm_compute; reflexivity).
  exists (PRefStart i), (tick (sec 1021)). cbn [f_world f_phase].
  split; [exact N|]. split; [apply Q|]. split; [reflexivity|]. vm_compute. discriminate.
Qed.

(** The claim that a client holds up nobody else fails: one that asks for the
    status and does not read the answer stops the refresh of a token, and
    everything else that has to do with tokens. *)
Theorem C93_holds_up_nobody_refuted :
  exists f, fine_reachable toy f /\ w_alive (f_world f) = true /\ wants toy f 5 LkState
    /\ forall f', fsteps toy (fun lb => ~ by_thread lb 0) f f' ->
         w_lk (f_world f') = w_lk (f_world f)
         /\ nth_error (w_threads (f_world f')) 5 = nth_error (w_threads (f_world f)) 5
         /\ ~ (exists f'', fstep toy f' (FTake 5) f'').
Proof.
  destruct (prompt_fine toy w_two w_two_prompt) as (f0 & F & E & Q).
  destruct Q as [Q|(_ & (txt & k & N) & _)]; [|exfalso; rewrite E in N; vm_compute in N; discriminate N].
  assert (exists f1, fstep toy f0 (FTake 0) f1 /\ f_world f1 = w_two /\ f_phase f1 0 = Has LkState (e_client e_stat)
            /\ f_phase f1 5 = Without) as (f1 & S1 & E1 & P1 & P5).
  { eexists. split.
    { apply (fs_take toy f0 0 PMain e_stat LkState); try (rewrite E; vm_compute; reflexivity).
      - apply Q.
      - vm_compute. reflexivity.
      - rewrite E. vm_compute. discriminate.
      - intros t. rewrite (Q t). discriminate. }
    split; [exact E|]. split; [reflexivity|]. apply Q. }
  assert (exists i txt k w', step toy w_two (LTick 0 e_stat) = SNext w' /\ nth_error (w_threads w') 5 = Some (PRefStart i)
            /\ w_alive w' = true /\ nth_error (w_threads w') 0 = Some (PDo (AEmit (OReply $"status:" txt)) k)
            /\ step toy w' (LTick 5 (tick (sec 1021))) <> SStuck)
    as (i & txt & k & w' & S & N & A & N0 & NS).
  { do 3 eexists. exists (match step toy w_two (LTick 0 e_stat) with SNext x => x | _ => w_two end).
    compute_all. vm_compute. discriminate. }
  assert (exists f, fstep toy f1 (FWork 0) f /\ f_world f = w' /\ f_phase f 0 = Did LkState /\ f_phase f 5 = Without)
    as (f & S2 & E2 & Q0 & Q5).
  { eexists. split.
    { apply (fs_work toy f1 0 e_stat LkState w'); [exact P1|rewrite E1; exact S]. }
    split; [reflexivity|]. split; [reflexivity|exact P5]. }
  assert (fine_reachable toy f) as FF by (eapply fr_step; [eapply fr_step; [exact F|exact S1]|exact S2]).
  assert (writes_status f) as WS.
  { split; [unfold holds_lock; rewrite Q0; reflexivity|]. exists txt, k. rewrite E2. exact N0. }
  rewrite <- E2 in N, A, NS. clear E2 S N0.
  exists f. split; [exact FF|]. split; [exact A|]. split.
  - exists (PRefStart i), (tick (sec 1021)). split; [exact N|]. split; [exact Q5|]. split; [reflexivity|exact NS].
  - intros f' SS. destruct (held_up toy f f' FF WS SS) as (LK & WS' & TH).
    destruct (TH 5 _ N Q5 (fun _ => eq_refl)) as (N' & _). split; [exact LK|]. split; [congruence|].
    intros (f'' & T). inversion T as [t p e l A' NP P L NS' FR EL EF| | | | |]. subst t.
    rewrite N' in NP. injection NP as <-. cbn in L. injection L as <-. exact (FR 0 (proj1 WS')).
Qed.
Print Assumptions C93_holds_up_nobody_refuted.

(** The eventer looks at its queue, whatever the state is. *)
Example C93_case_read :
  nth_error (w_threads w_two) 1 = Some PEvTop /\ locks toy PEvTop (e_client (tick 0)) <> Some LkState
  /\ swapped w_two LkState (set_lk w_two (locked_new (conf_of conf1)))
  /\ step toy w_two (LTick 1 (tick 0)) <> SStuck.
Proof. split; [vm_compute; reflexivity|]. split; [discriminate|]. split; [constructor|]. vm_compute. discriminate. Qed.
