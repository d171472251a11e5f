(** C104: who goes away before it is answered misses the answer, and nothing else changes. *)
From Verif Require Import Base Time Utf8 Url Json Oracles Config Dump State Http Timers Server SpecServer SpecTimers
  Scenario Runs Cases Locks SpecLocks LockLemmas Hangup SpecHangup HangupLemmas Props21.
Local Open Scope Z_scope.

(** Whoever went away, and whenever: the server is in the state it would be in had
    they all stayed; and of all that could have been seen exactly the answers to
    those who had gone are missing. *)
Theorem C104_as_if_answered O e w ls w' :
  reachable O w -> hrun O w ls = Some (SNext w') ->
  exists w0, run O w (map (stays e) ls) = Some (SNext w0) /\ same_state w' w0
    /\ only_answers_missing (losses ls) (w_trace w') (w_trace w0).
Proof. exact (as_if_answered O e w ls w'). Qed.
Print Assumptions C104_as_if_answered.

(** The other way round: take any run and let any of those who are answered in it
    go away before; all the rest can happen as before. *)
Theorem C104_the_rest_happens O w ls hs :
  reachable O w -> lossy O w ls hs ->
  exists w' w0, hrun O w hs = Some (SNext w') /\ run O w ls = Some (SNext w0) /\ same_state w' w0
    /\ only_answers_missing (losses hs) (w_trace w') (w_trace w0).
Proof. exact (losses_harmless O w ls hs). Qed.
Print Assumptions C104_the_rest_happens.

(** So what is said about the state of every reachable server, and about what it
    does apart from answering, is true of these too. *)
Theorem C104_reachable O w :
  reachable_gone O w -> exists w0 n, reachable O w0 /\ same_state w w0 /\ only_answers_missing n (w_trace w) (w_trace w0).
Proof. exact (gone_reachable O w). Qed.
Print Assumptions C104_reachable.

(** In particular the answers to those who have not gone: with whatever is seen of a
    server, an answer or something else, there is a run in which nobody goes away and
    the same is seen, and in which, before and after it, only answers to others have
    been added. *)
Theorem C104_seen_as_ever O w a x b :
  reachable_gone O w -> w_trace w = a ++ x :: b ->
  exists w0 a0 b0 m n,
    reachable O w0 /\ same_state w w0 /\ w_trace w0 = a0 ++ x :: b0
    /\ only_answers_missing m a a0 /\ only_answers_missing n b b0.
Proof. exact (seen_as_ever O w a x b). Qed.
Print Assumptions C104_seen_as_ever.

(** Nobody brings the server down by going away. *)
Theorem C104_no_panic O e w ls :
  reachable O w -> hrun O w ls = Some SPanic -> run O w (map (stays e) ls) = Some SPanic.
Proof. exact (panics_anyway O e w ls). Qed.
Print Assumptions C104_no_panic.

(** A client is answered when all it asked for is done: what remains is to wait for
    the next one. *)
Theorem C104_answered_last O w tid req txt k :
  reachable O w -> nth_error (w_threads w) tid = Some (PDo (AEmit (OReply req txt)) k) -> tid = 0%nat /\ k = PMain.
Proof. exact (reply_last O w tid req txt k). Qed.
Print Assumptions C104_answered_last.

(** Only the answer to [status] is written with the state's mutex in hand (C93); when
    that client goes the mutex is given back. *)
Theorem C104_mutex_given_back O f :
  fine_reachable O f -> w_alive (f_world f) = true -> writes_status f ->
  exists w' f', hstep O (f_world f) (HLost 0) = SNext w' /\ fstep O (mkFine w' (f_phase f)) (FDrop 0) f'
    /\ forall t, ~ holds_lock f' t LkState.
Proof. exact (gone_releases O f). Qed.
Print Assumptions C104_mutex_given_back.

Example C104_case_mutex : exists f, fine_reachable toy f /\ w_alive (f_world f) = true /\ writes_status f.
Proof.
  destruct (prompt_fine toy w_two w_two_prompt) as (f0 & F & E & Q).
  destruct Q as [Q|(_ & (txt & k & N) & _)]; [|exfalso; rewrite E in N; vm_compute in N; discriminate N].
  assert (exists f1, fstep toy f0 (FTake 0) f1 /\ f_world f1 = w_two /\ f_phase f1 0 = Has LkState (e_client e_stat))
    as (f1 & S1 & E1 & P1).
  { eexists. split.
    { apply (fs_take toy f0 0 PMain e_stat LkState); try (rewrite E; vm_compute; reflexivity).
      - apply Q.
      - vm_compute. reflexivity.
      - rewrite E. vm_compute. discriminate.
      - intros t. rewrite (Q t). discriminate. }
    split; [exact E|reflexivity]. }
  assert (exists txt k w', step toy w_two (LTick 0 e_stat) = SNext w' /\ w_alive w' = true
            /\ nth_error (w_threads w') 0 = Some (PDo (AEmit (OReply $"status:" txt)) k)) as (txt & k & w' & S & A & N0).
  { do 2 eexists. exists (match step toy w_two (LTick 0 e_stat) with SNext x => x | _ => w_two end). compute_all. }
  exists (mkFine w' (set_phase (f_phase f1) 0 (Did LkState))). split.
  - eapply fr_step; [eapply fr_step; [exact F|exact S1]|].
    apply (fs_work toy f1 0 e_stat LkState w'); [exact P1|rewrite E1; exact S].
  - split; [exact A|]. split; [reflexivity|]. exists txt, k. exact N0.
Qed.

(** A client asks for a token and goes; so does the browser.  The token is there
    for the next client all the same.  Another one revokes it and goes: it is gone. *)
Definition vanishing : list hlabel :=
  map HStep ([main (client $"showtoken:withurl a" (tick (sec 1000)))] ++ many 1 0 (tick (sec 1000)))
  ++ [HLost 0]
  ++ map HStep ([LHttpConn false (callback good_query)] ++ many 1 4 (tick (sec 1001)))
  ++ [HLost 4]
  ++ map HStep ([LTick 4 (posted (PRBody $"Rtok") (tick (sec 1002)))] ++ many 4 4 (tick (sec 1003))
                ++ ask $"showtoken:withurl a" 1010 1 ++ ask $"revoke:a" 1020 2)
  ++ [HLost 0]
  ++ map HStep (ask $"showtoken:- a" 1030 2).

Definition w_vanished : world :=
  match hrun toy (start conf1) vanishing with Some (SNext w) => w | _ => start conf1 end.

Example C104_case :
  reachable toy (start conf1) /\ hrun toy (start conf1) vanishing = Some (SNext w_vanished) /\ losses vanishing = 3%nat
  /\ filter is_answer (w_trace w_vanished)
     = [OReply $"showtoken:withurl a" $"access_token:tok"; OReply $"showtoken:- a" $"pending:"]
  /\ In (OEvent $"a" EvNew) (w_trace w_vanished) /\ In (OEvent $"a" EvRevoked) (w_trace w_vanished).
Proof.
  split; [reach_start|]. split; [vm_compute; reflexivity|]. split; [reflexivity|]. split; [vm_compute; reflexivity|].
  split; vm_compute; repeat (first [left; reflexivity|right]).
Qed.

Lemma gone_run O ls : forall w w', reachable_gone O w -> hrun O w ls = Some (SNext w') -> reachable_gone O w'.
Proof.
  induction ls as [|l ls IH]; intros w w' R H; [injection H as <-; exact R|].
  cbn [hrun] in H. destruct (hstep O w l) as [| |w1] eqn:S; try discriminate H. exact (IH _ _ (rg_step _ _ _ _ R S) H).
Qed.

Example C104_case_seen :
  reachable_gone toy w_vanished
  /\ exists a b, w_trace w_vanished = a ++ OReply $"showtoken:- a" $"pending:" :: b.
Proof.
  split.
  - apply (gone_run toy vanishing (start conf1)); [|exact (proj1 (proj2 C104_case))].
    apply (rg_init toy (file conf1 (tick 0))). vm_compute. reflexivity.
  - do 2 eexists. apply (split_at _ (List.length (w_trace w_vanished) - 1)). vm_compute. reflexivity.
Qed.

(** The same as a run from which three answers are left out. *)
Example C104_case_lossy :
  lossy toy (start conf1) (map (stays (tick (sec 1000))) (firstn 3 vanishing)) (firstn 3 vanishing).
Proof.
  eapply ly_same; [vm_compute; reflexivity|]. eapply ly_same; [vm_compute; reflexivity|].
  eapply ly_gone; [vm_compute; reflexivity|reflexivity|vm_compute; reflexivity|]. apply ly_nil.
Qed.
