(** What happens if clients and browsers go away before they are answered. *)
From Verif Require Import Base BaseLemmas Time Utf8 Base64 Url Json Oracles Config Dump State Http Timers Server
  StateLemmas ConfigLemmas SpecServer Steps Inv Reach Own Trace Reply SpecTimers Locks SpecStatus SpecLocks LockLemmas Hangup SpecHangup.

(** ** What has been seen has no influence *)

Definition retrace (w : world) (t : list obs) : world :=
  mkWorld (w_lk w) (w_http w) (w_https w) (w_pubkey w) (w_evq w) (w_ev w) (w_nt w) (w_rf w)
    (w_threads w) (w_alive w) t.

Lemma same_retrace w w0 : same_state w w0 -> w0 = retrace w (w_trace w0).
Proof. destruct w, w0. intros [A B C D E F G H I J]. cbn in *. subst. reflexivity. Qed.

Lemma retrace_same w t : same_state w (retrace w t).
Proof. split; reflexivity. Qed.

Definition goes_as (w : world) (t : list obs) (r r0 : sres) : Prop :=
  match r with
  | SNext w' => exists os, w_trace w' = w_trace w ++ os /\ r0 = SNext (retrace w' (t ++ os))
  | SPanic => r0 = SPanic
  | SStuck => r0 = SStuck
  end.

Lemma goes_on w t w' os : w_trace w' = w_trace w ++ os -> goes_as w t (SNext w') (SNext (retrace w' (t ++ os))).
Proof. intros E. exists os. split; [exact E|reflexivity]. Qed.

Lemma goes_quiet w t w' : w_trace w' = w_trace w -> goes_as w t (SNext w') (SNext (retrace w' t)).
Proof. intros E. rewrite <- (app_nil_r t) at 2. apply goes_on. rewrite app_nil_r. exact E. Qed.

Lemma run_cs_retrace w t tid fb c : goes_as w t (run_cs w tid fb c) (run_cs (retrace w t) tid fb c).
Proof.
  destruct c as [[[lk p] os]|m|]; cbn [run_cs]; [|apply (goes_quiet w t (set_thread w tid fb)); reflexivity|reflexivity].
  exact (goes_on w t (emit (set_thread (set_lk w lk) tid p) os) os eq_refl).
Qed.

Lemma do_action_retrace w t a :
  exists os, w_trace (do_action w a) = w_trace w ++ os /\ do_action (retrace w t) a = retrace (do_action w a) (t ++ os).
Proof.
  destruct a; cbn [do_action];
    try (exists []; rewrite !app_nil_r; split; reflexivity); eexists; split; reflexivity.
Qed.

Lemma thread_retrace O w t tid p e : goes_as w t (step_thread O w tid p e) (step_thread O (retrace w t) tid p e).
Proof.
  destruct p; cbn [step_thread];
    try (exact (run_cs_retrace w t _ _ _));
    try (match goal with |- goes_as _ _ (SNext (emit ?x ?os)) _ => exact (goes_on w t (emit x os) os eq_refl) end);
    try (exact (goes_quiet w t (set_thread _ _ _) eq_refl));
    try reflexivity.
  - destruct (do_action_retrace (set_thread w tid p) t a) as (os & T & E).
    change (set_thread (retrace w t) tid p) with (retrace (set_thread w tid p) t). rewrite E. apply goes_on. exact T.
  - destruct (e_client e) as [req|]; [|reflexivity].
    pose proof (run_cs_retrace (emit w [OClient req]) (t ++ [OClient req]) tid PMain (request O e w req)) as H.
    change (run_cs (emit (retrace w t) [OClient req]) tid PMain (request O e (retrace w t) req))
      with (run_cs (retrace (emit w [OClient req]) (t ++ [OClient req])) tid PMain (request O e w req)).
    destruct (run_cs (emit w [OClient req]) tid PMain (request O e w req)) as [| |w']; cbn [goes_as] in *; try exact H.
    destruct H as (os & T & E). exists ([OClient req] ++ os). rewrite !app_assoc. split; [exact T|exact E].
  - change (w_ev (retrace w t)) with (w_ev w). destruct (cv_pred (w_ev w)).
    + exact (goes_quiet w t (set_ev (set_thread w tid _) _) eq_refl).
    + exact (goes_quiet w t (set_ev (set_thread w tid _) _) eq_refl).
  - change (w_ev (retrace w t)) with (w_ev w). destruct (_ || _); [|reflexivity].
    exact (goes_quiet w t (set_ev (set_thread w tid _) _) eq_refl).
  - change (w_evq (retrace w t)) with (w_evq w). destruct (w_evq w) as [|[n ev] q].
    + exact (goes_quiet w t (set_thread w tid _) eq_refl).
    + exact (goes_quiet w t (set_evq (set_thread w tid _) _) eq_refl).
  - change (w_lk (retrace w t)) with (w_lk w). destruct (c_token_event_cmd _);
      exact (goes_quiet w t (set_thread w tid _) eq_refl).
  - change (w_lk (retrace w t)) with (w_lk w). destruct (next_wakeup _ _ _);
      [exact (goes_quiet w t (set_thread w tid _) eq_refl)|reflexivity|reflexivity].
  - change (w_nt (retrace w t)) with (w_nt w). destruct (wait_or_go _ _ _);
      exact (goes_quiet w t (set_nt (set_thread w tid _) _) eq_refl).
  - change (w_nt (retrace w t)) with (w_nt w). destruct (_ || _); [|reflexivity].
    exact (goes_quiet w t (set_nt (set_thread w tid _) _) eq_refl).
  - change (w_lk (retrace w t)) with (w_lk w). destruct (next_wakeup _ _ _);
      [exact (goes_quiet w t (set_thread w tid _) eq_refl)|reflexivity|reflexivity].
  - change (w_rf (retrace w t)) with (w_rf w). destruct (wait_or_go _ _ _);
      exact (goes_quiet w t (set_rf (set_thread w tid _) _) eq_refl).
  - change (w_rf (retrace w t)) with (w_rf w). destruct (_ || _); [|reflexivity].
    exact (goes_quiet w t (set_rf (set_thread w tid _) _) eq_refl).
Qed.

Lemma step_retrace O w t l : goes_as w t (step O w l) (step O (retrace w t) l).
Proof.
  unfold step. change (w_alive (retrace w t)) with (w_alive w). destruct (negb (w_alive w)); [reflexivity|].
  destruct l as [tid e|https bytes].
  - change (w_threads (retrace w t)) with (w_threads w). destruct (nth_error (w_threads w) tid) as [p|]; [|reflexivity].
    apply thread_retrace.
  - change (w_https (retrace w t)) with (w_https w). change (w_http (retrace w t)) with (w_http w).
    destruct (is_some _); [|reflexivity].
    exact (goes_on w t (emit (add_thread w (PHttpStart https bytes)) _) _ eq_refl).
Qed.

(** ** Clients are answered last *)

Fixpoint answers_last (p : pc) : bool :=
  match p with
  | PDo (AEmit (OReply _ _)) k => match k with PMain => true | _ => false end
  | PDo _ k => answers_last k
  | _ => true
  end.

Lemma last_emit l : answers_last (emit_cmds l PNtTop) = true.
Proof. induction l as [|[[n c] u] l IH]; [reflexivity|exact IH]. Qed.

Lemma last_spawn l : answers_last (spawn_all l PRfTop) = true.
Proof. induction l as [|i l IH]; [reflexivity|exact IH]. Qed.

Lemma csr_answers_last O w e p lk' p' os : csr O w e p lk' p' os -> answers_last p' = true.
Proof.
  intros C. destruct C; try reflexivity; try apply last_emit; try apply last_spawn.
  - destruct (e_post e); try reflexivity. simpl. destruct (is_transient k); reflexivity.
  - unfold ref_body_next. destruct (o_json O body) as [v|m]; [|reflexivity].
    destruct (json_str $"error" v); [reflexivity|].
    destruct (json_str $"access_token" v); [|reflexivity].
    destruct (json_u64 $"expires_in" v); [|reflexivity].
    destruct (json_str $"token_type" v) as [ty|]; [|reflexivity].
    destruct (str_eqb ty $"Bearer"); reflexivity.
  - destruct (e_post e); try reflexivity. simpl. destruct tries as [|[|n]]; reflexivity.
  - destruct wa; reflexivity.
  - destruct wa; reflexivity.
Qed.

Lemma last_tail a k : answers_last (PDo a k) = true -> answers_last k = true.
Proof.
  cbn. destruct a as [| |n ev| |i|o|]; try (intros H; exact H). destruct o; try (intros H; exact H).
  destruct k; intros H; try discriminate H; reflexivity.
Qed.

Lemma reach_answers_last O w : reachable O w -> Forall (fun p => answers_last p = true) (w_threads w).
Proof.
  apply (reach_ind O (fun w => Forall (fun p => answers_last p = true) (w_threads w))).
  - intros. cbn. repeat constructor.
  - intros w0 l w' R _ _ _ IH _ T. destruct T as [tid e p lk' p' os N C|tid e p w' N S|https bytes P].
    + cbn. apply forall_list_set; [exact IH|eapply csr_answers_last; exact C].
    + assert (answers_last p = true) as CP by (rewrite Forall_forall in IH; apply IH; eapply nth_error_In; exact N).
      destruct S; try (cbn; apply forall_list_set; [exact IH|reflexivity]).
      pose proof (last_tail _ _ CP) as CK.
      destruct a; cbn; try (apply forall_list_set; assumption).
      apply Forall_app. split; [apply forall_list_set; assumption|repeat constructor].
    + cbn. apply Forall_app. split; [exact IH|repeat constructor].
Qed.

Lemma reply_last O w tid req txt k :
  reachable O w -> nth_error (w_threads w) tid = Some (PDo (AEmit (OReply req txt)) k) -> tid = 0 /\ k = PMain.
Proof.
  intros R N. split.
  - eapply chain_role_main; [exact R|exact N|]. left. reflexivity.
  - pose proof (reach_answers_last _ _ R) as F. rewrite Forall_forall in F. specialize (F _ (nth_error_In _ _ N)).
    cbn in F. destruct k; try discriminate F. reflexivity.
Qed.

(** ** Losing answers *)

Lemma subseq_app_same {A} (a b c : list A) : subseq a b -> subseq (a ++ c) (b ++ c).
Proof.
  assert (forall l : list A, subseq c (l ++ c)) as E.
  { intros l. induction l as [|x l IH]; [|apply ss_skip; exact IH]. cbn. induction c; constructor; assumption. }
  induction 1; cbn; [apply E|apply ss_skip; assumption|apply ss_take; assumption].
Qed.

Lemma subseq_more {A} (a b c : list A) : subseq a b -> subseq a (b ++ c).
Proof. induction 1; cbn; constructor; assumption. Qed.

Lemma missing_app n t t0 os : only_answers_missing n t t0 -> only_answers_missing n (t ++ os) (t0 ++ os).
Proof.
  intros (D & S & L). split; [unfold deeds in *; rewrite !filter_app, D; reflexivity|].
  split; [apply subseq_app_same; exact S|]. rewrite !app_length, L. lia.
Qed.

Lemma missing_more n t t0 o :
  is_answer o = true -> only_answers_missing n t t0 -> only_answers_missing (S n) t (t0 ++ [o]).
Proof.
  intros A (D & S & L). split.
  - unfold deeds in *. rewrite filter_app, D. cbn. rewrite A. symmetry. apply app_nil_r.
  - split; [apply subseq_more; exact S|]. rewrite app_length, L. cbn. lia.
Qed.

Lemma missing_none t : only_answers_missing 0 t t.
Proof.
  split; [reflexivity|]. split; [|lia]. induction t; constructor; assumption.
Qed.

Lemma answer_step O w tid o k e :
  w_alive w = true -> nth_error (w_threads w) tid = Some (PDo (AEmit o) k) ->
  step O w (LTick tid e) = SNext (emit (set_thread w tid k) [o]).
Proof. intros A N. unfold step. rewrite A, N. reflexivity. Qed.

(** The two ways an answer may go: that it arrives, or that it is lost. *)
Lemma lost_or_not O w tid w' e :
  reachable O w -> hstep O w (HLost tid) = SNext w' ->
  exists o, is_answer o = true /\ step O w (LTick tid e) = SNext (emit w' [o]) /\ w_trace w' = w_trace w.
Proof.
  intros R. cbn [hstep]. destruct (w_alive w) eqn:A; [|discriminate]. unfold write_fails.
  destruct (nth_error (w_threads w) tid) as [p|] eqn:N; [|discriminate].
  destruct p; try discriminate. rename p into k.
  destruct a as [| |n ev| |i|o|]; try discriminate.
  destruct o as [c|req|req txt| | |bytes| | | | | | | | |]; try discriminate; intros [= <-].
  - destruct (reply_last _ _ _ _ _ _ R N) as [-> ->]. exists (OReply req txt). split; [reflexivity|]. split; [|reflexivity].
    exact (answer_step _ _ _ _ _ _ A N).
  - exists (OHttpResp bytes). split; [reflexivity|]. split; [|reflexivity]. exact (answer_step _ _ _ _ _ _ A N).
Qed.

Lemma sim_step O n w w0 l w' e :
  reachable O w0 -> same_state w w0 -> only_answers_missing n (w_trace w) (w_trace w0) -> hstep O w l = SNext w' ->
  exists w0', step O w0 (stays e l) = SNext w0' /\ same_state w' w0'
    /\ only_answers_missing (losses [l] + n) (w_trace w') (w_trace w0').
Proof.
  intros R SS MI S. pose proof (same_retrace _ _ SS) as E0. destruct l as [l|tid].
  - cbn [hstep stays losses plus] in *. pose proof (step_retrace O w (w_trace w0) l) as G. rewrite S in G.
    destruct G as (os & T & G). rewrite <- E0 in G. eexists. split; [exact G|]. split; [apply retrace_same|].
    rewrite T. apply missing_app. exact MI.
  - assert (hstep O w0 (HLost tid) = SNext (retrace w' (w_trace w0))) as S0.
    { rewrite E0. cbn [hstep] in *. change (w_alive (retrace w (w_trace w0))) with (w_alive w).
      destruct (w_alive w); [|discriminate S]. unfold write_fails in *.
      change (w_threads (retrace w (w_trace w0))) with (w_threads w).
      destruct (nth_error (w_threads w) tid) as [p|]; [|discriminate S].
      destruct p; try discriminate S. destruct a; try discriminate S. destruct o; try discriminate S;
        injection S as <-; reflexivity. }
    assert (w_trace w' = w_trace w) as T.
    { cbn [hstep] in S. destruct (w_alive w); [|discriminate S]. unfold write_fails in S.
      destruct (nth_error (w_threads w) tid) as [p|]; [|discriminate S].
      destruct p; try discriminate S. destruct a; try discriminate S. destruct o; try discriminate S;
        injection S as <-; reflexivity. }
    destruct (lost_or_not _ _ _ _ e R S0) as (o & A & S1 & _). eexists. split; [exact S1|]. split; [split; reflexivity|].
    rewrite T. exact (missing_more _ _ _ _ A MI).
Qed.

Lemma sim_panic O w w0 l e :
  same_state w w0 -> hstep O w l = SPanic -> step O w0 (stays e l) = SPanic.
Proof.
  intros SS S. destruct l as [l|tid].
  - pose proof (step_retrace O w (w_trace w0) l) as G. cbn [hstep] in S. rewrite S in G.
    rewrite <- (same_retrace _ _ SS) in G. exact G.
  - exfalso. cbn [hstep] in S. destruct (w_alive w); [|discriminate S]. unfold write_fails in S.
    destruct (nth_error (w_threads w) tid) as [p|]; [|discriminate S].
    destruct p; try discriminate S. destruct a; try discriminate S. destruct o; discriminate S.
Qed.

(** Any run with answers lost is as one in which they arrive. *)
Lemma run_sim O e ls : forall n w w0 w',
  reachable O w0 -> same_state w w0 -> only_answers_missing n (w_trace w) (w_trace w0) ->
  hrun O w ls = Some (SNext w') ->
  exists w0', run O w0 (map (stays e) ls) = Some (SNext w0') /\ same_state w' w0'
    /\ only_answers_missing (losses ls + n) (w_trace w') (w_trace w0').
Proof.
  induction ls as [|l ls IH]; intros n w w0 w' R SS MI H.
  - injection H as <-. exists w0. split; [reflexivity|]. split; assumption.
  - cbn [hrun] in H. destruct (hstep O w l) as [| |w1] eqn:S; try discriminate H.
    destruct (sim_step _ _ _ _ _ _ e R SS MI S) as (w01 & S0 & SS1 & MI1).
    destruct (IH _ _ _ _ (reach_step _ _ _ _ R S0) SS1 MI1 H) as (w0' & R' & SS' & MI').
    exists w0'. split; [cbn [map run]; rewrite S0; exact R'|]. split; [exact SS'|].
    replace (losses (l :: ls) + n) with (losses ls + (losses [l] + n)); [exact MI'|].
    destruct l; cbn; lia.
Qed.

Lemma as_if_answered O e w ls w' :
  reachable O w -> hrun O w ls = Some (SNext w') ->
  exists w0, run O w (map (stays e) ls) = Some (SNext w0) /\ same_state w' w0
    /\ only_answers_missing (losses ls) (w_trace w') (w_trace w0).
Proof.
  intros R H. destruct (run_sim O e ls 0 w w w' R ltac:(split; reflexivity) (missing_none _) H) as (w0 & A & B & C).
  exists w0. rewrite Nat.add_0_r in C. auto.
Qed.

Lemma panic_sim O e ls : forall n w w0,
  reachable O w0 -> same_state w w0 -> only_answers_missing n (w_trace w) (w_trace w0) ->
  hrun O w ls = Some SPanic -> run O w0 (map (stays e) ls) = Some SPanic.
Proof.
  induction ls as [|l ls IH]; intros n w w0 R SS MI H; [discriminate H|].
  cbn [hrun] in H. cbn [map run]. destruct (hstep O w l) as [| |w1] eqn:S; try discriminate H.
  - rewrite (sim_panic _ _ _ _ e SS S). reflexivity.
  - destruct (sim_step _ _ _ _ _ _ e R SS MI S) as (w01 & S0 & SS1 & MI1). rewrite S0.
    exact (IH _ _ _ (reach_step _ _ _ _ R S0) SS1 MI1 H).
Qed.

Lemma panics_anyway O e w ls :
  reachable O w -> hrun O w ls = Some SPanic -> run O w (map (stays e) ls) = Some SPanic.
Proof. intros R. exact (panic_sim O e ls 0 w w R ltac:(split; reflexivity) (missing_none _)). Qed.

Lemma gone_reachable O w :
  reachable_gone O w -> exists w0 n, reachable O w0 /\ same_state w w0 /\ only_answers_missing n (w_trace w) (w_trace w0).
Proof.
  induction 1 as [e c hp hsp pk C|w l w' _ (w0 & n & R & SS & MI) S].
  - exists (init_world c hp hsp pk), 0. split; [exact (reach_init _ _ _ _ _ _ C)|]. split; [split; reflexivity|apply missing_none].
  - pose (e := mkEnv (fun _ => mkReads 0 0 0 0) [] [] [] None None (fun _ => 0%N) (fun _ => 0%N) (PRBody []) true true).
    destruct (sim_step _ _ _ _ _ _ e R SS MI S) as (w0' & S0 & SS' & MI').
    eexists. eexists. split; [exact (reach_step _ _ _ _ R S0)|]. split; eassumption.
Qed.

(** The other way round: whichever answers of a run are lost, the rest happens all the same. *)
Lemma lossy_run O ls hs w0 :
  lossy O w0 ls hs -> forall n w, reachable O w0 -> same_state w w0 -> only_answers_missing n (w_trace w) (w_trace w0) ->
  exists w' w0', hrun O w hs = Some (SNext w') /\ run O w0 ls = Some (SNext w0') /\ same_state w' w0'
    /\ only_answers_missing (losses hs + n) (w_trace w') (w_trace w0').
Proof.
  induction 1 as [w0|w0 l w1 ls hs S _ IH|w0 tid e o k w1 ls hs N A S _ IH]; intros n w R SS MI.
  - exists w, w0. split; [reflexivity|]. split; [reflexivity|]. split; assumption.
  - assert (same_state w0 w) as SS' by (destruct SS; split; congruence).
    pose proof (step_retrace O w0 (w_trace w) l) as G. rewrite S in G. destruct G as (os & T & G).
    rewrite <- (same_retrace _ _ SS') in G.
    destruct (IH n (retrace w1 (w_trace w ++ os)) (reach_step _ _ _ _ R S)) as (w' & w0' & H1 & H2 & H3 & H4).
    + split; reflexivity.
    + rewrite T. apply missing_app. exact MI.
    + exists w', w0'. split; [cbn [hrun hstep]; rewrite G; exact H1|]. split; [cbn [run]; rewrite S; exact H2|].
      split; [exact H3|exact H4].
  - assert (w_alive w0 = true) as AL.
    { unfold step in S. destruct (w_alive w0); [reflexivity|discriminate S]. }
    rewrite (answer_step _ _ _ _ _ _ AL N) in S. injection S as <-.
    pose proof (answer_step O w0 tid o k e AL N) as S.
    assert (hstep O w (HLost tid) = SNext (set_thread w tid k)) as HS.
    { cbn [hstep]. rewrite (ss_alive _ _ SS), AL. unfold write_fails. rewrite (ss_threads _ _ SS), N.
      destruct o; try discriminate A; [|reflexivity]. destruct (reply_last _ _ _ _ _ _ R N) as [_ ->]. reflexivity. }
    destruct (IH (Datatypes.S n) (set_thread w tid k) (reach_step _ _ _ _ R S)) as (w' & w0' & H1 & H2 & H3 & H4).
    + destruct SS as [A1 A2 A3 A4 A5 A6 A7 A8 A9 A10].
      split; cbn [emit set_thread w_lk w_http w_https w_pubkey w_evq w_ev w_nt w_rf w_threads w_alive]; congruence.
    + cbn [emit set_thread w_trace]. apply missing_more; assumption.
    + exists w', w0'. split; [cbn [hrun]; rewrite HS; exact H1|]. split; [cbn [run]; rewrite S; exact H2|].
      split; [exact H3|]. cbn [losses]. rewrite Nat.add_succ_r in H4. exact H4.
Qed.

Lemma losses_harmless O w ls hs :
  reachable O w -> lossy O w ls hs ->
  exists w' w0, hrun O w hs = Some (SNext w') /\ run O w ls = Some (SNext w0) /\ same_state w' w0
    /\ only_answers_missing (losses hs) (w_trace w') (w_trace w0).
Proof.
  intros R L. destruct (lossy_run O ls hs w L 0 w R ltac:(split; reflexivity) (missing_none _)) as (w' & w0 & A & B & C & D).
  exists w', w0. rewrite Nat.add_0_r in D. auto.
Qed.

(** ** Before and after an observation *)

Inductive less_answers : list obs -> list obs -> Prop :=
| la_nil : less_answers [] []
| la_same o t t0 : less_answers t t0 -> less_answers (o :: t) (o :: t0)
| la_less o t t0 : is_answer o = true -> less_answers t t0 -> less_answers t (o :: t0).

Lemma subseq_deeds t t0 : subseq t t0 -> List.length (deeds t) <= List.length (deeds t0).
Proof.
  unfold deeds. induction 1 as [l|x l1 l2 _ IH|x l1 l2 _ IH]; cbn; [lia| |]; destruct (negb (is_answer x)); cbn; lia.
Qed.

Lemma missing_less t t0 : deeds t = deeds t0 -> subseq t t0 -> less_answers t t0.
Proof.
  intros D S. induction S as [l|x l1 l2 S IH|x l1 l2 S IH].
  - induction l as [|o l IH]; [constructor|]. cbn in D. destruct (is_answer o) eqn:A; cbn in D; [|discriminate D].
    apply la_less; [exact A|exact (IH D)].
  - cbn in D. destruct (is_answer x) eqn:A; cbn in D; [apply la_less; [exact A|exact (IH D)]|].
    exfalso. pose proof (subseq_deeds _ _ S) as L. rewrite D in L. cbn in L. unfold deeds in L. lia.
  - apply la_same, IH. cbn in D. destruct (negb (is_answer x)); [injection D as D|]; exact D.
Qed.

Lemma less_missing t t0 : less_answers t t0 -> exists n, only_answers_missing n t t0.
Proof.
  induction 1 as [|o t t0 _ (n & D & S & L)|o t t0 A _ (n & D & S & L)].
  - exists 0. apply missing_none.
  - exists n. split; [cbn; unfold deeds in D; rewrite D; reflexivity|]. split; [apply ss_take; exact S|cbn; lia].
  - exists (Datatypes.S n). split; [cbn; rewrite A; exact D|]. split; [apply ss_skip; exact S|cbn; lia].
Qed.

Lemma less_split t t0 : less_answers t t0 -> forall a x b, t = a ++ x :: b ->
  exists a0 b0, t0 = a0 ++ x :: b0 /\ less_answers a a0 /\ less_answers b b0.
Proof.
  induction 1 as [|o t t0 L IH|o t t0 A L IH]; intros a x b E.
  - destruct a; discriminate E.
  - destruct a as [|y a]; injection E as -> ->.
    + exists [], t0. split; [reflexivity|]. split; [constructor|exact L].
    + destruct (IH _ _ _ eq_refl) as (a0 & b0 & -> & La & Lb). exists (y :: a0), b0.
      split; [reflexivity|]. split; [constructor; exact La|exact Lb].
  - destruct (IH _ _ _ E) as (a0 & b0 & -> & La & Lb). exists (o :: a0), b0.
    split; [reflexivity|]. split; [apply la_less; assumption|exact Lb].
Qed.

Lemma seen_as_ever O w a x b :
  reachable_gone O w -> w_trace w = a ++ x :: b ->
  exists w0 a0 b0 m n,
    reachable O w0 /\ same_state w w0 /\ w_trace w0 = a0 ++ x :: b0
    /\ only_answers_missing m a a0 /\ only_answers_missing n b b0.
Proof.
  intros R E. destruct (gone_reachable _ _ R) as (w0 & k & R0 & SS & D & S & _).
  destruct (less_split _ _ (missing_less _ _ D S) _ _ _ E) as (a0 & b0 & E0 & La & Lb).
  destruct (less_missing _ _ La) as [m Ma]. destruct (less_missing _ _ Lb) as [n Mb].
  exists w0, a0, b0, m, n. auto.
Qed.

(** The one answer that is written with the state's mutex in hand. *)
Lemma gone_releases O f :
  fine_reachable O f -> w_alive (f_world f) = true -> writes_status f ->
  exists w' f', hstep O (f_world f) (HLost 0) = SNext w' /\ fstep O (mkFine w' (f_phase f)) (FDrop 0) f'
    /\ forall t, ~ holds_lock f' t LkState.
Proof.
  intros F A (H & txt & k & N). pose proof (fine_inv _ _ F) as [R EX HA DI].
  assert (f_phase f 0 = Did LkState) as P.
  { unfold holds_lock in H. destruct (f_phase f 0) as [|l c|l] eqn:P; [discriminate H|..].
    - destruct (HA _ _ _ P) as (p & N' & L). rewrite N in N'. injection N' as <-. discriminate L.
    - cbn in H. congruence. }
  exists (set_thread (f_world f) 0 PMain). eexists. split; [cbn [hstep]; rewrite A; unfold write_fails; rewrite N; reflexivity|].
  split.
  - eapply (fs_drop _ _ 0 PMain LkState); [exact A| |exact P|reflexivity].
    change (nth_error (list_set 0 PMain (w_threads (f_world f))) 0 = Some PMain). eapply nth_list_set_same. exact N.
  - intros t HT. unfold holds_lock in HT. cbn [f_phase] in HT. unfold set_phase in HT.
    destruct (Nat.eqb t 0) eqn:E; [discriminate HT|]. apply Nat.eqb_neq in E. apply E.
    exact (EX t 0 LkState HT H).
Qed.
