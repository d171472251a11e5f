(** Proofs about the commands run for the user (C84). *)
From Verif Require Import Base BaseLemmas Time Utf8 Base64 Url UrlLemmas Json Oracles Config Dump State Http Timers Server
  StateLemmas ConfigLemmas SpecServer SpecTimers Steps Inv Reach Own Trace Origin Pend Loss Events Remind Counters Log Command
  SpecCommand.

Definition reason_for (n reason : str) : str := $"Authentication for " ++ n ++ $" failed: " ++ reason.

(** What a thread that is about to run a command goes by. *)
Definition goes_by (t : list obs) (p : pc) : Prop :=
  match p with
  | PRefCmd _ _ cmd => exists c, In (OConfig c) t /\ c_transient_error_if_cmd c = Some cmd
  | PHttpNotify n m _ => (exists reason, m = reason_for n reason) /\ exists u, In (OAuthUrl n u) t
  | PEvRun cmd _ _ => exists c, In (OConfig c) t /\ c_token_event_cmd c = Some cmd
  | _ => True
  end.

Lemma goes_by_mono t os p : goes_by t p -> goes_by (t ++ os) p.
Proof.
  destruct p; cbn [goes_by]; try exact (fun x => x).
  - intros (c & I & E). exists c. split; [apply in_or_app; left; exact I|exact E].
  - intros (R & u & I). split; [exact R|]. exists u. apply in_or_app. left. exact I.
  - intros (c & I & E). exists c. split; [apply in_or_app; left; exact I|exact E].
Qed.

Lemma current_config O w : reachable O w -> In (OConfig (lconfig (w_lk w))) (w_trace w).
Proof. intros R. apply config_at_in, reach_config_at with (O := O). exact R. Qed.

Lemma pending_issued O w e0 cvr ln st u :
  reachable O w -> has (w_lk w) e0 -> d_ts e0 = TSPending cvr ln st u -> In (OAuthUrl (d_name e0) u) (w_trace w).
Proof.
  intros R H T. destruct (pend_entries _ _ (reach_pend O w R) e0 cvr ln st u H T) as (act & _ & ta & o & tb & -> & (-> & _) & _).
  apply in_elt.
Qed.

Lemma reach_goes_by O w : reachable O w -> Forall (fun p => goes_by (w_trace w) (last_pc p)) (w_threads w).
Proof.
  apply (thread_inv O (fun _ t p => goes_by t (last_pc p))).
  - intros lk t p. destruct p; intros X; try discriminate X; exact Logic.I.
  - auto.
  - intros lk lk' t os p _ _ H. apply goes_by_mono. exact H.
  - intros w0 tid e p lk' p' os R I N PO PW EV C. pose proof (current_config O w0 R) as CC.
    destruct C; cbn [last_pc reply respond push_event goes_by]; try exact Logic.I; try (rewrite app_nil_r).
    + destruct (e_post e) as [body|m|code body|k m]; try exact Logic.I. cbn [ref_post_next].
      destruct (is_transient k); exact Logic.I.
    + unfold ref_body_next. destruct (o_json O body) as [v|]; [|exact Logic.I].
      destruct (json_str $"error" v); [exact Logic.I|].
      destruct (json_str $"access_token" v); [|exact Logic.I].
      destruct (json_u64 $"expires_in" v); [|exact Logic.I].
      destruct (json_str $"token_type" v) as [ty|]; [|exact Logic.I].
      destruct (str_eqb ty $"Bearer"); exact Logic.I.
    + eauto.
    + split; [eexists; reflexivity|]. eexists. eapply pending_issued; eassumption.
    + destruct (e_post e) as [body|m|code body|k m]; try exact Logic.I. cbn [http_post_next].
      destruct tries as [|[|n]]; exact Logic.I.
    + destruct PO as (act & _ & F).
      match goal with X : has (w_lk w0) e0 |- _ => destruct (F _ X eq_refl) as [_ (c1 & l1 & s1 & u1 & T1)] end.
      split; [eexists; reflexivity|]. eexists. eapply pending_issued; eassumption.
    + destruct wa; exact Logic.I.
    + destruct wa; exact Logic.I.
    + eauto.
    + rewrite last_emit_cmds. exact Logic.I.
    + rewrite last_spawn_all. exact Logic.I.
Qed.

Lemma subseq_in {A} (a b : list A) x : subseq a b -> In x a -> In x b.
Proof. intros S. induction S; simpl; intros I; [destruct I|..]; intuition. Qed.

Lemma queued_in t n ev : In (n, ev) (queued t) -> In (OEvent n ev) t.
Proof.
  intros H. apply in_flat_map in H as (o & I & H). destruct o; try contradiction. destruct H as [H|[]].
  injection H as -> ->. exact I.
Qed.

(** What a command in the history goes by. *)
Definition cmd_from (t : list obs) (o : obs) : Prop :=
  match o with
  | OErrCmd cmd n m =>
      (exists c, config_at t = Some c /\ c_error_notify_cmd c = Some cmd)
      /\ (exists reason, m = reason_for n reason) /\ exists u, In (OAuthUrl n u) t
  | OEventCmd cmd n ev => (exists c, In (OConfig c) t /\ c_token_event_cmd c = Some cmd) /\ In (OEvent n ev) t
  | OTransientCmd cmd n _ =>
      (exists c, In (OConfig c) t /\ c_transient_error_if_cmd c = Some cmd) /\ exists rt r, refreshed_with t rt r /\ transient r
  | _ => True
  end.

Lemma reach_cmd_from O w : reachable O w -> trace_all cmd_from (w_trace w).
Proof.
  revert w. apply (reach_ind O).
  - intros e c hp hsp pk _ _. change (w_trace (init_world c hp hsp pk)) with ([] ++ [OConfig c]).
    apply trace_all_snoc; [apply trace_all_nil|exact Logic.I].
  - intros w l w' R I I' A IH S T.
    destruct T as [tid e p lk' p' os N C|tid e p w' N SY|https bytes P].
    + cbn [after_cs emit set_thread set_lk w_trace]. apply trace_all_app; [exact IH|]. intros a x b E.
      pose proof (reach_goes_by O w R) as G. rewrite Forall_forall in G. specialize (G _ (nth_error_In _ _ N)).
      pose proof (reach_why O w R) as WH. rewrite Forall_forall in WH. specialize (WH _ (nth_error_In _ _ N)).
      assert (In x os) as IX by (rewrite E; apply in_elt).
      destruct C; cbn [In] in IX; try contradiction;
        repeat (destruct IX as [IX|IX]; [subst x; try exact Logic.I|]); try contradiction;
        (destruct a as [|? [|? ?]]; try discriminate E; rewrite app_nil_r); cbn [cmd_from].
      * cbn in G, WH. split; [exact G|]. destruct WH as ((rt & r & H1 & H2 & _) & _). eauto.
      * cbn in G. split; [|exact G]. eexists. split; [exact (reach_config_at _ _ R)|assumption].
      * cbn in G. split; [exact G|]. apply queued_in. eapply subseq_in; [exact (evi_order _ (reach_ev_inv O w R))|].
        assert (tid = 1) as -> by (destruct (reach_roles _ _ R) as [_ RO]; pose proof (RO _ _ N) as RL; destruct tid as [|[|[|[|k]]]]; discriminate RL || reflexivity).
        assert (ev_pc w = PEvRun cmd n ev) as -> by (unfold ev_pc; erewrite nth_error_nth by exact N; reflexivity).
        apply in_or_app. right. apply in_or_app. left. left. reflexivity.
    + destruct SY; try (simpl; exact IH).
      rewrite do_action_trace. change (w_trace (set_thread w tid k)) with (w_trace w).
      apply trace_all_app; [exact IH|]. intros b x c E.
      assert (In x (action_obs a)) as IX by (rewrite E; apply in_elt).
      destruct a; cbn [action_obs In] in IX; try contradiction; destruct IX as [<-|[]]; try exact Logic.I.
      assert (Forall (fun p => forall a, In a (chain p) -> match a with AEmit (OErrCmd _ _ _) | AEmit (OEventCmd _ _ _) | AEmit (OTransientCmd _ _ _) => False | _ => True end) (w_threads w)) as F.
      { clear - R. revert w R. apply (reach_ind O).
        - intros. repeat constructor; intros a [].
        - intros w l w' R I I' A F S T. eapply tstep_chain_inv; try eassumption.
          intros e p lk' p' os a C Ia. pose proof (csr_chain _ _ _ _ _ _ _ a C Ia) as X.
          destruct a; try exact Logic.I. destruct o; try exact Logic.I; exact X. }
      rewrite Forall_forall in F. specialize (F _ (nth_error_In _ _ N) _ (or_introl eq_refl)).
      destruct o; try exact Logic.I; contradiction.
    + simpl. apply trace_all_snoc; [exact IH|exact Logic.I].
Qed.

Lemma commands_started_for O w shell t1 o t2 p :
  reachable O w -> w_trace w = t1 ++ o :: t2 -> command_of shell o = Some p -> started_for shell t1 p.
Proof.
  intros R E C. pose proof (reach_cmd_from O w R t1 o t2 E) as F.
  destruct o; try discriminate C; injection C as <-.
  - destruct (reminder_decided O w t1 cmd name url t2 R E) as (w1 & e1 & os & cvr & ln & st & u0 & R1 & _ & _ & -> & _ & (e0 & H & <- & T) & CM & ->).
    apply (sf_auth shell _ _ (conf w1) cmd (d_name e0) u0).
    + apply in_or_app. left. exact (current_config O w1 R1).
    + exact CM.
    + apply in_or_app. left. eapply pending_issued; eassumption.
    + repeat split.
  - destruct F as ((c & C1 & C2) & (reason & ->) & u & I). eapply sf_error; try eassumption. repeat split.
  - destruct F as ((c & C1 & C2) & rt & r & X & Y). eapply sf_transient; try eassumption. repeat split.
  - destruct F as ((c & C1 & C2) & I).
    destruct ev; (eapply sf_event; [exact C1|exact C2|exact I|constructor|repeat split]).
Qed.

(** * What comes of them *)

Lemma nul_in s : has_nul s = true <-> In "000"%char s.
Proof.
  unfold has_nul. rewrite existsb_exists. split.
  - intros (c & I & E). apply Ascii.eqb_eq in E. subst c. exact I.
  - intros I. exists "000"%char. split; [exact I|reflexivity].
Qed.

Lemma no_nul s : without_zero s -> has_nul s = false.
Proof. intros W. destruct (has_nul s) eqn:E; [|reflexivity]. apply nul_in in E. contradiction. Qed.

Lemma run_plain shell fate o p :
  command_of shell o = Some p -> without_zero shell -> Forall without_zero (p_args p) ->
  Forall (fun kv => without_zero (fst kv) /\ without_zero (snd kv)) (p_vars p) ->
  run_command (inl shell) fate o = Some (fate p).
Proof.
  intros C S A V. unfold run_command. rewrite C. cbn [option_map].
  assert (saw_nul p = false) as ->; [|reflexivity]. unfold saw_nul.
  assert (p_exe p = shell) as -> by (destruct o; try discriminate C; injection C as <-; reflexivity).
  rewrite (no_nul _ S). cbn [orb].
  assert (existsb has_nul (p_args p) = false) as ->.
  { destruct (existsb has_nul (p_args p)) eqn:E; [|reflexivity]. apply existsb_exists in E as (x & I & X).
    rewrite Forall_forall in A. rewrite (no_nul _ (A _ I)) in X. discriminate X. }
  cbn [orb]. destruct (existsb _ (p_vars p)) eqn:E; [|reflexivity]. apply existsb_exists in E as (kv & I & X).
  rewrite Forall_forall in V. destruct (V _ I) as [V1 V2]. rewrite (no_nul _ V1), (no_nul _ V2) in X. discriminate X.
Qed.

Lemma answer_ok cmd x :
  (cmd_ok cmd x = true <-> exists out, x = CExit (Some 0%N) out)
  /\ (forall m, transient_answer cmd x = Some m <-> disapproves cmd x m).
Proof.
  unfold cmd_ok. split.
  - split.
    + destruct x as [m|m|[[|c]|] out| |m]; cbn; try discriminate. intros _. eauto.
    + intros (out & ->). reflexivity.
  - intros m. split.
    + destruct x as [m'|m'|[[|c]|] out| |m']; cbn; intros E; try discriminate E; injection E as <-; constructor. discriminate.
    + intros D. destruct D; try reflexivity. cbn. destruct c; [congruence|reflexivity].
Qed.

(** A zero byte in the message and the command is not run. *)
Lemma zero_not_run shell cmd n m : In "000"%char m ->
  saw_nul (shell_process shell cmd [($"PIZAUTH_ACCOUNT", n); ($"PIZAUTH_MSG", m)] false) = true.
Proof.
  intros Z. apply nul_in in Z. unfold saw_nul. cbn [shell_process p_vars existsb fst snd]. rewrite Z.
  rewrite !orb_true_r. reflexivity.
Qed.
