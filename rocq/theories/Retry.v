(** Failed attempts are remembered (C26). *)
From Verif Require Import Base BaseLemmas Time Utf8 Base64 Url Json Oracles Config Dump State Http
  Timers Server StateLemmas ConfigLemmas SpecServer Steps Inv Reach Own Trace SpecTimers Refresh Wake Sched.
Local Open Scope Z_scope.

(** Every token of account [n] comes with an attempt made between [t] and [T]. *)
Definition tried (lk : locked) (n : str) (t T : Z) : Prop :=
  forall e0 a, has lk e0 -> d_name e0 = n -> d_ts e0 = TSActive a ->
    exists l, last_attempt a = Some l /\ t <= l <= T.

Lemma tried_bump lk k e0 ts n t T :
  wf lk -> has lk e0 ->
  (forall a, ts = TSActive a -> d_name e0 = n -> exists l, last_attempt a = Some l /\ t <= l <= T) ->
  tried lk n t T -> tried (bump k lk (d_id e0) ts) n t T.
Proof.
  intros W H TS TR e' a' H' N' T'. apply bump_in in H' as [(e1 & H1 & E1 & ->)|[H1 _]].
  - assert (e1 = e0) as -> by (eapply wf_id_inj; eassumption). cbn in *. eapply TS; eassumption.
  - eapply TR; eassumption.
Qed.

(** A thread that has stored a token for [n] says so next. *)
Definition will_tell (p : pc) (n : str) : Prop :=
  In (APushEvent n EvNew) (chain p) \/ In (APushEvent n EvRefresh) (chain p).

Lemma csr_tried O w tid e p lk' p' os n t T :
  reachable O w -> nth_error (w_threads w) tid = Some p -> csr O w e p lk' p' os ->
  (forall bytes, e_client e <> Some ($"restore:" ++ bytes)) -> t <= env_now e <= T ->
  tried (w_lk w) n t T -> tried lk' n t T \/ will_tell p' n.
Proof.
  intros R N C NR B TR. pose proof (reach_inv _ _ R) as I. pose proof (inv_wf _ _ I) as W.
  destruct C; try (left; exact TR);
    try (left; apply tried_bump; [exact W|assumption|intros a0 X; discriminate X|exact TR]).
  - (* m_reload *)
    left. match goal with U : update_conf _ _ = _ |- _ =>
      destruct (update_conf_spec _ _ _ W (co_wf _ _ ltac:(eassumption)) U) as (_ & _ & LC & SP) end.
    intros e' a' H' N' T'. destruct (SP e' H') as (a1 & A1 & M).
    destruct (account_of (w_lk w) (d_name e')) as [a2|].
    + destruct (secure_eq a1 a2); [eapply TR; eassumption|]. destruct M as [_ M]. congruence.
    + destruct M as [_ M]. congruence.
  - (* m_restore *) exfalso. subst req. eapply NR. eassumption.
  - (* r_start *)
    left. apply tried_bump; [exact W|assumption| |exact TR].
    intros a0 X NM. injection X as <-. exists (env_now e). split; [reflexivity|exact B].
  - (* r_got *)
    destruct (thread_name O w tid _ (d_id e0) name e0 R N (conj eq_refl eq_refl) ltac:(assumption) eq_refl) as [NM _].
    destruct (list_eq_dec Ascii.ascii_dec name n) as [EQ|NE].
    + right. right. rewrite <- EQ. cbn. auto.
    + left. apply tried_bump; [exact W|assumption| |exact TR]. intros a0 _ X. congruence.
  - (* r_trans *)
    left. apply tried_bump; [exact W|assumption| |exact TR].
    intros a0 X NM. injection X as <-. exists (env_now e). split; [reflexivity|exact B].
  - (* r_trans_cmd *)
    left. apply tried_bump; [exact W|assumption| |exact TR].
    intros a0 X NM. injection X as <-. exists (env_now e). split; [reflexivity|exact B].
  - (* r_cmd_ok *)
    left. apply tried_bump; [exact W|assumption| |exact TR].
    intros a0 X NM. injection X as <-. cbn. eapply TR; eassumption.
  - (* h_body_ok *)
    destruct (list_eq_dec Ascii.ascii_dec (d_name e0) n) as [EQ|NE].
    + right. left. rewrite <- EQ. cbn. auto.
    + left. apply tried_bump; [exact W|assumption| |exact TR]. intros a0 _ X. congruence.
  - (* n_scan *)
    left. match goal with F : Forall2 _ _ _ |- _ => rename F into F2 end.
    intros e' a' H' N' T'. destruct (Forall2_in_r _ _ _ _ F2 H') as (e1 & X1 & P). cbv beta in P.
    destruct (notify_due (w_lk w) (env_now e) e1) eqn:ND; [|subst e1; eapply TR; eassumption].
    destruct P as (N1 & _ & P). destruct (d_ts e1) as [|cvr1 ln1 st1 u1|a1] eqn:T1; cbn in P; try congruence.
    rewrite T' in P. injection P as ->. eapply TR; [exact X1|congruence|exact T1].
Qed.

(** A token was obtained for [n]: its event is queued, or about to be. *)
Definition telling (w : world) (os : list obs) (n : str) : Prop :=
  exists ev, (ev = EvNew \/ ev = EvRefresh)
    /\ (In (OEvent n ev) os \/ under_way w (APushEvent n ev)).

Lemma tstep_telling O w l w' os os' n :
  reachable O w -> tstep O w l w' -> w_trace w' = w_trace w ++ os' ->
  telling w os n -> telling w' (os ++ os') n.
Proof.
  intros R TS ET (ev & EV & [IO|U]); exists ev; (split; [exact EV|]); [left; apply in_or_app; left; exact IO|].
  destruct TS as [tid e p lk' p' os1 N C|tid e p w' N S|https bytes P].
  - right. eapply under_way_set; [exact N|eapply csr_no_chain; exact C|reflexivity|exact U].
  - destruct S as [a k|Pv|Pv|Pv|n0 ev0 q Q|Q|nw0 G|nw0 G|nw0 G|nw0 G|nw0 G|nw0 G];
      try (right; eapply under_way_set; [exact N|reflexivity|reflexivity|exact U]).
    assert (a = APushEvent n ev \/ a <> APushEvent n ev) as [->|NE].
    { destruct a as [| |m ev1| | | |]; try (right; discriminate).
      destruct (list_eq_dec Ascii.ascii_dec m n) as [->|NN]; [|right; congruence].
      clear. destruct ev1, ev; (left; reflexivity) || (right; discriminate). }
    + left. apply in_or_app. right. rewrite do_action_trace in ET. cbn [set_thread w_trace action_obs] in ET.
      apply app_inv_head in ET. rewrite <- ET. left. reflexivity.
    + right. apply under_way_do; assumption.
  - right. eapply under_way_add; [reflexivity|exact U].
Qed.

Lemma run_tried O n t T : forall ls w w' os,
  reachable O w -> run O w ls = Some (SNext w') ->
  (forall tid e, In (LTick tid e) ls ->
     t <= env_now e <= T /\ forall bytes, e_client e <> Some ($"restore:" ++ bytes)) ->
  tried (w_lk w) n t T \/ telling w os n ->
  exists os', w_trace w' = w_trace w ++ os' /\ (tried (w_lk w') n t T \/ telling w' (os ++ os') n).
Proof.
  induction ls as [|l ls IH]; intros w w' os R RN EN K.
  - cbn in RN. assert (w' = w) as -> by congruence. exists []. rewrite !app_nil_r. auto.
  - destruct (run_step_one _ _ _ _ _ RN) as (w1 & ST & RN1).
    assert (reachable O w1) as R1 by (eapply reach_step; eassumption).
    pose proof (reach_inv _ _ R) as I.
    pose proof (step_ok _ _ _ _ I ST) as (_ & _ & TS & _).
    destruct (tstep_trace _ _ _ _ TS) as (os1 & E1).
    assert (tried (w_lk w1) n t T \/ telling w1 (os ++ os1) n) as K1.
    { destruct K as [TR|TL]; [|right; eapply tstep_telling; [exact R|exact TS|exact E1|exact TL]].
      destruct TS as [tid e p lk' p' os2 N C|tid e p w1 N S|https bytes P].
      - destruct (EN tid e (or_introl eq_refl)) as [B NR].
        destruct (csr_tried O w tid e p lk' p' os2 n t T R N C NR B TR) as [TR'|[TL|TL]];
          [left; exact TR'| |]; right; eexists; (split; [|right; exists tid, p'; split;
            [eapply nth_list_set_same; exact N|rewrite will_do_chain; exact TL]]); auto.
      - left. destruct (syn_ok _ _ _ _ _ _ I ltac:(pose proof (inv_threads _ _ I) as TH; rewrite Forall_forall in TH; apply TH; eapply nth_error_In; exact N) S) as [_ ->].
        exact TR.
      - left. exact TR. }
    destruct (IH w1 w' (os ++ os1) R1 RN1 (fun tid e X => EN tid e (or_intror X)) K1) as (os2 & E2 & K2).
    exists (os1 ++ os2). rewrite E2, E1, <- !app_assoc in *. split; [reflexivity|exact K2].
Qed.

(** From a state in which the last attempt for [n] was made at [t], as long as
    no token has been obtained for [n] the refresher does not try again
    earlier than the configured pause later. *)
Lemma retries_spaced O w1 n a t ls w2 e act T :
  reachable O w1 -> holds w1 n (TSActive a) -> last_attempt a = Some t ->
  run O w1 ls = Some (SNext w2) ->
  (forall tid e', In (LTick tid e') ls ->
     t <= env_now e' <= T /\ forall bytes, e_client e' <> Some ($"restore:" ++ bytes)) ->
  (forall os ev, w_trace w2 = w_trace w1 ++ os -> ev = EvNew \/ ev = EvRefresh ->
     ~ In (OEvent n ev) os /\ ~ under_way w2 (APushEvent n ev)) ->
  t <= T -> configured w2 n act -> T + retry_gap act (conf w2) <= time_max ->
  looking w2 -> decides O w2 e n -> t + retry_gap act (conf w2) <= env_now e.
Proof.
  intros R H LA RN EN NT TT C2 B LK D.
  assert (reachable O w2) as R2 by (eapply steps_reachable; [exact R|eapply run_steps; exact RN]).
  assert (tried (w_lk w1) n t T) as TR.
  { intros e0 a0 H0 N0 T0. destruct H as (e1 & H1 & N1 & T1).
    assert (e0 = e1) as -> by (eapply wf_name_inj; [apply (inv_wf _ _ (reach_inv _ _ R))|exact H0|exact H1|congruence]).
    assert (a0 = a) as -> by congruence. exists t. split; [exact LA|lia]. }
  destruct (run_tried O n t T ls w1 w2 [] R RN EN (or_introl TR)) as (os & ET & [TR2|(ev & EV & X)]).
  - destruct (decides_active _ _ _ _ R2 LK D) as (a2 & H2 & OG).
    pose proof H2 as (e2 & I2 & N2 & T2). destruct (TR2 e2 a2 I2 N2 T2) as (l & LL & BL).
    apply (decides_retry O w2 e n act a2 l R2 LK C2 H2 OG LL) in D; lia.
  - exfalso. destruct (NT os ev ET EV) as [A1 A2]. destruct X as [X|X]; [exact (A1 X)|exact (A2 X)].
Qed.
