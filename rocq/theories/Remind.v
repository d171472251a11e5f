(** Reminders about pending authorisations. *)
From Verif Require Import Base BaseLemmas Time Utf8 Base64 Url Json Oracles Config Dump State Http
  Timers Server StateLemmas ConfigLemmas SpecServer Steps Inv Reach Own Trace SpecTimers Refresh Wake.
Local Open Scope Z_scope.

(** Is a reminder due that was last given at [ln]? *)
Definition due_again (c : config) (now : Z) (ln : option Z) : Prop :=
  match ln with
  | None => True
  | Some l => time_max < l + c_auth_notify_interval c \/ l + c_auth_notify_interval c <= now
  end.

Lemma notify_due_iff lk now e0 cvr ln st u :
  d_ts e0 = TSPending cvr ln st u -> notify_due lk now e0 = true <-> due_again (lconfig lk) now ln.
Proof.
  intros T. unfold notify_due, due_again, checked_add. rewrite T. destruct ln as [l|]; [|tauto].
  destruct (Z.leb_spec (l + c_auth_notify_interval (lconfig lk)) time_max).
  - rewrite Z.leb_le. lia.
  - split; [lia|reflexivity].
Qed.

Lemma will_emit_cmds l k o : will_do k = [] ->
  In (AEmit o) (will_do (emit_cmds l k)) <-> exists n c u, In (n, c, u) l /\ o = OAuthCmd c n (url_to_str u).
Proof.
  intros K. induction l as [|[[n c] u] l IH]; cbn.
  - rewrite K. split; [intros []|intros (n & c & u & [] & _)].
  - rewrite IH. split.
    + intros [H|(n' & c' & u' & I & E)].
      * exists n, c, u. split; [left; reflexivity|congruence].
      * exists n', c', u'. auto.
    + intros (n' & c' & u' & [I|I] & E).
      * left. congruence.
      * right. eauto.
Qed.

(** One inspection by the notifier. *)
Lemma inspects O w e :
  reachable O w -> inspecting w ->
  exists w', step O w (LTick 2 e) = SNext w'
    /\ nth_error (w_threads w') 2
       = Some (emit_cmds (flat_map (notify_cmds (w_lk w) (env_now e)) (details (w_lk w))) PNtTop)
    /\ lconfig (w_lk w') = lconfig (w_lk w)
    /\ Forall2 (fun e0 e' =>
         if notify_due (w_lk w) (env_now e) e0
         then d_name e' = d_name e0 /\ (account_count (w_lk w) <= d_id e')%N
              /\ d_ts e' = renotified (env_now e) (d_ts e0)
         else e' = e0) (details (w_lk w)) (details (w_lk w')).
Proof.
  intros R [A N]. pose proof (reach_inv _ _ R) as I.
  pose proof (step_spec O w (LTick 2 e) I) as SP. pose proof (never_panics O w (LTick 2 e) R (main_only _ _ _ _ _ N ltac:(discriminate))) as NP.
  destruct (step O w (LTick 2 e)) as [| |w'] eqn:ST; [|contradiction|].
  - exfalso. rewrite (step_at _ _ _ _ _ A N) in ST. cbn [step_thread] in ST.
    unfold run_cs in ST. destruct (nt_scan e (w_lk w)) as [[[lk p] os]| |]; discriminate ST.
  - destruct SP as [_ T]. inversion T as [tid e1 p lk' p' os N1 C|tid e1 p w1 N1 S|]; subst.
    + rewrite N in N1. injection N1 as <-. inversion C; subst.
      eexists. split; [reflexivity|]. split.
      { cbn [after_cs emit set_thread set_lk w_threads]. eapply nth_list_set_same. exact N. }
      split; assumption.
    + rewrite N in N1. injection N1 as <-. inversion S.
Qed.

Lemma in_notify_cmds lk now n cmd u e0 :
  In (n, cmd, u) (notify_cmds lk now e0) <->
  notify_due lk now e0 = true /\ c_auth_notify_cmd (lconfig lk) = Some cmd
  /\ pending_url (d_ts e0) = Some u /\ d_name e0 = n.
Proof.
  unfold notify_cmds. destruct (notify_due lk now e0); [|split; [intros []|intros [X _]; discriminate X]].
  destruct (c_auth_notify_cmd (lconfig lk)) as [c|]; [|split; [intros []|intros (_ & X & _); discriminate X]].
  destruct (pending_url (d_ts e0)) as [u0|]; [|split; [intros []|intros (_ & _ & X & _); discriminate X]].
  split.
  - intros [E|[]]. injection E as <- <- <-. auto.
  - intros (_ & E1 & E2 & <-). left. congruence.
Qed.

(** Who is reminded of what. *)
Lemma reminds_iff O w e cmd n u :
  reachable O w -> inspecting w ->
  reminds O w e cmd n u <->
  exists cvr ln st u0, holds w n (TSPending cvr ln st u0) /\ c_auth_notify_cmd (conf w) = Some cmd
    /\ u = url_to_str u0 /\ due_again (conf w) (env_now e) ln.
Proof.
  intros R IN. destruct (inspects O w e R IN) as (w' & ST & N2 & _ & _). split.
  - intros (w2 & p' & ST2 & N2' & I). rewrite ST in ST2. injection ST2 as <-. rewrite N2 in N2'. injection N2' as <-.
    apply will_emit_cmds in I as (n1 & c1 & u1 & I & E); [|reflexivity].
    apply in_flat_map in I as (e0 & H0 & I). apply in_notify_cmds in I as (ND & CM & PU & NM).
    destruct (d_ts e0) as [|cvr ln st u0|a] eqn:T0; try discriminate PU. cbn in PU. injection PU as ->.
    exists cvr, ln, st, u1. split; [exists e0; split; [exact H0|split; [congruence|exact T0]]|].
    split; [unfold conf; congruence|]. split; [congruence|]. eapply notify_due_iff; eassumption.
  - intros (cvr & ln & st & u0 & (e0 & H0 & N0 & T0) & CM & -> & DU). exists w'. eexists. split; [exact ST|].
    split; [exact N2|]. apply will_emit_cmds; [reflexivity|]. exists n, cmd, u0. split; [|reflexivity].
    apply in_flat_map. exists e0. split; [exact H0|]. apply in_notify_cmds.
    rewrite T0. repeat split; try assumption. eapply notify_due_iff; eassumption.
Qed.

(** What inspecting does to the pending authorisations. *)
Lemma inspection_effect O w e w' n cvr ln st u :
  reachable O w -> inspecting w -> step O w (LTick 2 e) = SNext w' ->
  holds w n (TSPending cvr ln st u) ->
  (due_again (conf w) (env_now e) ln -> holds w' n (TSPending cvr (Some (env_now e)) st u))
  /\ (~ due_again (conf w) (env_now e) ln -> holds w' n (TSPending cvr ln st u)).
Proof.
  intros R IN ST (e0 & H0 & N0 & T0). destruct (inspects O w e R IN) as (w1 & ST1 & _ & _ & F).
  rewrite ST in ST1. injection ST1 as <-. destruct (Forall2_in_l _ _ _ _ F H0) as (e' & H' & P). cbv beta in P.
  pose proof (notify_due_iff (w_lk w) (env_now e) _ _ _ _ _ T0) as DI. fold (conf w) in DI.
  destruct (notify_due (w_lk w) (env_now e) e0).
  - destruct P as (NM & _ & TS). rewrite T0 in TS. split.
    + intros _. exists e'. repeat split; [exact H'|congruence|exact TS].
    + intros ND. destruct ND. apply DI. reflexivity.
  - subst e'. split.
    + intros D. apply DI in D. discriminate D.
    + intros _. exists e0. auto.
Qed.

(** A pending authorisation of account [n] that was notified at [t0] or later,
    up to [T]. *)
Definition told (lk : locked) (n : str) (t0 T : Z) : Prop :=
  forall e0 cvr ln st u, has lk e0 -> d_name e0 = n -> d_ts e0 = TSPending cvr ln st u ->
    exists l, ln = Some l /\ t0 <= l <= T.

Lemma told_bump k lk i ts n t0 T :
  (forall cvr ln st u, ts <> TSPending cvr ln st u) -> told lk n t0 T -> told (bump k lk i ts) n t0 T.
Proof.
  intros H TO e' cvr ln st u Hh NM TS. apply bump_in in Hh as [(e & X & _ & ->)|[X _]]; [|eapply TO; eassumption].
  cbn in TS. destruct (H _ _ _ _ TS).
Qed.

Lemma csr_told O w e p lk' p' os n t0 T :
  inv O w -> csr O w e p lk' p' os -> (forall u, ~ In (OAuthUrl n u) os) ->
  (p = PNtScan -> env_now e <= T /\ T + c_auth_notify_interval (lconfig (w_lk w)) <= time_max) ->
  0 <= c_auth_notify_interval (lconfig (w_lk w)) ->
  told (w_lk w) n t0 T -> told lk' n t0 T.
Proof.
  intros I C NU SC NN TO. pose proof (inv_wf _ _ I) as W.
  destruct C; try exact TO; try (apply told_bump; [discriminate|exact TO]).
  - (* m_auth *)
    intros e' cvr' ln' st' u' Hh NM TS. apply bump_in in Hh as [(e1 & X & ID & ->)|[X _]]; [|eapply TO; eassumption].
    exfalso. assert (e1 = e0) as -> by (eapply wf_id_inj; eassumption). cbn in NM. subst n.
    eapply NU. right. left. reflexivity.
  - (* m_reload *)
    match goal with U : update_conf _ _ = _ |- _ =>
      destruct (update_conf_spec _ _ _ W (co_wf _ _ ltac:(eassumption)) U) as (_ & _ & LC & SP) end.
    intros e' cvr' ln' st' u' Hh NM TS. destruct (SP e' Hh) as (a' & A' & M).
    destruct (account_of (w_lk w) (d_name e')) as [a0|].
    + destruct (secure_eq a' a0); [eapply TO; eassumption|]. destruct M as [_ M]. congruence.
    + destruct M as [_ M]. congruence.
  - (* m_restore *)
    match goal with F : Forall2 _ _ _ |- _ => rename F into F2 end.
    intros e' cvr' ln' st' u' Hh NM TS.
    destruct (Forall2_in_r _ _ _ _ F2 Hh) as (e1 & X1 & N1 & [->|[L (NA & a0 & ad & td & i & _ & _ & _ & _ & AC)]]);
      [eapply TO; eassumption|]. rewrite TS in AC. discriminate AC.
  - (* n_scan *)
    match goal with F : Forall2 _ _ _ |- _ => rename F into F2 end.
    intros e' cvr' ln' st' u' Hh NM TS. destruct (SC eq_refl) as [B1 B2].
    destruct (Forall2_in_r _ _ _ _ F2 Hh) as (e1 & X1 & P). cbv beta in P.
    destruct (notify_due (w_lk w) (env_now e) e1) eqn:ND; [|subst e1; eapply TO; eassumption].
    destruct P as (N1 & _ & P). destruct (d_ts e1) as [|cvr1 ln1 st1 u1|a1] eqn:T1; cbn in P; try congruence.
    rewrite TS in P. injection P as -> -> -> ->. exists (env_now e). split; [reflexivity|].
    destruct (TO e1 _ _ _ _ X1 ltac:(congruence) T1) as (l & -> & LB).
    apply (notify_due_iff _ _ _ _ _ _ _ T1) in ND. unfold due_again in ND. lia.
Qed.

Lemma tstep_told O w l w' n t0 T :
  reachable O w -> tstep O w l w' ->
  (forall os u, w_trace w' = w_trace w ++ os -> ~ In (OAuthUrl n u) os) ->
  (forall e, l = LTick 2 e -> env_now e <= T) ->
  T + c_auth_notify_interval (conf w) <= time_max ->
  told (w_lk w) n t0 T -> told (w_lk w') n t0 T.
Proof.
  intros R ST NU EN BD TO. pose proof (reach_inv _ _ R) as I. destruct (reach_roles _ _ R) as [_ RO].
  destruct ST as [tid e p lk' p' os N C|tid e p w' N S|https bytes P].
  - cbn [w_lk after_cs emit set_thread set_lk]. eapply csr_told; [exact I|exact C| | | |exact TO].
    + intros u. apply NU. reflexivity.
    + intros ->. assert (tid = 2%nat) as -> by (pose proof (RO _ _ N) as RL; destruct tid as [|[|[|[|k]]]]; discriminate RL || reflexivity).
      split; [apply EN; reflexivity|exact BD].
    + apply (inv_conf _ _ I).
  - destruct (syn_ok _ _ _ _ _ _ I ltac:(pose proof (inv_threads _ _ I) as TH; rewrite Forall_forall in TH; apply TH; eapply nth_error_In; exact N) S) as [_ ->].
    exact TO.
  - exact TO.
Qed.

Lemma run_told O n t0 T : forall ls w w',
  reachable O w -> run O w ls = Some (SNext w') ->
  (forall os u, w_trace w' = w_trace w ++ os -> ~ In (OAuthUrl n u) os) ->
  (forall e, In (LTick 2 e) ls -> env_now e <= T) ->
  (forall w1 l1 l2, ls = l1 ++ l2 -> run O w l1 = Some (SNext w1) -> T + c_auth_notify_interval (conf w1) <= time_max) ->
  told (w_lk w) n t0 T -> told (w_lk w') n t0 T.
Proof.
  induction ls as [|l ls IH]; intros w w' R RN NU EN BD TO.
  - cbn in RN. injection RN as <-. exact TO.
  - destruct (run_step_one _ _ _ _ _ RN) as (w1 & ST & RN1).
    assert (reachable O w1) as R1 by (eapply reach_step; eassumption).
    pose proof (step_ok _ _ _ _ (reach_inv _ _ R) ST) as (_ & _ & TS & _).
    destruct (tstep_trace _ _ _ _ TS) as (os1 & E1).
    destruct (steps_trace _ _ _ R1 (run_steps _ _ _ _ RN1)) as (os2 & E2).
    eapply (IH w1); [exact R1|exact RN1| | | |].
    + intros os u E I. eapply (NU (os1 ++ os) u); [rewrite E, E1, app_assoc; reflexivity|]. apply in_or_app. right. exact I.
    + intros e I. apply EN. right. exact I.
    + intros w2 l1 l2 E RN2. apply (BD w2 (l :: l1) l2); [rewrite E; reflexivity|]. cbn [run]. rewrite ST. exact RN2.
    + eapply tstep_told; [exact R|exact TS| | | |exact TO].
      * intros os u E I. eapply (NU (os ++ os2) u); [rewrite E2, E, app_assoc; reflexivity|]. apply in_or_app. left. exact I.
      * intros e ->. apply EN. left. reflexivity.
      * apply (BD w [] (l :: ls)); reflexivity.
Qed.

Lemma reminders_spaced O w0 e1 c1 n u1 w1 ls w2 e2 c2 u2 T :
  reachable O w0 -> inspecting w0 -> reminds O w0 e1 c1 n u1 -> step O w0 (LTick 2 e1) = SNext w1 ->
  run O w1 ls = Some (SNext w2) -> inspecting w2 -> reminds O w2 e2 c2 n u2 ->
  (forall os u, w_trace w2 = w_trace w1 ++ os -> ~ In (OAuthUrl n u) os) ->
  env_now e1 <= T -> (forall e, In (LTick 2 e) ls -> env_now e <= T) ->
  (forall w l1 l2, ls = l1 ++ l2 -> run O w1 l1 = Some (SNext w) -> T + c_auth_notify_interval (conf w) <= time_max) ->
  env_now e1 + c_auth_notify_interval (conf w2) <= env_now e2.
Proof.
  intros R IN RM1 ST RN IN2 RM2 NU B1 BE BD.
  assert (reachable O w1) as R1 by (eapply reach_step; eassumption).
  assert (reachable O w2) as R2 by (eapply steps_reachable; [exact R1|eapply run_steps; exact RN]).
  apply (reminds_iff O w0 e1 c1 n u1 R IN) in RM1 as (cvr & ln & st & uu & H & _ & _ & DU).
  apply (reminds_iff O w2 e2 c2 n u2 R2 IN2) in RM2 as (cvr2 & ln2 & st2 & uu2 & (e0 & H0 & N0 & T0) & _ & _ & DU2).
  destruct (inspection_effect _ _ _ _ _ _ _ _ _ R IN ST H) as [EF _]. specialize (EF DU).
  pose proof (inv_wf _ _ (reach_inv _ _ R1)) as W1.
  assert (told (w_lk w1) n (env_now e1) T) as TO.
  { intros e' cvr' ln' st' u' Hh NM TS. destruct EF as (e3 & H3 & N3 & T3).
    assert (e' = e3) as -> by (eapply wf_name_inj; [exact W1|exact Hh|exact H3|congruence]).
    rewrite T3 in TS. injection TS as <- <- <- <-. exists (env_now e1). split; [reflexivity|lia]. }
  pose proof (run_told O n (env_now e1) T ls w1 w2 R1 RN NU BE BD TO) as TO2.
  destruct (TO2 e0 _ _ _ _ H0 N0 T0) as (l & -> & LB).
  pose proof (BD w2 ls [] ltac:(rewrite app_nil_r; reflexivity) RN) as BD2. unfold due_again in DU2. lia.
Qed.

(** * Every reminder goes back to a decision *)

Definition reminded_from (O : oracles) (w : world) (t : list obs) (cmd n u : str) : Prop :=
  exists w1 e1 os, reachable O w1 /\ inspecting w1 /\ steps O w1 w /\ w_trace w1 ++ os = t
    /\ reminds O w1 e1 cmd n u.

Lemma reach_reminders O w : reachable O w ->
  (forall tid p cmd n u, nth_error (w_threads w) tid = Some p -> In (AEmit (OAuthCmd cmd n u)) (chain p) ->
     reminded_from O w (w_trace w) cmd n u)
  /\ (forall t1 cmd n u t2, w_trace w = t1 ++ OAuthCmd cmd n u :: t2 -> reminded_from O w t1 cmd n u).
Proof.
  revert w. apply (reach_ind O (fun w =>
    (forall tid p cmd n u, nth_error (w_threads w) tid = Some p -> In (AEmit (OAuthCmd cmd n u)) (chain p) ->
       reminded_from O w (w_trace w) cmd n u)
    /\ (forall t1 cmd n u t2, w_trace w = t1 ++ OAuthCmd cmd n u :: t2 -> reminded_from O w t1 cmd n u))).
  - intros e c hp hsp pk _ _. split.
    + intros tid p cmd n u N I. exfalso. cbn in N.
      destruct tid as [|[|[|[|tid]]]]; try (injection N as <-; destruct I); try discriminate N.
      destruct tid; discriminate N.
    + intros t1 cmd n u t2 E. exfalso. cbn in E. destruct t1 as [|o [|o' t1]]; discriminate E.
  - intros w l w' R I I' AL [IHc IHt] ST TS.
    assert (steps O w w') as SS by (eapply steps_step; [apply steps_refl|exact ST]).
    assert (forall t cmd n u, reminded_from O w t cmd n u -> reminded_from O w' t cmd n u) as MON.
    { intros t cmd n u (w1 & e1 & os & R1 & I1 & S1 & E & RM). exists w1, e1, os.
      repeat split; try assumption; try apply I1. eapply steps_trans; eassumption. }
    assert (forall t os cmd n u, reminded_from O w t cmd n u -> reminded_from O w (t ++ os) cmd n u) as EXT.
    { intros t os cmd n u (w1 & e1 & os1 & R1 & I1 & S1 & E & RM). exists w1, e1, (os1 ++ os).
      rewrite app_assoc, E. auto. }
    assert (forall tid p p', nth_error (w_threads w) tid = Some p ->
              w_threads w' = list_set tid p' (w_threads w) -> chain p' = [] -> w_trace w' = w_trace w ->
              (forall tid p cmd n u, nth_error (w_threads w') tid = Some p -> In (AEmit (OAuthCmd cmd n u)) (chain p) ->
                 reminded_from O w' (w_trace w') cmd n u)
              /\ (forall t1 cmd n u t2, w_trace w' = t1 ++ OAuthCmd cmd n u :: t2 -> reminded_from O w' t1 cmd n u)) as SYN.
    { intros tid p p' N TH CH TR. rewrite TR, TH. split.
      - intros tid' q cmd n u N' IN'. apply MON. destruct (Nat.eq_dec tid tid') as [<-|NE].
        + rewrite (nth_list_set_same _ _ _ _ N) in N'. injection N' as <-. rewrite CH in IN'. destruct IN'.
        + rewrite nth_error_list_set_ne in N' by exact NE. eapply IHc; eassumption.
      - intros t1 cmd n u t2 E. apply MON. eapply IHt. exact E. }
    destruct TS as [tid e p lk' p' os N C|tid e p w' N S|https bytes P].
    + (* critical section *) clear SYN. split.
      * intros tid' q cmd n u N' IN'. cbn [w_trace after_cs emit set_thread set_lk w_threads] in *.
        destruct (Nat.eq_dec tid tid') as [<-|NE].
        -- rewrite (nth_list_set_same _ _ _ _ N) in N'. injection N' as <-.
           pose proof (csr_chain _ _ _ _ _ _ _ _ C IN') as (-> & _).
           assert (tid = 2%nat) as -> by (destruct (reach_roles _ _ R) as [_ RO]; pose proof (RO _ _ N) as RL; destruct tid as [|[|[|[|k]]]]; discriminate RL || reflexivity).
           exists w, e, os. split; [exact R|]. split; [split; assumption|]. split; [exact SS|]. split; [reflexivity|].
           exists (after_cs w 2 lk' p' os), p'. split; [exact ST|]. split; [eapply nth_list_set_same; exact N|].
           rewrite will_do_chain. exact IN'.
        -- rewrite nth_error_list_set_ne in N' by exact NE. apply MON, EXT. eapply IHc; eassumption.
      * intros t1 cmd n u t2 E. cbn [w_trace after_cs emit set_thread set_lk] in E.
        assert (~ In (OAuthCmd cmd n u) os) as NO.
        { clear -C. intros I. destruct C; cbn in I; repeat (destruct I as [I|I]; [discriminate I|]); try exact I. }
        apply MON. clear -E NO IHt.
        revert t2 E. induction os as [|o os IH] using rev_ind; intros t2 E.
        -- rewrite app_nil_r in E. eapply IHt. exact E.
        -- rewrite app_assoc in E. apply app_cons_eq in E as [(_ & E & _)|(t2' & _ & E)].
           ++ destruct NO. apply in_or_app. right. left. congruence.
           ++ eapply IH; [intros X; apply NO, in_or_app; left; exact X|exact E].
    + destruct S as [a k|Pv|Pv|Pv|n0 ev q Q|Q|nw0 G|nw0 G|nw0 G|nw0 G|nw0 G|nw0 G].
      * (* an action *) clear SYN. split.
        -- intros tid' q cmd n u N' IN'. rewrite do_action_trace. cbn [w_trace set_thread]. apply MON, EXT.
           assert (exists tq q', nth_error (w_threads w) tq = Some q' /\ In (AEmit (OAuthCmd cmd n u)) (chain q')) as (tq & q' & Nq & Iq).
           { assert (nth_error (list_set tid k (w_threads w)) tid' = Some q \/ (exists i, q = PRefStart i)) as [Nq|(i & ->)].
             { destruct a; try (left; exact N'). cbn in N'.
               destruct (Nat.lt_ge_cases tid' (List.length (list_set tid k (w_threads w)))) as [LT|GE].
               - left. rewrite nth_error_app1 in N' by exact LT. exact N'.
               - right. rewrite nth_error_app2 in N' by exact GE. destruct (tid' - _)%nat as [|m]; cbn in N'.
                 + injection N' as <-. eauto.
                 + destruct m; discriminate N'. }
             - destruct (Nat.eq_dec tid tid') as [<-|NE].
               + rewrite (nth_list_set_same _ _ _ _ N) in Nq. injection Nq as <-. exists tid, (PDo a k).
                 split; [exact N|]. right. exact IN'.
               + rewrite nth_error_list_set_ne in Nq by exact NE. eauto.
             - destruct IN'. }
           eapply IHc; eassumption.
        -- intros t1 cmd n u t2 E. rewrite do_action_trace in E. cbn [w_trace set_thread] in E. apply MON.
           assert (action_obs a = [] \/ exists o, action_obs a = [o]) as [AO|(o & AO)] by (destruct a; cbn; eauto).
           ++ rewrite AO, app_nil_r in E. eapply IHt. exact E.
           ++ rewrite AO in E. apply app_cons_eq in E as [(-> & OE & _)|(t2' & _ & E)].
              ** eapply IHc; [exact N|]. left. destruct a; cbn in AO; congruence.
              ** eapply IHt. exact E.
      * eapply SYN; [exact N|reflexivity|reflexivity|reflexivity].
      * eapply SYN; [exact N|reflexivity|reflexivity|reflexivity].
      * eapply SYN; [exact N|reflexivity|reflexivity|reflexivity].
      * eapply SYN; [exact N|reflexivity|reflexivity|reflexivity].
      * eapply SYN; [exact N|reflexivity|reflexivity|reflexivity].
      * eapply SYN; [exact N|reflexivity|reflexivity|reflexivity].
      * eapply SYN; [exact N|reflexivity|reflexivity|reflexivity].
      * eapply SYN; [exact N|reflexivity|reflexivity|reflexivity].
      * eapply SYN; [exact N|reflexivity|reflexivity|reflexivity].
      * eapply SYN; [exact N|reflexivity|reflexivity|reflexivity].
      * eapply SYN; [exact N|reflexivity|reflexivity|reflexivity].
    + split.
      * intros tid' q cmd n u N' IN'. cbn [w_trace emit add_thread w_threads] in *. apply MON, EXT.
        destruct (Nat.lt_ge_cases tid' (List.length (w_threads w))) as [LT|GE].
        -- rewrite nth_error_app1 in N' by exact LT. eapply IHc; eassumption.
        -- rewrite nth_error_app2 in N' by exact GE. destruct (tid' - _)%nat as [|m]; cbn in N'.
           ++ injection N' as <-. destruct IN'.
           ++ destruct m; discriminate N'.
      * intros t1 cmd n u t2 E. cbn [w_trace emit add_thread] in E. apply MON.
        apply app_cons_eq in E as [(_ & E & _)|(t2' & _ & E)]; [discriminate E|]. eapply IHt. exact E.
Qed.

Lemma reminder_decided O w t1 cmd n u t2 :
  reachable O w -> w_trace w = t1 ++ OAuthCmd cmd n u :: t2 ->
  exists w1 e1 os cvr ln st u0,
    reachable O w1 /\ inspecting w1 /\ steps O w1 w /\ t1 = w_trace w1 ++ os
    /\ reminds O w1 e1 cmd n u
    /\ holds w1 n (TSPending cvr ln st u0) /\ c_auth_notify_cmd (conf w1) = Some cmd /\ u = url_to_str u0.
Proof.
  intros R E. destruct (proj2 (reach_reminders _ _ R) _ _ _ _ _ E) as (w1 & e1 & os & R1 & I1 & S1 & ET & RM).
  pose proof RM as RM'. apply (reminds_iff _ _ _ _ _ _ R1 I1) in RM' as (cvr & ln & st & u0 & H & CM & EU & _).
  exists w1, e1, os, cvr, ln, st, u0. repeat split; try assumption; try apply I1. symmetry. exact ET.
Qed.

Lemma reminds_iff_due O w e cmd n u :
  reachable O w -> inspecting w ->
  reminds O w e cmd n u <->
  exists cvr ln st u0, holds w n (TSPending cvr ln st u0) /\ c_auth_notify_cmd (conf w) = Some cmd
    /\ u = url_to_str u0
    /\ (ln = None \/ exists l, ln = Some l
          /\ (time_max < l + c_auth_notify_interval (conf w) \/ l + c_auth_notify_interval (conf w) <= env_now e)).
Proof.
  intros R IN. rewrite (reminds_iff O w e cmd n u R IN). unfold due_again.
  split; intros (cvr & ln & st & u0 & H & C & U & D); exists cvr, ln, st, u0; repeat split; try assumption.
  - destruct ln as [l|]; eauto.
  - destruct D as [->|(l & -> & D)]; [exact Logic.I|exact D].
Qed.
