(** Why tokens get lost (C20-C22). *)
From Verif Require Import Base BaseLemmas Time Utf8 Base64 Url Json Oracles Config Dump State Http
  Timers Server StateLemmas ConfigLemmas SpecServer Steps Inv Reach Own Trace Origin Basic Decide Refresh.

(** * Invariants about single threads *)

(** Where every thread and every new one may start or wait. *)
Definition waiting (p : pc) : bool :=
  match p with
  | PDone | PMain | PRefStart _ | PHttpStart _ _
  | PEvTop | PEvBlocked | PEvPop | PEvCmd _ _
  | PNtTop | PNtCheck _ | PNtBlocked _ | PNtScan
  | PRfTop | PRfCheck _ | PRfBlocked _ | PRfScan => true
  | _ => false
  end.

Lemma thread_inv O (Q : locked -> list obs -> pc -> Prop) :
  (forall lk t p, waiting p = true -> Q lk t p) ->
  (forall lk t a k, Q lk t (PDo a k) -> Q lk t k) ->
  (forall lk lk' t os p, wf lk -> evolves lk lk' -> Q lk t p -> Q lk' (t ++ os) p) ->
  (forall w tid e p lk' p' os, reachable O w -> inv O w -> nth_error (w_threads w) tid = Some p ->
     pc_ok (w_lk w) p -> Q (w_lk w) (w_trace w) p -> evolves (w_lk w) lk' ->
     csr O w e p lk' p' os -> Q lk' (w_trace w ++ os) p') ->
  forall w, reachable O w -> Forall (Q (w_lk w) (w_trace w)) (w_threads w).
Proof.
  intros QW QD QM QC. apply (reach_ind O).
  - intros e c hp hsp pk _ _. repeat constructor; apply QW; reflexivity.
  - intros w l w' R I I' A F S T. pose proof (inv_wf _ _ I) as W.
    destruct (tstep_ok _ _ _ _ I T) as [_ EV].
    destruct T as [tid e p lk' p' os N C|tid e p w' N SY|https bytes X].
    + simpl in *. apply forall_list_set.
      * rewrite Forall_forall in *. intros q Iq. eapply QM; eauto.
      * rewrite Forall_forall in F. pose proof (inv_threads _ _ I) as TH. rewrite Forall_forall in TH.
        eapply QC; try eassumption; eauto using nth_error_In.
    + assert (exists os, w_trace w' = w_trace w ++ os) as [os TR].
      { destruct SY; try (exists []; simpl; rewrite app_nil_r; reflexivity).
        exists (action_obs a). exact (do_action_trace (set_thread w tid k) a). }
      assert (forall k, waiting k = true \/ (exists a, In (PDo a k) (w_threads w)) ->
                Forall (Q (w_lk w') (w_trace w')) (list_set tid k (w_threads w))) as KL.
      { intros k X. rewrite Forall_forall in F. apply forall_list_set.
        - rewrite Forall_forall, TR. intros q Iq. eapply QM; eauto.
        - destruct X as [X|(a & X)]; [apply QW; exact X|]. rewrite TR. eapply QM; try eassumption.
          apply (QD _ _ a). apply F. exact X. }
      destruct SY; try (apply KL; left; reflexivity).
      assert (Forall (Q (w_lk (do_action (set_thread w tid k) a)) (w_trace (do_action (set_thread w tid k) a)))
               (list_set tid k (w_threads w))) as FF.
      { apply KL. right. exists a. eapply nth_error_In. exact N. }
      destruct a; try exact FF. simpl in *. apply Forall_app. split; [exact FF|].
      constructor; [apply QW; reflexivity|constructor].
    + simpl in *. apply Forall_app. split.
      * rewrite Forall_forall in *. intros q Iq. eapply QM; eauto.
      * constructor; [apply QW; reflexivity|constructor].
Qed.

(** * What led a refresh to where it is *)

Definition of_id (lk : locked) (i : account_id) (P : tokenstate -> Prop) : Prop :=
  (i < account_count lk)%N /\ forall e, has lk e -> d_id e = i -> P (d_ts e).

Lemma of_id_evolves lk lk' i P : evolves lk lk' -> of_id lk i P -> of_id lk' i P.
Proof.
  intros [C K] [L F]. split; [lia|]. intros e H E. destruct (K e H ltac:(lia)) as [I _]. auto.
Qed.

Lemma of_id_weaken lk i (P Q : tokenstate -> Prop) : (forall ts, P ts -> Q ts) -> of_id lk i P -> of_id lk i Q.
Proof. intros I [L F]. split; eauto. Qed.

Lemma owns_of_id lk i act P : owns lk i act P -> of_id lk i P.
Proof. intros [L F]. split; [exact L|]. intros e H E. destruct (F e H E). assumption. Qed.

Lemma of_id_new lk k e0 ts (P : tokenstate -> Prop) : wf lk -> has lk e0 -> (k <= 1)%N -> P ts ->
  of_id (bump k lk (d_id e0) ts) (account_count lk + k)%N P.
Proof.
  intros W H K X. split; [cbn [account_count bump]; lia|]. intros e1 H1 E1.
  unfold has in H1. apply bump_in in H1 as [(e2 & I2 & E2 & ->)|[I1 _]]; [exact X|].
  exfalso. pose proof (wf_entry_count _ _ W I1). lia.
Qed.

Lemma refreshed_with_app t os rt r : refreshed_with t rt r -> refreshed_with (t ++ os) rt r.
Proof. intros (uri & pairs & I & L). exists uri, pairs. split; [apply in_or_app; left; exact I|exact L]. Qed.

Definition at_six (ts : tokenstate) : Prop :=
  exists a, ts = TSActive a /\ fails a <> 0%N /\ (fails a mod 6 = 0)%N.

Definition pc_why (O : oracles) (lk : locked) (t : list obs) (p : pc) : Prop :=
  match p with
  | PRefBody i n rt body => refreshed_with t rt (PRBody body)
  | PRefGot i n tok exs _ _ =>
      exists rt body v, refreshed_with t rt (PRBody body) /\ o_json O body = inl v /\ grants v tok exs
        /\ of_id lk i (refreshing_with rt)
  | PRefPerm i n _ => exists rt r, refreshed_with t rt r /\ permanent O r /\ of_id lk i (refreshing_with rt)
  | PRefTransient i n _ => exists rt r, refreshed_with t rt r /\ transient r /\ of_id lk i (refreshing_with rt)
  | PRefCmd i n _ =>
      (exists rt r, refreshed_with t rt r /\ transient r /\ of_id lk i (refreshing_with rt)) /\ of_id lk i at_six
  | PRefCmdDone i n ok =>
      (exists rt r, refreshed_with t rt r /\ transient r /\ of_id lk i (refreshing_with rt)) /\ of_id lk i at_six
      /\ exists cmd, In (OTransientCmd cmd n ok) t
  | _ => True
  end.

Fixpoint last_pc (p : pc) : pc := match p with PDo _ k => last_pc k | _ => p end.

Lemma last_emit_cmds l k : last_pc (emit_cmds l k) = last_pc k.
Proof. induction l as [|[[n c] u] l IH]; simpl; auto. Qed.
Lemma last_spawn_all l k : last_pc (spawn_all l k) = last_pc k.
Proof. induction l as [|i l IH]; simpl; auto. Qed.

Lemma pc_why_mono O lk lk' t os p : evolves lk lk' -> pc_why O lk t p -> pc_why O lk' (t ++ os) p.
Proof.
  intros EV.
  assert (forall i (P : post_result -> Prop),
    (exists rt r, refreshed_with t rt r /\ P r /\ of_id lk i (refreshing_with rt)) ->
    exists rt r, refreshed_with (t ++ os) rt r /\ P r /\ of_id lk' i (refreshing_with rt)) as K.
  { intros i P (rt & r & H1 & H2 & H3). exists rt, r.
    split; [apply refreshed_with_app; exact H1|]. split; [exact H2|eapply of_id_evolves; eassumption]. }
  destruct p; simpl; auto.
  - apply refreshed_with_app.
  - intros (rt & body & v & H1 & H2 & H3 & H4). exists rt, body, v.
    split; [apply refreshed_with_app; exact H1|]. split; [exact H2|]. split; [exact H3|].
    eapply of_id_evolves; eassumption.
  - intros [H1 H2]. split; [apply K; exact H1|eapply of_id_evolves; eassumption].
  - intros (H1 & H2 & cmd & H3). split; [apply K; exact H1|]. split; [eapply of_id_evolves; eassumption|].
    exists cmd. apply in_or_app. left. exact H3.
Qed.

Lemma lookup_rt act rt : lookup $"refresh_token" (refresh_pairs act rt) = Some rt.
Proof. reflexivity. Qed.

Lemma csr_why O w tid e p lk' p' os :
  reachable O w -> inv O w -> nth_error (w_threads w) tid = Some p -> pc_ok (w_lk w) p ->
  pc_why O (w_lk w) (w_trace w) p -> evolves (w_lk w) lk' -> csr O w e p lk' p' os ->
  pc_why O lk' (w_trace w ++ os) (last_pc p').
Proof.
  intros R I N PO PW EV C. pose proof (inv_wf _ _ I) as W.
  assert (pc_why O lk' (w_trace w ++ os) p) as PW' by (apply (pc_why_mono O (w_lk w)); assumption).
  destruct C; try exact Logic.I; try (cbn [last_pc pc_why reply respond push_event]; exact Logic.I).
  - (* POST *)
    destruct PO as (act & _ & _ & -> & OW). apply owns_of_id in OW.
    assert (refreshed_with (w_trace w ++ [OPost uri (refresh_pairs act rtok) (e_post e)]) rtok (e_post e)) as RW.
    { exists uri, (refresh_pairs act rtok). split; [apply in_or_app; right; left; reflexivity|apply lookup_rt]. }
    destruct (e_post e) as [body|m|code body|k m] eqn:EP; cbn [ref_post_next].
    + exact RW.
    + exists rtok, (PRBodyErr m). split; [exact RW|]. split; [exact Logic.I|exact OW].
    + exists rtok, (PRStatus code body). split; [exact RW|]. split; [exact Logic.I|exact OW].
    + destruct k; cbn [is_transient]; cbn [last_pc pc_why]; exists rtok; eexists; (split; [exact RW|]);
        (split; [exact Logic.I|exact OW]).
  - (* body *)
    destruct PO as (act & _ & OW). apply owns_of_id in OW. simpl in PW'.
    assert ((forall v tok exs, o_json O body = inl v -> ~ grants v tok exs) \/
            exists v tok exs, o_json O body = inl v /\ grants v tok exs) as [NG|(v & tok & exs & J & G)].
    { destruct (o_json O body) as [v|m] eqn:J; [|left; discriminate].
      destruct (json_str $"error" v) eqn:JE; [left; intros ? ? ? [= <-] (X & _); congruence|].
      destruct (json_str $"access_token" v) as [tok|] eqn:JA; [|left; intros ? ? ? [= <-] (_ & X & _); congruence].
      destruct (json_u64 $"expires_in" v) as [exs|] eqn:JX; [|left; intros ? ? ? [= <-] (_ & _ & _ & X); congruence].
      destruct (json_str $"token_type" v) as [ty|] eqn:JT; [|left; intros ? ? ? [= <-] (_ & _ & X & _); congruence].
      destruct (str_eqb ty $"Bearer") eqn:TB.
      - right. exists v, tok, exs. split; [reflexivity|]. apply str_eqb_eq in TB. subst ty. repeat split; assumption.
      - left. intros ? ? ? [= <-] (_ & _ & X & _). rewrite JT in X. injection X as ->.
        rewrite (proj2 (str_eqb_eq _ _) eq_refl) in TB. discriminate. }
    + destruct (body_not_granted O e i name rtok body NG) as [m ->]. cbn [last_pc pc_why].
      exists rtok, (PRBody body). split; [exact PW'|]. split; [exact NG|exact OW].
    + rewrite (body_granted _ e i name rtok _ _ _ _ J G). cbn [last_pc pc_why].
      exists rtok, body, v. auto.
  - (* transient failure, about to run the command *)
    simpl in PW. destruct PW as (rt & r & K1 & K2 & K3). cbn [last_pc pc_why].
    match goal with X : has (w_lk w) e0 |- _ => pose proof X as HE end.
    assert (refreshing_with rt (d_ts e0)) as (a1 & T1 & OG & RT) by (apply (proj2 K3); auto).
    assert (a1 = a) as -> by congruence.
    pose proof (of_id_new (w_lk w) 0 e0 (TSActive (set_attempt a (Some (env_now e)) (N.succ (fails a))))) as ON.
    rewrite N.add_0_r in ON. split.
    + exists rt, r. split; [apply refreshed_with_app; exact K1|]. split; [exact K2|].
      apply ON; try assumption; try lia. eexists. split; [reflexivity|]. cbn. auto.
    + apply ON; try assumption; try lia. eexists. split; [reflexivity|]. cbn.
      split; [lia|]. assumption.
  - (* the command has run *)
    simpl in PW' |- *. destruct PW' as [K1 K2]. split; [exact K1|]. split; [exact K2|].
    exists cmd. apply in_or_app. right. left. reflexivity.
  - (* an exchange *)
    destruct (e_post e) as [body|m|code body|k m]; cbn [http_post_next]; try exact Logic.I.
    destruct tries as [|[|n]]; exact Logic.I.
  - destruct wa; exact Logic.I.
  - destruct wa; exact Logic.I.
  - rewrite last_emit_cmds. exact Logic.I.
  - rewrite last_spawn_all. exact Logic.I.
Qed.

Lemma reach_why O w : reachable O w -> Forall (fun p => pc_why O (w_lk w) (w_trace w) (last_pc p)) (w_threads w).
Proof.
  apply (thread_inv O (fun lk t p => pc_why O lk t (last_pc p))).
  - intros lk t p. destruct p; intros X; try discriminate X; exact Logic.I.
  - auto.
  - intros lk lk' t os p _ EV. apply pc_why_mono. exact EV.
  - intros w0 tid e p lk' p' os R I N PO PW EV C. eapply csr_why; try eassumption.
    destruct C; simpl in *; try exact PW; exact Logic.I.
Qed.

(** * Losing a token *)

Lemma lost_bump k w tid os lk' p' e0 ts n a :
  wf (w_lk w) -> has (w_lk w) e0 -> lk' = bump k (w_lk w) (d_id e0) ts ->
  holds w n (TSActive a) -> (forall a', ~ holds (after_cs w tid lk' p' os) n (TSActive a')) ->
  e0 = mkEntry n (d_id e0) (TSActive a) /\ is_active ts = false.
Proof.
  intros W H -> (e1 & I1 & N1 & T1) L.
  destruct (N.eq_dec (d_id e1) (d_id e0)) as [E|E].
  - assert (e1 = e0) as -> by (apply (wf_id_inj (w_lk w)); auto).
    split; [destruct e0; simpl in *; congruence|].
    destruct ts; try reflexivity. exfalso. eapply (L _).
    eexists. split; [apply bump_in_new; exact H|]. split; [exact N1|reflexivity].
  - exfalso. apply (L a). exists e1. split; [apply bump_in_other; assumption|]. auto.
Qed.

Lemma expiry_unrepresentable lk e0 act now exs m :
  wf lk -> has lk e0 -> account_of lk (d_name e0) = Some act -> expiry_instant lk (d_id e0) now exs = Err m ->
  (time_max < now + secs exs)%Z /\ (time_max < now + max_age act (lconfig lk))%Z.
Proof.
  intros W H A. unfold expiry_instant, from_secs, checked_add. rewrite (ct_account_in _ _ act W H A).
  change (exs * nanos)%Z with (secs exs).
  destruct (Z.leb_spec (now + secs exs) time_max); cbn [bind]; [discriminate|]. rewrite max_age_is.
  destruct (Z.leb_spec (now + max_age act (lconfig lk)) time_max); cbn [ok_or]; [discriminate|]. auto.
Qed.

Lemma token_lost O w l w' n a :
  reachable O w -> step O w l = SNext w' -> holds w n (TSActive a) ->
  (forall a', ~ holds w' n (TSActive a')) -> why_lost O w n a l.
Proof.
  intros R S H L. pose proof (reach_inv _ _ R) as I. pose proof (inv_wf _ _ I) as W.
  destruct (step_ok _ _ _ _ I S) as (I' & EV & T & A).
  pose proof (reach_why _ _ R) as WH. rewrite Forall_forall in WH.
  assert (w_lk w' = w_lk w -> False) as SAME.
  { intros E. apply (L a). unfold holds in *. rewrite E. exact H. }
  destruct T as [tid e p lk' p' os N C|tid e p w' N SY|https bytes X].
  2:{ exfalso. apply SAME. destruct SY; try reflexivity. destruct a0; reflexivity. }
  2:{ exfalso. apply SAME. reflexivity. }
  pose proof (WH _ (nth_error_In _ _ N)) as PW. clear WH.
  assert (forall e0 k ts, has (w_lk w) e0 -> lk' = bump k (w_lk w) (d_id e0) ts ->
            e0 = mkEntry n (d_id e0) (TSActive a) /\ is_active ts = false) as LB.
  { intros e0 k ts H0 ->.
    exact (lost_bump k w tid os _ p' e0 ts n a W H0 eq_refl H L). }
  assert (p = PMain -> tid = 0) as T0.
  { intros ->. pose proof (ro_pc _ (reach_roles _ _ R) _ _ N) as RP. destruct tid as [|[|[|[|]]]]; try discriminate RP; reflexivity. }
  assert (forall e0 rt, has (w_lk w) e0 -> e0 = mkEntry n (d_id e0) (TSActive a) ->
            of_id (w_lk w) (d_id e0) (refreshing_with rt) -> refresh_token a = Some rt) as RTK.
  { intros e0 rt H0 E0 [_ F]. destruct (F e0 H0 eq_refl) as (a1 & T1 & _ & X). rewrite E0 in T1. cbn in T1. congruence. }
  destruct C; try (exfalso; apply SAME; reflexivity);
    try (match goal with H0 : has (w_lk w) ?e0 |- _ =>
           destruct (LB e0 _ _ H0 eq_refl) as [E0 NA]; try discriminate NA end).
  - (* authorisation *) exfalso. match goal with X : is_active (d_ts e0) = false |- _ => rewrite E0 in X; discriminate X end.
  - (* revoke *) rewrite (T0 eq_refl). apply lost_revoked. 
    match goal with X : req = _ |- _ => rewrite E0 in X; cbn in X; subst req end. assumption.
  - (* reload *)
    rewrite (T0 eq_refl). subst req. eapply lost_reloaded; try eassumption.
    intros act act' CF LK SS. apply (L a).
    assert (wf_conf c) as WC by (match goal with CO : conf_ok O c |- _ => apply CO end).
    match goal with U : update_conf _ _ = _ |- _ =>
      destruct (update_conf_spec _ _ _ W WC U) as (_ & _ & UC & K) end.
    assert (wf lk') as W' by exact (inv_wf _ _ I').
    assert (account_of lk' n = Some act') as A' by (unfold account_of; rewrite UC; exact LK).
    assert (exists e1, In e1 (details lk') /\ d_name e1 = n) as (e1 & K1 & N1).
    { assert (In n (names lk')) as X by (rewrite (wf_names _ W'); eapply lookup_in_keys; exact A').
      apply in_map_iff in X as (e1 & X1 & X2). eauto. }
    exists e1. split; [exact K1|]. split; [exact N1|].
    destruct (K e1 K1) as (a1 & L1 & M). rewrite N1 in *.
    assert (a1 = act') as -> by (unfold account_of in *; congruence).
    unfold configured in CF. unfold account_of in M. rewrite CF in M.
    rewrite (proj2 (secure_eq_same act' act) (same_security_sym _ _ SS)) in M.
    destruct H as (e2 & K2 & N2 & T2). 
    assert (e1 = e2) as -> by (apply (wf_name_inj (w_lk w)); auto; congruence). exact T2.
  - (* restore *)
    exfalso. destruct H as (e1 & K1 & N1 & T1).
    match goal with F : Forall2 _ _ _ |- _ =>
      destruct (Forall2_in_l _ _ _ _ F K1) as (e2 & K2 & NE & X) end.
    destruct X as [->|[_ (NA & _)]]; [|rewrite T1 in NA; discriminate NA].
    apply (L a). exists e1. auto.
  - (* no refresh token *)
    eapply lost_no_refresh_token; [exact N| |].
    + rewrite <- E0. assumption.
    + match goal with X : d_ts e0 = TSActive _ |- _ => rewrite E0 in X; cbn in X; injection X as -> end. assumption.
  - (* unrepresentable expiry *)
    cbn in PW. destruct PW as (rt1 & body & v & K1 & K2 & K3 & K4).
    match goal with X : has (w_lk w) e0 |- _ => pose proof X as HE end.
    destruct (wf_account _ _ W HE) as (act & LA & _).
    match goal with X : expiry_instant _ _ _ _ = Err _ |- _ =>
      destruct (expiry_unrepresentable _ _ act _ _ _ W HE LA X) as [X1 X2] end.
    eapply lost_expiry; try eassumption; [apply (RTK e0); assumption|].
    rewrite E0 in LA. exact LA.
  - (* refused *)
    cbn in PW. destruct PW as (rt & r & K1 & K2 & K3).
    eapply lost_refused; try eassumption. eapply RTK; eassumption.
  - (* command *)
    cbn in PW. destruct PW as ((rt & r & K1 & K2 & K3) & K4 & cmd & K5).
    match goal with X : has (w_lk w) e0 |- _ => pose proof X as HE end.
    destruct (proj2 K4 _ HE eq_refl) as (a1 & T1 & NZ & M6). rewrite E0 in T1. cbn in T1. injection T1 as <-.
    destruct (thread_name O w tid _ (d_id e0) name e0 R N (conj eq_refl eq_refl) HE eq_refl) as [NM _].
    rewrite E0 in NM. cbn in NM. subst name.
    eapply lost_command; try eassumption. eapply RTK; eassumption.
  - (* browser error *)
    exfalso. match goal with X : d_ts e0 = TSPending _ _ _ _ |- _ => rewrite E0 in X; discriminate X end.
  - (* failed exchange *)
    exfalso. pose proof (inv_threads _ _ I) as TH. rewrite Forall_forall in TH.
    destruct (TH _ (nth_error_In _ _ N)) as (act & _ & F).
    match goal with X : has (w_lk w) e0 |- _ => destruct (F _ X eq_refl) as [_ (c1 & l1 & s1 & u1 & X1)] end.
    rewrite E0 in X1. discriminate X1.
  - (* notifier *)
    exfalso. destruct H as (e1 & K1 & N1 & T1).
    match goal with F : Forall2 _ _ _ |- _ =>
      destruct (Forall2_in_l _ _ _ _ F K1) as (e2 & K2 & X) end. cbv beta in X.
    destruct (notify_due (w_lk w) (env_now e) e1) eqn:ND.
    + destruct X as (NE & _ & TE). apply (L a). exists e2. rewrite T1 in TE. cbn in TE. split; [exact K2|]. split; [congruence|exact TE].
    + subst e2. apply (L a). exists e1. auto.
Qed.

(** * token_invalidated (C22) *)

Lemma no_dead_notify O w : reachable O w ->
  Forall (fun p => match last_pc p with PHttpNotify _ _ wa => wa = false | _ => True end) (w_threads w).
Proof.
  apply (thread_inv O (fun _ _ p => match last_pc p with PHttpNotify _ _ wa => wa = false | _ => True end)).
  - intros lk t p. destruct p; intros X; try discriminate X; exact Logic.I.
  - auto.
  - auto.
  - intros w0 tid e p lk' p' os R I N PO PW EV C.
    destruct C; cbn [last_pc reply respond push_event]; try exact Logic.I; try reflexivity.
    + destruct (e_post e) as [body|m|code body|k m]; try exact Logic.I. cbn [ref_post_next].
      destruct (is_transient k); exact Logic.I.
    + unfold ref_body_next. destruct (o_json O body) as [v|]; [|exact Logic.I].
      destruct (json_str $"error" v); [exact Logic.I|].
      destruct (json_str $"access_token" v); [|exact Logic.I].
      destruct (json_u64 $"expires_in" v); [|exact Logic.I].
      destruct (json_str $"token_type" v) as [ty|]; [|exact Logic.I].
      destruct (str_eqb ty $"Bearer"); exact Logic.I.
    + destruct (e_post e) as [body|m|code body|k m]; try exact Logic.I. cbn [http_post_next].
      destruct tries as [|[|n]]; exact Logic.I.
    + destruct PO as (act & _ & F). 
      match goal with X : has (w_lk w0) e0 |- _ => destruct (F _ X eq_refl) as [_ (c1 & l1 & s1 & u1 & ->)] end.
      reflexivity.
    + destruct wa; exact Logic.I.
    + destruct wa; exact Logic.I.
    + rewrite last_emit_cmds. exact Logic.I.
    + rewrite last_spawn_all. exact Logic.I.
Qed.

(** Who discards a token schedules the event, unless there was no refresh token. *)
Lemma loss_announced O w tid e w' n a :
  reachable O w -> step O w (LTick tid e) = SNext w' -> holds w n (TSActive a) ->
  (forall a', ~ holds w' n (TSActive a')) -> tid <> 0 -> refresh_token a <> None ->
  holds w' n TSEmpty
  /\ exists k, nth_error (w_threads w') tid = Some (PDo (APushEvent n EvInvalidated) k).
Proof.
  intros R S H L T0 RT. pose proof (reach_inv _ _ R) as I. pose proof (inv_wf _ _ I) as W.
  destruct (step_ok _ _ _ _ I S) as (I' & EV & T & A).
  assert (w_lk w' = w_lk w -> False) as SAME.
  { intros E. apply (L a). unfold holds in *. rewrite E. exact H. }
  inversion T as [t1 e1 p lk' p' os N C EL EW|t1 e1 p w1 N SY EL EW|]; subst.
  2:{ exfalso. apply SAME. destruct SY; try reflexivity. destruct a0; reflexivity. }
  assert (forall e0 k ts, has (w_lk w) e0 -> lk' = bump k (w_lk w) (d_id e0) ts ->
            e0 = mkEntry n (d_id e0) (TSActive a) /\ is_active ts = false) as LB.
  { intros e0 k ts H0 ->. exact (lost_bump k w tid os _ p' e0 ts n a W H0 eq_refl H L). }
  assert (p = PMain -> False) as NM.
  { intros ->. pose proof (ro_pc _ (reach_roles _ _ R) _ _ N) as RP. destruct tid as [|[|[|[|]]]]; try discriminate RP; auto. }
  assert (nth_error (w_threads (after_cs w tid lk' p' os)) tid = Some p') as N'
    by exact (nth_list_set_same _ _ _ _ N).
  assert (forall e0 name, has (w_lk w) e0 -> e0 = mkEntry n (d_id e0) (TSActive a) ->
     match p with PRefGot j m _ _ _ _ | PRefPerm j m _ | PRefCmdDone j m _ => j = d_id e0 /\ m = name | _ => False end ->
     name = n) as NAME.
  { intros e0 name H0 E0 M.
    assert (d_name e0 = name) as X.
    { eapply (thread_name O w tid p (d_id e0) name e0 R N); auto. destruct p; try contradiction; exact M. }
    rewrite E0 in X. symmetry. exact X. }
  destruct C; try (exfalso; apply SAME; reflexivity); try (exfalso; apply NM; reflexivity);
    try (match goal with H0 : has (w_lk w) ?e0 |- _ =>
           destruct (LB e0 _ _ H0 eq_refl) as [E0 NA]; try discriminate NA end).
  - exfalso. apply RT. match goal with X : d_ts e0 = TSActive _ |- _ => rewrite E0 in X; cbn in X; injection X as -> end. assumption.
  - assert (name = n) as -> by (apply (NAME e0 name); auto).
    split; [|eexists; exact N']. eexists. split; [apply bump_in_new; eassumption|]. rewrite E0. cbn [d_name d_ts d_id]. split; reflexivity.
  - assert (name = n) as -> by (apply (NAME e0 name); auto).
    split; [|eexists; exact N']. eexists. split; [apply bump_in_new; eassumption|]. rewrite E0. cbn [d_name d_ts d_id]. split; reflexivity.
  - assert (name = n) as -> by (apply (NAME e0 name); auto).
    split; [|eexists; exact N']. eexists. split; [apply bump_in_new; eassumption|]. rewrite E0. cbn [d_name d_ts d_id]. split; reflexivity.
  - exfalso. match goal with X : d_ts e0 = TSPending _ _ _ _ |- _ => rewrite E0 in X; discriminate X end.
  - exfalso. pose proof (inv_threads _ _ I) as TH. rewrite Forall_forall in TH.
    destruct (TH _ (nth_error_In _ _ N)) as (act & _ & F).
    match goal with X : has (w_lk w) e0 |- _ => destruct (F _ X eq_refl) as [_ (c1 & l1 & s1 & u1 & X1)] end.
    rewrite E0 in X1. discriminate X1.
  - exfalso. destruct H as (e1 & K1 & N1 & T1).
    match goal with F : Forall2 _ _ _ |- _ =>
      destruct (Forall2_in_l _ _ _ _ F K1) as (e2 & K2 & X) end. cbv beta in X.
    destruct (notify_due (w_lk w) (env_now e) e1) eqn:ND.
    + destruct X as (NE & _ & TE). apply (L a). exists e2. rewrite T1 in TE. cbn in TE. split; [exact K2|]. split; [congruence|exact TE].
    + subst e2. apply (L a). exists e1. auto.
Qed.

(** The event is scheduled only by who discards a token, or whose command has failed
    after the token changed. *)
Lemma invalidated_scheduled O w l w' tid p' n :
  reachable O w -> step O w l = SNext w' ->
  nth_error (w_threads w') tid = Some p' -> In (APushEvent n EvInvalidated) (will_do p') ->
  (exists p, nth_error (w_threads w) tid = Some p /\ In (APushEvent n EvInvalidated) (will_do p))
  \/ ((exists e, l = LTick tid e) /\ (exists a, holds w n (TSActive a)) /\ holds w' n TSEmpty)
  \/ (exists e i cmd, l = LTick tid e /\ nth_error (w_threads w) tid = Some (PRefCmdDone i n false) /\ ~ current w i
        /\ In (OTransientCmd cmd n false) (w_trace w)).
Proof.
  intros R S N' IN. pose proof (reach_inv _ _ R) as I. pose proof (inv_wf _ _ I) as W.
  destruct (step_ok _ _ _ _ I S) as (I' & EV & T & A).
  destruct (label_tid l tid) as [(e & ->)|NT].
  2:{ destruct (nth_error (w_threads w) tid) as [p|] eqn:N.
      - left. exists p. split; [reflexivity|].
        rewrite (tstep_other _ _ _ _ _ _ T NT N) in N'. congruence.
      - exfalso. assert (In p' (w_threads w')) as IP by (eapply nth_error_In; exact N').
        destruct T as [t1 e p lk' p1 os N1 C|t1 e p w' N1 SY|https bytes X].
        + simpl in N'. rewrite nth_error_list_set_ne in N' by (intros ->; congruence). congruence.
        + assert (t1 <> tid) as NE by (intros ->; congruence).
          destruct SY; try (simpl in N'; rewrite nth_error_list_set_ne in N' by congruence; congruence).
          destruct a; try (simpl in N'; rewrite nth_error_list_set_ne in N' by congruence; congruence).
          simpl in N'. destruct (Nat.lt_ge_cases tid (List.length (w_threads w))) as [LT|GE].
          * apply nth_error_Some in LT. congruence.
          * rewrite nth_error_app2 in N' by (rewrite list_set_length; lia). rewrite list_set_length in N'.
            destruct (tid - List.length (w_threads w)) as [|k0]; [|destruct k0; discriminate N'].
            simpl in N'. injection N' as <-. destruct IN.
        + simpl in N'. apply nth_error_None in N. rewrite nth_error_app2 in N' by exact N.
          destruct (tid - List.length (w_threads w)) as [|k0]; [|destruct k0; discriminate N'].
          simpl in N'. injection N' as <-. destruct IN. }
  inversion T as [t1 e1 p lk' p1 os N C EL EW|t1 e1 p w1 N SY EL EW|]; subst.
  - assert (p1 = p') as -> by (simpl in N'; rewrite (nth_list_set_same _ _ _ _ N) in N'; congruence).
    pose proof (reach_why _ _ R) as WH. rewrite Forall_forall in WH. pose proof (WH _ (nth_error_In _ _ N)) as PW.
    pose proof (no_dead_notify _ _ R) as DN. rewrite Forall_forall in DN. pose proof (DN _ (nth_error_In _ _ N)) as PD.
    assert (forall e0 name, has (w_lk w) e0 ->
      match p with PRefGot j m _ _ _ _ | PRefPerm j m _ | PRefCmdDone j m _ => j = d_id e0 /\ m = name | _ => False end ->
      d_name e0 = name /\ holds w name (d_ts e0) /\ exists a, d_ts e0 = TSActive a) as NAME.
    { intros e0 name H0 M.
      assert (d_name e0 = name /\ exists a, d_ts e0 = TSActive a /\ ongoing a = true) as (X & a & X1 & _).
      { eapply (thread_name O w tid p (d_id e0) name e0 R N); auto. destruct p; try contradiction; exact M. }
      split; [exact X|]. split; [exists e0; auto|eauto]. }
    assert (forall e0 name, has (w_lk w) e0 -> lk' = bump 0 (w_lk w) (d_id e0) TSEmpty -> name = n ->
      match p with PRefGot j m _ _ _ _ | PRefPerm j m _ | PRefCmdDone j m _ => j = d_id e0 /\ m = name | _ => False end ->
      (exists a, holds w n (TSActive a)) /\ holds (after_cs w tid lk' p' os) n TSEmpty) as KEY.
    { intros e0 name H0 -> -> M. destruct (NAME e0 n H0 M) as (X & Y & a & Z). split.
      - exists a. rewrite <- Z. exact Y.
      - eexists. split; [apply bump_in_new; exact H0|]. split; [exact X|reflexivity]. }
    rewrite will_do_chain in IN.
    destruct C; simpl in IN; repeat match goal with X : _ \/ _ |- _ => destruct X as [X|X]; try discriminate X end;
      try contradiction.
    + exfalso. rewrite chain_ref_post_next in IN. destruct IN.
    + exfalso. rewrite chain_ref_body_next in IN. destruct IN.
    + injection IN as ->. right. left. split; [eauto|]. eapply KEY; try eassumption; auto.
    + injection IN as ->. right. left. split; [eauto|]. eapply KEY; try eassumption; auto.
    + injection IN as ->. right. left. split; [eauto|]. eapply KEY; try eassumption; auto.
    + injection IN as ->. right. right. cbn in PW. destruct PW as (_ & _ & cmd & IC).
      exists e, i, cmd. split; [reflexivity|]. split; [exact N|]. split; [|exact IC].
      intros CU. apply valid_iff in CU. match goal with X : stale _ _ |- _ => unfold stale in X; congruence end.
    + exfalso. rewrite chain_http_post_next in IN. destruct IN.
    + exfalso. simpl in PD. subst wa. destruct IN.
    + exfalso. simpl in PD. subst wa. destruct IN.
    + exfalso. apply chain_emit_cmds in IN as [(? & ? & ? & _ & X)|[]]. discriminate X.
    + exfalso. apply chain_spawn_all in IN as [(? & _ & X)|[]]. discriminate X.
  - left. exists p. split; [exact N|].
    destruct SY; simpl in N'; try (rewrite (nth_list_set_same _ _ _ _ N) in N'; injection N' as <-; destruct IN; fail).
    assert (nth_error (w_threads (do_action (set_thread w tid k) a)) tid = Some k) as NK.
    { destruct a; simpl; try exact (nth_list_set_same _ _ _ _ N).
      rewrite nth_error_app1; [exact (nth_list_set_same _ _ _ _ N)|].
      rewrite list_set_length. apply nth_error_Some. congruence. }
    rewrite NK in N'. injection N' as <-. simpl. right. exact IN.
Qed.

(** Events are queued by who has them scheduled. *)
Lemma event_queued O w l w' n ev os :
  reachable O w -> step O w l = SNext w' -> w_trace w' = w_trace w ++ os -> In (OEvent n ev) os ->
  exists tid e k, l = LTick tid e /\ nth_error (w_threads w) tid = Some (PDo (APushEvent n ev) k)
    /\ w_evq w' = w_evq w ++ [(n, ev)] /\ nth_error (w_threads w') tid = Some k.
Proof.
  intros R S TR IN. destruct (step_ok _ _ _ _ (reach_inv _ _ R) S) as (_ & _ & T & _).
  destruct T as [tid e p lk' p' os1 N C|tid e p w' N SY|https bytes X].
  - exfalso. simpl in TR. apply app_inv_head in TR. subst os1.
    destruct C; simpl in IN; repeat match goal with X : _ \/ _ |- _ => destruct X as [X|X]; try discriminate X end;
      contradiction.
  - destruct SY; try (exfalso; simpl in TR; rewrite <- (app_nil_r (w_trace w)) in TR at 1;
                      apply app_inv_head in TR; subst os; destruct IN).
    rewrite do_action_trace in TR. apply app_inv_head in TR. subst os.
    destruct a; simpl in IN; try destruct IN as [IN|[]]; try discriminate; try contradiction.
    + injection IN as -> ->. exists tid, e, k. split; [reflexivity|]. split; [exact N|]. split; [reflexivity|].
      exact (nth_list_set_same _ _ _ _ N).
    + exfalso. subst o.
      assert (Forall (fun p => forall a, In a (chain p) -> match a with AEmit (OEvent _ _) => False | _ => True end) (w_threads w)) as F.
      { clear - R. revert w R. apply (reach_ind O).
        - intros. repeat constructor; intros a [].
        - intros w l w' R I I' A F S T. eapply tstep_chain_inv; try eassumption.
          intros e p lk' p' os a C Ia. pose proof (csr_chain _ _ _ _ _ _ _ a C Ia) as X.
          destruct a; try exact Logic.I. destruct o; try exact Logic.I. exact X. }
      rewrite Forall_forall in F. exact (F _ (nth_error_In _ _ N) _ (or_introl eq_refl)).
  - exfalso. simpl in TR. apply app_inv_head in TR. subst os. destruct IN as [X1|[]]. discriminate X1.
Qed.
