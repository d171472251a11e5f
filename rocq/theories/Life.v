(** The server follows the life cycle of SpecLife.v. *)
From Verif Require Import Base BaseLemmas Time Utf8 Base64 Url Json Oracles Config Dump State Http
  Timers Server StateLemmas ConfigLemmas Steps Inv Reach SpecServer Own Trace Origin Decide SpecTimers SpecRestore
  SpecLife.
Local Open Scope Z_scope.

Lemma secs_is n : from_secs n = secs n.
Proof. reflexivity. Qed.

Lemma expiry_instant_spec lk e0 act now exs :
  wf lk -> has lk e0 -> account_of lk (d_name e0) = Some act ->
  match expiry_instant lk (d_id e0) now exs with
  | Val ex => ends_at (lconfig lk) act now exs ex
  | Err _ => no_end (lconfig lk) act now exs
  | Panic => False
  end.
Proof.
  intros W H A. unfold expiry_instant, checked_add. rewrite (ct_account_in _ _ act W H A).
  rewrite secs_is. destruct (Z.leb_spec (now + secs exs) time_max) as [L|L]; [left; auto|].
  cbn [bind]. rewrite max_age_is.
  destruct (Z.leb_spec (now + max_age act (lconfig lk)) time_max) as [M|M]; cbn [ok_or].
  - right. auto.
  - split; assumption.
Qed.

Lemma restored_time r t : comes_back r t (restore_instant r t).
Proof.
  unfold restore_instant, duration_since.
  destruct (Z.leb_spec (rs1 r) t) as [A|A].
  - unfold checked_add. destruct (Z.leb_spec (ri1 r + (t - rs1 r)) time_max) as [B|B]; cbn [opt_default].
    + apply cb_ahead; assumption.
    + apply cb_too_far; assumption.
  - destruct (Z.leb_spec t (rs2 r)) as [B|B]; cbn [opt_default]; [|apply cb_clock_back; assumption].
    unfold checked_sub. destruct (Z.leb_spec time_min (ri1 r - (rs2 r - t))) as [C|C]; cbn [opt_default].
    + apply cb_past; assumption.
    + apply cb_too_long_ago; assumption.
Qed.

Lemma same_entry lk e1 n i ts :
  wf lk -> has lk e1 -> In (mkEntry n i ts) (details lk) -> d_name e1 = n -> e1 = mkEntry n i ts.
Proof. intros W H I E. apply (wf_name_inj lk); auto. Qed.

Lemma main_tid O w tid : reachable O w -> nth_error (w_threads w) tid = Some PMain -> tid = 0%nat.
Proof.
  intros R N. pose proof (ro_pc _ (reach_roles _ _ R) _ _ N) as X.
  destruct tid as [|[|[|[|tid]]]]; try discriminate X. reflexivity.
Qed.

Lemma scan_tid O w tid : reachable O w -> nth_error (w_threads w) tid = Some PNtScan -> tid = 2%nat.
Proof.
  intros R N. pose proof (ro_pc _ (reach_roles _ _ R) _ _ N) as X.
  destruct tid as [|[|[|[|tid]]]]; try discriminate X. reflexivity.
Qed.

Lemma csr_life O w tid e p lk' p' os n i ts e' :
  reachable O w -> nth_error (w_threads w) tid = Some p -> csr O w e p lk' p' os ->
  In (mkEntry n i ts) (details (w_lk w)) -> has lk' e' -> d_name e' = n ->
  life O w n i (LTick tid e) ts (d_ts e').
Proof.
  intros R N C H H' E.
  pose proof (reach_inv _ _ R) as I. pose proof (inv_wf _ _ I) as W.
  assert (pc_ok (w_lk w) p) as PO.
  { pose proof (inv_threads _ _ I) as TH. rewrite Forall_forall in TH. apply TH. eapply nth_error_In. exact N. }
  assert (forall e1, has (w_lk w) e1 -> d_name e1 = n -> e1 = mkEntry n i ts) as SAME
    by (intros e1 H1 E1; eapply same_entry; eassumption).
  assert (has (w_lk w) e' -> life O w n i (LTick tid e) ts (d_ts e')) as KEPT.
  { intros H1. rewrite (SAME _ H1 E). apply lf_same. }
  assert (forall k e0 ts0, lk' = bump k (w_lk w) (d_id e0) ts0 -> has (w_lk w) e0 ->
    (e0 = mkEntry n i ts -> life O w n i (LTick tid e) ts ts0) -> life O w n i (LTick tid e) ts (d_ts e')) as BUMP.
  { intros k e0 ts0 EL H0 F. rewrite EL in H'. unfold has in H'.
    apply bump_in in H' as [(e1 & I1 & E1 & ->)|[I1 _]]; [|apply KEPT; exact I1].
    assert (e1 = e0) by (apply (wf_id_inj (w_lk w)); auto). subst e1. simpl in E |- *. apply F. apply SAME; assumption. }
  assert (exists act, account_of (w_lk w) n = Some act) as (act0 & AC).
  { destruct (wf_account (w_lk w) (mkEntry n i ts) W H) as (act & A & _). eauto. }
  assert (forall P act, owns (w_lk w) i act P -> P ts) as OWNED.
  { intros P act [_ F]. apply (F (mkEntry n i ts)); [exact H|reflexivity]. }
  destruct C; try (apply KEPT; exact H').
  - (* asked for an authorisation *)
    apply main_tid with (O := O) in N; [|exact R]. subst tid.
    eapply BUMP; [reflexivity|assumption|]. intros ->. cbn [d_name d_ts d_id] in *.
    match goal with NS : ~ In _ wu |- _ => apply (lf_asked O w n i e wu ts act _ NS) end; [|assumption|].
    + match goal with RQ : _ \/ _ |- _ => destruct RQ as [Q|[Q TE]] end.
      * left. split; [rewrite <- Q; assumption|]. intros a ->. match goal with X : is_active _ = false |- _ => discriminate X end.
      * right. split; [rewrite <- Q; assumption|exact TE].
    + exists ru, base. auto.
  - (* revoked *)
    apply main_tid with (O := O) in N; [|exact R]. subst tid.
    eapply BUMP; [reflexivity|assumption|]. intros ->. apply lf_revoked. cbn [d_name] in *.
    match goal with X : req = _ |- _ => rewrite <- X end. assumption.
  - (* reloaded *)
    apply main_tid with (O := O) in N; [|exact R]. subst tid.
    assert (wf_conf c) as WC by (match goal with CO : conf_ok O c |- _ => apply CO end).
    match goal with U : update_conf _ _ = _ |- _ =>
      destruct (update_conf_spec _ _ _ W WC U) as (_ & _ & LC & K) end.
    destruct (K e' H') as (a1 & A1 & M). rewrite E, AC in M. rewrite E in A1.
    destruct (secure_eq a1 act0) eqn:SE; [apply KEPT; exact M|]. destruct M as [_ ->].
    eapply lf_reloaded with (c := c) (act := act0) (act' := a1); [match goal with X : req = _ |- _ => rewrite <- X end; assumption|assumption|exact AC| |].
    + unfold account_of in A1. rewrite LC in A1. exact A1.
    + intros X. apply same_security_sym in X. apply secure_eq_same in X. congruence.
  - (* restored *)
    apply main_tid with (O := O) in N; [|exact R]. subst tid.
    match goal with F : Forall2 _ _ _ |- _ => destruct (Forall2_in_r _ _ _ _ F H') as (e0 & I0 & NE & X) end.
    destruct X as [->|[_ (NA & act & ad & td & j & L & LD & SR & TE & TA)]]; [apply KEPT; exact I0|].
    assert (e0 = mkEntry n i ts) as -> by (apply SAME; [exact I0|congruence]). cbn [d_name d_ts] in *.
    destruct td as [|tok ob ex rt]; simpl in TE; [rewrite TE in TA; discriminate TA|].
    rewrite TE. eapply lf_restored; [match goal with X : req = _ |- _ => rewrite <- X end; eassumption| |eassumption|eassumption|assumption|exact LD|exact L| |apply restored_time|apply restored_time].
    + intros a ->. discriminate NA.
    + apply restorable_agrees. exact SR.
  - (* a refresh starts *)
    eapply BUMP; [reflexivity|assumption|]. intros ->. cbn [d_name d_ts d_id] in *.
    match goal with T : ts = TSActive a |- _ => rewrite T end.
    destruct a as [tok ob ex rt og f la]. cbn [ongoing refresh_token] in *. subst rt og.
    apply lf_started. exact N.
  - (* a refresh without refresh token *)
    eapply BUMP; [reflexivity|assumption|]. intros ->. cbn [d_name d_ts d_id] in *.
    match goal with T : ts = TSActive a |- _ => rewrite T end.
    destruct a as [tok ob ex rt og f la]. cbn [ongoing refresh_token] in *. subst rt og.
    eapply lf_not_refreshable. exact N.
  - (* refreshed *)
    eapply BUMP; [reflexivity|assumption|]. intros ->. cbn [d_name d_ts d_id] in *.
    destruct PO as (act1 & _ & OW). destruct (OWNED _ _ OW) as ([tok0 ob0 ex0 rt0 og f la] & TA & OG).
    cbn [ongoing] in OG. subst og. rewrite TA.
    pose proof (expiry_instant_spec (w_lk w) (mkEntry n i ts) act0 now exs W H AC) as XS. cbn [d_id] in XS.
    match goal with X : expiry_instant _ _ _ _ = _ |- _ => rewrite X in XS end.
    eapply lf_refreshed; [exact N|exact AC|exact XS].
  - eapply BUMP; [reflexivity|assumption|]. intros ->. cbn [d_name d_ts d_id] in *.
    destruct PO as (act1 & _ & OW). destruct (OWNED _ _ OW) as ([tok0 ob0 ex0 rt0 og f la] & TA & OG).
    cbn [ongoing] in OG. subst og. rewrite TA.
    pose proof (expiry_instant_spec (w_lk w) (mkEntry n i ts) act0 now exs W H AC) as XS. cbn [d_id] in XS.
    match goal with X : expiry_instant _ _ _ _ = _ |- _ => rewrite X in XS end.
    eapply lf_unrepresentable; [exact N|exact AC|exact XS].
  - (* turned down *)
    eapply BUMP; [reflexivity|assumption|]. intros ->. cbn [d_name d_ts d_id] in *.
    destruct PO as (act1 & _ & OW). destruct (OWNED _ _ OW) as ([tok0 ob0 ex0 rt0 og f la] & TA & OG).
    cbn [ongoing] in OG. subst og. rewrite TA. eapply lf_turned_down. exact N.
  - (* unreachable *)
    eapply BUMP; [reflexivity|assumption|]. intros ->. cbn [d_name d_ts d_id] in *.
    destruct PO as (act1 & _ & OW). destruct (OWNED _ _ OW) as (a1 & TA & OG).
    assert (a1 = a) as -> by congruence. rewrite TA. destruct a as [tok0 ob0 ex0 rt0 og f la].
    cbn [ongoing set_ongoing set_attempt fails access_token obtained expiry refresh_token last_attempt] in *. subst og.
    rewrite <- N.add_1_r in *. eapply lf_unreachable; [exact N|].
    destruct (c_transient_error_if_cmd (conf w)) as [cmd|] eqn:CM; [right|left; reflexivity].
    intros X. match goal with Y : ~ (exists _, _) |- _ => apply Y end. exists cmd. split; [exact CM|exact X].
  - (* the command is asked *)
    eapply BUMP; [reflexivity|assumption|]. intros ->. cbn [d_name d_ts d_id] in *.
    destruct PO as (act1 & _ & OW). destruct (OWNED _ _ OW) as (a1 & TA & OG).
    assert (a1 = a) as -> by congruence. rewrite TA. destruct a as [tok0 ob0 ex0 rt0 og f la].
    cbn [ongoing set_ongoing set_attempt fails access_token obtained expiry refresh_token last_attempt] in *. subst og.
    rewrite <- N.add_1_r in *. eapply lf_command; [exact N|eassumption|assumption].
  - eapply BUMP; [reflexivity|assumption|]. intros ->. cbn [d_name d_ts d_id] in *.
    destruct PO as (act1 & _ & OW). destruct (OWNED _ _ OW) as (a1 & TA & OG).
    assert (a1 = a) as -> by congruence. rewrite TA. destruct a as [tok0 ob0 ex0 rt0 og f la].
    cbn [ongoing set_ongoing fails access_token obtained expiry refresh_token last_attempt] in *. subst og.
    eapply lf_command_ok. exact N.
  - eapply BUMP; [reflexivity|assumption|]. intros ->. cbn [d_name d_ts d_id] in *.
    destruct PO as (act1 & _ & OW). destruct (OWNED _ _ OW) as ([tok0 ob0 ex0 rt0 og f la] & TA & OG).
    cbn [ongoing] in OG. subst og. rewrite TA. eapply lf_command_failed. exact N.
  - (* the provider refused the authorisation *)
    eapply BUMP; [reflexivity|assumption|]. intros ->. cbn [d_name d_ts d_id] in *.
    match goal with T : ts = TSPending _ _ _ _ |- _ => rewrite T end.
    assert (act0 = act) as -> by congruence. eapply lf_refused; try eassumption.
  - (* authorised *)
    eapply BUMP; [reflexivity|assumption|]. intros ->. cbn [d_name d_ts d_id] in *.
    destruct PO as (act1 & OW). destruct (OWNED _ _ OW) as (cvr & ln & st & u & TP). rewrite TP.
    pose proof (expiry_instant_spec (w_lk w) (mkEntry n i ts) act0 (env_now e) exs W H AC) as XS. cbn [d_id] in XS.
    match goal with X : expiry_instant _ _ _ _ = _ |- _ => rewrite X in XS end.
    eapply lf_authorised; [exact N|eassumption| |exact AC|exact XS]. repeat split; assumption.
  - eapply BUMP; [reflexivity|assumption|]. intros ->. cbn [d_name d_ts d_id] in *.
    destruct PO as (act1 & OW). destruct (OWNED _ _ OW) as (cvr & ln & st & u & TP). rewrite TP.
    eapply lf_exchange_failed. exact N.
  - (* reminded *)
    pose proof N as NP. apply scan_tid with (O := O) in N; [|exact R]. subst tid.
    match goal with F : Forall2 _ _ _ |- _ => destruct (Forall2_in_r _ _ _ _ F H') as (e0 & I0 & X) end.
    cbv beta in X. destruct (notify_due (w_lk w) (env_now e) e0) eqn:ND; [|subst; apply KEPT; exact I0].
    destruct X as (NE & _ & ->).
    assert (e0 = mkEntry n i ts) as -> by (apply SAME; [exact I0|congruence]). cbn [d_ts] in *.
    unfold notify_due in ND. cbn [d_ts] in ND. destruct ts as [|cvr ln st u|a]; try discriminate ND.
    apply lf_reminded; [exact NP|]. intros t -> LE. unfold checked_add in ND.
    destruct (Z.leb_spec (t + c_auth_notify_interval (lconfig (w_lk w))) time_max) as [L|L];
      [apply Z.leb_le in ND; exact ND|unfold conf in LE; lia].
Qed.

Lemma life_step O w l w' n i ts ts' :
  reachable O w -> step O w l = SNext w' -> In (mkEntry n i ts) (details (w_lk w)) -> holds w' n ts' ->
  life O w n i l ts ts'.
Proof.
  intros R S H (e' & H' & E & <-).
  pose proof (reach_inv _ _ R) as I. pose proof (inv_wf _ _ I) as W.
  destruct (step_ok _ _ _ _ I S) as (_ & _ & T & _).
  assert (has (w_lk w) e' -> life O w n i l ts (d_ts e')) as KEPT.
  { intros H1. rewrite (same_entry _ _ _ _ _ W H1 H E). apply lf_same. }
  inversion T as [tid e p lk' p' os N C EL EW|tid e p w1 N SY EL EW|https bytes P EL EW].
  - rewrite <- EW in H'. change (In e' (details lk')) in H'. eapply csr_life; [exact R|exact N|exact C|exact H|exact H'|exact E].
  - subst. destruct (syn_ok O _ _ _ _ _ I ltac:(pose proof (inv_threads _ _ I) as TH; rewrite Forall_forall in TH; apply TH; eapply nth_error_In; exact N) SY) as [_ EQ].
    apply KEPT. unfold has. rewrite <- EQ. exact H'.
  - subst. apply KEPT. exact H'.
Qed.
