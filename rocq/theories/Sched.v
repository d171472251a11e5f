(** What the refresher decides, and when it looks. *)
From Verif Require Import Base BaseLemmas Time Utf8 Base64 Url Json Oracles Config Dump State Http
  Timers Server StateLemmas ConfigLemmas SpecServer Steps Inv Reach Own Trace SpecTimers Refresh Wake.
Local Open Scope Z_scope.

Lemma will_spawn ids k i : will_do k = [] -> In (ASpawnRefresh i) (will_do (spawn_all ids k)) <-> In i ids.
Proof.
  intros K. induction ids as [|j ids IH]; cbn.
  - rewrite K. tauto.
  - rewrite IH. split; intros [H|H]; auto; left; congruence.
Qed.

(** One look of the refresher. *)
Lemma looks O w e :
  reachable O w -> looking w ->
  exists w' ids, step O w (LTick 3 e) = SNext w'
    /\ nth_error (w_threads w') 3 = Some (spawn_all ids PRfTop) /\ NoDup ids /\ w_lk w' = w_lk w
    /\ forall i, In i ids <->
         exists e0 a act j,
           has (w_lk w) e0 /\ d_id e0 = i /\ d_ts e0 = TSActive a
           /\ account_of (w_lk w) (d_name e0) = Some act
           /\ nth_error (details (w_lk w)) j = Some e0
           /\ exists t, refresh_due act (lconfig (w_lk w)) (ri1 (e_clk e (S j))) a = Some t
                        /\ t <= env_now e.
Proof.
  intros R [A N]. pose proof (reach_inv _ _ R) as I.
  pose proof (step_spec O w (LTick 3 e) I) as SP. pose proof (never_panics O w (LTick 3 e) R (main_only _ _ _ _ _ N ltac:(discriminate))) as NP.
  destruct (step O w (LTick 3 e)) as [| |w'] eqn:ST; [|contradiction|].
  - exfalso. rewrite (step_at _ _ _ _ _ A N) in ST. cbn [step_thread] in ST.
    unfold run_cs in ST. destruct (rf_scan e (w_lk w)) as [[[lk p] os]| |]; discriminate ST.
  - destruct SP as [_ T]. inversion T as [tid e1 p lk' p' os N1 C|tid e1 p w1 N1 S|]; subst.
    + rewrite N in N1. injection N1 as <-. inversion C; subst.
      exists (after_cs w 3 (w_lk w) (spawn_all ids PRfTop) []), ids. split; [reflexivity|]. split.
      { cbn [after_cs emit set_thread set_lk w_threads]. eapply nth_list_set_same. exact N. }
      split; [assumption|]. split; [reflexivity|]. assumption.
    + rewrite N in N1. injection N1 as <-. inversion S.
Qed.

Lemma decides_iff O w e n act a :
  reachable O w -> looking w -> configured w n act -> holds w n (TSActive a) ->
  decides O w e n <->
  exists j e0 t, nth_error (details (w_lk w)) j = Some e0 /\ d_name e0 = n
    /\ refresh_due act (conf w) (ri1 (e_clk e (S j))) a = Some t /\ t <= env_now e.
Proof.
  intros R L C (e0 & H0 & N0 & T0). pose proof (inv_wf _ _ (reach_inv _ _ R)) as W.
  destruct (looks O w e R L) as (w' & ids & ST & N3 & _ & _ & SPEC). split.
  - intros (w2 & p' & i & ts & ST2 & N3' & I & Hh). rewrite ST in ST2. injection ST2 as <-.
    rewrite N3 in N3'. injection N3' as <-. apply will_spawn in I; [|reflexivity].
    apply SPEC in I as (e1 & a1 & act1 & j & H1 & I1 & T1 & A1 & N1 & t & DU & LE).
    assert (e1 = mkEntry n i ts) as -> by (eapply wf_id_inj; eassumption).
    assert (e0 = mkEntry n i ts) as -> by (eapply wf_name_inj; [exact W|exact H0|exact Hh|exact N0]).
    cbn in *. exists j, (mkEntry n i ts), t.
    assert (a1 = a) as -> by congruence.
    assert (act1 = act) as -> by (unfold configured, account_of in *; congruence). auto.
  - intros (j & e1 & t & N1 & NM & DU & LE).
    assert (e1 = e0) as -> by (eapply wf_name_inj; [exact W|eapply nth_error_In; exact N1|exact H0|congruence]).
    exists w', (spawn_all ids PRfTop), (d_id e0), (d_ts e0). split; [exact ST|]. split; [exact N3|]. split.
    + apply will_spawn; [reflexivity|]. apply SPEC. exists e0, a, act, j.
      subst n. repeat split; try assumption. eauto.
    + subst n. destruct e0; exact H0.
Qed.

(** The account's place in the list of accounts. *)
Lemma placed O w n ts : reachable O w -> holds w n ts ->
  exists j e0, nth_error (details (w_lk w)) j = Some e0 /\ d_name e0 = n /\ d_ts e0 = ts.
Proof. intros _ (e0 & H0 & N0 & T0). destruct (In_nth_error _ _ H0) as (j & N). eauto. Qed.

Lemma decides_fresh O w e n act a :
  reachable O w -> looking w -> configured w n act -> holds w n (TSActive a) ->
  ongoing a = false -> last_attempt a = None ->
  time_min <= expiry a - margin act (conf w) -> env_now e <= time_max ->
  decides O w e n
  <-> (expiry a - margin act (conf w) <= env_now e \/ obtained a + max_age act (conf w) <= env_now e).
Proof.
  intros R L C H OG LA M CK. rewrite (decides_iff _ _ _ _ _ _ R L C H). unfold refresh_due.
  rewrite OG, LA, margin_eq, max_age_eq. unfold checked_sub, checked_add.
  destruct (Z.leb_spec time_min (expiry a - margin act (conf w))); [|lia]. cbn [opt_default].
  split.
  - intros (j & e0 & t & _ & _ & DU & LE).
    destruct (Z.leb_spec (obtained a + max_age act (conf w)) time_max);
      match type of DU with Some ?x = Some t => assert (t = x) as -> by congruence end; lia.
  - intros DU. destruct (placed _ _ _ _ R H) as (j & e0 & N & NM & _). exists j, e0.
    destruct (Z.leb_spec (obtained a + max_age act (conf w)) time_max);
      eexists; (split; [exact N|]; split; [exact NM|]; split; [reflexivity|lia]).
Qed.

(** A margin so large that the time does not exist. *)
Lemma decides_no_margin O w e n act a :
  reachable O w -> looking w -> configured w n act -> holds w n (TSActive a) ->
  ongoing a = false -> last_attempt a = None ->
  expiry a - margin act (conf w) < time_min -> env_now e <= time_max ->
  (forall k, env_now e < ri1 (e_clk e (S k))) ->
  decides O w e n
  <-> (expiry a <= env_now e \/ obtained a + max_age act (conf w) <= env_now e).
Proof.
  intros R L C H OG LA M CK RD. rewrite (decides_iff _ _ _ _ _ _ R L C H). unfold refresh_due.
  rewrite OG, LA, margin_eq, max_age_eq. unfold checked_sub, checked_add.
  destruct (Z.leb_spec time_min (expiry a - margin act (conf w))); [lia|]. cbn [opt_default].
  split.
  - intros (j & e0 & t & _ & _ & DU & LE). specialize (RD j).
    destruct (Z.leb_spec (obtained a + max_age act (conf w)) time_max);
      match type of DU with Some ?x = Some t => assert (t = x) as -> by congruence end; lia.
  - intros DU. destruct (placed _ _ _ _ R H) as (j & e0 & N & NM & _). exists j, e0. specialize (RD j).
    destruct (Z.leb_spec (obtained a + max_age act (conf w)) time_max);
      eexists; (split; [exact N|]; split; [exact NM|]; split; [reflexivity|lia]).
Qed.

Lemma decides_retry O w e n act a l :
  reachable O w -> looking w -> configured w n act -> holds w n (TSActive a) ->
  ongoing a = false -> last_attempt a = Some l -> l + retry_gap act (conf w) <= time_max ->
  decides O w e n <-> l + retry_gap act (conf w) <= env_now e.
Proof.
  intros R L C H OG LA M. rewrite (decides_iff _ _ _ _ _ _ R L C H). unfold refresh_due.
  rewrite OG, LA, retry_gap_eq. unfold checked_add at 1.
  assert (checked_add l (retry_gap act (conf w)) = Some (l + retry_gap act (conf w))) as CA.
  { unfold checked_add. destruct (Z.leb_spec (l + retry_gap act (conf w)) time_max); [reflexivity|lia]. }
  split.
  - intros (j & e0 & t & _ & _ & DU & LE).
    destruct (Z.leb_spec (l + retry_gap act (conf w)) time_max); [|lia].
    assert (t = l + retry_gap act (conf w)) as -> by congruence. exact LE.
  - intros DU. destruct (placed _ _ _ _ R H) as (j & e0 & N & NM & _). exists j, e0, (l + retry_gap act (conf w)).
    destruct (Z.leb_spec (l + retry_gap act (conf w)) time_max); [|lia]. auto.
Qed.

(** Whatever the times, a token past its expiry or its maximal age is dealt
    with, ... *)
Lemma decides_late O w e n act a :
  reachable O w -> looking w -> configured w n act -> holds w n (TSActive a) ->
  ongoing a = false -> last_attempt a = None -> env_now e <= time_max ->
  expiry a <= env_now e \/ obtained a + max_age act (conf w) <= env_now e ->
  decides O w e n.
Proof.
  intros R L C H OG LA CK DU. apply (decides_iff _ _ _ _ _ _ R L C H). unfold refresh_due.
  pose proof (settings_nonneg _ _ _ _ R C) as (MG & _).
  rewrite OG, LA, margin_eq, max_age_eq. unfold checked_sub, checked_add.
  destruct (placed _ _ _ _ R H) as (j & e0 & N & NM & _). exists j, e0.
  destruct (Z.leb_spec time_min (expiry a - margin act (conf w)));
    destruct (Z.leb_spec (obtained a + max_age act (conf w)) time_max); cbn [opt_default];
    eexists; (split; [exact N|]; split; [exact NM|]; split; [reflexivity|lia]).
Qed.

(** ... and one that is being refreshed is left alone. *)
Lemma decides_ongoing O w e n a :
  reachable O w -> looking w -> holds w n (TSActive a) -> ongoing a = true -> ~ decides O w e n.
Proof.
  intros R L H OG D. destruct H as (e0 & H0 & N0 & T0).
  pose proof (inv_wf _ _ (reach_inv _ _ R)) as W.
  destruct (wf_account _ _ W H0) as (act & AC & _).
  assert (configured w n act) as C by (unfold configured; rewrite <- N0; exact AC).
  apply (decides_iff O w e n act a R L C) in D; [|exists e0; auto].
  destruct D as (j & e1 & t & _ & _ & DU & _). unfold refresh_due in DU. rewrite OG in DU. discriminate DU.
Qed.

(** Only active tokens are refreshed. *)
Lemma decides_active O w e n :
  reachable O w -> looking w -> decides O w e n -> exists a, holds w n (TSActive a) /\ ongoing a = false.
Proof.
  intros R L (w2 & p' & i & ts & ST2 & N3' & I & Hh). pose proof (inv_wf _ _ (reach_inv _ _ R)) as W.
  destruct (looks O w e R L) as (w' & ids & ST & N3 & _ & _ & SPEC). rewrite ST in ST2. injection ST2 as <-.
  rewrite N3 in N3'. injection N3' as <-. apply will_spawn in I; [|reflexivity].
  apply SPEC in I as (e1 & a1 & act1 & j & H1 & I1 & T1 & A1 & N1 & t & DU & LE).
  assert (e1 = mkEntry n i ts) as -> by (eapply wf_id_inj; eassumption).
  exists a1. split; [exists (mkEntry n i ts); auto|].
  unfold refresh_due in DU. destruct (ongoing a1); [discriminate DU|reflexivity].
Qed.

(** * Sleeping and waking up *)

Lemma refresher_wakes O w d e1 e2 :
  reachable O w -> w_alive w = true -> nth_error (w_threads w) 3 = Some (PRfBlocked (Some d)) ->
  e_wake e1 = true -> d < env_now e2 ->
  exists w2, run O w [LTick 3 e1; LTick 3 e2] = Some (SNext w2) /\ looking w2 /\ w_lk w2 = w_lk w.
Proof.
  intros R A N WK LT. cbn [run]. rewrite (step_at _ _ _ _ _ A N). cbn [step_thread]. rewrite WK, orb_true_r.
  set (w1 := set_rf (set_thread w 3 (PRfCheck (Some d))) (mkCv (cv_pred (w_rf w)) false)).
  assert (nth_error (w_threads w1) 3 = Some (PRfCheck (Some d))) as N1 by (eapply nth_list_set_same; exact N).
  rewrite (step_at O w1 3 _ e2 A N1). cbn [step_thread].
  assert (wait_or_go e2 (w_rf w1) (Some d) = true) as ->.
  { unfold wait_or_go. apply orb_true_iff. right. apply Z.ltb_lt. exact LT. }
  eexists. split; [reflexivity|]. split; [|reflexivity]. split; [exact A|].
  cbn [w_threads set_rf set_thread]. eapply nth_list_set_same. exact N1.
Qed.

Lemma notifier_wakes O w d e1 e2 :
  reachable O w -> w_alive w = true -> nth_error (w_threads w) 2 = Some (PNtBlocked (Some d)) ->
  e_wake e1 = true -> d < env_now e2 ->
  exists w2, run O w [LTick 2 e1; LTick 2 e2] = Some (SNext w2) /\ inspecting w2 /\ w_lk w2 = w_lk w.
Proof.
  intros R A N WK LT. cbn [run]. rewrite (step_at _ _ _ _ _ A N). cbn [step_thread]. rewrite WK, orb_true_r.
  set (w1 := set_nt (set_thread w 2 (PNtCheck (Some d))) (mkCv (cv_pred (w_nt w)) false)).
  assert (nth_error (w_threads w1) 2 = Some (PNtCheck (Some d))) as N1 by (eapply nth_list_set_same; exact N).
  rewrite (step_at O w1 2 _ e2 A N1). cbn [step_thread].
  assert (wait_or_go e2 (w_nt w1) (Some d) = true) as ->.
  { unfold wait_or_go. apply orb_true_iff. right. apply Z.ltb_lt. exact LT. }
  eexists. split; [reflexivity|]. split; [|reflexivity]. split; [exact A|].
  cbn [w_threads set_nt set_thread]. eapply nth_list_set_same. exact N1.
Qed.

(** Asleep, not about to be woken, a token due: as soon as the clock is past
    the time due, the timeout leads to its refresh. *)
Lemma refreshed_from_sleep O w nw n act a t e1 e2 e3 :
  reachable O w -> w_alive w = true -> refresher_sleeps w nw -> ~ under_way w ASigRefresher ->
  configured w n act -> holds w n (TSActive a) -> ongoing a = false -> last_attempt a = None ->
  time_ok (expiry a) -> time_min <= expiry a - margin act (conf w) ->
  t = Z.min (expiry a - margin act (conf w)) (obtained a + max_age act (conf w)) ->
  e_wake e1 = true -> t < env_now e2 -> t <= env_now e3 -> env_now e3 <= time_max ->
  exists w2, run O w [LTick 3 e1; LTick 3 e2] = Some (SNext w2) /\ looking w2 /\ decides O w2 e3 n.
Proof.
  intros R A SL NU C H OG LA EX M ET WK L2 L3 L4.
  assert (refresh_time act (conf w) (env_now e2) a t) as RT.
  { subst t. apply rt_fresh; [exact OG|intros l E; rewrite LA in E; discriminate E|exact M]. }
  destruct (refresher_no_lost_wakeup _ _ _ R SL NU _ _ _ _ _ C H EX RT) as (d & -> & DL).
  assert (d < env_now e2) as LT by lia.
  destruct (refresher_wakes O w d e1 e2 R A (proj1 SL) WK LT) as (w2 & RN & LK & EQ).
  exists w2. split; [exact RN|]. split; [exact LK|].
  assert (reachable O w2) as R2 by (eapply steps_reachable; [exact R|eapply run_steps; exact RN]).
  assert (conf w2 = conf w) as CF by (unfold conf; rewrite EQ; reflexivity).
  apply (decides_fresh O w2 e3 n act a R2 LK); rewrite ?CF; try assumption.
  - unfold configured in *. rewrite EQ. exact C.
  - unfold holds in *. rewrite EQ. exact H.
  - lia.
Qed.

(** * How long the threads sleep *)

Lemma due_bound act c now a t :
  expiry a <= time_max -> 0 <= margin act c -> refresh_due act c now a = Some t -> t <= time_max.
Proof.
  intros EX MG DU. apply due_time in DU; [|assumption|assumption]. destruct DU; lia.
Qed.

Lemma refresher_plans O w e w' :
  reachable O w -> nth_error (w_threads w) 3 = Some PRfTop -> step O w (LTick 3 e) = SNext w' ->
  exists nw, nth_error (w_threads w') 3 = Some (PRfCheck nw) /\ w_lk w' = w_lk w
    /\ (forall n act a, configured w n act -> holds w n (TSActive a) -> ongoing a = false -> time_ok (expiry a) ->
          exists d, nw = Some d /\ d <= env_now e + secs 37
            /\ forall now t, refresh_time act (conf w) now a t -> d <= t \/ (t = now /\ now < d))
    /\ (nw <> None -> exists n a, holds w n (TSActive a) /\ ongoing a = false).
Proof.
  intros R N ST. pose proof (reach_inv _ _ R) as I. pose proof (step_alive _ _ _ _ ST) as A.
  rewrite (step_at _ _ _ _ _ A N) in ST. cbn [step_thread] in ST.
  destruct (next_wakeup refresh_at (w_lk w) (e_clk e)) as [nw| |] eqn:NW; try discriminate ST.
  exists nw. assert (w' = set_thread w 3 (PRfCheck nw)) as -> by congruence.
  split; [eapply nth_list_set_same; exact N|]. split; [reflexivity|].
  destruct (next_wakeup_spec _ _ _ _ NW) as [LOW UP]. split.
  - intros n act a C H OG EX. pose proof (settings_nonneg _ _ _ _ R C) as (MG & _).
    destruct H as (e0 & H0 & N0 & T0). destruct (In_nth_error _ _ H0) as (j & NJ).
    assert (account_of (w_lk w) (d_name e0) = Some act) as AC by (rewrite N0; exact C).
    assert (exists t', refresh_due act (conf w) (ri1 (e_clk e (S j))) a = Some t') as (t' & DU).
    { unfold refresh_due. rewrite OG. destruct (match last_attempt a with Some lra => _ | None => None end); [eauto|].
      destruct (checked_add (obtained a) (act_refresh_at_least act (conf w))); eauto. }
    destruct (LOW j e0 t' NJ) as (d & -> & LE).
    { rewrite (refresh_at_in _ _ I _ _ _ H0 AC), T0. f_equal. exact DU. }
    exists d. split; [reflexivity|]. split.
    + destruct (UP d eq_refl) as [[B|B] _]; [exact B|].
      pose proof (due_bound _ _ _ _ _ (proj2 EX) MG DU). unfold env_now. lia.
    + intros now t RT. apply due_time in RT; [|apply EX|exact MG].
      destruct (due_moves _ _ _ _ _ _ _ DU RT); lia.
  - intros NN. destruct nw as [d|]; [|congruence]. destruct (UP d eq_refl) as (_ & j & e0 & t & NJ & F & _).
    pose proof (nth_error_In _ _ NJ) as H0.
    destruct (wf_account _ _ (inv_wf _ _ I) H0) as (act & AC & _).
    rewrite (refresh_at_in _ _ I _ _ _ H0 AC) in F. destruct (d_ts e0) as [|? ? ? ?|a] eqn:T0; try discriminate F.
    exists (d_name e0), a. split; [exists e0; auto|].
    injection F as F. unfold refresh_due in F. destruct (ongoing a); [discriminate F|reflexivity].
Qed.

Lemma notifier_plans O w e w' :
  reachable O w -> nth_error (w_threads w) 2 = Some PNtTop -> step O w (LTick 2 e) = SNext w' ->
  (forall k, ri1 (e_clk e k) <= time_max) ->
  exists nw, nth_error (w_threads w') 2 = Some (PNtCheck nw) /\ w_lk w' = w_lk w
    /\ (forall n cvr ln st u now t, holds w n (TSPending cvr ln st u) -> remind_time (conf w) now ln t ->
          exists d, nw = Some d /\ d <= env_now e + secs 37 /\ (d <= t \/ (t = now /\ now < d)))
    /\ (nw <> None -> exists n cvr ln st u, holds w n (TSPending cvr ln st u)).
Proof.
  intros R N ST CK. pose proof (reach_inv _ _ R) as I. pose proof (step_alive _ _ _ _ ST) as A.
  rewrite (step_at _ _ _ _ _ A N) in ST. cbn [step_thread] in ST.
  destruct (next_wakeup notify_at (w_lk w) (e_clk e)) as [nw| |] eqn:NW; try discriminate ST.
  exists nw. assert (w' = set_thread w 2 (PNtCheck nw)) as -> by congruence.
  split; [eapply nth_list_set_same; exact N|]. split; [reflexivity|].
  destruct (next_wakeup_spec _ _ _ _ NW) as [LOW UP]. split.
  - intros n cvr ln st u now t (e0 & H0 & N0 & T0) RT. destruct (In_nth_error _ _ H0) as (j & NJ).
    pose proof (notify_at_in _ _ I (ri1 (e_clk e (S j))) e0 H0) as NA. rewrite T0 in NA.
    destruct RT as [|l L].
    + destruct (LOW j e0 _ NJ NA) as (d & -> & LE). exists d. split; [reflexivity|]. split.
      * destruct (UP d eq_refl) as [[B|B] _]; [exact B|]. specialize (CK (S j)). unfold env_now. lia.
      * destruct (Z.le_gt_cases d now); [left; assumption|right; split; [reflexivity|assumption]].
    + assert (checked_add l (c_auth_notify_interval (lconfig (w_lk w))) = Some (l + c_auth_notify_interval (conf w))) as CA.
      { unfold checked_add. unfold conf in *.
        destruct (Z.leb_spec (l + c_auth_notify_interval (lconfig (w_lk w))) time_max); [reflexivity|lia]. }
      rewrite CA in NA. destruct (LOW j e0 _ NJ NA) as (d & -> & LE). exists d. split; [reflexivity|]. split.
      * destruct (UP d eq_refl) as [[B|B] _]; [exact B|]. unfold env_now. lia.
      * left. exact LE.
  - intros NN. destruct nw as [d|]; [|congruence]. destruct (UP d eq_refl) as (_ & j & e0 & t & NJ & F & _).
    pose proof (nth_error_In _ _ NJ) as H0.
    rewrite (notify_at_in _ _ I _ _ H0) in F. destruct (d_ts e0) as [|cvr ln st u|a] eqn:T0; try discriminate F.
    exists (d_name e0), cvr, ln, st, u. exists e0. auto.
Qed.

(** * Fresh tokens *)

Lemma fresh_not_due act c now a :
  ongoing a = false -> last_attempt a = None -> time_ok (obtained a) -> time_ok (expiry a) ->
  0 <= margin act c -> now = obtained a ->
  (exists t, refresh_time act c now a t /\ t <= obtained a)
  <-> (expiry a - obtained a <= margin act c \/ max_age act c <= 0).
Proof.
  intros OG LA OB EX MG ->. unfold time_ok in *. split.
  - intros (t & RT & LE). destruct RT as [l _ E _|_ _ M|_ _ M]; [congruence|lia|lia].
  - intros H. destruct (Z.le_gt_cases time_min (expiry a - margin act c)) as [M|M].
    + eexists. split; [apply rt_fresh; [exact OG|intros l E; congruence|exact M]|]. lia.
    + eexists. split; [apply rt_no_margin; [exact OG|intros l E; congruence|exact M]|]. lia.
Qed.

(** A token that has just been obtained. *)
Lemma decides_at_once O w e n act a :
  reachable O w -> looking w -> configured w n act -> holds w n (TSActive a) ->
  ongoing a = false -> last_attempt a = None -> time_ok (obtained a) -> time_ok (expiry a) ->
  (forall k, ri1 (e_clk e k) = obtained a) ->
  decides O w e n <-> (expiry a - obtained a <= margin act (conf w) \/ max_age act (conf w) <= 0).
Proof.
  intros R LK C H OG LA TO TE CLK.
  destruct (settings_nonneg _ _ _ _ R C) as (NM & _).
  rewrite (decides_iff O w e n act a R LK C H).
  rewrite <- (fresh_not_due act (conf w) (obtained a) a OG LA TO TE NM eq_refl).
  assert (env_now e = obtained a) as EN by (unfold env_now; apply CLK).
  split.
  - intros (j & e0 & t & N & EQ & D & L). rewrite CLK in D. exists t.
    split; [apply due_time; [apply TE|exact NM|exact D]|lia].
  - intros (t & RT & L). destruct (placed _ _ _ _ R H) as (j & e0 & N & EQ & TS).
    exists j, e0, t. rewrite CLK. repeat split; [exact N|exact EQ| |lia].
    apply due_time; [apply TE|exact NM|exact RT].
Qed.
