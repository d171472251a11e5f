(** Tokens stay valid although the provider cannot be reached now and then. *)
From Verif Require Import Base BaseLemmas Time Utf8 Base64 Url Json Oracles Config Dump State Http Timers Server
  StateLemmas ConfigLemmas Steps Inv Reach Own SpecServer SpecTimers SpecSessions SpecFair SpecTimed Trace Remind Wake
  Events Sched Sessions Counters Fair Timed.
Local Open Scope Z_scope.

Lemma trans_ends O w e i name msg lk' q' os :
  csr O w e (PRefTransient i name msg) lk' q' os ->
  stale (w_lk w) i
  \/ (exists e0 a, has (w_lk w) e0 /\ d_id e0 = i /\ d_ts e0 = TSActive a
        /\ ((lk' = bump 1 (w_lk w) i (TSActive (set_ongoing (set_attempt a (Some (env_now e)) (N.succ (fails a))) false)))
            \/ (exists cmd, lk' = bump 0 (w_lk w) i (TSActive (set_attempt a (Some (env_now e)) (N.succ (fails a))))
                  /\ q' = PRefCmd (account_count (w_lk w)) name cmd))).
Proof.
  intros C. inversion C; subst; [left; assumption| |]; right; exists e0, a; (split; [assumption|]); (split; [reflexivity|]);
    (split; [assumption|]); [left; reflexivity|right; exists cmd; auto].
Qed.

Lemma cmd_ends O w e i name lk' q' os :
  csr O w e (PRefCmdDone i name true) lk' q' os ->
  stale (w_lk w) i
  \/ (exists e0 a, has (w_lk w) e0 /\ d_id e0 = i /\ d_ts e0 = TSActive a
        /\ lk' = bump 0 (w_lk w) i (TSActive (set_ongoing a false))).
Proof. intros C. inversion C; subst; [right; exists e0, a; auto|left; assumption]. Qed.

Lemma transient_next i n r res : transient res -> exists msg, ref_post_next i n r res = PRefTransient i n msg.
Proof.
  destruct res as [s|m|c b|t m]; cbn; intros T; try contradiction; [eexists; reflexivity|].
  destruct t; cbn in *; try contradiction; eexists; reflexivity.
Qed.

Section Retry.
Variable O : oracles.
Variable ws : nat -> world.
Variable ls : nat -> option label.
Variable tau : nat -> Z.
Variable d p : Z.
Hypothesis PR : prompt O ws ls tau d p.
Hypothesis D0 : 0 <= d.
Hypothesis P0 : 0 <= p.
Variable k : nat.
Variable n : str.
Variable lo hi M W R : Z.
Hypothesis W0 : 0 <= W.
Hypothesis R0 : 0 <= R.
Hypothesis UND : undisturbed ws ls k n.
Hypothesis PROV : flaky_provider O ws tau k n lo hi W.
Hypothesis MARG : forall j act, (k <= j)%nat -> configured (ws j) n act ->
  M <= margin act (conf (ws j)) <= tau k - time_min.
Hypothesis RETRY : forall j act, (k <= j)%nat -> configured (ws j) n act -> retry_gap act (conf (ws j)) <= R.
Hypothesis TMAX : forall j, tau j + hi <= time_max.
Hypothesis MSLACK : W + R + 24 * d + 3 * p < M.
Hypothesis LSLACK : W + R + 26 * d + 3 * p < lo.

Let EN : endless O ws ls := pr_endless _ _ _ _ _ _ PR.
Notation reach k := (reach_at O ws ls EN k).
Notation later := (later O ws ls tau d p PR).
Notation untouched := (untouched tau k n).

(** From the first failure on all goes well if there are this much left. *)
Let Q := W + R + 14 * d + 2 * p.

Lemma untouched_due u e a : untouched e a -> (k <= u)%nat ->
  forall i act now t, (u <= i)%nat -> account_of (w_lk (ws i)) (d_name e) = Some act ->
  expiry a - M < now -> refresh_due act (lconfig (w_lk (ws i))) now a = Some t -> t <= expiry a - M.
Proof.
  intros (NM & _ & OG & LA & _ & EX) LU i act now t LI AC LT DU. rewrite NM in AC.
  destruct (settings_nonneg _ _ _ _ (reach i) AC) as (MG & _).
  destruct (MARG i act ltac:(lia) AC) as [M1 M2].
  apply due_time in DU; [|lia|exact MG]. unfold conf in *. destruct DU as [l _ X|_ _ _|_ _ X]; [congruence|lia|lia].
Qed.

(** A token the last attempt to refresh which failed at [l]. *)
Lemma resting_due u e a l : d_name e = n -> last_attempt a = Some l -> expiry a <= time_max -> (k <= u)%nat ->
  tau k <= expiry a ->
  forall i act now t, (u <= i)%nat -> account_of (w_lk (ws i)) (d_name e) = Some act ->
  l + R < now -> refresh_due act (lconfig (w_lk (ws i))) now a = Some t -> t <= l + R.
Proof.
  intros NM LA EX LU EK i act now t LI AC LT DU. rewrite NM in AC.
  destruct (settings_nonneg _ _ _ _ (reach i) AC) as (MG & _).
  destruct (MARG i act ltac:(lia) AC) as [M1 M2]. pose proof (RETRY i act ltac:(lia) AC) as RG.
  apply due_time in DU; [|lia|exact MG]. unfold conf in *. destruct DU as [l' _ X OK|_ X _|_ X Y].
  - assert (l' = l) as -> by congruence. lia.
  - specialize (X l LA). lia.
  - lia.
Qed.

(** The first attempt to refresh the token failed in step [f]. *)
Definition trying (f j : nat) (a : active) : Prop :=
  (k <= f)%nat /\ (f <= j)%nat /\ fails_at ws n f
  /\ (forall i, (f <= i)%nat -> (i <= j)%nat -> exists a', holds (ws i) n (TSActive a') /\ obtained a' = obtained a)
  /\ tau f + Q < expiry a.

Lemma trying_next f j a a' : trying f j a -> holds (ws (S j)) n (TSActive a') -> obtained a' = obtained a ->
  expiry a' = expiry a -> trying f (S j) a'.
Proof.
  intros (K1 & K2 & F & S & E) H OB EX. split; [exact K1|]. split; [lia|]. split; [exact F|]. split; [|rewrite EX; exact E].
  intros i I1 I2. rewrite OB. destruct (Nat.eq_dec i (Datatypes.S j)) as [->|NE]; [exists a'; auto|]. apply S; lia.
Qed.

(** When an attempt must have begun. *)
Definition in_time (j : nat) (a : active) (D : Z) : Prop :=
  D + p + Q < expiry a \/ exists f, trying f j a /\ D <= tau f + W + R + 12 * d + p.

Lemma in_time_slack j a D : in_time j a D -> D + p + 2 * d < expiry a.
Proof.
  unfold Q. intros [L|(f & (_ & _ & _ & _ & E) & L)]; [unfold Q in L; lia|]. unfold Q in E. lia.
Qed.

Lemma in_time_next j a a' D : in_time j a D -> holds (ws (S j)) n (TSActive a') -> obtained a' = obtained a ->
  expiry a' = expiry a -> in_time (S j) a' D.
Proof.
  intros [L|(f & T & L)] H OB EX; [left; rewrite EX; exact L|]. right. exists f. split; [|exact L].
  eapply trying_next; eassumption.
Qed.

(** What the thread that refreshes it does, and since when. *)
Inductive stage (j x : nat) (i : account_id) (a : active) (r : str) : pc -> Prop :=
| st_post uri pairs D : In ($"refresh_token", r) pairs -> tau x <= D -> in_time j a D ->
    stage j x i a r (PRefPost i n r uri pairs)
| st_body body : good_answer O lo hi (PRBody body) -> tau x + 2 * d < expiry a -> stage j x i a r (PRefBody i n r body)
| st_got tok exs r' now : lo <= secs exs <= hi -> tau k <= now -> tau x <= now + d -> now <= tau x -> tau x + d < expiry a ->
    stage j x i a r (PRefGot i n tok exs (Some r') now)
| st_trans f msg : trying f j a -> tau x <= tau f + W -> stage j x i a r (PRefTransient i n msg)
| st_cmd f l cmd : trying f j a -> tau x <= tau f + W + d -> last_attempt a = Some l -> l <= tau f + W + d ->
    stage j x i a r (PRefCmd i n cmd)
| st_done f l : trying f j a -> tau x <= tau f + W + d + p -> last_attempt a = Some l -> l <= tau f + W + d ->
    stage j x i a r (PRefCmdDone i n true).

Lemma stage_next j x i a r q : stage j x i a r q -> holds (ws (S j)) n (TSActive a) -> stage (S j) x i a r q.
Proof.
  intros S H. destruct S as [uri pairs D PA LD T|body GA SL|tok exs r' now LH TN TX TX' SL|f msg T L1|f l cmd T L1 LA L2|f l T L1 LA L2].
  - apply (st_post _ _ _ _ _ _ _ D PA LD). apply (in_time_next j a); auto.
  - apply st_body; assumption.
  - apply st_got; assumption.
  - apply (st_trans _ _ _ _ _ f); [|exact L1]. apply (trying_next f j a); auto.
  - apply (st_cmd _ _ _ _ _ f l); try assumption. apply (trying_next f j a); auto.
  - apply (st_done _ _ _ _ _ f l); try assumption. apply (trying_next f j a); auto.
Qed.

Lemma stage_id j x i a r q : stage j x i a r q -> ref_id q = Some i.
Proof. intros S. destruct S; reflexivity. Qed.

Inductive life (j : nat) : Prop :=
| li_untouched s e a :
    (k <= s)%nat -> (s <= j)%nat -> untouched e a -> there ws e s j -> tau s + 10 * d + p + Q < expiry a -> life j
| li_refreshing e a r tid x q :
    In e (details (w_lk (ws j))) -> d_name e = n -> d_ts e = TSActive a -> ongoing a = true -> refresh_token a = Some r ->
    tau k <= expiry a <= time_max -> (k <= x)%nat -> (x <= j)%nat ->
    (forall y, (x <= y)%nat -> (y <= j)%nat -> at_ ws y tid q) -> stage j x (d_id e) a r q -> life j
| li_resting f s e a l :
    (k <= s)%nat -> (s <= j)%nat -> there ws e s j -> d_name e = n -> d_ts e = TSActive a -> ongoing a = false ->
    refresh_token a <> None -> tau k <= expiry a <= time_max -> last_attempt a = Some l -> trying f j a ->
    tau s <= tau f + W + 2 * d + p -> l <= tau f + W + d -> life j.

Lemma stage_over j x i a r q tid : stage j x i a r q -> (x <= j)%nat -> (forall y, (x <= y)%nat -> (y <= j)%nat -> at_ ws y tid q) ->
  tau (S j) < expiry a.
Proof.
  intros S L A.
  assert (forall b, limit d p q = Some b -> tau (Datatypes.S j) <= tau x + b) as B.
  { intros b E. exact (pr_point _ _ _ _ _ _ PR tid q b E x j L A). }
  destruct S as [uri pairs D _ LD T|body _ L1|tok exs r' now _ _ _ _ L1|f msg (_ & _ & _ & _ & T) L1|f l cmd (_ & _ & _ & _ & T) L1 _ L2|f l (_ & _ & _ & _ & T) L1 _ L2];
    unfold Q in *; specialize (B _ eq_refl); try lia.
  apply in_time_slack in T. lia.
Qed.

Lemma life_valid j : life j -> exists a, holds (ws j) n (TSActive a) /\ tau (S j) < expiry a.
Proof.
  intros [s e a L1 L2 U TH SL|e a r tid x q I NM ACT OG RT EX KX XJ A S|f s e a l L1 L2 TH NM ACT OG RT EX LA T TS LL].
  - exists a. split; [exists e; split; [apply TH; lia|split; apply U]|].
    pose proof (past_due O ws ls tau d p PR D0 s e a (expiry a - M) (proj1 (proj2 U)) (proj1 (proj2 (proj2 U)))
                  (untouched_due s e a U L1) s j (le_n s) L2 TH). unfold Q in *. lia.
  - exists a. split; [exists e; auto|]. eapply stage_over; eassumption.
  - exists a. split; [exists e; split; [apply TH; lia|auto]|].
    pose proof (past_due O ws ls tau d p PR D0 s e a (l + R) ACT OG
                  (resting_due s e a l NM LA (proj2 EX) L1 (proj1 EX)) s j (le_n s) L2 TH).
    destruct T as (_ & _ & _ & _ & T). unfold Q in *. lia.
Qed.

Lemma idle_left j e a D : (k <= j)%nat -> d_name e = n -> d_ts e = TSActive a -> ongoing a = false ->
  refresh_token a <> None -> tau k <= expiry a <= time_max ->
  In e (details (w_lk (ws j))) -> ~ In e (details (w_lk (ws (S j)))) ->
  tau (S j) <= D -> in_time j a D -> life (S j).
Proof.
  intros LK NM ACT OG RT EX I NI LD T.
  destruct (changes O ws ls tau d p PR k n j e UND LK NM I NI) as (tid & env & q & lk' & q' & os & LS & A & C & E' & NR).
  assert (w_lk (ws (S j)) = lk') as WL by (rewrite E'; reflexivity). rewrite WL in NI.
  destruct (active_left e a ACT OG O (ws j) env tid q lk' q' os (reach j) A C I NI) as [RO|[(act & r & AC & R1 & E & EL)|(R1 & _)]];
    [contradiction| |contradiction].
  pose proof (bump_in_new 1 _ _ (TSActive (set_attempt (set_ongoing a true) (Some (env_now env)) (fails a))) I) as IN.
  rewrite <- EL, <- WL in IN. rewrite NM in IN.
  apply (li_refreshing _ _ _ r tid (S j) (PRefPost (account_count (w_lk (ws j)) + 1)%N n r (a_token_uri act) (refresh_pairs act r))
           IN eq_refl eq_refl eq_refl R1 EX); [lia|lia| |].
  - intros y Y1 Y2. replace y with (S j) by lia. unfold at_. rewrite E', E, NM. cbn [after_cs emit set_thread w_threads].
    eapply nth_list_set_same. exact A.
  - apply (st_post _ _ _ _ _ _ _ D); [|exact LD|].
    + unfold refresh_pairs. apply in_or_app. left. right. left. reflexivity.
    + eapply in_time_next; [exact T| |reflexivity|reflexivity]. eexists. split; [exact IN|]. split; reflexivity.
Qed.

Lemma there_next e s j : there ws e s j -> In e (details (w_lk (ws (S j)))) -> there ws e s (S j).
Proof.
  intros TH I i I1 I2. destruct (Nat.eq_dec i (S j)) as [->|NE]; [exact I|]. apply TH; lia.
Qed.

Lemma life_untouched j s e a : (k <= s)%nat -> (s <= j)%nat -> untouched e a -> there ws e s j ->
  tau s + 10 * d + p + Q < expiry a -> life (S j).
Proof.
  intros L1 L2 U TH SL. destruct (in_dec entry_dec e (details (w_lk (ws (S j))))) as [I|NI].
  - apply (li_untouched _ s e a); try assumption; [lia|]. apply there_next; assumption.
  - pose proof (past_due O ws ls tau d p PR D0 s e a (expiry a - M) (proj1 (proj2 U)) (proj1 (proj2 (proj2 U)))
                  (untouched_due s e a U L1) s j (le_n s) L2 TH) as B.
    destruct U as (NM & ACT & OG & LA & RT & EX).
    apply (idle_left j e a (tau (S j))); try assumption; try lia; [apply TH; lia|]. left. unfold Q in *. lia.
Qed.

Lemma life_resting j f s e a l :
  (k <= s)%nat -> (s <= j)%nat -> there ws e s j -> d_name e = n -> d_ts e = TSActive a -> ongoing a = false ->
  refresh_token a <> None -> tau k <= expiry a <= time_max -> last_attempt a = Some l -> trying f j a ->
  tau s <= tau f + W + 2 * d + p -> l <= tau f + W + d -> life (S j).
Proof.
  intros L1 L2 TH NM ACT OG RT EX LA T TS LL. destruct (in_dec entry_dec e (details (w_lk (ws (S j))))) as [I|NI].
  - apply (li_resting _ f s e a l); try assumption; [lia|apply there_next; assumption|].
    eapply trying_next; [exact T| |reflexivity|reflexivity]. exists e. auto.
  - pose proof (past_due O ws ls tau d p PR D0 s e a (l + R) ACT OG
                  (resting_due s e a l NM LA (proj2 EX) L1 (proj1 EX)) s j (le_n s) L2 TH) as B.
    apply (idle_left j e a (tau (S j))); try assumption; try lia; [apply TH; lia|].
    right. exists f. split; [exact T|]. lia.
Qed.

Lemma life_refreshing j e a r tid x q :
  In e (details (w_lk (ws j))) -> d_name e = n -> d_ts e = TSActive a -> ongoing a = true -> refresh_token a = Some r ->
  tau k <= expiry a <= time_max -> (k <= x)%nat -> (x <= j)%nat ->
  (forall y, (x <= y)%nat -> (y <= j)%nat -> at_ ws y tid q) -> stage j x (d_id e) a r q -> life (S j).
Proof.
  intros I NM ACT OG RT EX KX XJ AX ST0.
  pose proof (stage_id _ _ _ _ _ _ ST0) as RI. pose proof (AX j XJ (le_n j)) as A.
  destruct (goes_dec ls j tid) as [G|NG].
  - destruct (step_at _ _ _ EN _ _ G) as (env & ST & LS).
    destruct (own_step _ _ _ _ _ _ (reach j) A ST) as [(lk' & q' & os & C & E')|SY]; [|inversion SY; subst; discriminate RI].
    assert (w_lk (ws (S j)) = lk') as WL by (rewrite E'; reflexivity).
    assert (at_ ws (S j) tid q') as AS.
    { unfold at_. rewrite E'. cbn [after_cs emit set_thread w_threads]. eapply nth_list_set_same. exact A. }
    assert (forall y, (S j <= y)%nat -> (y <= S j)%nat -> at_ ws y tid q') as AS'.
    { intros y Y1 Y2. replace y with (S j) by lia. exact AS. }
    assert (forall b, limit d p q = Some b -> tau (S j) <= tau x + b) as B.
    { intros b E. exact (pr_point _ _ _ _ _ _ PR tid q b E x j XJ AX). }
    pose proof (pr_clock _ _ _ _ _ _ PR j tid env 0%nat LS) as CL. fold (env_now env) in CL.
    pose proof (later k x KX) as TKX. pose proof (later x j XJ) as TXJ.
    pose proof (inv_wf _ _ (reach_inv _ _ (reach j))) as WF.
    destruct ST0 as [uri pairs D PA LD T|body GA SL|tok exs r' now LH TN TX TX' SL|f msg T L1|f l cmd T L1 LA L2|f l T L1 LA L2];
      specialize (B _ eq_refl).
    + assert (os = [OPost uri pairs (e_post env)] /\ lk' = w_lk (ws j) /\ q' = ref_post_next (d_id e) n r (e_post env)) as (-> & -> & ->)
        by (clear -C; inversion C; auto).
      assert (tries ws n j (e_post env)) as TR.
      { exists a, r, uri, pairs. split; [exists e; auto|]. split; [exact RT|]. split; [|exact PA].
        unfold observed. rewrite E'. apply skipn_trace. }
      assert (In e (details (w_lk (ws (S j))))) as IS by (rewrite WL; exact I).
      assert (holds (ws (S j)) n (TSActive a)) as HS by (exists e; auto).
      destruct (fp_answers _ _ _ _ _ _ _ _ PROV j _ ltac:(lia) TR) as [GA|TRA].
      * pose proof GA as (body & v & tok & ex & E & _). rewrite E in *. cbn [ref_post_next] in AS'.
        apply (li_refreshing _ e a r tid (S j) (PRefBody (d_id e) n r body)); try assumption; try lia.
        apply st_body; [exact GA|]. apply in_time_slack in T. lia.
      * destruct (transient_next (d_id e) n r _ TRA) as [msg E]. rewrite E in AS'.
        apply (li_refreshing _ e a r tid (S j) (PRefTransient (d_id e) n msg)); try assumption; try lia.
        assert (fails_at ws n j) as FA by (exists (e_post env); auto).
        assert (exists f, trying f j a) as (f & TF).
        { destruct T as [L|(f & TF & L)]; [|exists f; exact TF]. exists j.
          split; [lia|]. split; [lia|]. split; [exact FA|]. split; [|lia].
          intros i I1 I2. replace i with j by lia. exists a. split; [exists e; auto|reflexivity]. }
        apply (st_trans _ _ _ _ _ f); [eapply trying_next; eauto|].
        destruct TF as (K1 & K2 & F & SA & _).
        exact (fp_outage _ _ _ _ _ _ _ _ PROV f j (obtained a) K1 K2 SA F FA).
    + assert (lk' = w_lk (ws j) /\ q' = ref_body_next O env (d_id e) n r body) as (-> & ->) by (clear -C; inversion C; auto).
      destruct GA as (body' & v & tok & ex & E & J & NE & TK & TY & EI & LH & RF). injection E as <-.
      assert (exists r', ref_body_next O env (d_id e) n r body = PRefGot (d_id e) n tok ex (Some r') (env_now env)) as [r' E].
      { unfold ref_body_next. rewrite J, NE, TK, EI, TY, str_eqb_refl. destruct RF as [->|(y & ->)]; eauto. }
      rewrite E in AS'.
      apply (li_refreshing _ e a r tid (S j) (PRefGot (d_id e) n tok ex (Some r') (env_now env))); try assumption; try lia;
        [rewrite WL; exact I|].
      apply st_got; try assumption; lia.
    + assert (checked_add now (from_secs exs) = Some (now + secs exs)) as CA.
      { pose proof (TMAX x). change (from_secs exs) with (secs exs). unfold checked_add.
        destruct (Z.leb_spec (now + secs exs) time_max); [reflexivity|lia]. }
      destruct (got_ends _ _ _ _ _ _ _ _ _ _ _ _ C) as [STA|[(e2 & x2 & HE & ID & EXP & EL)|(e2 & m & HE & ID & EXP)]].
      * exfalso. exact (valid_false _ _ STA e I eq_refl).
      * assert (e2 = e) as -> by (eapply wf_id_inj; [exact WF|exact HE|exact I|exact ID]).
        unfold expiry_instant in EXP. rewrite CA in EXP. injection EXP as <-.
        pose proof (bump_in_new 0 _ _ (TSActive (mkActive tok now (now + secs exs) (Some r') false 0 None)) I) as IN.
        rewrite <- EL, <- WL, NM in IN.
        pose proof (TMAX x) as TM.
        assert (untouched (mkEntry n (account_count (w_lk (ws j)) + 0)%N (TSActive (mkActive tok now (now + secs exs) (Some r') false 0 None)))
                  (mkActive tok now (now + secs exs) (Some r') false 0 None)) as UN.
        { do 4 (split; [reflexivity|]). split; [discriminate|]. cbn [expiry]. lia. }
        apply (li_untouched _ (S j) _ _ ltac:(lia) (le_n (S j)) UN).
        -- intros y Y1 Y2. replace y with (S j) by lia. exact IN.
        -- cbn [expiry]. unfold Q. lia.
      * exfalso. unfold expiry_instant in EXP. rewrite CA in EXP. discriminate EXP.
    + destruct (trans_ends _ _ _ _ _ _ _ _ _ C) as [STA|(e2 & a2 & HE & ID & ACT2 & EL)].
      { exfalso. exact (valid_false _ _ STA e I eq_refl). }
      assert (e2 = e) as -> by (eapply wf_id_inj; [exact WF|exact HE|exact I|exact ID]).
      assert (a2 = a) as -> by congruence.
      destruct EL as [EL|(cmd & EL & ->)].
      * set (a3 := set_ongoing (set_attempt a (Some (env_now env)) (N.succ (fails a))) false) in *.
        pose proof (bump_in_new 1 _ _ (TSActive a3) I) as IN. rewrite <- EL, <- WL, NM in IN.
        assert (holds (ws (S j)) n (TSActive a3)) as HS by (eexists; split; [exact IN|split; reflexivity]).
        apply (li_resting _ f (S j) _ a3 (env_now env) ltac:(lia) (le_n (S j))
                 (fun y Y1 Y2 => eq_ind_r (fun z => In _ (details (w_lk (ws z)))) IN (Nat.le_antisymm _ _ Y2 Y1)) eq_refl eq_refl eq_refl);
          try assumption; try reflexivity; try lia.
        -- unfold a3. cbn [set_ongoing set_attempt refresh_token]. congruence.
        -- eapply trying_next; [exact T|exact HS|reflexivity|reflexivity].
      * set (a3 := set_attempt a (Some (env_now env)) (N.succ (fails a))) in *.
        pose proof (bump_in_new 0 _ _ (TSActive a3) I) as IN. rewrite <- EL, <- WL, NM in IN.
        assert (holds (ws (S j)) n (TSActive a3)) as HS by (eexists; split; [exact IN|split; reflexivity]).
        apply (li_refreshing _ _ a3 r tid (S j) (PRefCmd (account_count (w_lk (ws j))) n cmd) IN eq_refl eq_refl);
          try assumption; try lia.
        cbn [d_id]. rewrite N.add_0_r.
        apply (st_cmd _ _ _ _ _ f (env_now env)); [eapply trying_next; [exact T|exact HS|reflexivity|reflexivity]|lia|reflexivity|lia].
    + assert (os = [OTransientCmd cmd n (e_cmd_ok env)] /\ lk' = w_lk (ws j) /\ q' = PRefCmdDone (d_id e) n (e_cmd_ok env)) as (-> & -> & ->)
        by (clear -C; inversion C; auto).
      assert (e_cmd_ok env = true) as CO.
      { destruct (e_cmd_ok env) eqn:CO; [reflexivity|]. exfalso. apply (fp_command _ _ _ _ _ _ _ _ PROV j cmd ltac:(lia)).
        unfold observed. rewrite E'. apply skipn_trace. }
      rewrite CO in AS'. assert (In e (details (w_lk (ws (S j))))) as IS by (rewrite WL; exact I).
      apply (li_refreshing _ e a r tid (S j) (PRefCmdDone (d_id e) n true)); try assumption; try lia.
      apply (st_done _ _ _ _ _ f l); try assumption; [|lia]. eapply trying_next; [exact T|exists e; auto|reflexivity|reflexivity].
    + destruct (cmd_ends _ _ _ _ _ _ _ _ C) as [STA|(e2 & a2 & HE & ID & ACT2 & EL)].
      { exfalso. exact (valid_false _ _ STA e I eq_refl). }
      assert (e2 = e) as -> by (eapply wf_id_inj; [exact WF|exact HE|exact I|exact ID]).
      assert (a2 = a) as -> by congruence.
      pose proof (bump_in_new 0 _ _ (TSActive (set_ongoing a false)) I) as IN. rewrite <- EL, <- WL, NM in IN.
      assert (holds (ws (S j)) n (TSActive (set_ongoing a false))) as HS by (eexists; split; [exact IN|split; reflexivity]).
      apply (li_resting _ f (S j) _ (set_ongoing a false) l ltac:(lia) (le_n (S j))
               (fun y Y1 Y2 => eq_ind_r (fun z => In _ (details (w_lk (ws z)))) IN (Nat.le_antisymm _ _ Y2 Y1)) eq_refl eq_refl eq_refl);
        try assumption; try reflexivity; try lia.
      * cbn [set_ongoing refresh_token]. congruence.
      * eapply trying_next; [exact T|exact HS|reflexivity|reflexivity].
  - assert (In e (details (w_lk (ws (S j))))) as IS.
    { destruct (in_dec entry_dec e (details (w_lk (ws (S j))))) as [IS|NI]; [exact IS|]. exfalso.
      destruct (changes O ws ls tau d p PR k n j e UND ltac:(lia) NM I NI) as (tid' & env & q2 & lk' & q' & os & LS & A2 & C & E' & NR).
      assert (w_lk (ws (S j)) = lk') as WL by (rewrite E'; reflexivity). rewrite WL in NI.
      destruct (marked_left O (ws j) env tid' q2 lk' q' os e a (reach j) A2 C I ACT OG NI) as [RO|R2]; [contradiction|].
      assert (tid' = tid) as -> by (eapply one_refresh_per_version; [exact (reach j)|exact A2|exact A|exact R2|exact RI]).
      apply NG. exists env. exact LS. }
    apply (li_refreshing _ e a r tid x q); try assumption; [lia| |].
    + intros y Y1 Y2. destruct (Nat.eq_dec y (S j)) as [->|NE]; [|apply AX; lia].
      apply (at_next O ws ls EN); [exact A|exact NG].
    + apply stage_next; [exact ST0|]. exists e. auto.
Qed.

Lemma life_goes_on j : life k -> (k <= j)%nat -> life j.
Proof.
  intros L0 L. induction L as [|j L IH]; [exact L0|].
  destruct IH as [s e a L1 L2 U TH SL|e a r tid x q I NM ACT OG RT EX KX XJ A S|f s e a l L1 L2 TH NM ACT OG RT EX LA T TS LL].
  - apply (life_untouched j s e a); assumption.
  - apply (life_refreshing j e a r tid x q); assumption.
  - apply (life_resting j f s e a l); assumption.
Qed.

Lemma valid_through_outages e a j :
  In e (details (w_lk (ws k))) -> untouched e a -> tau k + (W + R + 24 * d + 3 * p) < expiry a -> (k <= j)%nat ->
  exists a', holds (ws j) n (TSActive a') /\ tau (S j) < expiry a'.
Proof.
  intros I U SL L. apply life_valid. apply life_goes_on; [|exact L].
  apply (li_untouched k k e a); try assumption; try lia. intros i I1 I2. replace i with k by lia. exact I.
Qed.
End Retry.
