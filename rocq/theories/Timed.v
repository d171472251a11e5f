(** When nothing dawdles tokens are refreshed in time. *)
From Verif Require Import Base BaseLemmas Time Utf8 Base64 Url Json Oracles Config Dump State Http Timers Server
  StateLemmas ConfigLemmas Steps Inv Reach Own SpecServer SpecTimers SpecSessions SpecFair SpecTimed Trace Remind Wake
  Events Sched Sessions Counters Fair.
Local Open Scope Z_scope.

(** Nobody but a client and the refresh itself changes a token that is being
    refreshed. *)
Lemma marked_left O w e tid q lk' q' os e1 a1 :
  reachable O w -> nth_error (w_threads w) tid = Some q -> csr O w e q lk' q' os ->
  In e1 (details (w_lk w)) -> d_ts e1 = TSActive a1 -> ongoing a1 = true -> ~ In e1 (details lk') ->
  pc_role q = RoMain \/ ref_id q = Some (d_id e1).
Proof.
  intros R N C I ACT OG NI.
  pose proof (inv_wf _ _ (reach_inv _ _ R)) as WF.
  assert (pc_ok (w_lk w) q) as PO.
  { eapply (proj1 (Forall_forall _ _) (inv_threads _ _ (reach_inv _ _ R))). eapply nth_error_In. exact N. }
  assert (forall n e2 ts, ~ In e1 (details (bump n (w_lk w) (d_id e2) ts)) -> has (w_lk w) e2 -> e2 = e1) as SAME.
  { intros n e2 ts X H1. eapply wf_id_inj; [exact WF|exact H1|exact I|].
    destruct (N.eq_dec (d_id e1) (d_id e2)) as [E|E]; [congruence|]. exfalso. apply X. apply bump_in_other; assumption. }
  destruct C; try (left; reflexivity); try (exfalso; apply NI; exact I);
    try (match goal with H : has _ ?e2 |- _ =>
      assert (e2 = e1) as -> by (eapply SAME; eassumption) end);
    try (right; reflexivity);
    try (exfalso; congruence).
  - exfalso. cbn in PO. destruct PO as (act0 & OW).
    destruct (proj2 OW e1 I eq_refl) as [_ (? & ? & ? & ? & X)]. congruence.
  - exfalso. cbn in PO. destruct PO as (act0 & OW).
    destruct (proj2 OW e1 I eq_refl) as [_ (? & ? & ? & ? & X)]. congruence.
  - exfalso. apply NI.
    match goal with F : Forall2 _ (details (w_lk w)) (details lk') |- _ => revert F end.
    generalize (details lk') as y, (details (w_lk w)) as x, I. clear -ACT.
    intros y x I F. induction F as [|e2 e3 x y R F IH]; [exact I|].
    destruct I as [->|I]; [|right; apply IH; exact I]. left.
    unfold notify_due in R. rewrite ACT in R. exact R.
Qed.

Lemma got_ends O w e i name tok exs rt now lk' q' os :
  csr O w e (PRefGot i name tok exs rt now) lk' q' os ->
  stale (w_lk w) i
  \/ (exists e0 ex, has (w_lk w) e0 /\ d_id e0 = i /\ expiry_instant (w_lk w) (d_id e0) now exs = Val ex
        /\ lk' = bump 0 (w_lk w) (d_id e0) (TSActive (mkActive tok now ex rt false 0 None)))
  \/ (exists e0 m, has (w_lk w) e0 /\ d_id e0 = i /\ expiry_instant (w_lk w) (d_id e0) now exs = Err m).
Proof.
  intros C. inversion C; subst.
  - left. assumption.
  - right. left. exists e0, ex. auto.
  - right. right. exists e0, m. auto.
Qed.

Section Timed.
Variable O : oracles.
Variable ws : nat -> world.
Variable ls : nat -> option label.
Variable tau : nat -> Z.
Variable d p : Z.
Hypothesis PR : prompt O ws ls tau d p.
Hypothesis D0 : 0 <= d.

Let EN : endless O ws ls := pr_endless _ _ _ _ _ _ PR.
Notation at3 k q := (at_ ws k 3 q).
Notation reach k := (reach_at O ws ls EN k).

Lemma later k j : (k <= j)%nat -> tau k <= tau j.
Proof.
  induction 1 as [|j L IH]; [lia|]. pose proof (pr_forward _ _ _ _ _ _ PR j). lia.
Qed.

Lemma at_between tid q k g i :
  at_ ws k tid q -> (forall x, (k <= x)%nat -> (x < g)%nat -> ~ goes ls x tid) -> (k <= i)%nat -> (i <= g)%nat ->
  at_ ws i tid q.
Proof.
  intros A F L1 L2. replace i with (k + (i - k))%nat by lia. eapply at_stays; [exact EN|exact A|].
  intros x X1 X2. apply F; lia.
Qed.

(** A thread at a program point it may not stay at for long. *)
Lemma stay tid q b k j :
  limit d p q = Some b -> at_ ws k tid q -> (k <= j)%nat ->
  tau (S j) <= tau k + b
  \/ exists g e, (k <= g)%nat /\ (g < j)%nat /\ at_ ws g tid q /\ step O (ws g) (LTick tid e) = SNext (ws (S g))
       /\ ls g = Some (LTick tid e) /\ tau (S g) <= tau k + b /\ (forall x, (k <= x)%nat -> (x < g)%nat -> ~ goes ls x tid).
Proof.
  intros LI A L. destruct (first_step ls k tid (j - k)) as [NG|(g & L1 & L2 & G & F)].
  - left. apply (pr_point _ _ _ _ _ _ PR tid q b LI k j L). intros i I1 I2.
    apply (at_between tid q k j i A); [|exact I1|exact I2]. intros x X1 X2. apply NG; lia.
  - right. destruct (step_at _ _ _ EN _ _ G) as (e & S & LS). exists g, e.
    split; [exact L1|]. split; [lia|]. split; [apply (at_between tid q k g g A F); lia|]. split; [exact S|].
    split; [exact LS|]. split; [|exact F].
    apply (pr_point _ _ _ _ _ _ PR tid q b LI k g L1). intros i I1 I2. apply (at_between tid q k g i A F I1 I2).
Qed.

(** The refresher's list of refreshes to begin comes to an end. *)
Lemma spawns k j : (k <= j)%nat ->
  tau (S j) <= tau k + d
  \/ exists i q, (k <= i)%nat /\ (i <= j)%nat /\ at3 i q /\ (forall a r, q <> PDo a r) /\ tau i <= tau k + d
       /\ forall x, (k <= x)%nat -> (x < i)%nat -> exists a r, at3 x (PDo a r).
Proof.
  intros L.
  assert ((forall x, (k <= x)%nat -> (x <= j)%nat -> exists a r, at3 x (PDo a r))
          \/ exists i q, (k <= i)%nat /\ (i <= j)%nat /\ at3 i q /\ (forall a r, q <> PDo a r)
               /\ forall x, (k <= x)%nat -> (x < i)%nat -> exists a r, at3 x (PDo a r)) as [ALL|(i & q & L1 & L2 & A & ND & F)].
  - induction L as [|j L IH].
    + destruct (rf_at O ws ls EN k) as [q A]. destruct q; 
      try (right; exists k; eexists; split; [lia|]; split; [lia|]; split; [exact A|]; split; [intros ? ? X; discriminate X|]; intros x X1 X2; lia).
      left. intros x X1 X2. replace x with k by lia. eauto.
    + destruct IH as [ALL|(i & q & L1 & L2 & X)]; [|right; exists i, q; split; [exact L1|]; split; [lia|exact X]].
      destruct (rf_at O ws ls EN (S j)) as [q A].
      destruct q; 
      try (right; exists (S j); eexists; split; [lia|]; split; [lia|]; split; [exact A|]; split; [intros ? ? X; discriminate X|]; intros x X1 X2; apply ALL; lia).
      left. intros x X1 X2. destruct (Nat.eq_dec x (S j)) as [->|NE]; [eauto|]. apply ALL; lia.
  - left. apply (pr_spawn _ _ _ _ _ _ PR k j L). exact ALL.
  - right. exists i, q. split; [exact L1|]. split; [exact L2|]. split; [exact A|]. split; [exact ND|]. split; [|exact F].
    destruct i as [|i]; [replace k with 0%nat by lia; lia|].
    destruct (Nat.eq_dec k (S i)) as [->|NE]; [lia|].
    apply (pr_spawn _ _ _ _ _ _ PR k i); [lia|]. intros x X1 X2. apply F; lia.
Qed.

(** What the refresher is about to do it does. *)
Lemma spawned a : forall q k i, at3 k q -> In a (chain q) -> (k <= i)%nat ->
  (exists q', at3 i q' /\ In a (chain q'))
  \/ exists h q', (k <= h)%nat /\ (h < i)%nat /\ ws (S h) = do_action (set_thread (ws h) 3 q') a.
Proof.
  intros q k i A I L. induction L as [|i L IH]; [left; eauto|].
  destruct IH as [(q' & A' & I')|(h & q' & L1 & L2 & X)]; [|right; exists h, q'; split; [exact L1|]; split; [lia|exact X]].
  destruct (goes_dec ls i 3) as [G|NG].
  - destruct (step_at _ _ _ EN _ _ G) as (e & S & _).
    assert (exists b r, q' = PDo b r) as (b & r & ->) by (destruct q'; try (destruct I'; fail); eauto).
    destruct (done_next _ _ _ EN _ _ _ _ _ A' S) as [W N]. destruct I' as [->|I'].
    + right. exists i, r. auto with arith.
    + left. eauto.
  - left. exists q'. split; [|exact I']. apply (at_next O ws ls EN _ _ _ A' NG).
Qed.

(** While the refresher begins refreshes a signal to it stays set. *)
Lemma signal_stays u i : cv_pred (w_rf (ws u)) = true -> (u <= i)%nat ->
  (forall x, (u <= x)%nat -> (x < i)%nat -> exists a r, at3 x (PDo a r)) -> cv_pred (w_rf (ws i)) = true.
Proof.
  intros P L. induction L as [|i L IH]; intros F; [exact P|].
  assert (cv_pred (w_rf (ws i)) = true) as PI by (apply IH; intros x X1 X2; apply F; lia).
  destruct (goes_dec ls i 3) as [G|NG].
  - destruct (step_at _ _ _ EN _ _ G) as (e & S & _). destruct (F i L ltac:(lia)) as (a & r & A).
    destruct (done_next _ _ _ EN _ _ _ _ _ A S) as [W _]. rewrite W. apply cv_notified. exact PI.
  - replace (S i) with (i + 1)%nat by lia. apply (rf_pred_stays O ws ls EN); [exact PI|].
    intros x X1 X2. replace x with i by lia. exact NG.
Qed.

(** A signal under way arrives. *)
Definition about_to (x tid : nat) : Prop :=
  exists q, nth_error (w_threads (ws x)) tid = Some q /\ In ASigRefresher (will_do q).

Lemma about_to_next x tid : about_to x tid -> about_to (S x) tid \/ cv_pred (w_rf (ws (S x))) = true.
Proof.
  intros (q & A & I). destruct (goes_dec ls x tid) as [G|NG].
  - destruct (step_at _ _ _ EN _ _ G) as (e & ST & _).
    assert (exists b r, q = PDo b r) as (b & r & ->) by (destruct q; try (destruct I; fail); eauto).
    destruct (done_next _ _ _ EN _ _ _ _ _ A ST) as [W N]. destruct I as [->|I].
    + right. rewrite W. reflexivity.
    + left. exists r. auto.
  - left. exists q. split; [|exact I]. apply (at_next O ws ls EN _ _ _ A NG).
Qed.

Lemma on_its_way u j : (u <= j)%nat -> under_way (ws u) ASigRefresher ->
  tau (S j) <= tau u + d
  \/ exists i, (u < i)%nat /\ (i <= j)%nat /\ tau i <= tau u + d /\ cv_pred (w_rf (ws i)) = true.
Proof.
  intros L (tid & q & A & I).
  assert ((forall x, (u <= x)%nat -> (x <= j)%nat -> about_to x tid)
          \/ exists i, (u < i)%nat /\ (i <= j)%nat /\ cv_pred (w_rf (ws i)) = true
               /\ forall x, (u <= x)%nat -> (x < i)%nat -> about_to x tid) as [ALL|(i & L1 & L2 & P & F)].
  - induction L as [|j L IH].
    + left. intros x X1 X2. replace x with u by lia. exists q. auto.
    + destruct IH as [ALL|(i & L1 & L2 & X)]; [|right; exists i; split; [exact L1|]; split; [lia|exact X]].
      destruct (about_to_next j tid (ALL j L ltac:(lia))) as [N|P].
      * left. intros x X1 X2. destruct (Nat.eq_dec x (S j)) as [->|NE]; [exact N|]. apply ALL; lia.
      * right. exists (S j). split; [lia|]. split; [lia|]. split; [exact P|]. intros x X1 X2. apply ALL; lia.
  - left. apply (pr_signal _ _ _ _ _ _ PR tid u j L). exact ALL.
  - right. exists i. split; [exact L1|]. split; [exact L2|]. split; [|exact P].
    destruct i as [|i]; [lia|]. apply (pr_signal _ _ _ _ _ _ PR tid u i); [lia|]. intros x X1 X2. apply F; lia.
Qed.

Section Due.
Variable s : nat.
Variable e0 : entry.
Variable a : active.
Variable T : Z.
Hypothesis ACT : d_ts e0 = TSActive a.
Hypothesis IDLE : ongoing a = false.
Hypothesis DUE : forall i act now t, (s <= i)%nat -> account_of (w_lk (ws i)) (d_name e0) = Some act ->
  T < now -> refresh_due act (lconfig (w_lk (ws i))) now a = Some t -> t <= T.

Definition there (u j : nat) : Prop := forall i, (u <= i)%nat -> (i <= j)%nat -> In e0 (details (w_lk (ws i))).

Lemma there_sub u j u' j' : there u j -> (u <= u')%nat -> (j' <= j)%nat -> there u' j'.
Proof. intros H L1 L2 i I1 I2. apply H; lia. Qed.

(** Nobody begins a refresh and leaves the entry as it was. *)
Lemma start_takes g tid e :
  at_ ws g tid (PRefStart (d_id e0)) -> step O (ws g) (LTick tid e) = SNext (ws (S g)) ->
  In e0 (details (w_lk (ws g))) -> ~ In e0 (details (w_lk (ws (S g)))).
Proof.
  intros A ST I.
  pose proof (inv_wf _ _ (reach_inv _ _ (reach g))) as WF.
  assert (forall n e1 ts, has (w_lk (ws g)) e1 -> d_id e1 = d_id e0 -> ~ In e0 (details (bump n (w_lk (ws g)) (d_id e1) ts))) as GB.
  { intros n e1 ts H1 E1 IB. apply bump_in in IB as [(e2 & I2 & E2 & ->)|[_ NE]]; [|congruence].
    pose proof (wf_entry_count _ _ WF I) as LT. cbn in LT. lia. }
  destruct (own_step _ _ _ _ _ _ (reach g) A ST) as [(lk2 & p2 & os2 & C2 & W2)|SY2]; [|inversion SY2].
  rewrite W2. cbn [after_cs emit set_thread set_lk w_lk].
  inversion C2; subst.
  - exfalso. match goal with H : forall e0 a, has _ _ -> _ |- _ => rewrite (H e0 a I eq_refl ACT) in IDLE; discriminate IDLE end.
  - apply GB; assumption.
  - apply GB; assumption.
Qed.

Lemma starting u j tid : (u <= j)%nat -> at_ ws u tid (PRefStart (d_id e0)) -> there u j -> tau (S j) <= tau u + d.
Proof.
  intros L A TH. destruct (stay tid (PRefStart (d_id e0)) d u j eq_refl A L) as [B|(g & e & L1 & L2 & AG & S & _)]; [exact B|].
  exfalso. apply (start_takes g tid e AG S); apply TH; lia.
Qed.

Lemma idle_is_due i act now : (s <= i)%nat -> account_of (w_lk (ws i)) (d_name e0) = Some act -> T < now ->
  exists t, refresh_due act (lconfig (w_lk (ws i))) now a = Some t /\ t <= T.
Proof.
  intros L AC LT. destruct (idle_due a IDLE act (lconfig (w_lk (ws i))) now) as [t D].
  exists t. split; [exact D|]. eapply DUE; eassumption.
Qed.

Lemma scanning u j : (s <= u)%nat -> (u <= j)%nat -> at3 u PRfScan -> T < tau u -> there u j -> tau (S j) <= tau u + 3 * d.
Proof.
  intros LS L A TU TH.
  destruct (stay 3 PRfScan d u j eq_refl A L) as [B|(g & e & L1 & L2 & AG & S & LG & B & _)]; [lia|].
  assert (In e0 (details (w_lk (ws g)))) as I by (apply TH; lia).
  destruct (own_step _ _ _ _ _ _ (reach g) AG S) as [(lk' & p' & os & C & W)|SY]; [|inversion SY].
  inversion C; subst. match goal with H : forall i, In i ids <-> _ |- _ => rename H into IDS end.
  destruct (get_account O (ws g) (reach_inv _ _ (reach g)) e0 I) as (act & AC & _ & _).
  pose proof (later u g L1) as TG.
  assert (In (d_id e0) ids) as II.
  { apply IDS. destruct (In_nth_error _ _ I) as [n NT]. exists e0, a, act, n.
    repeat split; try assumption.
    destruct (idle_is_due g act (ri1 (e_clk e (Datatypes.S n))) ltac:(lia) AC) as (t & DU & LT).
    { pose proof (pr_clock _ _ _ _ _ _ PR g 3%nat e (Datatypes.S n) LG). lia. }
    exists t. split; [exact DU|]. pose proof (pr_clock _ _ _ _ _ _ PR g 3%nat e 0%nat LG). unfold env_now. lia. }
  assert (at3 (Datatypes.S g) (spawn_all ids PRfTop)) as AS.
  { unfold at_. rewrite W. cbn [after_cs emit set_thread w_threads]. eapply nth_list_set_same. exact AG. }
  destruct (spawns (Datatypes.S g) j ltac:(lia)) as [B2|(i & q & I1 & I2 & AI & ND & B2 & _)]; [lia|].
  assert (In (ASpawnRefresh (d_id e0)) (chain (spawn_all ids PRfTop))) as IC.
  { rewrite <- will_do_chain. apply will_spawn; [reflexivity|exact II]. }
  destruct (spawned _ _ _ i AS IC I1) as [(q' & AI' & IQ)|(h & q' & H1 & H2 & WH)].
  { exfalso. unfold at_ in AI, AI'. assert (q' = q) as -> by congruence.
    destruct q; try (destruct IQ; fail). exact (ND _ _ eq_refl). }
  set (tid := List.length (w_threads (ws h))).
  assert (at_ ws (Datatypes.S h) tid (PRefStart (d_id e0))) as AT.
  { unfold at_. rewrite WH. cbn [do_action add_thread w_threads set_thread].
    rewrite nth_error_app2 by (rewrite list_set_length; unfold tid; lia).
    rewrite list_set_length. unfold tid. rewrite Nat.sub_diag. reflexivity. }
  pose proof (starting (Datatypes.S h) j tid ltac:(lia) AT (there_sub u j (Datatypes.S h) j TH ltac:(lia) ltac:(lia))) as B3.
  pose proof (later (Datatypes.S h) i ltac:(lia)). lia.
Qed.

Lemma checking u j nw : (s <= u)%nat -> (u <= j)%nat -> at3 u (PRfCheck nw) -> T < tau u ->
  cv_pred (w_rf (ws u)) = true \/ (exists t, nw = Some t /\ t < tau u) -> there u j -> tau (S j) <= tau u + 4 * d.
Proof.
  intros LS L A TU GO TH.
  destruct (stay 3 (PRfCheck nw) d u j eq_refl A L) as [B|(g & e & L1 & L2 & AG & S & LG & B & F)]; [lia|].
  destruct (refresher_next _ _ _ _ _ (reach g) AG S) as (p' & N & E). cbn in E.
  pose proof (later u g L1) as TG. pose proof (later g (Datatypes.S g) ltac:(lia)) as TG'.
  assert (wait_or_go e (w_rf (ws g)) nw = true) as WG.
  { unfold wait_or_go. apply orb_true_iff. destruct GO as [P|(t & -> & LT)].
    - left. replace g with (u + (g - u))%nat by lia. apply (rf_pred_stays O ws ls EN); [exact P|].
      intros x X1 X2. apply F; lia.
    - right. apply Z.ltb_lt. pose proof (pr_clock _ _ _ _ _ _ PR g 3%nat e 0%nat LG). unfold env_now. lia. }
  rewrite WG in E. subst p'.
  pose proof (scanning (Datatypes.S g) j ltac:(lia) ltac:(lia) N ltac:(lia) (there_sub u j (Datatypes.S g) j TH ltac:(lia) ltac:(lia))). lia.
Qed.

Lemma top_signalled u j : (s <= u)%nat -> (u <= j)%nat -> at3 u PRfTop -> T < tau u ->
  cv_pred (w_rf (ws u)) = true -> there u j -> tau (S j) <= tau u + 5 * d.
Proof.
  intros LS L A TU P TH.
  destruct (stay 3 PRfTop d u j eq_refl A L) as [B|(g & e & L1 & L2 & AG & S & LG & B & F)]; [lia|].
  destruct (refresher_next _ _ _ _ _ (reach g) AG S) as (p' & N & (nw & ->) & PE).
  pose proof (later u (Datatypes.S g) ltac:(lia)) as TG.
  assert (cv_pred (w_rf (ws (Datatypes.S g))) = true) as PG.
  { rewrite PE. replace g with (u + (g - u))%nat by lia. apply (rf_pred_stays O ws ls EN); [exact P|].
    intros x X1 X2. apply F; lia. }
  pose proof (checking (Datatypes.S g) j nw ltac:(lia) ltac:(lia) N ltac:(lia) (or_introl PG) (there_sub u j (Datatypes.S g) j TH ltac:(lia) ltac:(lia))). lia.
Qed.

(** Asleep, it is not signalled; woken up, it looks. *)
Lemma blocked_signalled u j nw : (s <= u)%nat -> (u <= j)%nat -> at3 u (PRfBlocked nw) -> T < tau u ->
  cv_waiting (w_rf (ws u)) = false ->
  cv_pred (w_rf (ws u)) = true \/ (exists t, nw = Some t /\ t < tau u) -> there u j -> tau (S j) <= tau u + 5 * d.
Proof.
  intros LS L A TU W GO TH.
  assert (forall g x, (forall x, (u <= x)%nat -> (x < g)%nat -> ~ goes ls x 3) -> (u <= x)%nat -> (x <= g)%nat ->
          at3 x (PRfBlocked nw) /\ cv_waiting (w_rf (ws x)) = false) as ST.
  { intros g x F X1 X2. split; [apply (at_between 3 _ u g x A F X1 X2)|].
    replace x with (u + (x - u))%nat by lia. apply (rf_nap_stays O ws ls EN); [exact W|]. intros y Y1 Y2. apply F; lia. }
  destruct (first_step ls u 3 (j - u)) as [NG|(g & L1 & L2 & G & F)].
  - assert (tau (S j) <= tau u + d); [|lia].
    apply (pr_notified _ _ _ _ _ _ PR nw u j L). intros i I1 I2. apply (ST j i); [|exact I1|exact I2].
    intros x X1 X2. apply NG; lia.
  - assert (tau (S g) <= tau u + d) as B.
    { apply (pr_notified _ _ _ _ _ _ PR nw u g L1). intros i I1 I2. apply (ST g i F I1 I2). }
    destruct (step_at _ _ _ EN _ _ G) as (e & S & LG). destruct (ST g g F L1 ltac:(lia)) as [AG _].
    destruct (refresher_next _ _ _ _ _ (reach g) AG S) as (p' & N & -> & PE).
    pose proof (later u (Datatypes.S g) ltac:(lia)) as TG.
    assert (tau (Datatypes.S j) <= tau (Datatypes.S g) + 4 * d); [|lia].
    apply (checking (Datatypes.S g) j nw); try assumption; try lia; [|apply (there_sub _ _ _ _ TH); lia].
    destruct GO as [P|(t & E & LT)]; [left|right; exists t; split; [exact E|lia]].
    rewrite PE. replace g with (u + (g - u))%nat by lia. apply (rf_pred_stays O ws ls EN); [exact P|].
    intros x X1 X2. apply F; lia.
Qed.

Lemma blocked_awake u nw : at3 u (PRfBlocked nw) -> cv_pred (w_rf (ws u)) = true -> cv_waiting (w_rf (ws u)) = false.
Proof.
  intros A P. pose proof (proj2 (proj2 (reach_cv _ _ (reach u)))) as CV.
  destruct (cv_waiting (w_rf (ws u))) eqn:W; [|reflexivity]. unfold cv_ok in CV. rewrite P in CV. discriminate (CV W).
Qed.

Lemma signalled_point u j q : (s <= u)%nat -> (u <= j)%nat -> at3 u q -> (forall a r, q <> PDo a r) -> T < tau u ->
  cv_pred (w_rf (ws u)) = true -> there u j -> tau (S j) <= tau u + 5 * d.
Proof.
  intros LS L A ND TU P TH. pose proof (role_at O ws ls EN _ _ _ A) as RO.
  destruct q; try discriminate RO.
  - destruct (ND _ _ eq_refl).
  - apply top_signalled; assumption.
  - pose proof (checking u j nw LS L A TU (or_introl P) TH). lia.
  - apply (blocked_signalled u j nw); try assumption; [|left; exact P]. exact (blocked_awake u nw A P).
  - pose proof (scanning u j LS L A TU TH). lia.
Qed.

Lemma signalled u j : (s <= u)%nat -> (u <= j)%nat -> T < tau u ->
  cv_pred (w_rf (ws u)) = true -> there u j -> tau (S j) <= tau u + 6 * d.
Proof.
  intros LS L TU P TH.
  destruct (spawns u j L) as [B|(i & q & I1 & I2 & AI & ND & B & F)]; [lia|].
  pose proof (signal_stays u i P I1 F) as PI. pose proof (later u i I1).
  pose proof (signalled_point i j q ltac:(lia) I2 AI ND ltac:(lia) PI (there_sub u j (i) j TH ltac:(lia) ltac:(lia))). lia.
Qed.

(** Waiting, with the time already past. *)
Lemma waiting_until u j q t : (s <= u)%nat -> (u <= j)%nat -> at3 u q -> rf_waits q = Some (Some t) -> t < tau u -> T < tau u ->
  there u j -> tau (S j) <= tau u + 7 * d.
Proof.
  intros LS L A W LT TU TH. destruct q; try discriminate W; injection W as ->.
  - pose proof (checking u j (Some t) LS L A TU (or_intror (ex_intro _ t (conj eq_refl LT))) TH). lia.
  - assert ((forall x, (u <= x)%nat -> (x <= j)%nat -> refresher_sleeps (ws x) (Some t))
            \/ exists i, (u <= i)%nat /\ (i <= j)%nat /\ tau i <= tau u + d
                 /\ (at3 i (PRfCheck (Some t)) \/ (at3 i (PRfBlocked (Some t)) /\ cv_waiting (w_rf (ws i)) = false)))
      as [ALL|(i & L1 & L2 & B & X)].
    + clear TH. induction L as [|j L IH].
      * destruct (cv_waiting (w_rf (ws u))) eqn:W.
        -- left. intros x X1 X2. replace x with u by lia. split; assumption.
        -- right. exists u. split; [lia|]. split; [lia|]. split; [lia|]. right. auto.
      * destruct IH as [ALL|(i & L1 & L2 & X)]; [|right; exists i; split; [exact L1|]; split; [lia|exact X]].
        assert (tau (S j) <= tau u + d) as B.
        { pose proof (pr_alarm _ _ _ _ _ _ PR t u j L ALL). lia. }
        destruct (ALL j L ltac:(lia)) as [AJ WJ]. destruct (goes_dec ls j 3) as [G|NG].
        -- destruct (step_at _ _ _ EN _ _ G) as (e & ST & _).
           destruct (refresher_next _ _ _ _ _ (reach j) AJ ST) as (p' & N & -> & _).
           right. exists (S j). split; [lia|]. split; [lia|]. split; [exact B|]. left. exact N.
        -- pose proof (at_next O ws ls EN _ _ _ AJ NG) as AS.
           destruct (cv_waiting (w_rf (ws (S j)))) eqn:WS.
           ++ left. intros x X1 X2. destruct (Nat.eq_dec x (S j)) as [->|NE]; [split; assumption|]. apply ALL; lia.
           ++ right. exists (S j). split; [lia|]. split; [lia|]. split; [exact B|]. right. auto.
    + pose proof (pr_alarm _ _ _ _ _ _ PR t u j L ALL). lia.
    + pose proof (later u i L1). assert (tau (S j) <= tau i + 5 * d); [|lia].
      assert (there i j) as TH' by (apply (there_sub u j i j TH); lia).
      assert (t < tau i) as LTI by lia.
      destruct X as [AI|[AI WI]].
      * pose proof (checking i j (Some t) ltac:(lia) L2 AI ltac:(lia) (or_intror (ex_intro _ t (conj eq_refl LTI))) TH'). lia.
      * apply (blocked_signalled i j (Some t)); try assumption; try lia.
        right. exists t. split; [reflexivity|lia].
Qed.

Lemma waiting u j q nw : (s <= u)%nat -> (u <= j)%nat -> at3 u q -> rf_waits q = Some nw -> T < tau u ->
  there u j -> tau (S j) <= tau u + 7 * d.
Proof.
  intros LS L A W TU TH.
  destruct (reach_rf_awake _ _ (reach u) q nw A W) as [P|[UW|SA]].
  - pose proof (signalled u j LS L TU P TH). lia.
  - destruct (on_its_way u j L UW) as [B|(i & L1 & L2 & B & P)]; [lia|]. pose proof (later u i ltac:(lia)).
    pose proof (signalled i j ltac:(lia) L2 ltac:(lia) P (there_sub u j i j TH ltac:(lia) ltac:(lia))). lia.
  - assert (In e0 (details (w_lk (ws u)))) as I by (apply TH; lia).
    destruct (get_account O (ws u) (reach_inv _ _ (reach u)) e0 I) as (act & AC & _ & _).
    destruct (idle_is_due u act (T + 1) LS AC ltac:(lia)) as (t & DU & LT).
    destruct (SA e0 act a (T + 1) t I AC ACT DU) as (t' & -> & LT').
    apply (waiting_until u j q t'); try assumption. lia.
Qed.

Lemma at_top u j : (s <= u)%nat -> (u <= j)%nat -> at3 u PRfTop -> T < tau u -> there u j -> tau (S j) <= tau u + 8 * d.
Proof.
  intros LS L A TU TH.
  destruct (stay 3 PRfTop d u j eq_refl A L) as [B|(g & e & L1 & L2 & AG & S & LG & B & F)]; [lia|].
  destruct (refresher_next _ _ _ _ _ (reach g) AG S) as (p' & N & (nw & ->) & _).
  pose proof (later u (Datatypes.S g) ltac:(lia)).
  pose proof (waiting (Datatypes.S g) j (PRfCheck nw) nw ltac:(lia) ltac:(lia) N eq_refl ltac:(lia)
    (there_sub u j (Datatypes.S g) j TH ltac:(lia) ltac:(lia))). lia.
Qed.

Lemma point u j q : (s <= u)%nat -> (u <= j)%nat -> at3 u q -> (forall a r, q <> PDo a r) -> T < tau u ->
  there u j -> tau (S j) <= tau u + 8 * d.
Proof.
  intros LS L A ND TU TH. pose proof (role_at O ws ls EN _ _ _ A) as RO.
  destruct q; try discriminate RO.
  - destruct (ND _ _ eq_refl).
  - apply at_top; assumption.
  - pose proof (waiting u j (PRfCheck nw) nw LS L A eq_refl TU TH). lia.
  - pose proof (waiting u j (PRfBlocked nw) nw LS L A eq_refl TU TH). lia.
  - pose proof (scanning u j LS L A TU TH). lia.
Qed.

(** Once it is due it does not stay. *)
Lemma overdue u j : (s <= u)%nat -> (u <= j)%nat -> T < tau u -> there u j -> tau (S j) <= tau u + 9 * d.
Proof.
  intros LS L TU TH.
  destruct (spawns u j L) as [B|(i & q & I1 & I2 & AI & ND & B & F)]; [lia|].
  pose proof (later u i I1).
  pose proof (point i j q ltac:(lia) I2 AI ND ltac:(lia) (there_sub u j i j TH ltac:(lia) ltac:(lia))). lia.
Qed.

(** And nothing happens only after it has been due for long. *)
Lemma no_jump m : (s <= m)%nat -> In e0 (details (w_lk (ws m))) -> tau m <= T -> tau (S m) <= T + d.
Proof.
  intros LS I TM. destruct (rf_at O ws ls EN m) as [q A]. pose proof (role_at O ws ls EN _ _ _ A) as RO.
  assert (forall b, limit d p q = Some b -> tau (S m) <= tau m + b) as PT.
  { intros b E. apply (pr_point _ _ _ _ _ _ PR 3%nat q b E m m); [lia|]. intros i I1 I2. replace i with m by lia. exact A. }
  destruct q; try discriminate RO; try (pose proof (PT d eq_refl); lia).
  - assert (tau (S m) <= tau m + d); [|lia]. apply (pr_spawn _ _ _ _ _ _ PR m m); [lia|].
    intros i I1 I2. replace i with m by lia. eauto.
  - destruct (cv_waiting (w_rf (ws m))) eqn:W.
    2:{ assert (tau (S m) <= tau m + d); [|lia]. apply (pr_notified _ _ _ _ _ _ PR nw m m); [lia|].
        intros i I1 I2. replace i with m by lia. split; assumption. }
    destruct (reach_rf_awake _ _ (reach m) _ nw A eq_refl) as [P|[UW|SA]].
    + rewrite (blocked_awake m nw A P) in W. discriminate W.
    + destruct (on_its_way m m (le_n m) UW) as [B|(i & L1 & L2 & _)]; lia.
    + destruct (get_account O (ws m) (reach_inv _ _ (reach m)) e0 I) as (act & AC & _ & _).
      destruct (idle_is_due m act (T + 1) LS AC ltac:(lia)) as (t & DU & LT).
      destruct (SA e0 act a (T + 1) t I AC ACT DU) as (t' & -> & LT').
      assert (tau (S m) <= Z.max (tau m) t' + d); [|lia].
      apply (pr_alarm _ _ _ _ _ _ PR t' m m); [lia|]. intros i I1 I2. replace i with m by lia. split; assumption.
Qed.

Lemma past_due u j : (s <= u)%nat -> (u <= j)%nat -> there u j -> tau (S j) <= Z.max T (tau u) + 10 * d.
Proof.
  intros LS L TH. destruct (Z.le_gt_cases (tau u) T) as [LE|GT].
  2:{ pose proof (overdue u j LS L ltac:(lia) TH). lia. }
  assert (tau j <= T \/ exists x, (u <= x)%nat /\ (x <= j)%nat /\ T < tau x /\ tau x <= T + d) as [LE2|(x & L1 & L2 & G1 & G2)].
  - induction L as [|j L IH]; [left; exact LE|].
    destruct (IH (there_sub u (S j) u j TH ltac:(lia) ltac:(lia))) as [TJ|(x & L1 & L2 & X)];
      [|right; exists x; split; [exact L1|]; split; [lia|exact X]].
    destruct (Z.le_gt_cases (tau (S j)) T) as [LE'|GT']; [left; exact LE'|]. right. exists (S j).
    split; [lia|]. split; [lia|]. split; [lia|]. apply no_jump; [lia| |exact TJ]. apply TH; lia.
  - pose proof (no_jump j ltac:(lia) (TH j ltac:(lia) ltac:(lia)) LE2). lia.
  - pose proof (overdue x j ltac:(lia) L2 G1 (there_sub u j x j TH ltac:(lia) ltac:(lia))). lia.
Qed.
End Due.

(** * One refresh after the other *)

(** A step that changes the account is one of the account's refresh. *)
Lemma changes k n j e : undisturbed ws ls k n -> (k <= j)%nat -> d_name e = n -> In e (details (w_lk (ws j))) -> ~ In e (details (w_lk (ws (S j)))) ->
  exists tid env q lk' q' os, ls j = Some (LTick tid env) /\ at_ ws j tid q /\ csr O (ws j) env q lk' q' os
    /\ ws (S j) = after_cs (ws j) tid lk' q' os /\ pc_role q <> RoMain.
Proof.
  intros UND L NM I NI. pose proof (en_next _ _ _ EN j) as N. destruct (ls j) as [l|] eqn:LS; [|rewrite N in NI; contradiction].
  destruct l as [tid env|hs b].
  2:{ exfalso. destruct (step_ok _ _ _ _ (reach_inv _ _ (reach j)) N) as (_ & _ & TS & _).
      apply NI. inversion TS; subst. exact I. }
  assert (exists q, at_ ws j tid q) as [q A].
  { destruct (step_ok _ _ _ _ (reach_inv _ _ (reach j)) N) as (_ & _ & TS & _). unfold at_. inversion TS; subst; eauto. }
  destruct (own_step _ _ _ _ _ _ (reach j) A N) as [(lk' & q' & os & C & W)|SY].
  2:{ exfalso. apply NI. destruct SY; try exact I. rewrite do_action_lk. exact I. }
  exists tid, env, q, lk', q', os. split; [reflexivity|]. split; [exact A|]. split; [exact C|]. split; [exact W|].
  intros RO. apply (UND j e L NM). pose proof (role_at O ws ls EN _ _ _ A) as R2. rewrite RO in R2.
  destruct tid as [|[|[|[|tid]]]]; try discriminate R2. split; [exists env; exact LS|]. auto.
Qed.

Section Life.
Variable k : nat.
Variable n : str.
Variable lo hi M : Z.
Hypothesis P0 : 0 <= p.
Hypothesis UND : undisturbed ws ls k n.
Hypothesis PROV : good_provider O ws k n lo hi.
Hypothesis MARG : forall j act, (k <= j)%nat -> configured (ws j) n act ->
  M <= margin act (conf (ws j)) <= tau k - time_min.
Hypothesis TMAX : forall j, tau j + hi <= time_max.
Hypothesis MSLACK : 12 * d + p < M.
Hypothesis LSLACK : 14 * d + p < lo.

(** The account's token is [a], nothing has been done about it yet. *)
Definition untouched (e : entry) (a : active) : Prop :=
  d_name e = n /\ d_ts e = TSActive a /\ ongoing a = false /\ last_attempt a = None
  /\ refresh_token a <> None /\ tau k <= expiry a <= time_max.

Lemma untouched_due u e a : untouched e a -> (k <= u)%nat ->
  forall i act now t, (u <= i)%nat -> account_of (w_lk (ws i)) (d_name e) = Some act ->
  expiry a - M < now -> refresh_due act (lconfig (w_lk (ws i))) now a = Some t -> t <= expiry a - M.
Proof.
  intros (NM & _ & OG & LA & _ & EX) LU i act now t LI AC LT DU. rewrite NM in AC.
  destruct (settings_nonneg _ _ _ _ (reach i) AC) as (MG & _).
  destruct (MARG i act ltac:(lia) AC) as [M1 M2].
  apply due_time in DU; [|lia|exact MG]. unfold conf in *. destruct DU as [l _ X|_ _ _|_ _ X]; [congruence|lia|lia].
Qed.

(** What the thread that refreshes it does, and since when. *)
Inductive course (j tid : nat) (i : account_id) (r : str) (ex : Z) : Prop :=
| co_post x uri pairs :
    (k <= x)%nat -> (x <= j)%nat -> (forall y, (x <= y)%nat -> (y <= j)%nat -> at_ ws y tid (PRefPost i n r uri pairs)) ->
    In ($"refresh_token", r) pairs -> tau x + p + 2 * d < ex -> course j tid i r ex
| co_body x body :
    (k <= x)%nat -> (x <= j)%nat -> (forall y, (x <= y)%nat -> (y <= j)%nat -> at_ ws y tid (PRefBody i n r body)) ->
    good_answer O lo hi (PRBody body) -> tau x + 2 * d < ex -> course j tid i r ex
| co_got x tok exs r' now :
    (k <= x)%nat -> (x <= j)%nat -> (forall y, (x <= y)%nat -> (y <= j)%nat -> at_ ws y tid (PRefGot i n tok exs (Some r') now)) ->
    lo <= secs exs <= hi -> tau k <= now -> tau x <= now + d -> now <= tau x -> tau x + d < ex -> course j tid i r ex.

Inductive life (j : nat) : Prop :=
| li_untouched s e a :
    (k <= s)%nat -> (s <= j)%nat -> untouched e a -> there e s j -> tau s + 12 * d + p < expiry a -> life j
| li_refreshing e a r tid :
    In e (details (w_lk (ws j))) -> d_name e = n -> d_ts e = TSActive a -> ongoing a = true -> refresh_token a = Some r ->
    course j tid (d_id e) r (expiry a) -> life j.

Lemma life_valid j : life j -> exists a, holds (ws j) n (TSActive a) /\ tau (S j) < expiry a.
Proof.
  intros [s e a L1 L2 U TH SL|e a r tid I NM ACT OG RT CO].
  - exists a. split; [exists e; split; [apply TH; lia|split; apply U]|].
    pose proof (past_due s e a (expiry a - M) (proj1 (proj2 U)) (proj1 (proj2 (proj2 U)))
                  (untouched_due s e a U L1) s j (le_n s) L2 TH). lia.
  - exists a. split; [exists e; auto|].
    destruct CO as [x uri pairs L0 L1 A _ SL|x body L0 L1 A _ SL|x tok exs r' now L0 L1 A _ _ _ _ SL].
    + pose proof (pr_point _ _ _ _ _ _ PR tid (PRefPost (d_id e) n r uri pairs) p eq_refl x j L1 A). lia.
    + pose proof (pr_point _ _ _ _ _ _ PR tid (PRefBody (d_id e) n r body) d eq_refl x j L1 A). lia.
    + pose proof (pr_point _ _ _ _ _ _ PR tid (PRefGot (d_id e) n tok exs (Some r') now) d eq_refl x j L1 A). lia.
Qed.

Lemma life_untouched j s e a : (k <= s)%nat -> (s <= j)%nat -> untouched e a -> there e s j ->
  tau s + 12 * d + p < expiry a -> life (S j).
Proof.
  intros L1 L2 U TH SL. destruct (in_dec entry_dec e (details (w_lk (ws (S j))))) as [I|NI].
  - apply (li_untouched _ s e a); try assumption; [lia|]. intros i I1 I2.
    destruct (Nat.eq_dec i (S j)) as [->|NE]; [exact I|]. apply TH; lia.
  - pose proof (past_due s e a (expiry a - M) (proj1 (proj2 U)) (proj1 (proj2 (proj2 U)))
                  (untouched_due s e a U L1) s j (le_n s) L2 TH) as B.
    destruct U as (NM & ACT & OG & LA & RT & EX).
    assert (In e (details (w_lk (ws j)))) as I by (apply TH; lia).
    destruct (changes k n j e UND ltac:(lia) NM I NI) as (tid & env & q & lk' & q' & os & LS & A & C & W & NR).
    assert (w_lk (ws (S j)) = lk') as WL by (rewrite W; reflexivity). rewrite WL in NI.
    destruct (active_left e a ACT OG O (ws j) env tid q lk' q' os (reach j) A C I NI) as [RO|[(act & r & AC & R1 & E & EL)|(R1 & _)]];
      [contradiction| |contradiction].
    pose proof (bump_in_new 1 _ _ (TSActive (set_attempt (set_ongoing a true) (Some (env_now env)) (fails a))) I) as IN.
    rewrite <- EL, <- WL in IN. rewrite NM in IN.
    apply (li_refreshing _ _ _ r tid IN eq_refl eq_refl eq_refl R1). cbn [d_id].
    apply (co_post _ _ _ _ _ (S j) (a_token_uri act) (refresh_pairs act r)); try lia.
    + intros y Y1 Y2. replace y with (S j) by lia. unfold at_. rewrite W, E, NM. cbn [after_cs emit set_thread w_threads].
      eapply nth_list_set_same. exact A.
    + unfold refresh_pairs. apply in_or_app. left. right. left. reflexivity.
    + cbn [set_attempt set_ongoing expiry]. lia.
Qed.

Lemma life_refreshing j e a r tid : (k <= j)%nat ->
  In e (details (w_lk (ws j))) -> d_name e = n -> d_ts e = TSActive a -> ongoing a = true -> refresh_token a = Some r ->
  course j tid (d_id e) r (expiry a) -> life (S j).
Proof.
  intros LK I NM ACT OG RT CO.
  assert (exists q, at_ ws j tid q /\ ref_id q = Some (d_id e)) as (q & A & RI).
  { destruct CO as [x uri pairs L0 L1 A _ SL|x body L0 L1 A _ SL|x tok exs r' now L0 L1 A _ _ _ _ SL];
      eexists; (split; [apply A; lia|reflexivity]). }
  destruct (goes_dec ls j tid) as [G|NG].
  - destruct (step_at _ _ _ EN _ _ G) as (env & ST & LS).
    destruct (own_step _ _ _ _ _ _ (reach j) A ST) as [(lk' & q' & os & C & W)|SY]; [|inversion SY; subst; discriminate RI].
    assert (w_lk (ws (S j)) = lk') as WL by (rewrite W; reflexivity).
    assert (at_ ws (S j) tid q') as AS.
    { unfold at_. rewrite W. cbn [after_cs emit set_thread w_threads]. eapply nth_list_set_same. exact A. }
    destruct CO as [x uri pairs L0 L1 AX PA SL|x body L0 L1 AX GA SL|x tok exs r' now L0 L1 AX LH TN TX TX' SL].
    + pose proof (AX j L1 (le_n j)) as A'. unfold at_ in A, A'. assert (q = PRefPost (d_id e) n r uri pairs) as -> by congruence.
      pose proof (pr_point _ _ _ _ _ _ PR tid (PRefPost (d_id e) n r uri pairs) p eq_refl x j L1 AX) as B.
      clear WL. inversion C; subst.
      assert (good_answer O lo hi (e_post env)) as GA.
      { eapply (PROV j a r uri pairs); try eassumption; [exists e; auto|].
        unfold observed. rewrite W. apply skipn_trace. }
      pose proof GA as (body & v & tok & ex & E & _). rewrite E in *. cbn [ref_post_next] in AS.
      apply (li_refreshing _ e a r tid); try assumption; [rewrite W; exact I|].
      apply (co_body _ _ _ _ _ (S j) body); try assumption; try lia. intros y Y1 Y2. replace y with (S j) by lia. exact AS.
    + pose proof (AX j L1 (le_n j)) as A'. unfold at_ in A, A'. assert (q = PRefBody (d_id e) n r body) as -> by congruence.
      pose proof (pr_point _ _ _ _ _ _ PR tid (PRefBody (d_id e) n r body) d eq_refl x j L1 AX) as B.
      clear WL. inversion C; subst.
      destruct GA as (body' & v & tok & ex & E & J & NE & TK & TY & EI & LH & RF). injection E as <-.
      assert (exists r', ref_body_next O env (d_id e) n r body = PRefGot (d_id e) n tok ex (Some r') (env_now env)) as [r' E].
      { unfold ref_body_next. rewrite J, NE, TK, EI, TY, str_eqb_refl.
        destruct RF as [->|(y & ->)]; eauto. }
      rewrite E in AS. pose proof (pr_clock _ _ _ _ _ _ PR j tid env 0%nat LS) as CL. fold (env_now env) in CL.
      pose proof (later k j LK). pose proof (later x j L1).
      apply (li_refreshing _ e a r tid); try assumption; [rewrite W; exact I|].
      apply (co_got _ _ _ _ _ (S j) tok ex r' (env_now env)); try assumption; try lia.
      intros y Y1 Y2. replace y with (S j) by lia. exact AS.
    + pose proof (AX j L1 (le_n j)) as A'. unfold at_ in A, A'. assert (q = PRefGot (d_id e) n tok exs (Some r') now) as -> by congruence.
      pose proof (pr_point _ _ _ _ _ _ PR tid (PRefGot (d_id e) n tok exs (Some r') now) d eq_refl x j L1 AX) as B.
      pose proof (inv_wf _ _ (reach_inv _ _ (reach j))) as WF.
      assert (checked_add now (from_secs exs) = Some (now + secs exs)) as CA.
      { pose proof (TMAX x). change (from_secs exs) with (secs exs). unfold checked_add.
        destruct (Z.leb_spec (now + secs exs) time_max); [reflexivity|lia]. }
      destruct (got_ends _ _ _ _ _ _ _ _ _ _ _ _ C) as [STA|[(e2 & x2 & HE & ID & EXP & EL)|(e2 & m & HE & ID & EXP)]].
      * exfalso. exact (valid_false _ _ STA e I eq_refl).
      * assert (e2 = e) as -> by (eapply wf_id_inj; [exact WF|exact HE|exact I|exact ID]).
        unfold expiry_instant in EXP. rewrite CA in EXP. injection EXP as <-.
        pose proof (bump_in_new 0 _ _ (TSActive (mkActive tok now (now + secs exs) (Some r') false 0 None)) I) as IN.
        rewrite <- EL, <- WL, NM in IN.
        pose proof (TMAX x) as TM.
        assert (untouched (mkEntry n (account_count (w_lk (ws j)) + 0)%N (TSActive (mkActive tok now (now + secs exs) (Some r') false 0 None)))
                  (mkActive tok now (now + secs exs) (Some r') false 0 None)) as UN.
        { do 4 (split; [reflexivity|]). split; [discriminate|]. cbn [expiry]. lia. }
        apply (li_untouched _ (S j) _ _ ltac:(lia) (le_n (S j)) UN).
        -- intros y Y1 Y2. replace y with (S j) by lia. exact IN.
        -- cbn [expiry]. lia.
      * exfalso. unfold expiry_instant in EXP. rewrite CA in EXP. discriminate EXP.
  - pose proof (at_next O ws ls EN _ _ _ A NG) as AS.
    assert (In e (details (w_lk (ws (S j))))) as IS.
    { destruct (in_dec entry_dec e (details (w_lk (ws (S j))))) as [IS|NI]; [exact IS|]. exfalso.
      destruct (changes k n j e UND LK NM I NI) as (tid' & env & q2 & lk' & q' & os & LS & A2 & C & W & NR).
      assert (w_lk (ws (S j)) = lk') as WL by (rewrite W; reflexivity). rewrite WL in NI.
      destruct (marked_left O (ws j) env tid' q2 lk' q' os e a (reach j) A2 C I ACT OG NI) as [RO|R2]; [contradiction|].
      assert (tid' = tid) as -> by (eapply one_refresh_per_version; [exact (reach j)|exact A2|exact A|exact R2|exact RI]).
      apply NG. exists env. exact LS. }
    apply (li_refreshing _ e a r tid IS NM ACT OG RT).
    destruct CO as [x uri pairs L0 L1 AX PA SL|x body L0 L1 AX GA SL|x tok exs r' now L0 L1 AX LH TN TX TX' SL].
    + apply (co_post _ _ _ _ _ x uri pairs); try assumption; [lia|]. intros y Y1 Y2.
      destruct (Nat.eq_dec y (S j)) as [->|NE]; [|apply AX; lia].
      apply (at_next O ws ls EN); [apply AX; lia|exact NG].
    + apply (co_body _ _ _ _ _ x body); try assumption; [lia|]. intros y Y1 Y2.
      destruct (Nat.eq_dec y (S j)) as [->|NE]; [|apply AX; lia].
      apply (at_next O ws ls EN); [apply AX; lia|exact NG].
    + apply (co_got _ _ _ _ _ x tok exs r' now); try assumption; [lia|]. intros y Y1 Y2.
      destruct (Nat.eq_dec y (S j)) as [->|NE]; [|apply AX; lia].
      apply (at_next O ws ls EN); [apply AX; lia|exact NG].
Qed.

Lemma life_goes_on j : life k -> (k <= j)%nat -> life j.
Proof.
  intros L0 L. induction L as [|j L IH]; [exact L0|].
  destruct IH as [s e a L1 L2 U TH SL|e a r tid I NM ACT OG RT CO].
  - apply (life_untouched j s e a); assumption.
  - apply (life_refreshing j e a r tid); assumption.
Qed.

(** There is a valid token all the time. *)
Lemma always_valid e a j :
  In e (details (w_lk (ws k))) -> untouched e a -> tau k + 12 * d + p < expiry a -> (k <= j)%nat ->
  exists a', holds (ws j) n (TSActive a') /\ tau (S j) < expiry a'.
Proof.
  intros I U SL L. apply life_valid. apply life_goes_on; [|exact L].
  apply (li_untouched k k e a); try assumption; try lia. intros i I1 I2. replace i with k by lia. exact I.
Qed.
End Life.
End Timed.
