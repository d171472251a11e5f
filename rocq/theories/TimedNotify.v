(** When nothing dawdles the user is told in time of pending authorisations. *)
From Verif Require Import Base BaseLemmas Time Utf8 Base64 Url Json Oracles Config Dump State Http Timers Server
  StateLemmas ConfigLemmas Steps Inv Reach Own SpecServer SpecTimers SpecSessions SpecFair SpecTimed Trace Remind Wake
  Events Sched Sessions Counters Fair.
Local Open Scope Z_scope.

Section Notify.
Variable O : oracles.
Variable ws : nat -> world.
Variable ls : nat -> option label.
Variable tau : nat -> Z.
Variable d : Z.
Hypothesis PR : attentive O ws ls tau d.
Hypothesis D0 : 0 <= d.

Let EN : endless O ws ls := at_endless _ _ _ _ _ PR.
Notation at2 k q := (at_ ws k 2 q).
Notation reach k := (reach_at O ws ls EN k).

Lemma later k j : (k <= j)%nat -> tau k <= tau j.
Proof.
  induction 1 as [|j L IH]; [lia|]. pose proof (at_forward _ _ _ _ _ PR j). lia.
Qed.

Lemma at_between tid q k g i :
  at_ ws k tid q -> (forall x, (k <= x)%nat -> (x < g)%nat -> ~ goes ls x tid) -> (k <= i)%nat -> (i <= g)%nat ->
  at_ ws i tid q.
Proof.
  intros A F L1 L2. replace i with (k + (i - k))%nat by lia. eapply at_stays; [exact EN|exact A|].
  intros x X1 X2. apply F; lia.
Qed.

(** The notifier at a program point it may not stay at for long. *)
Lemma stay q k j :
  notifier_point q -> at2 k q -> (k <= j)%nat ->
  tau (S j) <= tau k + d
  \/ exists g e, (k <= g)%nat /\ (g < j)%nat /\ at2 g q /\ step O (ws g) (LTick 2 e) = SNext (ws (S g))
       /\ ls g = Some (LTick 2 e) /\ tau (S g) <= tau k + d /\ (forall x, (k <= x)%nat -> (x < g)%nat -> ~ goes ls x 2).
Proof.
  intros LI A L. destruct (first_step ls k 2 (j - k)) as [NG|(g & L1 & L2 & G & F)].
  - left. apply (at_point _ _ _ _ _ PR q LI k j L). intros i I1 I2.
    apply (at_between 2 q k j i A); [|exact I1|exact I2]. intros x X1 X2. apply NG; lia.
  - right. destruct (step_at _ _ _ EN _ _ G) as (e & S & LS). exists g, e.
    split; [exact L1|]. split; [lia|]. split; [apply (at_between 2 q k g g A F); lia|]. split; [exact S|].
    split; [exact LS|]. split; [|exact F].
    apply (at_point _ _ _ _ _ PR q LI k g L1). intros i I1 I2. apply (at_between 2 q k g i A F I1 I2).
Qed.

(** The notifier's list of commands to begin comes to an end. *)
Lemma spawns k j : (k <= j)%nat ->
  tau (S j) <= tau k + d
  \/ exists i q, (k <= i)%nat /\ (i <= j)%nat /\ at2 i q /\ (forall a r, q <> PDo a r) /\ tau i <= tau k + d
       /\ forall x, (k <= x)%nat -> (x < i)%nat -> exists a r, at2 x (PDo a r).
Proof.
  intros L.
  assert ((forall x, (k <= x)%nat -> (x <= j)%nat -> exists a r, at2 x (PDo a r))
          \/ exists i q, (k <= i)%nat /\ (i <= j)%nat /\ at2 i q /\ (forall a r, q <> PDo a r)
               /\ forall x, (k <= x)%nat -> (x < i)%nat -> exists a r, at2 x (PDo a r)) as [ALL|(i & q & L1 & L2 & A & ND & F)].
  - induction L as [|j L IH].
    + destruct (nt_at O ws ls EN k) as [q A]. destruct q; 
      try (right; exists k; eexists; split; [lia|]; split; [lia|]; split; [exact A|]; split; [intros ? ? X; discriminate X|]; intros x X1 X2; lia).
      left. intros x X1 X2. replace x with k by lia. eauto.
    + destruct IH as [ALL|(i & q & L1 & L2 & X)]; [|right; exists i, q; split; [exact L1|]; split; [lia|exact X]].
      destruct (nt_at O ws ls EN (S j)) as [q A].
      destruct q; 
      try (right; exists (S j); eexists; split; [lia|]; split; [lia|]; split; [exact A|]; split; [intros ? ? X; discriminate X|]; intros x X1 X2; apply ALL; lia).
      left. intros x X1 X2. destruct (Nat.eq_dec x (S j)) as [->|NE]; [eauto|]. apply ALL; lia.
  - left. apply (at_commands _ _ _ _ _ PR k j L). exact ALL.
  - right. exists i, q. split; [exact L1|]. split; [exact L2|]. split; [exact A|]. split; [exact ND|]. split; [|exact F].
    destruct i as [|i]; [replace k with 0%nat by lia; lia|].
    destruct (Nat.eq_dec k (S i)) as [->|NE]; [lia|].
    apply (at_commands _ _ _ _ _ PR k i); [lia|]. intros x X1 X2. apply F; lia.
Qed.

(** What the notifier is about to do it does. *)
Lemma spawned a : forall q k i, at2 k q -> In a (chain q) -> (k <= i)%nat ->
  (exists q', at2 i q' /\ In a (chain q'))
  \/ exists h q', (k <= h)%nat /\ (h < i)%nat /\ ws (S h) = do_action (set_thread (ws h) 2 q') a.
Proof.
  intros q k i A I L. induction L as [|i L IH]; [left; eauto|].
  destruct IH as [(q' & A' & I')|(h & q' & L1 & L2 & X)]; [|right; exists h, q'; split; [exact L1|]; split; [lia|exact X]].
  destruct (goes_dec ls i 2) as [G|NG].
  - destruct (step_at _ _ _ EN _ _ G) as (e & S & _).
    assert (exists b r, q' = PDo b r) as (b & r & ->) by (destruct q'; try (destruct I'; fail); eauto).
    destruct (done_next _ _ _ EN _ _ _ _ _ A' S) as [W N]. destruct I' as [->|I'].
    + right. exists i, r. auto with arith.
    + left. eauto.
  - left. exists q'. split; [|exact I']. apply (at_next O ws ls EN _ _ _ A' NG).
Qed.

(** While the notifier begins commands a signal to it stays set. *)
Lemma signal_stays u i : cv_pred (w_nt (ws u)) = true -> (u <= i)%nat ->
  (forall x, (u <= x)%nat -> (x < i)%nat -> exists a r, at2 x (PDo a r)) -> cv_pred (w_nt (ws i)) = true.
Proof.
  intros P L. induction L as [|i L IH]; intros F; [exact P|].
  assert (cv_pred (w_nt (ws i)) = true) as PI by (apply IH; intros x X1 X2; apply F; lia).
  destruct (goes_dec ls i 2) as [G|NG].
  - destruct (step_at _ _ _ EN _ _ G) as (e & S & _). destruct (F i L ltac:(lia)) as (a & r & A).
    destruct (done_next _ _ _ EN _ _ _ _ _ A S) as [W _]. rewrite W. apply cv_notified. exact PI.
  - replace (S i) with (i + 1)%nat by lia. apply (nt_pred_stays O ws ls EN); [exact PI|].
    intros x X1 X2. replace x with i by lia. exact NG.
Qed.

(** A signal under way arrives. *)
Definition about_to (x tid : nat) : Prop :=
  exists q, nth_error (w_threads (ws x)) tid = Some q /\ In ASigNotifier (will_do q).

Lemma about_to_next x tid : about_to x tid -> about_to (S x) tid \/ cv_pred (w_nt (ws (S x))) = true.
Proof.
  intros (q & A & I). destruct (goes_dec ls x tid) as [G|NG].
  - destruct (step_at _ _ _ EN _ _ G) as (e & ST & _).
    assert (exists b r, q = PDo b r) as (b & r & ->) by (destruct q; try (destruct I; fail); eauto).
    destruct (done_next _ _ _ EN _ _ _ _ _ A ST) as [W N]. destruct I as [->|I].
    + right. rewrite W. reflexivity.
    + left. exists r. auto.
  - left. exists q. split; [|exact I]. apply (at_next O ws ls EN _ _ _ A NG).
Qed.

Lemma on_its_way u j : (u <= j)%nat -> under_way (ws u) ASigNotifier ->
  tau (S j) <= tau u + d
  \/ exists i, (u < i)%nat /\ (i <= j)%nat /\ tau i <= tau u + d /\ cv_pred (w_nt (ws i)) = true.
Proof.
  intros L (tid & q & A & I).
  assert ((forall x, (u <= x)%nat -> (x <= j)%nat -> about_to x tid)
          \/ exists i, (u < i)%nat /\ (i <= j)%nat /\ cv_pred (w_nt (ws i)) = true
               /\ forall x, (u <= x)%nat -> (x < i)%nat -> about_to x tid) as [ALL|(i & L1 & L2 & P & F)].
  - induction L as [|j L IH].
    + left. intros x X1 X2. replace x with u by lia. exists q. auto.
    + destruct IH as [ALL|(i & L1 & L2 & X)]; [|right; exists i; split; [exact L1|]; split; [lia|exact X]].
      destruct (about_to_next j tid (ALL j L ltac:(lia))) as [N|P].
      * left. intros x X1 X2. destruct (Nat.eq_dec x (S j)) as [->|NE]; [exact N|]. apply ALL; lia.
      * right. exists (S j). split; [lia|]. split; [lia|]. split; [exact P|]. intros x X1 X2. apply ALL; lia.
  - left. apply (at_signal _ _ _ _ _ PR tid u j L). exact ALL.
  - right. exists i. split; [exact L1|]. split; [exact L2|]. split; [|exact P].
    destruct i as [|i]; [lia|]. apply (at_signal _ _ _ _ _ PR tid u i); [lia|]. intros x X1 X2. apply F; lia.
Qed.

Section Due.
Variable s : nat.
Variable e0 : entry.
Variable cvr : str.
Variable ln : option Z.
Variable st : str.
Variable u0 : url.
Variable T : Z.
Hypothesis PEND : d_ts e0 = TSPending cvr ln st u0.
Hypothesis DUE : forall i l, (s <= i)%nat -> ln = Some l -> l + c_auth_notify_interval (conf (ws i)) <= T.

Definition there (u j : nat) : Prop := forall i, (u <= i)%nat -> (i <= j)%nat -> In e0 (details (w_lk (ws i))).

Lemma there_sub u j u' j' : there u j -> (u <= u')%nat -> (j' <= j)%nat -> there u' j'.
Proof. intros H L1 L2 i I1 I2. apply H; lia. Qed.

Lemma is_due i now : (s <= i)%nat -> T < now -> notify_due (w_lk (ws i)) now e0 = true.
Proof.
  intros L LT. unfold notify_due. rewrite PEND. destruct ln as [l|] eqn:E; [|reflexivity].
  specialize (DUE i l L eq_refl). unfold conf in DUE. unfold checked_add.
  destruct (Z.leb_spec (l + c_auth_notify_interval (lconfig (w_lk (ws i)))) time_max); [|reflexivity].
  apply Z.leb_le. lia.
Qed.

Lemma scan_takes g e :
  at2 g PNtScan -> step O (ws g) (LTick 2 e) = SNext (ws (S g)) -> notify_due (w_lk (ws g)) (env_now e) e0 = true ->
  In e0 (details (w_lk (ws g))) -> ~ In e0 (details (w_lk (ws (S g)))).
Proof.
  intros A ST D I.
  destruct (own_step _ _ _ _ _ _ (reach g) A ST) as [(lk' & p' & os & C & W)|SY]; [|inversion SY].
  rewrite W. cbn [after_cs emit set_thread set_lk w_lk].
  inversion C; subst. match goal with H : Forall2 _ _ (details lk') |- _ => rename H into F2 end.
  intros I'.
  assert (forall x y, Forall2 (fun e0 e' =>
        if notify_due (w_lk (ws g)) (env_now e) e0
        then d_name e' = d_name e0 /\ (account_count (w_lk (ws g)) <= d_id e')%N
             /\ d_ts e' = renotified (env_now e) (d_ts e0)
        else e' = e0) x y -> incl x (details (w_lk (ws g))) -> ~ In e0 y) as NI.
  { pose proof (inv_wf _ _ (reach_inv _ _ (reach g))) as WFI.
    intros x y F. induction F as [|e1 e2 x y R F IH]; intros IC; [intros []|].
    intros [->|IN]; [|apply IH; [|exact IN]; intros z Z; apply IC; right; exact Z].
    pose proof (wf_entry_count _ _ WFI I) as LT.
    destruct (notify_due (w_lk (ws g)) (env_now e) e1) eqn:D1; [lia|]. subst e1. congruence. }
  eapply NI; [exact F2|apply incl_refl|exact I'].
Qed.

Lemma scanning u j : (s <= u)%nat -> (u <= j)%nat -> at2 u PNtScan -> T < tau u -> there u j -> tau (S j) <= tau u + d.
Proof.
  intros LS L A TU TH.
  destruct (stay PNtScan u j Logic.I A L) as [B|(g & e & L1 & L2 & AG & S & LG & B & _)]; [lia|].
  exfalso. pose proof (later u g L1). apply (scan_takes g e AG S); [|apply TH; lia|apply TH; lia].
  apply is_due; [lia|]. pose proof (at_clock _ _ _ _ _ PR g 2%nat e 0%nat LG). unfold env_now. lia.
Qed.

Lemma checking u j nw : (s <= u)%nat -> (u <= j)%nat -> at2 u (PNtCheck nw) -> T < tau u ->
  cv_pred (w_nt (ws u)) = true \/ (exists t, nw = Some t /\ t < tau u) -> there u j -> tau (S j) <= tau u + 2 * d.
Proof.
  intros LS L A TU GO TH.
  destruct (stay (PNtCheck nw) u j Logic.I A L) as [B|(g & e & L1 & L2 & AG & S & LG & B & F)]; [lia|].
  destruct (notifier_next _ _ _ _ _ (reach g) AG S) as (p' & N & E). cbn in E.
  pose proof (later u g L1) as TG. pose proof (later g (Datatypes.S g) ltac:(lia)) as TG'.
  assert (wait_or_go e (w_nt (ws g)) nw = true) as WG.
  { unfold wait_or_go. apply orb_true_iff. destruct GO as [P|(t & -> & LT)].
    - left. replace g with (u + (g - u))%nat by lia. apply (nt_pred_stays O ws ls EN); [exact P|].
      intros x X1 X2. apply F; lia.
    - right. apply Z.ltb_lt. pose proof (at_clock _ _ _ _ _ PR g 2%nat e 0%nat LG). unfold env_now. lia. }
  rewrite WG in E. subst p'.
  pose proof (scanning (Datatypes.S g) j ltac:(lia) ltac:(lia) N ltac:(lia) (there_sub u j (Datatypes.S g) j TH ltac:(lia) ltac:(lia))). lia.
Qed.

Lemma top_signalled u j : (s <= u)%nat -> (u <= j)%nat -> at2 u PNtTop -> T < tau u ->
  cv_pred (w_nt (ws u)) = true -> there u j -> tau (S j) <= tau u + 3 * d.
Proof.
  intros LS L A TU P TH.
  destruct (stay PNtTop u j Logic.I A L) as [B|(g & e & L1 & L2 & AG & S & LG & B & F)]; [lia|].
  destruct (notifier_next _ _ _ _ _ (reach g) AG S) as (p' & N & (nw & ->) & PE).
  pose proof (later u (Datatypes.S g) ltac:(lia)) as TG.
  assert (cv_pred (w_nt (ws (Datatypes.S g))) = true) as PG.
  { rewrite PE. replace g with (u + (g - u))%nat by lia. apply (nt_pred_stays O ws ls EN); [exact P|].
    intros x X1 X2. apply F; lia. }
  pose proof (checking (Datatypes.S g) j nw ltac:(lia) ltac:(lia) N ltac:(lia) (or_introl PG) (there_sub u j (Datatypes.S g) j TH ltac:(lia) ltac:(lia))). lia.
Qed.

(** Asleep, it is not signalled; woken up, it looks. *)
Lemma blocked_signalled u j nw : (s <= u)%nat -> (u <= j)%nat -> at2 u (PNtBlocked nw) -> T < tau u ->
  cv_waiting (w_nt (ws u)) = false ->
  cv_pred (w_nt (ws u)) = true \/ (exists t, nw = Some t /\ t < tau u) -> there u j -> tau (S j) <= tau u + 3 * d.
Proof.
  intros LS L A TU W GO TH.
  assert (forall g x, (forall x, (u <= x)%nat -> (x < g)%nat -> ~ goes ls x 2) -> (u <= x)%nat -> (x <= g)%nat ->
          at2 x (PNtBlocked nw) /\ cv_waiting (w_nt (ws x)) = false) as ST.
  { intros g x F X1 X2. split; [apply (at_between 2 _ u g x A F X1 X2)|].
    replace x with (u + (x - u))%nat by lia. apply (nt_nap_stays O ws ls EN); [exact W|]. intros y Y1 Y2. apply F; lia. }
  destruct (first_step ls u 2 (j - u)) as [NG|(g & L1 & L2 & G & F)].
  - assert (tau (S j) <= tau u + d); [|lia].
    apply (at_notified _ _ _ _ _ PR nw u j L). intros i I1 I2. apply (ST j i); [|exact I1|exact I2].
    intros x X1 X2. apply NG; lia.
  - assert (tau (S g) <= tau u + d) as B.
    { apply (at_notified _ _ _ _ _ PR nw u g L1). intros i I1 I2. apply (ST g i F I1 I2). }
    destruct (step_at _ _ _ EN _ _ G) as (e & S & LG). destruct (ST g g F L1 ltac:(lia)) as [AG _].
    destruct (notifier_next _ _ _ _ _ (reach g) AG S) as (p' & N & -> & PE).
    pose proof (later u (Datatypes.S g) ltac:(lia)) as TG.
    assert (tau (Datatypes.S j) <= tau (Datatypes.S g) + 2 * d); [|lia].
    apply (checking (Datatypes.S g) j nw); try assumption; try lia; [|apply (there_sub _ _ _ _ TH); lia].
    destruct GO as [P|(t & E & LT)]; [left|right; exists t; split; [exact E|lia]].
    rewrite PE. replace g with (u + (g - u))%nat by lia. apply (nt_pred_stays O ws ls EN); [exact P|].
    intros x X1 X2. apply F; lia.
Qed.

Lemma blocked_awake u nw : at2 u (PNtBlocked nw) -> cv_pred (w_nt (ws u)) = true -> cv_waiting (w_nt (ws u)) = false.
Proof.
  intros A P. pose proof (proj1 (proj2 (reach_cv _ _ (reach u)))) as CV.
  destruct (cv_waiting (w_nt (ws u))) eqn:W; [|reflexivity]. unfold cv_ok in CV. rewrite P in CV. discriminate (CV W).
Qed.

Lemma signalled_point u j q : (s <= u)%nat -> (u <= j)%nat -> at2 u q -> (forall a r, q <> PDo a r) -> T < tau u ->
  cv_pred (w_nt (ws u)) = true -> there u j -> tau (S j) <= tau u + 3 * d.
Proof.
  intros LS L A ND TU P TH. pose proof (role_at O ws ls EN _ _ _ A) as RO.
  destruct q; try discriminate RO.
  - destruct (ND _ _ eq_refl).
  - apply top_signalled; assumption.
  - pose proof (checking u j nw LS L A TU (or_introl P) TH). lia.
  - apply (blocked_signalled u j nw); try assumption; [|left; exact P]. exact (blocked_awake u nw A P).
  - pose proof (scanning u j LS L A TU TH). lia.
Qed.

Lemma signalled u j : (s <= u)%nat -> (u <= j)%nat -> T < tau u ->
  cv_pred (w_nt (ws u)) = true -> there u j -> tau (S j) <= tau u + 4 * d.
Proof.
  intros LS L TU P TH.
  destruct (spawns u j L) as [B|(i & q & I1 & I2 & AI & ND & B & F)]; [lia|].
  pose proof (signal_stays u i P I1 F) as PI. pose proof (later u i I1).
  pose proof (signalled_point i j q ltac:(lia) I2 AI ND ltac:(lia) PI (there_sub u j (i) j TH ltac:(lia) ltac:(lia))). lia.
Qed.

(** Waiting, with the time already past. *)
Lemma waiting_until u j q t : (s <= u)%nat -> (u <= j)%nat -> at2 u q -> nt_waits q = Some (Some t) -> t < tau u -> T < tau u ->
  there u j -> tau (S j) <= tau u + 5 * d.
Proof.
  intros LS L A W LT TU TH. destruct q; try discriminate W; injection W as ->.
  - pose proof (checking u j (Some t) LS L A TU (or_intror (ex_intro _ t (conj eq_refl LT))) TH). lia.
  - assert ((forall x, (u <= x)%nat -> (x <= j)%nat -> notifier_sleeps (ws x) (Some t))
            \/ exists i, (u <= i)%nat /\ (i <= j)%nat /\ tau i <= tau u + d
                 /\ (at2 i (PNtCheck (Some t)) \/ (at2 i (PNtBlocked (Some t)) /\ cv_waiting (w_nt (ws i)) = false)))
      as [ALL|(i & L1 & L2 & B & X)].
    + clear TH. induction L as [|j L IH].
      * destruct (cv_waiting (w_nt (ws u))) eqn:W.
        -- left. intros x X1 X2. replace x with u by lia. split; assumption.
        -- right. exists u. split; [lia|]. split; [lia|]. split; [lia|]. right. auto.
      * destruct IH as [ALL|(i & L1 & L2 & X)]; [|right; exists i; split; [exact L1|]; split; [lia|exact X]].
        assert (tau (S j) <= tau u + d) as B.
        { pose proof (at_alarm _ _ _ _ _ PR t u j L ALL). lia. }
        destruct (ALL j L ltac:(lia)) as [AJ WJ]. destruct (goes_dec ls j 2) as [G|NG].
        -- destruct (step_at _ _ _ EN _ _ G) as (e & ST & _).
           destruct (notifier_next _ _ _ _ _ (reach j) AJ ST) as (p' & N & -> & _).
           right. exists (S j). split; [lia|]. split; [lia|]. split; [exact B|]. left. exact N.
        -- pose proof (at_next O ws ls EN _ _ _ AJ NG) as AS.
           destruct (cv_waiting (w_nt (ws (S j)))) eqn:WS.
           ++ left. intros x X1 X2. destruct (Nat.eq_dec x (S j)) as [->|NE]; [split; assumption|]. apply ALL; lia.
           ++ right. exists (S j). split; [lia|]. split; [lia|]. split; [exact B|]. right. auto.
    + pose proof (at_alarm _ _ _ _ _ PR t u j L ALL). lia.
    + pose proof (later u i L1). assert (tau (S j) <= tau i + 3 * d); [|lia].
      assert (there i j) as TH' by (apply (there_sub u j i j TH); lia).
      assert (t < tau i) as LTI by lia.
      destruct X as [AI|[AI WI]].
      * pose proof (checking i j (Some t) ltac:(lia) L2 AI ltac:(lia) (or_intror (ex_intro _ t (conj eq_refl LTI))) TH'). lia.
      * apply (blocked_signalled i j (Some t)); try assumption; try lia.
        right. exists t. split; [reflexivity|lia].
Qed.

Section Again.
Hypothesis TMAX : T <= time_max.
Variable l0 : Z.
Hypothesis BEFORE : ln = Some l0.

Lemma again_due i : (s <= i)%nat -> remind_time (lconfig (w_lk (ws i))) (T + 1) ln (l0 + c_auth_notify_interval (conf (ws i))).
Proof.
  intros L. pose proof (DUE i l0 L BEFORE) as D. rewrite BEFORE. unfold conf in *. constructor. lia.
Qed.

Lemma waiting u j q nw : (s <= u)%nat -> (u <= j)%nat -> at2 u q -> nt_waits q = Some nw -> T < tau u ->
  there u j -> tau (S j) <= tau u + 5 * d.
Proof.
  intros LS L A W TU TH.
  destruct (reach_nt_awake _ _ (reach u) q nw A W) as [P|[UW|SA]].
  - pose proof (signalled u j LS L TU P TH). lia.
  - destruct (on_its_way u j L UW) as [B|(i & L1 & L2 & B & P)]; [lia|]. pose proof (later u i ltac:(lia)).
    pose proof (signalled i j ltac:(lia) L2 ltac:(lia) P (there_sub u j i j TH ltac:(lia) ltac:(lia))). lia.
  - assert (In e0 (details (w_lk (ws u)))) as I by (apply TH; lia).
    destruct (SA e0 cvr ln st u0 (T + 1) _ I PEND (again_due u LS)) as (t' & -> & LT').
    pose proof (DUE u l0 LS BEFORE) as DU.
    apply (waiting_until u j q t'); try assumption. lia.
Qed.

Lemma at_top u j : (s <= u)%nat -> (u <= j)%nat -> at2 u PNtTop -> T < tau u -> there u j -> tau (S j) <= tau u + 6 * d.
Proof.
  intros LS L A TU TH.
  destruct (stay PNtTop u j Logic.I A L) as [B|(g & e & L1 & L2 & AG & S & LG & B & F)]; [lia|].
  destruct (notifier_next _ _ _ _ _ (reach g) AG S) as (p' & N & (nw & ->) & _).
  pose proof (later u (Datatypes.S g) ltac:(lia)).
  pose proof (waiting (Datatypes.S g) j (PNtCheck nw) nw ltac:(lia) ltac:(lia) N eq_refl ltac:(lia)
    (there_sub u j (Datatypes.S g) j TH ltac:(lia) ltac:(lia))). lia.
Qed.

Lemma point u j q : (s <= u)%nat -> (u <= j)%nat -> at2 u q -> (forall a r, q <> PDo a r) -> T < tau u ->
  there u j -> tau (S j) <= tau u + 6 * d.
Proof.
  intros LS L A ND TU TH. pose proof (role_at O ws ls EN _ _ _ A) as RO.
  destruct q; try discriminate RO.
  - destruct (ND _ _ eq_refl).
  - apply at_top; assumption.
  - pose proof (waiting u j (PNtCheck nw) nw LS L A eq_refl TU TH). lia.
  - pose proof (waiting u j (PNtBlocked nw) nw LS L A eq_refl TU TH). lia.
  - pose proof (scanning u j LS L A TU TH). lia.
Qed.

(** Once it is due it does not stay. *)
Lemma overdue u j : (s <= u)%nat -> (u <= j)%nat -> T < tau u -> there u j -> tau (S j) <= tau u + 7 * d.
Proof.
  intros LS L TU TH.
  destruct (spawns u j L) as [B|(i & q & I1 & I2 & AI & ND & B & F)]; [lia|].
  pose proof (later u i I1).
  pose proof (point i j q ltac:(lia) I2 AI ND ltac:(lia) (there_sub u j i j TH ltac:(lia) ltac:(lia))). lia.
Qed.

(** And nothing happens only after it has been due for long. *)
Lemma no_jump m : (s <= m)%nat -> In e0 (details (w_lk (ws m))) -> tau m <= T -> tau (S m) <= T + d.
Proof.
  intros LS I TM. destruct (nt_at O ws ls EN m) as [q A]. pose proof (role_at O ws ls EN _ _ _ A) as RO.
  assert (notifier_point q -> tau (S m) <= tau m + d) as PT.
  { intros E. apply (at_point _ _ _ _ _ PR q E m m); [lia|]. intros i I1 I2. replace i with m by lia. exact A. }
  destruct q; try discriminate RO; try (pose proof (PT Logic.I); lia).
  - assert (tau (S m) <= tau m + d); [|lia]. apply (at_commands _ _ _ _ _ PR m m); [lia|].
    intros i I1 I2. replace i with m by lia. eauto.
  - destruct (cv_waiting (w_nt (ws m))) eqn:W.
    2:{ assert (tau (S m) <= tau m + d); [|lia]. apply (at_notified _ _ _ _ _ PR nw m m); [lia|].
        intros i I1 I2. replace i with m by lia. split; assumption. }
    destruct (reach_nt_awake _ _ (reach m) _ nw A eq_refl) as [P|[UW|SA]].
    + rewrite (blocked_awake m nw A P) in W. discriminate W.
    + destruct (on_its_way m m (le_n m) UW) as [B|(i & L1 & L2 & _)]; lia.
    + destruct (SA e0 cvr ln st u0 (T + 1) _ I PEND (again_due m LS)) as (t' & -> & LT').
      pose proof (DUE m l0 LS BEFORE) as DU.
      assert (tau (S m) <= Z.max (tau m) t' + d); [|lia].
      apply (at_alarm _ _ _ _ _ PR t' m m); [lia|]. intros i I1 I2. replace i with m by lia. split; assumption.
Qed.

Lemma past_due u j : (s <= u)%nat -> (u <= j)%nat -> there u j -> tau (S j) <= Z.max T (tau u) + 8 * d.
Proof.
  intros LS L TH. destruct (Z.le_gt_cases (tau u) T) as [LE|GT].
  2:{ pose proof (overdue u j LS L ltac:(lia) TH). lia. }
  assert (tau j <= T \/ exists x, (u <= x)%nat /\ (x <= j)%nat /\ T < tau x /\ tau x <= T + d) as [LE2|(x & L1 & L2 & G1 & G2)].
  - induction L as [|j L IH]; [left; exact LE|].
    destruct (IH (there_sub u (S j) u j TH ltac:(lia) ltac:(lia))) as [TJ|(x & L1 & L2 & X)];
      [|right; exists x; split; [exact L1|]; split; [lia|exact X]].
    destruct (Z.le_gt_cases (tau (S j)) T) as [LE'|GT']; [left; exact LE'|]. right. exists (S j).
    split; [lia|]. split; [lia|]. split; [lia|]. apply no_jump; [lia| |exact TJ]. apply TH; lia.
  - pose proof (no_jump j ltac:(lia) (TH j ltac:(lia) ltac:(lia)) LE2). lia.
  - pose proof (overdue x j ltac:(lia) L2 G1 (there_sub u j x j TH ltac:(lia) ltac:(lia))). lia.
Qed.
End Again.
End Due.

(** Who ends authorisations. *)
Lemma pending_ends w e tid q lk' q' os e1 cvr ln st u :
  reachable O w -> nth_error (w_threads w) tid = Some q -> csr O w e q lk' q' os ->
  In e1 (details (w_lk w)) -> d_ts e1 = TSPending cvr ln st u -> ~ In e1 (details lk') ->
  pc_role q = RoMain \/ pc_role q = RoNotifier \/ browsers_turn q.
Proof.
  intros R N C I PEN NI.
  pose proof (inv_wf _ _ (reach_inv _ _ R)) as WF.
  assert (pc_ok (w_lk w) q) as PO.
  { eapply (proj1 (Forall_forall _ _) (inv_threads _ _ (reach_inv _ _ R))). eapply nth_error_In. exact N. }
  assert (forall n e2 ts, ~ In e1 (details (bump n (w_lk w) (d_id e2) ts)) -> has (w_lk w) e2 -> e2 = e1) as SAME.
  { intros n e2 ts X H1. eapply wf_id_inj; [exact WF|exact H1|exact I|].
    destruct (N.eq_dec (d_id e1) (d_id e2)) as [E|E]; [congruence|]. exfalso. apply X. apply bump_in_other; assumption. }
  destruct C; try (left; reflexivity); try (exfalso; apply NI; exact I);
    try (right; right; exact Logic.I); try (right; left; reflexivity);
    exfalso;
    try (match goal with H : has _ ?e2 |- _ =>
      assert (e2 = e1) as -> by (eapply SAME; eassumption) end); try congruence;
    cbn in PO; destruct PO as (act0 & _ & OW); destruct (proj2 OW e1 I eq_refl) as [_ (? & X & _)]; congruence.
Qed.

(** What happens to a pending authorisation. *)
Lemma told_or_ended k j e0 cvr ln st u B :
  In e0 (details (w_lk (ws k))) -> d_ts e0 = TSPending cvr ln st u -> (k <= j)%nat ->
  (forall i, (k <= i)%nat -> (i <= j)%nat -> c_auth_notify_cmd (conf (ws i)) <> None) ->
  (forall i, (k <= i)%nat -> (i <= j)%nat -> there e0 k i -> tau (S i) <= B) ->
  B + d < tau (S j) ->
  told_user ws k j (d_name e0) u \/ auth_ended ws ls k j (d_name e0) u.
Proof.
  intros I PEN L CM BD LT.
  assert (there e0 k j \/ exists i, (k <= i)%nat /\ (i < j)%nat /\ there e0 k i /\ ~ In e0 (details (w_lk (ws (S i))))) as [TH|(i & L1 & L2 & TH & NS)].
  { clear BD LT CM. induction L as [|j L IH].
    - left. intros i I1 I2. replace i with k by lia. exact I.
    - destruct IH as [TH|(i & L1 & L2 & X)]; [|right; exists i; split; [exact L1|]; split; [lia|exact X]].
      destruct (in_dec entry_dec e0 (details (w_lk (ws (S j))))) as [J|NJ].
      + left. intros i I1 I2. destruct (Nat.eq_dec i (S j)) as [->|NE]; [exact J|]. apply TH; lia.
      + right. exists j. auto with arith. }
  { pose proof (BD j L (le_n j) TH). lia. }
  pose proof (BD i L1 ltac:(lia) TH) as BI. pose proof (TH i L1 (le_n i)) as II.
  pose proof (en_next _ _ _ EN i) as N. destruct (ls i) as [l|] eqn:LS; [|rewrite N in NS; contradiction].
  destruct l as [tid e|hs b].
  2:{ exfalso. destruct (step_ok _ _ _ _ (reach_inv _ _ (reach i)) N) as (_ & _ & TS & _).
      apply NS. inversion TS; subst. exact II. }
  assert (exists p, at_ ws i tid p) as [p A].
  { destruct (step_ok _ _ _ _ (reach_inv _ _ (reach i)) N) as (_ & _ & TS & _). unfold at_. inversion TS; subst; eauto. }
  destruct (own_step _ _ _ _ _ _ (reach i) A N) as [(lk' & p' & os & C & W)|SY].
  2:{ exfalso. apply NS. destruct SY; try exact II. rewrite do_action_lk. exact II. }
  assert (w_lk (ws (S i)) = lk') as WL by (rewrite W; reflexivity).
  assert (~ In e0 (details lk')) as NL by (rewrite <- WL; exact NS).
  destruct (pending_ends _ _ _ _ _ _ _ _ _ _ _ _ (reach i) A C II PEN NL) as [RM|[RN|BT]].
  - right. exists i, e0, cvr, ln, st. split; [exact L1|]. split; [lia|]. split; [reflexivity|]. split; [exact PEN|]. left.
    assert (tid = 0)%nat as ->.
    { pose proof (ro_pc _ (reach_roles _ _ (reach i)) _ _ A) as RO. rewrite RM in RO. destruct tid as [|[|[|[|n]]]]; try discriminate RO. reflexivity. }
    split; [exists e; exact LS|]. split; assumption.
  - assert (tid = 2)%nat as ->.
    { pose proof (ro_pc _ (reach_roles _ _ (reach i)) _ _ A) as RO. rewrite RN in RO. destruct tid as [|[|[|[|n]]]]; try discriminate RO. reflexivity. }
    left. destruct (c_auth_notify_cmd (conf (ws i))) as [cmd|] eqn:CC; [|destruct (CM i L1 ltac:(lia) CC)].
    pose proof (pending_left O _ _ _ _ _ _ _ _ _ _ _ _ (reach i) A C eq_refl PEN II NL cmd CC) as EM.
    assert (at2 (S i) p') as AT.
    { unfold at_. rewrite W. cbn [after_cs emit set_thread w_threads]. eapply nth_list_set_same. exact A. }
    destruct (spawns (S i) j ltac:(lia)) as [B2|(x & q & X1 & X2 & AX & ND & _)]; [lia|].
    destruct (spawned _ _ _ x AT EM X1) as [(q' & AX' & IQ)|(h & q' & H1 & H2 & WH)].
    { exfalso. unfold at_ in AX, AX'. assert (q' = q) as -> by congruence.
      destruct q; try (destruct IQ; fail). exact (ND _ _ eq_refl). }
    exists h, i, cmd. split; [exact L1|]. split; [lia|]. split; [lia|]. split; [exact CC|].
    unfold observed. rewrite WH, do_action_trace. apply skipn_trace.
  - right. exists i, e0, cvr, ln, st. split; [exact L1|]. split; [lia|]. split; [reflexivity|]. split; [exact PEN|]. right.
    exists tid, e, p. auto.
Qed.

(** An authorisation that has been announced is announced again. *)
Lemma told_again k j e0 cvr l st u T :
  In e0 (details (w_lk (ws k))) -> d_ts e0 = TSPending cvr (Some l) st u -> T <= time_max ->
  (forall i, (k <= i)%nat -> l + c_auth_notify_interval (conf (ws i)) <= T) ->
  (forall i, (k <= i)%nat -> c_auth_notify_cmd (conf (ws i)) <> None) ->
  (k <= j)%nat -> Z.max T (tau k) + 9 * d < tau (S j) ->
  told_user ws k j (d_name e0) u \/ auth_ended ws ls k j (d_name e0) u.
Proof.
  intros I PEN TM IV CM L LT.
  apply (told_or_ended k j e0 cvr (Some l) st u (Z.max T (tau k) + 8 * d)); try assumption; [intros; apply CM; lia| |lia].
  intros i I1 I2 TH.
  assert (forall i' l', (k <= i')%nat -> Some l = Some l' -> l' + c_auth_notify_interval (conf (ws i')) <= T) as DUE.
  { intros i' l' L' [= <-]. apply IV. lia. }
  exact (past_due k e0 cvr (Some l) st u T PEN DUE TM l eq_refl k i (le_n k) I1 TH).
Qed.

(** A client who gets a URL. *)
Lemma no_late_url w : reachable O w ->
  Forall (fun p => forall a, In a (chain p) -> match a with AEmit (OAuthUrl _ _) => False | _ => True end) (w_threads w).
Proof.
  revert w. apply (reach_ind O).
  - intros. repeat constructor; intros a [].
  - intros w l w' R I I' A F S T. eapply tstep_chain_inv; try eassumption.
    intros e p lk' p' os a C Ia. pose proof (csr_chain _ _ _ _ _ _ _ a C Ia) as X.
    destruct a; try exact Logic.I. destruct o; try exact Logic.I. exact X.
Qed.

Lemma issued k n u : In (OAuthUrl n u) (observed ws k) ->
  (exists e0 cvr st, In e0 (details (w_lk (ws (S k)))) /\ d_name e0 = n /\ d_ts e0 = TSPending cvr None st u)
  /\ under_way (ws (S k)) ASigNotifier.
Proof.
  intros OB. pose proof (en_next _ _ _ EN k) as N. unfold observed in OB.
  destruct (ls k) as [l|] eqn:LS; [|rewrite N, skipn_all in OB; destruct OB].
  destruct (step_ok _ _ _ _ (reach_inv _ _ (reach k)) N) as (_ & _ & TS & _).
  destruct TS as [tid e q lk' q' os A C|tid e q w' A SY|hs b P].
  - assert (In (OAuthUrl n u) os) as IO.
    { cbn [after_cs emit w_trace set_thread set_lk] in OB. rewrite skipn_trace in OB. exact OB. }
    destruct C; cbn in IO; repeat (destruct IO as [IO|IO]; [try discriminate IO|]); try contradiction.
    injection IO as <- <-. split.
    + do 3 eexists. split; [cbn [after_cs emit set_thread set_lk w_lk]; apply bump_in_new; eassumption|].
      split; reflexivity.
    + exists tid. eexists. split; [cbn [after_cs emit set_thread set_lk w_threads]; eapply nth_list_set_same; exact A|].
      left. reflexivity.
  - exfalso. destruct SY; cbn in OB; try (rewrite skipn_all in OB; destruct OB).
    rewrite do_action_trace in OB. cbn [w_trace set_thread] in OB. rewrite skipn_trace in OB.
    destruct a as [| |n0 ev| |i0|o|]; cbn in OB; try tauto; destruct OB as [OB|[]]; try discriminate OB; subst o.
    pose proof (proj1 (Forall_forall _ _) (no_late_url _ (reach k)) _ (nth_error_In _ _ A)) as F.
    exact (F (AEmit (OAuthUrl n u)) (or_introl eq_refl)).
  - exfalso. cbn in OB. rewrite skipn_trace in OB. cbn in OB. intuition discriminate.
Qed.

Lemma told_first k j n u :
  In (OAuthUrl n u) (observed ws k) ->
  (forall i, (k < i)%nat -> c_auth_notify_cmd (conf (ws i)) <> None) ->
  (k < j)%nat -> tau (S k) + 6 * d < tau (S j) ->
  told_user ws (S k) j n u \/ auth_ended ws ls (S k) j n u.
Proof.
  intros OB CM L LT. destruct (issued k n u OB) as [(e0 & cvr & st & I & <- & PEN) UW].
  apply (told_or_ended (S k) j e0 cvr None st u (tau (S k) + 5 * d)); try assumption; [intros; apply CM; lia| |lia].
  intros i I1 I2 TH. destruct (on_its_way (S k) i I1 UW) as [B|(x & L1 & L2 & B & P)]; [lia|].
  pose proof (later (S k) x ltac:(lia)).
  assert (forall i' l, (S k <= i')%nat -> None = Some l -> l + c_auth_notify_interval (conf (ws i')) <= tau (S k) - 1) as DUE by (intros ? ? ? [=]).
  assert (there e0 x i) as TH' by (apply (there_sub e0 (S k) i x i TH); lia).
  pose proof (signalled (S k) e0 cvr None st u (tau (S k) - 1) PEN DUE x i ltac:(lia) L2 ltac:(lia) P TH'). lia.
Qed.

(** What is noted as announced has been announced. *)
Lemma csr_notes w e q lk' q' os e1 cvr l st u :
  reachable O w -> csr O w e q lk' q' os -> In e1 (details lk') -> d_ts e1 = TSPending cvr (Some l) st u ->
  (exists e0, In e0 (details (w_lk w)) /\ d_ts e0 = TSPending cvr (Some l) st u) \/ l = env_now e.
Proof.
  intros R C I TS.
  assert (forall n i ts, In e1 (details (bump n (w_lk w) i ts)) -> d_ts e1 = ts \/ In e1 (details (w_lk w))) as BU.
  { intros n i ts IB. apply bump_in in IB as [(e2 & _ & _ & ->)|[IB _]]; [left; reflexivity|right; exact IB]. }
  destruct C; try (left; exists e1; auto; fail);
    try (destruct (BU _ _ _ I) as [X|X]; [rewrite TS in X; discriminate X|left; exists e1; auto]; fail).
  - left. exists e1. split; [|exact TS].
    assert (wf_conf c) as WC by (match goal with CO : conf_ok O c |- _ => apply CO end).
    match goal with H : update_conf _ _ = Val _ |- _ => destruct (update_conf_spec _ _ _ (inv_wf _ _ (reach_inv _ _ R)) WC H) as (_ & _ & _ & SP) end.
    destruct (SP e1 I) as (a' & _ & X).
    destruct (account_of (w_lk w) (d_name e1)) as [a|]; [destruct (secure_eq a' a)|]; [exact X| |]; destruct X as [_ X]; rewrite TS in X; discriminate X.
  - left. match goal with F : Forall2 _ (details (w_lk w)) (details lk') |- _ => destruct (Forall2_in_r _ _ _ _ F I) as (e0 & I0 & _ & [->|[_ (_ & a & ad & td & i & _ & _ & _ & _ & AC)]]) end.
    + exists e0. auto.
    + rewrite TS in AC. discriminate AC.
  - match goal with F : Forall2 _ (details (w_lk w)) (details lk') |- _ => destruct (Forall2_in_r _ _ _ _ F I) as (e0 & I0 & X) end.
    destruct (notify_due (w_lk w) (env_now e) e0).
    + right. destruct X as (_ & _ & X). rewrite TS in X. destruct (d_ts e0); cbn in X; congruence.
    + left. exists e0. subst e1. auto.
Qed.

Lemma still_none_ahead k j : (k <= j)%nat -> none_ahead (ws k) (tau k) -> none_ahead (ws j) (tau j).
Proof.
  intros L NA. induction L as [|j L IH]; [exact NA|].
  intros n cvr l st u (e1 & I1 & NM & TS). pose proof (at_forward _ _ _ _ _ PR j) as FW.
  assert (forall e0, In e0 (details (w_lk (ws j))) -> d_ts e0 = TSPending cvr (Some l) st u -> l <= tau (S j)) as OLD.
  { intros e0 I0 T0. assert (l <= tau j); [|lia]. apply (IH (d_name e0) cvr l st u). exists e0. auto. }
  pose proof (en_next _ _ _ EN j) as N. destruct (ls j) as [lb|] eqn:LS; [|rewrite N in I1; exact (OLD e1 I1 TS)].
  destruct (step_ok _ _ _ _ (reach_inv _ _ (reach j)) N) as (_ & _ & ST & _). revert I1. 
  destruct ST as [tid e q lk' q' os A C|tid e q w' A SY|hs b P]; intros I1.
  - destruct (csr_notes _ _ _ _ _ _ _ _ _ _ _ (reach j) C I1 TS) as [(e0 & I0 & T0)| ->]; [exact (OLD e0 I0 T0)|].
    pose proof (at_clock _ _ _ _ _ PR j tid e 0%nat LS) as CL. unfold env_now. lia.
  - apply (OLD e1); [|exact TS]. destruct SY; try exact I1. rewrite do_action_lk in I1. exact I1.
  - exact (OLD e1 I1 TS).
Qed.

(** Again and again. *)
Lemma told_every k j e0 cvr l st u iv :
  none_ahead (ws k) (tau k) ->
  In e0 (details (w_lk (ws k))) -> d_ts e0 = TSPending cvr (Some l) st u -> 0 <= iv -> tau k + iv <= time_max ->
  (forall i, (k <= i)%nat -> c_auth_notify_interval (conf (ws i)) <= iv) ->
  (forall i, (k <= i)%nat -> c_auth_notify_cmd (conf (ws i)) <> None) ->
  (k <= j)%nat -> tau k + iv + 9 * d < tau (S j) ->
  told_user ws k j (d_name e0) u \/ auth_ended ws ls k j (d_name e0) u.
Proof.
  intros NA I PEN IV0 TM IV CM L LT.
  assert (l <= tau k) as LK by (apply (NA (d_name e0) cvr l st u); exists e0; auto).
  apply (told_again k j e0 cvr l st u (tau k + iv) I PEN TM); try assumption; [|lia].
  intros i L1. specialize (IV i L1). lia.
Qed.

(** Until it is over it goes on, and only the notifier changes its entry. *)
Lemma goes_on k x e0 cvr st u :
  In e0 (details (w_lk (ws k))) -> d_ts e0 = TSPending cvr None st u -> (k <= x)%nat ->
  auth_ended ws ls k x (d_name e0) u
  \/ there e0 k x
  \/ exists e l, In e (details (w_lk (ws x))) /\ d_name e = d_name e0 /\ d_ts e = TSPending cvr (Some l) st u.
Proof.
  intros I PEN L.
  assert (auth_ended ws ls k x (d_name e0) u
    \/ exists e ln, In e (details (w_lk (ws x))) /\ d_name e = d_name e0 /\ d_ts e = TSPending cvr ln st u
         /\ (ln = None -> there e0 k x)) as [EN0|(e & ln & IE & NE & TE & TH)].
  - induction L as [|x L IH].
    + right. exists e0, None. split; [exact I|]. split; [reflexivity|]. split; [exact PEN|].
      intros _ i I1 I2. replace i with k by lia. exact I.
    + destruct IH as [(i & X & c & y & z & L1 & L2 & H)|(e & ln & IE & NE & TE & TH)].
      { left. exists i, X, c, y, z. split; [exact L1|]. split; [lia|exact H]. }
      destruct (in_dec entry_dec e (details (w_lk (ws (S x))))) as [J|NJ].
      { destruct ln as [l|]; [right; exists e, (Some l); repeat split; try assumption; intros [=]|].
        assert (e = e0) as ->.
        { eapply wf_name_inj; [exact (inv_wf _ _ (reach_inv _ _ (reach x)))|exact IE|apply (TH eq_refl); lia|exact NE]. }
        right. exists e0, None. split; [exact J|]. split; [reflexivity|]. split; [exact TE|]. intros _ i I1 I2.
        destruct (Nat.eq_dec i (S x)) as [->|NEQ]; [exact J|]. apply (TH eq_refl); lia. }
      pose proof (en_next _ _ _ EN x) as N. destruct (ls x) as [lb|] eqn:LS; [|rewrite N in NJ; contradiction].
      destruct lb as [tid env|hs b].
      2:{ exfalso. destruct (step_ok _ _ _ _ (reach_inv _ _ (reach x)) N) as (_ & _ & TS & _).
          apply NJ. inversion TS; subst. exact IE. }
      assert (exists p, at_ ws x tid p) as [p A].
      { destruct (step_ok _ _ _ _ (reach_inv _ _ (reach x)) N) as (_ & _ & TS & _). unfold at_. inversion TS; subst; eauto. }
      destruct (own_step _ _ _ _ _ _ (reach x) A N) as [(lk' & p' & os & C & W)|SY].
      2:{ exfalso. apply NJ. destruct SY; try exact IE. rewrite do_action_lk. exact IE. }
      assert (w_lk (ws (S x)) = lk') as WL by (rewrite W; reflexivity).
      assert (~ In e (details lk')) as NL by (rewrite <- WL; exact NJ).
      destruct (pending_ends _ _ _ _ _ _ _ _ _ _ _ _ (reach x) A C IE TE NL) as [RM|[RN|BT]].
      * left. exists x, e, cvr, ln, st. split; [exact L|]. split; [lia|]. split; [exact NE|]. split; [exact TE|]. left.
        assert (tid = 0)%nat as ->.
        { pose proof (ro_pc _ (reach_roles _ _ (reach x)) _ _ A) as RO. rewrite RM in RO. destruct tid as [|[|[|[|n]]]]; try discriminate RO. reflexivity. }
        split; [exists env; exact LS|]. split; assumption.
      * right. destruct C; try discriminate RN; [contradiction|].
        match goal with F : Forall2 _ (details (w_lk (ws x))) (details lk') |- _ => destruct (Forall2_in_l _ _ _ _ F IE) as (e' & I' & X) end.
        destruct (notify_due (w_lk (ws x)) (env_now env) e).
        -- destruct X as (X1 & _ & X2). rewrite TE in X2. exists e', (Some (env_now env)). rewrite WL.
           split; [exact I'|]. split; [congruence|]. split; [exact X2|]. intros [=].
        -- subst e'. contradiction.
      * left. exists x, e, cvr, ln, st. split; [exact L|]. split; [lia|]. split; [exact NE|]. split; [exact TE|]. right.
        exists tid, env, p. auto.
  - left. exact EN0.
  - right. destruct ln as [l|]; [right; exists e, l; auto|left; apply TH; reflexivity].
Qed.

Lemma ended_later k x j n u : (k <= x)%nat -> auth_ended ws ls x j n u -> auth_ended ws ls k j n u.
Proof.
  intros L (i & e & c & y & z & L1 & H). exists i, e, c, y, z. split; [lia|exact H].
Qed.

Lemma told_until_over k x j n u iv :
  In (OAuthUrl n u) (observed ws k) -> none_ahead (ws (S k)) (tau (S k)) ->
  0 <= iv -> tau x + iv <= time_max ->
  (forall i, (k < i)%nat -> c_auth_notify_interval (conf (ws i)) <= iv) ->
  (forall i, (k < i)%nat -> c_auth_notify_cmd (conf (ws i)) <> None) ->
  (k < x)%nat -> (x <= j)%nat -> tau x + iv + 9 * d < tau (S j) ->
  told_user ws x j n u \/ auth_ended ws ls (S k) j n u.
Proof.
  intros OB NA IV0 TM IV CM L1 L2 LT. destruct (issued k n u OB) as [(e0 & cvr & st & I & <- & PEN) UW].
  destruct (goes_on (S k) x e0 cvr st u I PEN L1) as [(i & e & c & y & z & X1 & X2 & H)|[TH|(e & l & IE & NE & TE)]].
  - right. exists i, e, c, y, z. split; [exact X1|]. split; [lia|exact H].
  - pose proof (later (S k) x ltac:(lia)) as TX.
    assert (told_user ws x j (d_name e0) u \/ auth_ended ws ls x j (d_name e0) u) as [T|E];
      [|left; exact T|right; apply (ended_later (S k) x); [lia|exact E]].
    apply (told_or_ended x j e0 cvr None st u (tau (S k) + 5 * d)); try assumption; try lia.
    + apply TH; lia.
    + intros i I1 I2. apply CM. lia.
    + intros i I1 I2 TH2.
      assert (there e0 (S k) i) as THI.
      { intros y Y1 Y2. destruct (Nat.le_gt_cases y x) as [Y|Y]; [apply TH; lia|apply TH2; lia]. }
      destruct (on_its_way (S k) i ltac:(lia) UW) as [B|(y & Y1 & Y2 & B & P)]; [lia|].
      pose proof (later (S k) y ltac:(lia)).
      assert (forall i' l, (S k <= i')%nat -> None = Some l -> l + c_auth_notify_interval (conf (ws i')) <= tau (S k) - 1) as DUE by (intros ? ? ? [=]).
      assert (there e0 y i) as TH' by (apply (there_sub e0 (S k) i y i THI); lia).
      pose proof (signalled (S k) e0 cvr None st u (tau (S k) - 1) PEN DUE y i ltac:(lia) Y2 ltac:(lia) P TH'). lia.
  - rewrite <- NE.
    assert (told_user ws x j (d_name e) u \/ auth_ended ws ls x j (d_name e) u) as [T|E];
      [|left; exact T|right; apply (ended_later (S k) x); [lia|exact E]].
    apply (told_every x j e cvr l st u iv); try assumption.
    + apply (still_none_ahead (S k) x); [lia|exact NA].
    + intros i I1. apply IV. lia.
    + intros i I1. apply CM. lia.
Qed.
End Notify.

(** A server that has just been started has announced nothing. *)
Lemma fresh_none_ahead c http https key t : none_ahead (init_world c http https key) t.
Proof.
  intros n cvr l st u (e & I & _ & T). cbn [init_world w_lk locked_new details] in I. revert I.
  generalize 0%N as i. induction (keys (c_accounts c)) as [|m ns IH]; intros i I; [destruct I|].
  destruct I as [<-|I]; [discriminate T|exact (IH _ I)].
Qed.
