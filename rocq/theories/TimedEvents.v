(** When nothing dawdles token events are reported in time. *)
From Verif Require Import Base BaseLemmas Time Utf8 Base64 Url Json Oracles Config Dump State Http Timers Server
  StateLemmas ConfigLemmas Steps Inv Reach Own SpecServer SpecTimers SpecSessions SpecFair SpecTimed Trace Remind Wake
  Events Sched Sessions Counters Fair.
Local Open Scope Z_scope.

Section Report.
Variable O : oracles.
Variable ws : nat -> world.
Variable ls : nat -> option label.
Variable tau : nat -> Z.
Variable d r : Z.
Hypothesis PR : reporting O ws ls tau d r.
Hypothesis D0 : 0 <= d.
Hypothesis R0 : 0 <= r.
Hypothesis WA : forall k, events_wanted (w_trace (ws k)).

Let EN : endless O ws ls := rp_endless _ _ _ _ _ _ PR.
Notation at1 k q := (at_ ws k 1 q).
Notation reach k := (reach_at O ws ls EN k).
Notation sent k := (Fair.sent ws k).

Lemma later k j : (k <= j)%nat -> tau k <= tau j.
Proof.
  induction 1 as [|j L IH]; [lia|]. pose proof (rp_forward _ _ _ _ _ _ PR j). lia.
Qed.

Lemma at_between q k g i :
  at1 k q -> (forall x, (k <= x)%nat -> (x < g)%nat -> ~ goes ls x 1) -> (k <= i)%nat -> (i <= g)%nat -> at1 i q.
Proof.
  intros A F L1 L2. replace i with (k + (i - k))%nat by lia. eapply at_stays; [exact EN|exact A|].
  intros x X1 X2. apply F; lia.
Qed.

Lemma stay q b k j :
  eventer_limit d r q = Some b -> at1 k q -> (k <= j)%nat ->
  tau (S j) <= tau k + b
  \/ exists g e, (k <= g)%nat /\ (g < j)%nat /\ at1 g q /\ step O (ws g) (LTick 1 e) = SNext (ws (S g))
       /\ tau (S g) <= tau k + b /\ (forall x, (k <= x)%nat -> (x < g)%nat -> ~ goes ls x 1).
Proof.
  intros LI A L. destruct (first_step ls k 1 (j - k)) as [NG|(g & L1 & L2 & G & F)].
  - left. apply (rp_point _ _ _ _ _ _ PR q b LI k j L). intros i I1 I2.
    apply (at_between q k j i A); [|exact I1|exact I2]. intros x X1 X2. apply NG; lia.
  - right. destruct (step_at _ _ _ EN _ _ G) as (e & S & LS). exists g, e.
    split; [exact L1|]. split; [lia|]. split; [apply (at_between q k g g A F); lia|]. split; [exact S|].
    split; [|exact F].
    apply (rp_point _ _ _ _ _ _ PR q b LI k g L1). intros i I1 I2. apply (at_between q k g i A F I1 I2).
Qed.

Definition about_to (x tid : nat) : Prop :=
  exists q, nth_error (w_threads (ws x)) tid = Some q /\ In ASigEventer (will_do q).

Lemma about_to_next x tid : about_to x tid -> about_to (S x) tid \/ cv_pred (w_ev (ws (S x))) = true.
Proof.
  intros (q & A & I). destruct (goes_dec ls x tid) as [G|NG].
  - destruct (step_at _ _ _ EN _ _ G) as (e & ST & _).
    assert (exists b r0, q = PDo b r0) as (b & r0 & ->) by (destruct q; try (destruct I; fail); eauto).
    destruct (done_next _ _ _ EN _ _ _ _ _ A ST) as [W N]. destruct I as [->|I].
    + right. rewrite W. reflexivity.
    + left. exists r0. auto.
  - left. exists q. split; [|exact I]. apply (at_next O ws ls EN _ _ _ A NG).
Qed.

Lemma on_its_way u j : (u <= j)%nat -> under_way (ws u) ASigEventer ->
  tau (S j) <= tau u + d
  \/ exists i, (u < i)%nat /\ (i <= j)%nat /\ tau i <= tau u + d /\ cv_pred (w_ev (ws i)) = true.
Proof.
  intros L (tid & q & A & I).
  assert ((forall x, (u <= x)%nat -> (x <= j)%nat -> about_to x tid)
          \/ exists i, (u < i)%nat /\ (i <= j)%nat /\ cv_pred (w_ev (ws i)) = true
               /\ forall x, (u <= x)%nat -> (x < i)%nat -> about_to x tid) as [ALL|(i & L1 & L2 & P & F)].
  - induction L as [|j L IH].
    + left. intros x X1 X2. replace x with u by lia. exists q. auto.
    + destruct IH as [ALL|(i & L1 & L2 & X)]; [|right; exists i; split; [exact L1|]; split; [lia|exact X]].
      destruct (about_to_next j tid (ALL j L ltac:(lia))) as [N|P].
      * left. intros x X1 X2. destruct (Nat.eq_dec x (S j)) as [->|NE]; [exact N|]. apply ALL; lia.
      * right. exists (S j). split; [lia|]. split; [lia|]. split; [exact P|]. intros x X1 X2. apply ALL; lia.
  - left. apply (rp_signal _ _ _ _ _ _ PR tid u j L). exact ALL.
  - right. exists i. split; [exact L1|]. split; [exact L2|]. split; [|exact P].
    destruct i as [|i]; [lia|]. apply (rp_signal _ _ _ _ _ _ PR tid u i); [lia|]. intros x X1 X2. apply F; lia.
Qed.

Section Next.
Variable k m : nat.
Hypothesis QM : (m < List.length (queued (w_trace (ws k))))%nat.

(** The thread is busy with events. *)
Definition busy (i : nat) : Prop :=
  at1 i PEvPop \/ (exists n ev, at1 i (PEvCmd n ev)) \/ (exists cmd n ev, at1 i (PEvRun cmd n ev)) \/ at1 i PEvRunning.

(** Within [b] of [u] the next event is reported, unless that is after [j]. *)
Definition within (u j : nat) (b : Z) : Prop :=
  tau (S j) <= tau u + b
  \/ exists i, (u <= i)%nat /\ (i <= j)%nat /\ (m < sent i)%nat /\ tau i <= tau u + b /\ busy i.

Lemma within_from u u' j b b' : (u <= u')%nat -> tau u' + b' <= tau u + b -> within u' j b' -> within u j b.
Proof.
  intros L T [B|(i & I1 & I2 & S & B & A)]; [left; lia|].
  right. exists i. split; [lia|]. split; [exact I2|]. split; [exact S|]. split; [lia|exact A].
Qed.

Lemma grown j i : (j <= i)%nat -> (m <= sent j)%nat -> (m <= sent i)%nat.
Proof. intros L M. destruct (counts_grow O ws ls EN j i L) as [X _]. lia. Qed.

Lemma run_soon u j cmd n ev : (u <= j)%nat -> at1 u (PEvRun cmd n ev) -> (m <= sent u)%nat -> within u j d.
Proof.
  intros L A M.
  destruct (stay (PEvRun cmd n ev) d u j eq_refl A L) as [B|(g & e & L1 & L2 & AG & S & B & _)]; [left; exact B|].
  destruct (eventer_next _ _ _ _ _ (reach g) AG S) as (p' & N & E & TR).
  right. exists (Datatypes.S g). split; [lia|]. split; [lia|]. split; [|split; [exact B|subst p'; right; right; right; exact N]].
  unfold Fair.sent. rewrite TR, delivered_app, app_length. cbn.
  pose proof (grown u g L1 M) as X. unfold Fair.sent in X. lia.
Qed.

Lemma cmd_soon u j n ev : (u <= j)%nat -> at1 u (PEvCmd n ev) -> (m <= sent u)%nat -> within u j (2 * d).
Proof.
  intros L A M.
  destruct (stay (PEvCmd n ev) d u j eq_refl A L) as [B|(g & e & L1 & L2 & AG & S & B & _)]; [left; lia|].
  destruct (eventer_next _ _ _ _ _ (reach g) AG S) as (p' & N & E).
  destruct (c_token_event_cmd (conf (ws g))) as [cmd|] eqn:C.
  - subst p'. apply (within_from u (Datatypes.S g) j _ d); [lia|lia|].
    apply (run_soon _ j cmd n ev); [lia|exact N|apply (grown u); [lia|exact M]].
  - exfalso. eapply (WA g); [|exact C]. apply config_at_in. apply (reach_config_at _ _ (reach g)).
Qed.

Lemma pop_soon u j : (k <= u)%nat -> (u <= j)%nat -> at1 u PEvPop -> (m <= sent u)%nat -> within u j (3 * d).
Proof.
  intros LK L A M.
  destruct (stay PEvPop d u j eq_refl A L) as [B|(g & e & L1 & L2 & AG & S & B & _)]; [left; lia|].
  destruct (still_unsent O ws ls EN WA m k QM g ltac:(lia)) as [Y|U].
  { right. exists g. split; [exact L1|]. split; [lia|]. split; [exact Y|]. split; [|left; exact AG].
    pose proof (later g (Datatypes.S g) ltac:(lia)). lia. }
  destruct (eventer_next _ _ _ _ _ (reach g) AG S) as (p' & N & E).
  unfold unsent in U. pose proof (ev_pc_nth _ _ (reach g)) as EP. unfold at_ in AG. rewrite AG in EP. injection EP as EP.
  rewrite <- EP in U. cbn in U. destruct (w_evq (ws g)) as [|[n ev] q]; [contradiction|].
  subst p'. apply (within_from u (Datatypes.S g) j _ (2 * d)); [lia|lia|].
  apply (cmd_soon _ j n ev); [lia|exact N|apply (grown u); [lia|exact M]].
Qed.

Lemma running_soon u j : (k <= u)%nat -> (u <= j)%nat -> at1 u PEvRunning -> (m <= sent u)%nat -> within u j (r + 3 * d).
Proof.
  intros LK L A M.
  destruct (stay PEvRunning r u j eq_refl A L) as [B|(g & e & L1 & L2 & AG & S & B & _)]; [left; lia|].
  destruct (eventer_next _ _ _ _ _ (reach g) AG S) as (p' & N & E). cbn in E. subst p'.
  apply (within_from u (Datatypes.S g) j _ (3 * d)); [lia|lia|].
  apply (pop_soon _ j); [lia|lia|exact N|apply (grown u); [lia|exact M]].
Qed.

Lemma busy_soon u j : (k <= u)%nat -> (u <= j)%nat -> busy u -> (m <= sent u)%nat -> within u j (r + 3 * d).
Proof.
  intros LK L [A|[(n & ev & A)|[(cmd & n & ev & A)|A]]] M.
  - apply (within_from u u j _ (3 * d)); [lia|lia|]. apply pop_soon; assumption.
  - apply (within_from u u j _ (2 * d)); [lia|lia|]. eapply cmd_soon; eassumption.
  - apply (within_from u u j _ d); [lia|lia|]. eapply run_soon; eassumption.
  - apply running_soon; assumption.
Qed.

Lemma pred_stays u g i : cv_pred (w_ev (ws u)) = true -> (forall x, (u <= x)%nat -> (x < g)%nat -> ~ goes ls x 1) ->
  (u <= i)%nat -> (i <= g)%nat -> cv_pred (w_ev (ws i)) = true.
Proof.
  intros P F L1 L2. replace i with (u + (i - u))%nat by lia. eapply ev_pred_stays; [exact EN|exact P|].
  intros x X1 X2. apply F; lia.
Qed.

Lemma top_soon u j : (k <= u)%nat -> (u <= j)%nat -> at1 u PEvTop -> cv_pred (w_ev (ws u)) = true -> (m <= sent u)%nat ->
  within u j (4 * d).
Proof.
  intros LK L A P M.
  destruct (stay PEvTop d u j eq_refl A L) as [B|(g & e & L1 & L2 & AG & S & B & F)]; [left; lia|].
  destruct (eventer_next _ _ _ _ _ (reach g) AG S) as (p' & N & E). cbn in E.
  rewrite (pred_stays u g g P F) in E by lia. subst p'.
  apply (within_from u (Datatypes.S g) j _ (3 * d)); [lia|lia|].
  apply pop_soon; [lia|lia|exact N|apply (grown u); [lia|exact M]].
Qed.

Lemma blocked_soon u j : (k <= u)%nat -> (u <= j)%nat -> at1 u PEvBlocked -> cv_pred (w_ev (ws u)) = true -> (m <= sent u)%nat ->
  within u j (5 * d).
Proof.
  intros LK L A P M.
  assert (forall g i, (forall x, (u <= x)%nat -> (x < g)%nat -> ~ goes ls x 1) -> (u <= i)%nat -> (i <= g)%nat ->
            at1 i PEvBlocked /\ cv_waiting (w_ev (ws i)) = false) as ST.
  { intros g i F I1 I2. split; [apply (at_between PEvBlocked u g i A F I1 I2)|].
    pose proof (pred_stays u g i P F I1 I2) as PI. destruct (cv_waiting (w_ev (ws i))) eqn:W; [|reflexivity].
    pose proof (proj1 (reach_cv _ _ (reach i)) W). congruence. }
  destruct (first_step ls u 1 (j - u)) as [NG|(g & L1 & L2 & G & F)].
  - left. pose proof (rp_notified _ _ _ _ _ _ PR u j L) as X.
    enough (tau (S j) <= tau u + d) by lia. apply X. intros i I1 I2. apply (ST j); [|exact I1|exact I2].
    intros x X1 X2. apply NG; lia.
  - destruct (step_at _ _ _ EN _ _ G) as (e & S & LS).
    destruct (eventer_next _ _ _ _ _ (reach g) (proj1 (ST g g F L1 (le_n _))) S) as (p' & N & E & PE). subst p'.
    assert (tau (Datatypes.S g) <= tau u + d) as B.
    { apply (rp_notified _ _ _ _ _ _ PR u g L1). intros i I1 I2. apply (ST g i F I1 I2). }
    apply (within_from u (Datatypes.S g) j _ (4 * d)); [lia|lia|].
    apply top_soon; [lia|lia|exact N| |apply (grown u); [lia|exact M]].
    rewrite PE. apply (pred_stays u g g P F); lia.
Qed.

Lemma signalled_soon u j : (k <= u)%nat -> (u <= j)%nat -> cv_pred (w_ev (ws u)) = true -> (m <= sent u)%nat ->
  within u j (r + 5 * d).
Proof.
  intros LK L P M. pose proof (ev_pc_nth _ _ (reach u)) as A. change (at1 u (ev_pc (ws u))) in A.
  pose proof (role_at O ws ls EN _ _ _ A) as RO.
  assert (busy u -> within u j (r + 5 * d)) as BU.
  { intros B. apply (within_from u u j _ (r + 3 * d)); [lia|lia|]. apply busy_soon; assumption. }
  destruct (ev_pc (ws u)) eqn:E; try discriminate RO.
  - exfalso. eapply do_not_eventer; [apply (reach u)|exact A|reflexivity].
  - apply (within_from u u j _ (4 * d)); [lia|lia|]. apply top_soon; assumption.
  - apply (within_from u u j _ (5 * d)); [lia|lia|]. apply blocked_soon; assumption.
  - apply BU. left. exact A.
  - apply BU. right. left. eauto.
  - apply BU. right. right. left. eauto.
  - apply BU. right. right. right. exact A.
Qed.

Lemma next_soon u j : (k <= u)%nat -> (u <= j)%nat -> sent u = m -> within u j (r + 6 * d).
Proof.
  intros LK L M. destruct (still_unsent O ws ls EN WA m k QM u LK) as [Y|U]; [lia|].
  pose proof (ev_pc_nth _ _ (reach u)) as A. change (at1 u (ev_pc (ws u))) in A.
  pose proof (role_at O ws ls EN _ _ _ A) as RO. unfold unsent in U. pose proof (reach_ev_awake _ _ (reach u)) as AW.
  assert (busy u -> within u j (r + 6 * d)) as BU.
  { intros B. apply (within_from u u j _ (r + 3 * d)); [lia|lia|]. apply busy_soon; [assumption..|lia]. }
  assert ((ev_pc (ws u) = PEvTop \/ ev_pc (ws u) = PEvBlocked) -> w_evq (ws u) <> [] -> within u j (r + 6 * d)) as SL.
  { intros EP NE. destruct (AW EP (WA u)) as [Z|[P|UW]]; [contradiction|..].
    - apply (within_from u u j _ (r + 5 * d)); [lia|lia|]. apply signalled_soon; [assumption..|lia].
    - destruct (on_its_way u j L UW) as [B|(i & L1 & L2 & B & P)]; [left; lia|].
      apply (within_from u i j _ (r + 5 * d)); [lia|lia|]. apply signalled_soon; [lia|lia|exact P|].
      apply (grown u); lia. }
  destruct (ev_pc (ws u)) eqn:E; try discriminate RO.
  - exfalso. eapply do_not_eventer; [apply (reach u)|exact A|reflexivity].
  - apply SL; auto.
  - apply SL; auto.
  - apply BU. left. exact A.
  - apply BU. right. left. eauto.
  - apply BU. right. right. left. eauto.
  - apply BU. right. right. right. exact A.
Qed.
End Next.

(** While the thread is busy every event takes at most [r + 3 * d]. *)
Lemma busy_all k b : forall u j, (k <= u)%nat -> (u <= j)%nat -> busy u ->
  (List.length (queued (w_trace (ws k))) <= sent u + b)%nat ->
  tau (S j) <= tau u + Z.of_nat b * (r + 3 * d) \/ (List.length (queued (w_trace (ws k))) <= sent j)%nat.
Proof.
  induction b as [|b IH]; intros u j LK L B Q.
  { right. destruct (counts_grow O ws ls EN u j L) as [X _]. lia. }
  destruct (le_lt_dec (List.length (queued (w_trace (ws k)))) (sent u)) as [LE|LT].
  { right. destruct (counts_grow O ws ls EN u j L) as [X _]. lia. }
  destruct (busy_soon k (sent u) LT u j LK L B (le_n _)) as [T|(i & I1 & I2 & S & T & BI)]; [left; lia|].
  destruct (IH i j ltac:(lia) I2 BI ltac:(lia)) as [T'|Y]; [left; lia|right; exact Y].
Qed.

Lemma all_soon k j : (k <= j)%nat ->
  tau k + backlog (ws k) * (r + 3 * d) + 3 * d < tau (S j) ->
  (List.length (queued (w_trace (ws k))) <= sent j)%nat.
Proof.
  intros L T. pose proof (sent_unsent O ws ls EN WA k) as SU.
  destruct (le_lt_dec (List.length (queued (w_trace (ws k)))) (sent k)) as [LE|LT].
  { destruct (counts_grow O ws ls EN k j L) as [X _]. lia. }
  unfold backlog in T. fold (sent k) in T.
  destruct (next_soon k (sent k) LT k j (le_n _) L eq_refl) as [B|(i & I1 & I2 & S & B & BI)].
  - exfalso. nia.
  - destruct (busy_all k (List.length (unsent ws k) - 1) i j I1 I2 BI ltac:(lia)) as [B'|Y]; [exfalso|exact Y]. nia.
Qed.

Lemma delivered_soon k j : (k <= j)%nat ->
  tau k + backlog (ws k) * (r + 3 * d) + 3 * d < tau (S j) ->
  exists rest, delivered (w_trace (ws j)) = queued (w_trace (ws k)) ++ rest.
Proof.
  intros L T. pose proof (all_soon k j L T) as M.
  pose proof (evi_all _ (reach_ev_inv _ _ (reach j)) (WA j)) as E.
  destruct (trace_grows O ws ls EN k (j - k)) as [os TR]. replace (k + (j - k))%nat with j in TR by lia.
  rewrite TR in E at 1. rewrite queued_app in E. unfold Fair.sent in M.
  exists (skipn (List.length (queued (w_trace (ws k)))) (delivered (w_trace (ws j)))).
  rewrite <- (firstn_skipn (List.length (queued (w_trace (ws k)))) (delivered (w_trace (ws j)))) at 1. f_equal.
  apply (f_equal (firstn (List.length (queued (w_trace (ws k)))))) in E.
  rewrite !firstn_app, Nat.sub_diag, firstn_all, firstn_O, app_nil_r in E.
  replace (List.length (queued (w_trace (ws k))) - List.length (delivered (w_trace (ws j))))%nat with 0%nat in E by lia.
  rewrite firstn_O, app_nil_r in E. symmetry. exact E.
Qed.
End Report.

Lemma event_reported O ws ls tau d r k j n ev :
  reporting O ws ls tau d r -> 0 <= d -> 0 <= r -> (forall i, events_wanted (w_trace (ws i))) -> (k <= j)%nat ->
  tau k + backlog (ws k) * (r + 3 * d) + 3 * d < tau (S j) ->
  In (OEvent n ev) (w_trace (ws k)) -> exists cmd, In (OEventCmd cmd n ev) (w_trace (ws j)).
Proof.
  intros PR D0 R0 WA L T I. destruct (delivered_soon O ws ls tau d r PR D0 R0 WA k j L T) as [rest E].
  assert (In (n, ev) (delivered (w_trace (ws j)))) as X.
  { rewrite E. apply in_or_app. left. apply in_flat_map. exists (OEvent n ev). split; [exact I|left; reflexivity]. }
  apply in_flat_map in X as (o & IO & M). destruct o; try destruct M.
  - injection H as -> ->. eexists. exact IO.
  - destruct H.
Qed.
