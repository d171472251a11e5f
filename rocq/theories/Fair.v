(** In fair runs everything the server has begun comes to an end. *)
From Verif Require Import Base BaseLemmas Time Utf8 Base64 Url Json Oracles Config Dump State Http Timers Server
  StateLemmas ConfigLemmas Steps Inv Reach Own SpecServer SpecTimers SpecSessions SpecFair Trace Remind Wake Events Sched Sessions Counters.

Lemma do_step O w tid a p e w' :
  reachable O w -> nth_error (w_threads w) tid = Some (PDo a p) -> step O w (LTick tid e) = SNext w' ->
  w' = do_action (set_thread w tid p) a.
Proof.
  intros R A S. destruct (step_ok _ _ _ _ (reach_inv _ _ R) S) as (_ & _ & T & _).
  inversion T as [t1 e1 q lk' p' os N1 C EL EW|t1 e1 q w1 N1 SY EL EW|]; subst.
  - assert (q = PDo a p) as -> by congruence. inversion C.
  - assert (q = PDo a p) as -> by congruence. inversion SY; subst. reflexivity.
Qed.

Lemma own_step O w tid p e w' :
  reachable O w -> nth_error (w_threads w) tid = Some p -> step O w (LTick tid e) = SNext w' ->
  (exists lk' p' os, csr O w e p lk' p' os /\ w' = after_cs w tid lk' p' os) \/ syn w tid e p w'.
Proof.
  intros R A S. destruct (step_ok _ _ _ _ (reach_inv _ _ R) S) as (_ & _ & T & _).
  inversion T as [t1 e1 q lk' p' os N1 C EL EW|t1 e1 q w1 N1 SY EL EW|]; subst.
  - assert (q = p) as -> by congruence. left. exists lk', p', os. auto.
  - assert (q = p) as -> by congruence. right. exact SY.
Qed.

Lemma cv_notified w tid k a :
  (cv_pred (w_ev w) = true -> cv_pred (w_ev (do_action (set_thread w tid k) a)) = true)
  /\ (cv_pred (w_nt w) = true -> cv_pred (w_nt (do_action (set_thread w tid k) a)) = true)
  /\ (cv_pred (w_rf w) = true -> cv_pred (w_rf (do_action (set_thread w tid k) a)) = true).
Proof. destruct a; cbn; auto. Qed.

(** Signals stay set until the thread they are for takes notice. *)
Lemma signals_stay O w l w' :
  reachable O w -> step O w l = SNext w' ->
  ((forall e, l <> LTick 1 e) -> cv_pred (w_ev w) = true -> cv_pred (w_ev w') = true)
  /\ ((forall e, l <> LTick 2 e) -> cv_pred (w_nt w) = true -> cv_pred (w_nt w') = true)
  /\ ((forall e, l <> LTick 3 e) -> cv_pred (w_rf w) = true -> cv_pred (w_rf w') = true).
Proof.
  intros R S. destruct (step_ok _ _ _ _ (reach_inv _ _ R) S) as (_ & _ & T & _).
  pose proof (ro_pc _ (reach_roles _ _ R)) as RO.
  destruct T as [tid e p lk' p' os N C|tid e p w' N SY|https bytes X]; cbn; auto.
  specialize (RO _ _ N). destruct SY; [destruct (cv_notified w tid k a) as (C1 & C2 & C3); auto|..];
    cbn in *; auto; try (repeat split; intros; auto; fail);
    destruct tid as [|[|[|[|tid]]]]; try discriminate RO; repeat split; auto; intros NE; exfalso; eapply NE; reflexivity.
Qed.

(** One step of the eventer. *)
Lemma eventer_next O w e w' p :
  reachable O w -> nth_error (w_threads w) 1 = Some p -> step O w (LTick 1 e) = SNext w' ->
  exists p', nth_error (w_threads w') 1 = Some p' /\
  match p with
  | PEvTop => if cv_pred (w_ev w) then p' = PEvPop else p' = PEvBlocked
  | PEvBlocked => p' = PEvTop /\ cv_pred (w_ev w') = cv_pred (w_ev w)
  | PEvPop => match w_evq w with (n, ev) :: _ => p' = PEvCmd n ev | [] => p' = PEvTop end
  | PEvCmd n ev => match c_token_event_cmd (conf w) with Some cmd => p' = PEvRun cmd n ev | None => p' = PEvTop end
  | PEvRun cmd n ev => p' = PEvRunning /\ w_trace w' = w_trace w ++ [OEventCmd cmd n ev]
  | PEvRunning => p' = PEvPop
  | _ => False
  end.
Proof.
  intros R N S. assert (forall q, nth_error (list_set 1 q (w_threads w)) 1 = Some q) as X
    by (intros q; eapply nth_list_set_same; exact N). pose proof (ro_pc _ (reach_roles _ _ R) _ _ N) as RO. cbn in RO.
  destruct (own_step _ _ _ _ _ _ R N S) as [(lk' & p' & os & C & ->)|SY].
  - exists p'. split; [apply X|].
    destruct C; try discriminate RO; unfold conf.
    + rewrite H. reflexivity.
    + rewrite H. reflexivity.
    + split; reflexivity.
    + reflexivity.
  - destruct SY; try discriminate RO.
    + exfalso. eapply do_not_eventer; [exact R|exact N|reflexivity].
    + exists PEvPop. split; [apply X|]. rewrite H. reflexivity.
    + exists PEvBlocked. split; [apply X|]. rewrite H. reflexivity.
    + exists PEvTop. split; [apply X|]. split; reflexivity.
    + exists (PEvCmd n ev). split; [apply X|]. rewrite H. reflexivity.
    + exists PEvTop. split; [apply X|]. rewrite H. reflexivity.
Qed.

(** One step of the refresher, one of the notifier. *)
Lemma refresher_next O w e w' p :
  reachable O w -> nth_error (w_threads w) 3 = Some p -> step O w (LTick 3 e) = SNext w' ->
  exists p', nth_error (w_threads w') 3 = Some p' /\
  match p with
  | PDo a k => p' = k
  | PRfTop => (exists nw, p' = PRfCheck nw) /\ w_rf w' = w_rf w
  | PRfCheck nw => if wait_or_go e (w_rf w) nw then p' = PRfScan
                   else p' = PRfBlocked nw /\ cv_waiting (w_rf w') = true
  | PRfBlocked nw => p' = PRfCheck nw /\ cv_pred (w_rf w') = cv_pred (w_rf w)
  | PRfScan => True
  | _ => False
  end.
Proof.
  intros R N S. assert (forall q, nth_error (list_set 3 q (w_threads w)) 3 = Some q) as X
    by (intros q; eapply nth_list_set_same; exact N). pose proof (ro_pc _ (reach_roles _ _ R) _ _ N) as RO. cbn in RO.
  destruct (own_step _ _ _ _ _ _ R N S) as [(lk' & p' & os & C & ->)|SY].
  - exists p'. split; [apply X|]. destruct C; try discriminate RO; [|exact I]. split; [eauto|reflexivity].
  - destruct SY; try discriminate RO.
    + exists k. split; [apply do_threads; apply X|reflexivity].
    + exists PRfScan. split; [apply X|]. rewrite H. reflexivity.
    + exists (PRfBlocked nw). split; [apply X|]. rewrite H. split; reflexivity.
    + exists (PRfCheck nw). split; [apply X|]. split; reflexivity.
Qed.

Lemma notifier_next O w e w' p :
  reachable O w -> nth_error (w_threads w) 2 = Some p -> step O w (LTick 2 e) = SNext w' ->
  exists p', nth_error (w_threads w') 2 = Some p' /\
  match p with
  | PDo a k => p' = k
  | PNtTop => (exists nw, p' = PNtCheck nw) /\ w_nt w' = w_nt w
  | PNtCheck nw => if wait_or_go e (w_nt w) nw then p' = PNtScan
                   else p' = PNtBlocked nw /\ cv_waiting (w_nt w') = true
  | PNtBlocked nw => p' = PNtCheck nw /\ cv_pred (w_nt w') = cv_pred (w_nt w)
  | PNtScan => True
  | _ => False
  end.
Proof.
  intros R N S. assert (forall q, nth_error (list_set 2 q (w_threads w)) 2 = Some q) as X
    by (intros q; eapply nth_list_set_same; exact N). pose proof (ro_pc _ (reach_roles _ _ R) _ _ N) as RO. cbn in RO.
  destruct (own_step _ _ _ _ _ _ R N S) as [(lk' & p' & os & C & ->)|SY].
  - exists p'. split; [apply X|]. destruct C; try discriminate RO; [|exact I]. split; [eauto|reflexivity].
  - destruct SY; try discriminate RO.
    + exists k. split; [apply do_threads; apply X|reflexivity].
    + exists PNtScan. split; [apply X|]. rewrite H. reflexivity.
    + exists (PNtBlocked nw). split; [apply X|]. rewrite H. split; reflexivity.
    + exists (PNtCheck nw). split; [apply X|]. split; reflexivity.
Qed.

(** Only the sleeper itself goes to sleep. *)
Lemma naps O w l w' :
  reachable O w -> step O w l = SNext w' ->
  ((forall e, l <> LTick 2 e) -> cv_waiting (w_nt w) = false -> cv_waiting (w_nt w') = false)
  /\ ((forall e, l <> LTick 3 e) -> cv_waiting (w_rf w) = false -> cv_waiting (w_rf w') = false).
Proof.
  intros R S. destruct (step_ok _ _ _ _ (reach_inv _ _ R) S) as (_ & _ & T & _).
  pose proof (ro_pc _ (reach_roles _ _ R)) as RO.
  destruct T as [tid e p lk' p' os N C|tid e p w' N SY|https bytes X]; cbn; auto.
  specialize (RO _ _ N). destruct SY; [destruct a; cbn; auto|..];
    cbn in *; auto; try (repeat split; intros; auto; fail);
    destruct tid as [|[|[|[|tid]]]]; try discriminate RO; repeat split; auto; intros NE; exfalso; eapply NE; reflexivity.
Qed.

Lemma entry_dec (x y : entry) : {x = y} + {x <> y}.
Proof.
  assert (forall a b : str, {a = b} + {a <> b}) as SD by (apply list_eq_dec, Ascii.ascii_dec).
  assert (forall a b : option str, {a = b} + {a <> b}) as OD by (decide equality).
  assert (forall a b : option Z, {a = b} + {a <> b}) as ZD by (decide equality; apply Z.eq_dec).
  assert (forall a b : option N, {a = b} + {a <> b}) as ND by (decide equality; apply N.eq_dec).
  assert (forall a b : url, {a = b} + {a <> b}) as UD by (decide equality).
  assert (forall a b : active, {a = b} + {a <> b}) as AD
    by (decide equality; first [apply Z.eq_dec | apply N.eq_dec | apply Bool.bool_dec]).
  assert (forall a b : tokenstate, {a = b} + {a <> b}) as TD by (decide equality).
  decide equality. apply N.eq_dec.
Qed.

Section Fair.
Variable O : oracles.
Variable ws : nat -> world.
Variable ls : nat -> option label.
Hypothesis EN : endless O ws ls.
Hypothesis FA : fair ws ls.

Lemma reach_at k : reachable O (ws k).
Proof.
  induction k as [|k IH]; [exact (en_start _ _ _ EN)|]. pose proof (en_next _ _ _ EN k) as N.
  destruct (ls k) as [l|]; [eapply reach_step; [exact IH|exact N]|rewrite N; exact IH].
Qed.

Definition at_ (k tid : nat) (p : pc) : Prop := nth_error (w_threads (ws k)) tid = Some p.

Lemma goes_dec k tid : {goes ls k tid} + {~ goes ls k tid}.
Proof.
  unfold goes. destruct (ls k) as [[t e|h b]|].
  - destruct (Nat.eq_dec t tid) as [->|N]; [left; eauto|]. right. intros [e' E]. congruence.
  - right. intros [e' E]. discriminate E.
  - right. intros [e' E]. discriminate E.
Qed.

Lemma at_next k tid p : at_ k tid p -> ~ goes ls k tid -> at_ (S k) tid p.
Proof.
  intros A NG. unfold at_ in *. pose proof (en_next _ _ _ EN k) as N. destruct (ls k) as [l|] eqn:L; [|rewrite N; exact A].
  destruct (step_ok _ _ _ _ (reach_inv _ _ (reach_at k)) N) as (_ & _ & T & _).
  eapply tstep_other; try eassumption. intros e ->. apply NG. exists e. exact L.
Qed.

Lemma at_stays k tid p d : at_ k tid p -> (forall i, k <= i -> i < k + d -> ~ goes ls i tid) -> at_ (k + d) tid p.
Proof.
  intros A. induction d as [|d IH]; intros NG; [rewrite Nat.add_0_r; exact A|].
  rewrite Nat.add_succ_r. apply at_next; [apply IH; intros i L1 L2; apply NG; lia|apply NG; lia].
Qed.

(** The first own step of a thread at or after [k], if there is one before [k + d]. *)
Lemma first_step k tid d :
  (forall i, k <= i -> i < k + d -> ~ goes ls i tid)
  \/ exists j, k <= j /\ j < k + d /\ goes ls j tid /\ forall i, k <= i -> i < j -> ~ goes ls i tid.
Proof.
  induction d as [|d IH]; [left; intros i L1 L2; lia|].
  destruct IH as [NG|(j & L1 & L2 & G & F)]; [|right; exists j; repeat split; try assumption; lia].
  destruct (goes_dec (k + d) tid) as [G|G].
  - right. exists (k + d). repeat split; try assumption; lia.
  - left. intros i L1 L2. destruct (Nat.eq_dec i (k + d)) as [->|N]; [exact G|]. apply NG; lia.
Qed.

(** A thread that has something to do, and keeps it until it makes a step, makes
    a step. *)
Lemma goes_on k tid p :
  at_ k tid p -> (forall j, k <= j -> at_ j tid p -> (forall i, k <= i -> i < j -> ~ goes ls i tid) -> ~ rests (ws j) tid) ->
  exists j, k <= j /\ at_ j tid p /\ goes ls j tid /\ forall i, k <= i -> i < j -> ~ goes ls i tid.
Proof.
  intros A NR. destruct (FA tid k) as (j & L & H).
  { apply nth_error_Some. unfold at_ in A. rewrite A. discriminate. }
  destruct (first_step k tid (S (j - k))) as [NG|(i & L1 & L2 & G & F)].
  - exfalso. assert (at_ j tid p) as AJ.
    { replace j with (k + (j - k)) by lia. apply at_stays; [exact A|]. intros i I1 I2. apply NG; lia. }
    destruct H as [R|G].
    + eapply NR; [exact L|exact AJ|intros i I1 I2; apply NG; lia|exact R].
    + apply (NG j); [lia|lia|exact G].
  - exists i. split; [exact L1|]. split; [|split; [exact G|exact F]].
    replace i with (k + (i - k)) by lia. apply at_stays; [exact A|]. intros x I1 I2. apply F; lia.
Qed.

(** Program points at which a thread never rests. *)
Definition restless (p : pc) : Prop :=
  match p with
  | PDone | PMain | PEvBlocked | PNtBlocked _ | PRfBlocked _ => False
  | _ => True
  end.

Lemma restless_not w tid p : nth_error (w_threads w) tid = Some p -> restless p -> ~ rests w tid.
Proof.
  intros N R H. destruct H as [tid H|H|[H _]|t [H _]|t [H _]]; unfold over in *; rewrite N in H; injection H as ->; exact R.
Qed.

Lemma restless_goes k tid p :
  at_ k tid p -> restless p ->
  exists j, k <= j /\ at_ j tid p /\ goes ls j tid /\ forall i, k <= i -> i < j -> ~ goes ls i tid.
Proof. intros A R. apply goes_on; [exact A|]. intros j _ AJ _. eapply restless_not; eassumption. Qed.

Lemma step_at j tid : goes ls j tid -> exists e, step O (ws j) (LTick tid e) = SNext (ws (S j)) /\ ls j = Some (LTick tid e).
Proof. intros [e E]. exists e. pose proof (en_next _ _ _ EN j) as N. rewrite E in N. auto. Qed.

(** * Browser connections and refreshes end *)

Lemma worker_restless p : pc_role p = RoWorker -> p = PDone \/ restless p.
Proof. destruct p; cbn; intros H; try discriminate H; auto. Qed.

Lemma workers_end n : forall k tid p,
  left p <= n -> at_ k tid p -> pc_role p = RoWorker -> exists j, k <= j /\ over (ws j) tid.
Proof.
  induction n as [|n IH]; intros k tid p L A RO.
  - destruct (worker_restless p RO) as [->|RL]; [exists k; split; [lia|exact A]|].
    destruct (restless_goes k tid p A RL) as (j & LJ & AJ & G & _).
    destruct (step_at j tid G) as (e & S & _).
    destruct (worker_step _ _ _ _ _ _ (reach_at j) AJ RO S) as (p1 & os & M & _ & _).
    pose proof (moves_left _ _ _ _ _ _ M RO). lia.
  - destruct (worker_restless p RO) as [->|RL]; [exists k; split; [lia|exact A]|].
    destruct (restless_goes k tid p A RL) as (j & LJ & AJ & G & _).
    destruct (step_at j tid G) as (e & S & _).
    destruct (worker_step _ _ _ _ _ _ (reach_at j) AJ RO S) as (p1 & os & M & N1 & _).
    pose proof (moves_left _ _ _ _ _ _ M RO).
    destruct (IH (Datatypes.S j) tid p1) as (i & LI & OV); [lia|exact N1|rewrite (moves_role _ _ _ _ _ _ M); exact RO|].
    exists i. split; [lia|exact OV].
Qed.

Lemma role_at k tid p : at_ k tid p -> pc_role p = tid_role tid.
Proof. intros A. apply (ro_pc _ (reach_roles _ _ (reach_at k))). exact A. Qed.

Lemma thread_ends k tid : 4 <= tid -> tid < List.length (w_threads (ws k)) -> exists j, k <= j /\ over (ws j) tid.
Proof.
  intros L1 L2. destruct (nth_error (w_threads (ws k)) tid) as [p|] eqn:N; [|apply nth_error_None in N; lia].
  eapply workers_end; [reflexivity|exact N|]. rewrite (role_at k tid p N).
  destruct tid as [|[|[|[|tid]]]]; try reflexivity; lia.
Qed.

(** * What a thread is about to do gets done *)

Lemma done_next j tid a p e :
  at_ j tid (PDo a p) -> step O (ws j) (LTick tid e) = SNext (ws (S j)) ->
  ws (S j) = do_action (set_thread (ws j) tid p) a /\ at_ (S j) tid p.
Proof.
  intros A S. assert (ws (Datatypes.S j) = do_action (set_thread (ws j) tid p) a) as E.
  { eapply do_step; [apply reach_at|exact A|exact S]. }
  split; [exact E|]. unfold at_. rewrite E. apply do_threads. eapply nth_list_set_same. exact A.
Qed.

Lemma chain_goes p : forall k tid a,
  at_ k tid p -> In a (chain p) ->
  exists j p', k <= j /\ at_ j tid (PDo a p') /\ goes ls j tid /\ ws (S j) = do_action (set_thread (ws j) tid p') a.
Proof.
  induction p; intros k tid b A I; try (destruct I; fail).
  destruct (restless_goes k tid _ A Logic.I) as (j & LJ & AJ & G & _).
  destruct (step_at j tid G) as (e & S & _). destruct (done_next _ _ _ _ _ AJ S) as [W N].
  destruct I as [->|I].
  - exists j, p. auto.
  - destruct (IHp _ _ _ N I) as (i & p' & LI & X). exists i, p'. split; [lia|exact X].
Qed.

Lemma under_way_done k a :
  under_way (ws k) a ->
  exists j tid p', k <= j /\ at_ j tid (PDo a p') /\ goes ls j tid /\ ws (S j) = do_action (set_thread (ws j) tid p') a.
Proof.
  intros (tid & p & N & I). rewrite will_do_chain in I. destruct (chain_goes _ _ _ _ N I) as (j & p' & X).
  exists j, tid, p'. exact X.
Qed.

Lemma said_done k o : under_way (ws k) (AEmit o) -> exists j, k <= j /\ observed ws j = [o].
Proof.
  intros U. destruct (under_way_done k _ U) as (j & tid & p' & L & _ & _ & W). exists j. split; [exact L|].
  unfold observed. rewrite W, do_action_trace. apply skipn_trace.
Qed.

Fixpoint chain_end (p : pc) : pc := match p with PDo _ k => chain_end k | _ => p end.

Lemma chain_over p : forall k tid, at_ k tid p -> exists j, k <= j /\ at_ j tid (chain_end p).
Proof.
  induction p; intros k' tid A; try (exists k'; split; [lia|exact A]).
  destruct (restless_goes k' tid _ A Logic.I) as (j & LJ & AJ & G & _).
  destruct (step_at j tid G) as (e & S & _). destruct (done_next _ _ _ _ _ AJ S) as [_ N].
  destruct (IHp _ _ N) as (i & LI & X). exists i. split; [lia|exact X].
Qed.

Lemma chain_end_role p : pc_role (chain_end p) = pc_role p.
Proof. induction p; try reflexivity. exact IHp. Qed.

Lemma chain_end_do p a q : chain_end p <> PDo a q.
Proof. induction p; try discriminate. exact IHp. Qed.

Lemma main_returns k : exists j, k <= j /\ at_ j 0 PMain.
Proof.
  pose proof (ro_len _ (reach_roles _ _ (reach_at k))) as L.
  destruct (nth_error (w_threads (ws k)) 0) as [p|] eqn:N; [|apply nth_error_None in N; lia].
  destruct (chain_over _ _ _ N) as (j & LJ & A). exists j. split; [exact LJ|].
  pose proof (role_at _ _ _ A) as R. cbn in R.
  destruct (chain_end p) eqn:C; try discriminate R; [|exact A]. destruct (chain_end_do _ _ _ C).
Qed.

(** * Events *)

Lemma trace_grows k d : exists os, w_trace (ws (k + d)) = w_trace (ws k) ++ os.
Proof.
  induction d as [|d [os IH]]; [exists []; rewrite Nat.add_0_r, app_nil_r; reflexivity|].
  rewrite Nat.add_succ_r. pose proof (en_next _ _ _ EN (k + d)) as N. destruct (ls (k + d)) as [l|].
  - destruct (step_ok _ _ _ _ (reach_inv _ _ (reach_at (k + d))) N) as (_ & _ & T & _).
    destruct (tstep_trace _ _ _ _ T) as [os' E]. rewrite E, IH. exists (os ++ os'). rewrite app_assoc. reflexivity.
  - rewrite N. exists os. exact IH.
Qed.

Hypothesis WA : forall k, events_wanted (w_trace (ws k)).

Definition unsent (k : nat) : list (str * token_event) := in_hand (ev_pc (ws k)) ++ w_evq (ws k).
Definition sent (k : nat) : nat := List.length (delivered (w_trace (ws k))).

Lemma sent_unsent k : List.length (queued (w_trace (ws k))) = sent k + List.length (unsent k).
Proof.
  unfold sent, unsent. rewrite (evi_all _ (reach_ev_inv _ _ (reach_at k)) (WA k)), app_length. reflexivity.
Qed.

Lemma counts_grow k j : k <= j ->
  sent k <= sent j /\ List.length (queued (w_trace (ws k))) <= List.length (queued (w_trace (ws j))).
Proof.
  intros L. replace j with (k + (j - k)) by lia. destruct (trace_grows k (j - k)) as [os E]. unfold sent.
  rewrite E, queued_app, delivered_app, !app_length. lia.
Qed.

Lemma still_unsent m k : m < List.length (queued (w_trace (ws k))) -> forall j, k <= j -> m < sent j \/ unsent j <> [].
Proof.
  intros L j LJ. destruct (counts_grow k j LJ) as [_ Q]. pose proof (sent_unsent j) as E.
  destruct (unsent j) as [|x l]; [left; cbn in E; lia|right; discriminate].
Qed.

(** A signal stays set until the thread goes. *)
Lemma ev_pred_stays k d : cv_pred (w_ev (ws k)) = true -> (forall i, k <= i -> i < k + d -> ~ goes ls i 1) ->
  cv_pred (w_ev (ws (k + d))) = true.
Proof.
  intros P. induction d as [|d IH]; intros NG; [rewrite Nat.add_0_r; exact P|].
  rewrite Nat.add_succ_r. pose proof (en_next _ _ _ EN (k + d)) as N. destruct (ls (k + d)) as [l|] eqn:L.
  - apply (proj1 (signals_stay _ _ _ _ (reach_at (k + d)) N)).
    + intros e ->. apply (NG (k + d)); [lia|lia|]. exists e. exact L.
    + apply IH. intros i I1 I2. apply NG; lia.
  - rewrite N. apply IH. intros i I1 I2. apply NG; lia.
Qed.

Section Sent.
Variable k m : nat.
Hypothesis QM : m < List.length (queued (w_trace (ws k))).

Let goal := exists j, k <= j /\ m < sent j.

Lemma run_sent j cmd n ev : k <= j -> at_ j 1 (PEvRun cmd n ev) -> m <= sent j -> goal.
Proof.
  intros LJ A M. destruct (restless_goes _ _ _ A Logic.I) as (i & LI & AI & G & _).
  destruct (step_at _ _ G) as (e & S & _).
  destruct (eventer_next _ _ _ _ _ (reach_at i) AI S) as (p' & _ & _ & TR).
  exists (Datatypes.S i). split; [lia|]. unfold sent. rewrite TR, delivered_app, app_length. cbn.
  destruct (counts_grow j i LI) as [X _]. unfold sent in *. lia.
Qed.

Lemma cmd_sent j n ev : k <= j -> at_ j 1 (PEvCmd n ev) -> m <= sent j -> goal.
Proof.
  intros LJ A M. destruct (restless_goes _ _ _ A Logic.I) as (i & LI & AI & G & _).
  destruct (step_at _ _ G) as (e & S & _).
  destruct (eventer_next _ _ _ _ _ (reach_at i) AI S) as (p' & N & E). cbn in E.
  destruct (c_token_event_cmd (conf (ws i))) as [cmd|] eqn:C.
  - subst p'. eapply run_sent; [|exact N|]; [lia|]. destruct (counts_grow j (Datatypes.S i)) as [X _]; lia.
  - exfalso. eapply (WA i); [|exact C]. apply config_at_in. apply (reach_config_at _ _ (reach_at i)).
Qed.

Lemma pop_sent j : k <= j -> at_ j 1 PEvPop -> m <= sent j -> goal.
Proof.
  intros LJ A M. destruct (restless_goes _ _ _ A Logic.I) as (i & LI & AI & G & _).
  destruct (still_unsent m k QM i ltac:(lia)) as [Y|U]; [exists i; split; [lia|exact Y]|].
  destruct (step_at _ _ G) as (e & S & _).
  destruct (eventer_next _ _ _ _ _ (reach_at i) AI S) as (p' & N & E). cbn in E.
  unfold unsent in U. pose proof (ev_pc_nth _ _ (reach_at i)) as EP. unfold at_ in AI. rewrite AI in EP. injection EP as EP.
  rewrite <- EP in U. cbn in U. destruct (w_evq (ws i)) as [|[n ev] q]; [contradiction|].
  subst p'. eapply cmd_sent; [|exact N|]; [lia|]. destruct (counts_grow j (Datatypes.S i)) as [X _]; lia.
Qed.

Lemma running_sent j : k <= j -> at_ j 1 PEvRunning -> m <= sent j -> goal.
Proof.
  intros LJ A M. destruct (restless_goes _ _ _ A Logic.I) as (i & LI & AI & G & _).
  destruct (step_at _ _ G) as (e & S & _).
  destruct (eventer_next _ _ _ _ _ (reach_at i) AI S) as (p' & N & E). cbn in E. subst p'.
  eapply pop_sent; [|exact N|]; [lia|]. destruct (counts_grow j (Datatypes.S i)) as [X _]; lia.
Qed.

Lemma top_sent j : k <= j -> at_ j 1 PEvTop -> cv_pred (w_ev (ws j)) = true -> m <= sent j -> goal.
Proof.
  intros LJ A P M. destruct (restless_goes _ _ _ A Logic.I) as (i & LI & AI & G & F).
  assert (cv_pred (w_ev (ws i)) = true) as PI.
  { replace i with (j + (i - j)) by lia. apply ev_pred_stays; [exact P|]. intros x X1 X2. apply F; lia. }
  destruct (step_at _ _ G) as (e & S & _).
  destruct (eventer_next _ _ _ _ _ (reach_at i) AI S) as (p' & N & E). cbn in E. rewrite PI in E. subst p'.
  eapply pop_sent; [|exact N|]; [lia|]. destruct (counts_grow j (Datatypes.S i)) as [X _]; lia.
Qed.

Lemma blocked_sent j : k <= j -> at_ j 1 PEvBlocked -> cv_pred (w_ev (ws j)) = true -> m <= sent j -> goal.
Proof.
  intros LJ A P M. assert (forall i, j <= i -> (forall x, j <= x -> x < i -> ~ goes ls x 1) -> cv_pred (w_ev (ws i)) = true) as ST.
  { intros i LI F. replace i with (j + (i - j)) by lia. apply ev_pred_stays; [exact P|]. intros x X1 X2. apply F; lia. }
  destruct (goes_on _ _ _ A) as (i & LI & AI & G & F).
  { intros i LI AI F RE. specialize (ST i LI F). pose proof (proj1 (reach_cv _ _ (reach_at i))) as CV.
    inversion RE as [t OV|AM|[_ W]|t E1|t E1]; subst.
    - unfold over in OV. unfold at_ in AI. congruence.
    - specialize (CV W). congruence. }
  destruct (step_at _ _ G) as (e & S & _).
  destruct (eventer_next _ _ _ _ _ (reach_at i) AI S) as (p' & N & E & PE). subst p'.
  eapply top_sent; [|exact N| |]; [lia|rewrite PE; apply ST; assumption|].
  destruct (counts_grow j (Datatypes.S i)) as [X _]; lia.
Qed.

Lemma signalled_sent j : k <= j -> cv_pred (w_ev (ws j)) = true -> m <= sent j -> goal.
Proof.
  intros LJ P M. pose proof (ev_pc_nth _ _ (reach_at j)) as A. change (at_ j 1 (ev_pc (ws j))) in A.
  pose proof (role_at _ _ _ A) as RO. destruct (ev_pc (ws j)) eqn:E; try discriminate RO.
  - exfalso. eapply do_not_eventer; [apply (reach_at j)|exact A|reflexivity].
  - eapply top_sent; eassumption.
  - eapply blocked_sent; eassumption.
  - eapply pop_sent; eassumption.
  - eapply cmd_sent; eassumption.
  - eapply run_sent; eassumption.
  - eapply running_sent; eassumption.
Qed.

Lemma next_sent j : k <= j -> m <= sent j -> goal.
Proof.
  intros LJ M. destruct (still_unsent m k QM j LJ) as [Y|U]; [exists j; auto|].
  pose proof (ev_pc_nth _ _ (reach_at j)) as A. change (at_ j 1 (ev_pc (ws j))) in A.
  pose proof (role_at _ _ _ A) as RO. unfold unsent in U. pose proof (reach_ev_awake _ _ (reach_at j)) as AW.
  assert ((ev_pc (ws j) = PEvTop \/ ev_pc (ws j) = PEvBlocked) -> w_evq (ws j) <> [] -> goal) as SL.
  { intros EP NE. destruct (AW EP (WA j)) as [Z|[P|UW]]; [contradiction|eapply signalled_sent; eassumption|].
    destruct (under_way_done _ _ UW) as (i & tid & p' & LI & _ & _ & W).
    eapply (signalled_sent (S i)); [lia|rewrite W; reflexivity|].
    destruct (counts_grow j (S i)) as [X _]; lia. }
  destruct (ev_pc (ws j)) eqn:E; try discriminate RO.
  - exfalso. eapply do_not_eventer; [apply (reach_at j)|exact A|reflexivity].
  - apply SL; auto.
  - apply SL; auto.
  - eapply pop_sent; eassumption.
  - eapply cmd_sent; eassumption.
  - eapply run_sent; eassumption.
  - eapply running_sent; eassumption.
Qed.
End Sent.

Lemma all_sent k m : m <= List.length (queued (w_trace (ws k))) -> exists j, k <= j /\ m <= sent j.
Proof.
  induction m as [|m IH]; intros L; [exists k; split; lia|].
  destruct (IH ltac:(lia)) as (j & LJ & M). apply (next_sent k m L j LJ M).
Qed.

Lemma events_get_delivered k : exists j rest, k <= j /\ delivered (w_trace (ws j)) = queued (w_trace (ws k)) ++ rest.
Proof.
  destruct (all_sent k (List.length (queued (w_trace (ws k)))) (le_n _)) as (j & LJ & M).
  exists j. pose proof (evi_all _ (reach_ev_inv _ _ (reach_at j)) (WA j)) as E.
  destruct (trace_grows k (j - k)) as [os T]. replace (k + (j - k)) with j in T by lia.
  rewrite T in E at 1. rewrite queued_app in E. unfold sent in M.
  exists (skipn (List.length (queued (w_trace (ws k)))) (delivered (w_trace (ws j)))). split; [exact LJ|].
  rewrite <- (firstn_skipn (List.length (queued (w_trace (ws k)))) (delivered (w_trace (ws j)))) at 1. f_equal.
  apply (f_equal (firstn (List.length (queued (w_trace (ws k)))))) in E.
  rewrite !firstn_app, Nat.sub_diag, firstn_all, firstn_O, app_nil_r in E.
  replace (List.length (queued (w_trace (ws k))) - List.length (delivered (w_trace (ws j)))) with 0 in E by lia.
  rewrite firstn_O, app_nil_r in E. symmetry. exact E.
Qed.

(** * The refresher looks *)

Hypothesis TI : timely ws ls.

Lemma rf_pred_stays k d : cv_pred (w_rf (ws k)) = true -> (forall i, k <= i -> i < k + d -> ~ goes ls i 3) ->
  cv_pred (w_rf (ws (k + d))) = true.
Proof.
  intros P. induction d as [|d IH]; intros NG; [rewrite Nat.add_0_r; exact P|].
  rewrite Nat.add_succ_r. pose proof (en_next _ _ _ EN (k + d)) as N. destruct (ls (k + d)) as [l|] eqn:L.
  - apply (proj2 (proj2 (signals_stay _ _ _ _ (reach_at (k + d)) N))).
    + intros e ->. apply (NG (k + d)); [lia|lia|]. exists e. exact L.
    + apply IH. intros i I1 I2. apply NG; lia.
  - rewrite N. apply IH. intros i I1 I2. apply NG; lia.
Qed.

Lemma rf_nap_stays k d : cv_waiting (w_rf (ws k)) = false -> (forall i, k <= i -> i < k + d -> ~ goes ls i 3) ->
  cv_waiting (w_rf (ws (k + d))) = false.
Proof.
  intros P. induction d as [|d IH]; intros NG; [rewrite Nat.add_0_r; exact P|].
  rewrite Nat.add_succ_r. pose proof (en_next _ _ _ EN (k + d)) as N. destruct (ls (k + d)) as [l|] eqn:L.
  - apply (proj2 (naps _ _ _ _ (reach_at (k + d)) N)).
    + intros e ->. apply (NG (k + d)); [lia|lia|]. exists e. exact L.
    + apply IH. intros i I1 I2. apply NG; lia.
  - rewrite N. apply IH. intros i I1 I2. apply NG; lia.
Qed.

Definition rf_scan_from (j : nat) : Prop := exists i, j <= i /\ at_ i 3 PRfScan.

Lemma rf_later j i : j <= i -> rf_scan_from i -> rf_scan_from j.
Proof. intros L (x & LX & A). exists x. split; [lia|exact A]. Qed.

Lemma rf_check_signalled j nw : at_ j 3 (PRfCheck nw) -> cv_pred (w_rf (ws j)) = true -> rf_scan_from j.
Proof.
  intros A P. destruct (restless_goes _ _ _ A Logic.I) as (i & LI & AI & G & F).
  assert (cv_pred (w_rf (ws i)) = true) as PI.
  { replace i with (j + (i - j)) by lia. apply rf_pred_stays; [exact P|]. intros x X1 X2. apply F; lia. }
  destruct (step_at _ _ G) as (e & S & _).
  destruct (refresher_next _ _ _ _ _ (reach_at i) AI S) as (p' & N & E). cbn in E.
  unfold wait_or_go in E. rewrite PI in E. cbn in E. subst p'. exists (Datatypes.S i). split; [lia|exact N].
Qed.

Lemma rf_not_resting i nw : at_ i 3 (PRfBlocked nw) -> cv_waiting (w_rf (ws i)) = false -> ~ rests (ws i) 3.
Proof.
  intros A W RE. inversion RE as [t OV|AM|E1|t E1|t [_ E1]]; subst.
  - unfold over in OV. unfold at_ in A. congruence.
  - congruence.
Qed.

Lemma rf_blocked_signalled j nw : at_ j 3 (PRfBlocked nw) -> cv_pred (w_rf (ws j)) = true -> rf_scan_from j.
Proof.
  intros A P. assert (forall i, j <= i -> (forall x, j <= x -> x < i -> ~ goes ls x 3) -> cv_pred (w_rf (ws i)) = true) as ST.
  { intros i LI F. replace i with (j + (i - j)) by lia. apply rf_pred_stays; [exact P|]. intros x X1 X2. apply F; lia. }
  destruct (goes_on _ _ _ A) as (i & LI & AI & G & F).
  { intros i LI AI F. apply (rf_not_resting i nw AI). pose proof (proj2 (proj2 (reach_cv _ _ (reach_at i)))) as CV.
    destruct (cv_waiting (w_rf (ws i))) eqn:W; [|reflexivity]. unfold cv_ok in CV. rewrite (ST i LI F) in CV. discriminate (CV W). }
  destruct (step_at _ _ G) as (e & S & _).
  destruct (refresher_next _ _ _ _ _ (reach_at i) AI S) as (p' & N & E & PE). subst p'.
  apply (rf_later j (Datatypes.S i)); [lia|]. eapply rf_check_signalled; [exact N|]. rewrite PE. apply ST; assumption.
Qed.

Lemma rf_top_signalled j : at_ j 3 PRfTop -> cv_pred (w_rf (ws j)) = true -> rf_scan_from j.
Proof.
  intros A P. destruct (restless_goes _ _ _ A Logic.I) as (i & LI & AI & G & F).
  assert (cv_pred (w_rf (ws i)) = true) as PI.
  { replace i with (j + (i - j)) by lia. apply rf_pred_stays; [exact P|]. intros x X1 X2. apply F; lia. }
  destruct (step_at _ _ G) as (e & S & _).
  destruct (refresher_next _ _ _ _ _ (reach_at i) AI S) as (p' & N & (nw & E) & PE). subst p'.
  apply (rf_later j (Datatypes.S i)); [lia|]. eapply rf_check_signalled; [exact N|]. rewrite PE. exact PI.
Qed.

Lemma rf_signalled p : forall j, at_ j 3 p -> cv_pred (w_rf (ws j)) = true -> rf_scan_from j.
Proof.
  induction p; intros j A P; pose proof (role_at _ _ _ A) as RO; try discriminate RO.
  - destruct (restless_goes _ _ _ A Logic.I) as (i & LI & AI & G & F).
    assert (cv_pred (w_rf (ws i)) = true) as PI.
    { replace i with (j + (i - j)) by lia. apply rf_pred_stays; [exact P|]. intros x X1 X2. apply F; lia. }
    destruct (step_at _ _ G) as (e & S & _). destruct (done_next _ _ _ _ _ AI S) as [W N].
    apply (rf_later j (Datatypes.S i)); [lia|]. apply IHp; [exact N|]. rewrite W. apply cv_notified. exact PI.
  - apply rf_top_signalled; assumption.
  - eapply rf_check_signalled; eassumption.
  - eapply rf_blocked_signalled; eassumption.
  - exists j. split; [lia|exact A].
Qed.

Lemma rf_at j : exists p, at_ j 3 p.
Proof.
  pose proof (ro_len _ (reach_roles _ _ (reach_at j))) as L. unfold at_.
  destruct (nth_error (w_threads (ws j)) 3) as [p|] eqn:N; [eauto|apply nth_error_None in N; lia].
Qed.

Definition rf_until (j : nat) (d : Z) : Prop := at_ j 3 (PRfCheck (Some d)) \/ at_ j 3 (PRfBlocked (Some d)).

(** Until it looks it stays where it is. *)
Lemma rf_until_stays j d n : rf_until j d -> rf_scan_from j \/ rf_until (j + n) d.
Proof.
  intros U. induction n as [|n IH]; [right; rewrite Nat.add_0_r; exact U|].
  destruct IH as [SC|U']; [left; exact SC|]. rewrite Nat.add_succ_r.
  destruct (goes_dec (j + n) 3) as [G|NG].
  - destruct (step_at _ _ G) as (e & S & _). destruct U' as [A|A].
    + destruct (refresher_next _ _ _ _ _ (reach_at (j + n)) A S) as (p' & N & E). cbn in E.
      destruct (wait_or_go e (w_rf (ws (j + n))) (Some d)).
      * subst p'. left. exists (Datatypes.S (j + n)). split; [lia|exact N].
      * destruct E as [-> _]. right. right. exact N.
    + destruct (refresher_next _ _ _ _ _ (reach_at (j + n)) A S) as (p' & N & -> & _). right. left. exact N.
  - right. destruct U' as [A|A]; [left|right]; apply at_next; assumption.
Qed.

(** Waking up. *)
Lemma rf_wakes j d : at_ j 3 (PRfBlocked (Some d)) ->
  exists i, j <= i /\ at_ i 3 (PRfCheck (Some d)).
Proof.
  intros A.
  assert (forall i, at_ i 3 (PRfBlocked (Some d)) -> cv_waiting (w_rf (ws i)) = false ->
          exists x, i <= x /\ at_ x 3 (PRfCheck (Some d))) as AW.
  { intros i AI W. destruct (goes_on _ _ _ AI) as (x & LX & AX & G & F).
    { intros x LX AX F. apply (rf_not_resting x (Some d) AX).
      replace x with (i + (x - i)) by lia. apply rf_nap_stays; [exact W|]. intros y Y1 Y2. apply F; lia. }
    destruct (step_at _ _ G) as (e & S & _).
    destruct (refresher_next _ _ _ _ _ (reach_at x) AX S) as (p' & N & -> & _).
    exists (Datatypes.S x). split; [lia|exact N]. }
  destruct (cv_waiting (w_rf (ws j))) eqn:W; [|apply AW; assumption].
  destruct (proj1 (TI j d)) as [_ (i & LI & NS)]; [split; assumption|].
  destruct (first_step j 3 (i - j)) as [NG|(x & L1 & L2 & G & F)].
  - assert (at_ i 3 (PRfBlocked (Some d))) as AI.
    { replace i with (j + (i - j)) by lia. apply at_stays; assumption. }
    destruct (AW i AI) as (x & LX & AX); [|exists x; split; [lia|exact AX]].
    destruct (cv_waiting (w_rf (ws i))) eqn:WI; [|reflexivity]. exfalso. apply NS. split; assumption.
  - assert (at_ x 3 (PRfBlocked (Some d))) as AX.
    { replace x with (j + (x - j)) by lia. apply at_stays; [exact A|]. intros y Y1 Y2. apply F; lia. }
    destruct (step_at _ _ G) as (e & S & _).
    destruct (refresher_next _ _ _ _ _ (reach_at x) AX S) as (p' & N & -> & _).
    exists (Datatypes.S x). split; [lia|exact N].
Qed.

Lemma rf_late_check j d k0 : (forall k tid e i, k0 <= k -> ls k = Some (LTick tid e) -> (d < ri1 (e_clk e i))%Z) ->
  k0 <= j -> at_ j 3 (PRfCheck (Some d)) -> rf_scan_from j.
Proof.
  intros PS LJ A. destruct (restless_goes _ _ _ A Logic.I) as (i & LI & AI & G & F).
  destruct (step_at _ _ G) as (e & S & LS).
  destruct (refresher_next _ _ _ _ _ (reach_at i) AI S) as (p' & N & E). cbn in E.
  assert (wait_or_go e (w_rf (ws i)) (Some d) = true) as WG.
  { unfold wait_or_go. apply orb_true_iff. right. apply Z.ltb_lt. apply (PS i 3 e 0); [lia|exact LS]. }
  rewrite WG in E. subst p'. exists (Datatypes.S i). split; [lia|exact N].
Qed.

Lemma rf_late j d : passes ls d -> rf_until j d -> rf_scan_from j.
Proof.
  intros [k0 PS] U. destruct (rf_until_stays j d k0 U) as [SC|[A|A]]; [exact SC| |].
  - apply (rf_later j (j + k0)); [lia|]. eapply rf_late_check; [exact PS| |exact A]. lia.
  - destruct (rf_wakes _ _ A) as (i & LI & AI). apply (rf_later j i); [lia|].
    eapply rf_late_check; [exact PS| |exact AI]. lia.
Qed.

Lemma rf_timed j d : rf_until j d -> rf_scan_from j.
Proof.
  assert (forall i, at_ i 3 (PRfCheck (Some d)) -> rf_scan_from i) as CH.
  { intros i A. destruct (restless_goes _ _ _ A Logic.I) as (x & LX & AX & G & F).
    destruct (step_at _ _ G) as (e & S & _).
    destruct (refresher_next _ _ _ _ _ (reach_at x) AX S) as (p' & N & E). cbn in E.
    destruct (wait_or_go e (w_rf (ws x)) (Some d)).
    - subst p'. exists (Datatypes.S x). split; [lia|exact N].
    - destruct E as [-> W]. apply (rf_later i (Datatypes.S x)); [lia|]. apply (rf_late _ d); [|right; exact N].
      apply (proj1 (TI (Datatypes.S x) d)). split; assumption. }
  intros [A|A]; [apply CH; exact A|]. destruct (rf_wakes _ _ A) as (i & LI & AI).
  apply (rf_later j i LI). apply CH. exact AI.
Qed.

Section Refresh.
Variable k : nat.
Variable e0 : entry.
Variable a : active.
Hypothesis ACT : d_ts e0 = TSActive a.
Hypothesis IDLE : ongoing a = false.

Definition gone : Prop := exists j, k <= j /\ ~ In e0 (details (w_lk (ws j))).

Lemma there j : k <= j -> gone \/ In e0 (details (w_lk (ws j))).
Proof.
  intros L. destruct (in_dec entry_dec e0 (details (w_lk (ws j)))) as [I|N]; [right; exact I|].
  left. exists j. auto.
Qed.

Lemma idle_due act c now : exists t, refresh_due act c now a = Some t.
Proof.
  unfold refresh_due. rewrite IDLE.
  destruct (match last_attempt a with Some l => checked_add l (act_refresh_retry act c) | None => None end); [eauto|].
  destruct (checked_add (obtained a) (act_refresh_at_least act c)); eauto.
Qed.

Lemma rf_waiting j nw p : k <= j -> at_ j 3 p -> rf_waits p = Some nw -> gone \/ rf_scan_from j.
Proof.
  intros L A W. destruct (there j L) as [G|I]; [left; exact G|]. right.
  destruct (reach_rf_awake _ _ (reach_at j) p nw A W) as [P|[UW|SA]].
  - eapply rf_signalled; eassumption.
  - destruct (under_way_done _ _ UW) as (i & tid & p' & LI & _ & _ & WI). apply (rf_later j (S i)); [lia|].
    destruct (rf_at (S i)) as [q AQ]. eapply rf_signalled; [exact AQ|]. rewrite WI. reflexivity.
  - destruct (get_account O (ws j) (reach_inv _ _ (reach_at j)) e0 I) as (act & AC & _ & _).
    destruct (idle_due act (lconfig (w_lk (ws j))) 0%Z) as [t D].
    destruct (SA e0 act a 0%Z t I AC ACT D) as (d & -> & _). apply (rf_timed j d).
    destruct p; try discriminate W; injection W as ->; [left|right]; exact A.
Qed.

Lemma rf_top j : k <= j -> at_ j 3 PRfTop -> gone \/ rf_scan_from j.
Proof.
  intros L A. destruct (restless_goes _ _ _ A Logic.I) as (i & LI & AI & G & F).
  destruct (step_at _ _ G) as (e & S & _).
  destruct (refresher_next _ _ _ _ _ (reach_at i) AI S) as (p' & N & (nw & E) & _). subst p'.
  destruct (rf_waiting (Datatypes.S i) nw _ ltac:(lia) N eq_refl) as [GO|SC]; [left; exact GO|].
  right. apply (rf_later j (Datatypes.S i)); [lia|exact SC].
Qed.

Lemma rf_looks j : k <= j -> gone \/ rf_scan_from j.
Proof.
  intros L. destruct (rf_at j) as [p A]. destruct (chain_over _ _ _ A) as (i & LI & AI).
  pose proof (role_at _ _ _ AI) as RO. cbn in RO.
  assert (gone \/ rf_scan_from i) as X.
  { destruct (chain_end p) eqn:C; try discriminate RO.
    - destruct (chain_end_do _ _ _ C).
    - apply rf_top; [lia|exact AI].
    - eapply rf_waiting; [lia|exact AI|reflexivity].
    - eapply rf_waiting; [lia|exact AI|reflexivity].
    - right. exists i. split; [lia|exact AI]. }
  destruct X as [G|SC]; [left; exact G|right; apply (rf_later j i LI SC)].
Qed.
End Refresh.

(** * The notifier looks *)

Lemma nt_pred_stays k d : cv_pred (w_nt (ws k)) = true -> (forall i, k <= i -> i < k + d -> ~ goes ls i 2) ->
  cv_pred (w_nt (ws (k + d))) = true.
Proof.
  intros P. induction d as [|d IH]; intros NG; [rewrite Nat.add_0_r; exact P|].
  rewrite Nat.add_succ_r. pose proof (en_next _ _ _ EN (k + d)) as N. destruct (ls (k + d)) as [l|] eqn:L.
  - apply (proj1 (proj2 (signals_stay _ _ _ _ (reach_at (k + d)) N))).
    + intros e ->. apply (NG (k + d)); [lia|lia|]. exists e. exact L.
    + apply IH. intros i I1 I2. apply NG; lia.
  - rewrite N. apply IH. intros i I1 I2. apply NG; lia.
Qed.

Lemma nt_nap_stays k d : cv_waiting (w_nt (ws k)) = false -> (forall i, k <= i -> i < k + d -> ~ goes ls i 2) ->
  cv_waiting (w_nt (ws (k + d))) = false.
Proof.
  intros P. induction d as [|d IH]; intros NG; [rewrite Nat.add_0_r; exact P|].
  rewrite Nat.add_succ_r. pose proof (en_next _ _ _ EN (k + d)) as N. destruct (ls (k + d)) as [l|] eqn:L.
  - apply (proj1 (naps _ _ _ _ (reach_at (k + d)) N)).
    + intros e ->. apply (NG (k + d)); [lia|lia|]. exists e. exact L.
    + apply IH. intros i I1 I2. apply NG; lia.
  - rewrite N. apply IH. intros i I1 I2. apply NG; lia.
Qed.

Definition nt_scan_from (j : nat) : Prop := exists i, j <= i /\ at_ i 2 PNtScan.

Lemma nt_later j i : j <= i -> nt_scan_from i -> nt_scan_from j.
Proof. intros L (x & LX & A). exists x. split; [lia|exact A]. Qed.

Lemma nt_check_signalled j nw : at_ j 2 (PNtCheck nw) -> cv_pred (w_nt (ws j)) = true -> nt_scan_from j.
Proof.
  intros A P. destruct (restless_goes _ _ _ A Logic.I) as (i & LI & AI & G & F).
  assert (cv_pred (w_nt (ws i)) = true) as PI.
  { replace i with (j + (i - j)) by lia. apply nt_pred_stays; [exact P|]. intros x X1 X2. apply F; lia. }
  destruct (step_at _ _ G) as (e & S & _).
  destruct (notifier_next _ _ _ _ _ (reach_at i) AI S) as (p' & N & E). cbn in E.
  unfold wait_or_go in E. rewrite PI in E. cbn in E. subst p'. exists (Datatypes.S i). split; [lia|exact N].
Qed.

Lemma nt_not_resting i nw : at_ i 2 (PNtBlocked nw) -> cv_waiting (w_nt (ws i)) = false -> ~ rests (ws i) 2.
Proof.
  intros A W RE. inversion RE as [t OV|AM|E1|t [_ E1]|t E1]; subst.
  - unfold over in OV. unfold at_ in A. congruence.
  - congruence.
Qed.

Lemma nt_blocked_signalled j nw : at_ j 2 (PNtBlocked nw) -> cv_pred (w_nt (ws j)) = true -> nt_scan_from j.
Proof.
  intros A P. assert (forall i, j <= i -> (forall x, j <= x -> x < i -> ~ goes ls x 2) -> cv_pred (w_nt (ws i)) = true) as ST.
  { intros i LI F. replace i with (j + (i - j)) by lia. apply nt_pred_stays; [exact P|]. intros x X1 X2. apply F; lia. }
  destruct (goes_on _ _ _ A) as (i & LI & AI & G & F).
  { intros i LI AI F. apply (nt_not_resting i nw AI). pose proof (proj1 (proj2 (reach_cv _ _ (reach_at i)))) as CV.
    destruct (cv_waiting (w_nt (ws i))) eqn:W; [|reflexivity]. unfold cv_ok in CV. rewrite (ST i LI F) in CV. discriminate (CV W). }
  destruct (step_at _ _ G) as (e & S & _).
  destruct (notifier_next _ _ _ _ _ (reach_at i) AI S) as (p' & N & E & PE). subst p'.
  apply (nt_later j (Datatypes.S i)); [lia|]. eapply nt_check_signalled; [exact N|]. rewrite PE. apply ST; assumption.
Qed.

Lemma nt_top_signalled j : at_ j 2 PNtTop -> cv_pred (w_nt (ws j)) = true -> nt_scan_from j.
Proof.
  intros A P. destruct (restless_goes _ _ _ A Logic.I) as (i & LI & AI & G & F).
  assert (cv_pred (w_nt (ws i)) = true) as PI.
  { replace i with (j + (i - j)) by lia. apply nt_pred_stays; [exact P|]. intros x X1 X2. apply F; lia. }
  destruct (step_at _ _ G) as (e & S & _).
  destruct (notifier_next _ _ _ _ _ (reach_at i) AI S) as (p' & N & (nw & E) & PE). subst p'.
  apply (nt_later j (Datatypes.S i)); [lia|]. eapply nt_check_signalled; [exact N|]. rewrite PE. exact PI.
Qed.

Lemma nt_signalled p : forall j, at_ j 2 p -> cv_pred (w_nt (ws j)) = true -> nt_scan_from j.
Proof.
  induction p; intros j A P; pose proof (role_at _ _ _ A) as RO; try discriminate RO.
  - destruct (restless_goes _ _ _ A Logic.I) as (i & LI & AI & G & F).
    assert (cv_pred (w_nt (ws i)) = true) as PI.
    { replace i with (j + (i - j)) by lia. apply nt_pred_stays; [exact P|]. intros x X1 X2. apply F; lia. }
    destruct (step_at _ _ G) as (e & S & _). destruct (done_next _ _ _ _ _ AI S) as [W N].
    apply (nt_later j (Datatypes.S i)); [lia|]. apply IHp; [exact N|]. rewrite W. apply cv_notified. exact PI.
  - apply nt_top_signalled; assumption.
  - eapply nt_check_signalled; eassumption.
  - eapply nt_blocked_signalled; eassumption.
  - exists j. split; [lia|exact A].
Qed.

Lemma nt_at j : exists p, at_ j 2 p.
Proof.
  pose proof (ro_len _ (reach_roles _ _ (reach_at j))) as L. unfold at_.
  destruct (nth_error (w_threads (ws j)) 2) as [p|] eqn:N; [eauto|apply nth_error_None in N; lia].
Qed.

Definition nt_until (j : nat) (d : Z) : Prop := at_ j 2 (PNtCheck (Some d)) \/ at_ j 2 (PNtBlocked (Some d)).

(** Until it looks it stays where it is. *)
Lemma nt_until_stays j d n : nt_until j d -> nt_scan_from j \/ nt_until (j + n) d.
Proof.
  intros U. induction n as [|n IH]; [right; rewrite Nat.add_0_r; exact U|].
  destruct IH as [SC|U']; [left; exact SC|]. rewrite Nat.add_succ_r.
  destruct (goes_dec (j + n) 2) as [G|NG].
  - destruct (step_at _ _ G) as (e & S & _). destruct U' as [A|A].
    + destruct (notifier_next _ _ _ _ _ (reach_at (j + n)) A S) as (p' & N & E). cbn in E.
      destruct (wait_or_go e (w_nt (ws (j + n))) (Some d)).
      * subst p'. left. exists (Datatypes.S (j + n)). split; [lia|exact N].
      * destruct E as [-> _]. right. right. exact N.
    + destruct (notifier_next _ _ _ _ _ (reach_at (j + n)) A S) as (p' & N & -> & _). right. left. exact N.
  - right. destruct U' as [A|A]; [left|right]; apply at_next; assumption.
Qed.

(** Waking up. *)
Lemma nt_wakes j d : at_ j 2 (PNtBlocked (Some d)) ->
  exists i, j <= i /\ at_ i 2 (PNtCheck (Some d)).
Proof.
  intros A.
  assert (forall i, at_ i 2 (PNtBlocked (Some d)) -> cv_waiting (w_nt (ws i)) = false ->
          exists x, i <= x /\ at_ x 2 (PNtCheck (Some d))) as AW.
  { intros i AI W. destruct (goes_on _ _ _ AI) as (x & LX & AX & G & F).
    { intros x LX AX F. apply (nt_not_resting x (Some d) AX).
      replace x with (i + (x - i)) by lia. apply nt_nap_stays; [exact W|]. intros y Y1 Y2. apply F; lia. }
    destruct (step_at _ _ G) as (e & S & _).
    destruct (notifier_next _ _ _ _ _ (reach_at x) AX S) as (p' & N & -> & _).
    exists (Datatypes.S x). split; [lia|exact N]. }
  destruct (cv_waiting (w_nt (ws j))) eqn:W; [|apply AW; assumption].
  destruct (proj2 (TI j d)) as [_ (i & LI & NS)]; [split; assumption|].
  destruct (first_step j 2 (i - j)) as [NG|(x & L1 & L2 & G & F)].
  - assert (at_ i 2 (PNtBlocked (Some d))) as AI.
    { replace i with (j + (i - j)) by lia. apply at_stays; assumption. }
    destruct (AW i AI) as (x & LX & AX); [|exists x; split; [lia|exact AX]].
    destruct (cv_waiting (w_nt (ws i))) eqn:WI; [|reflexivity]. exfalso. apply NS. split; assumption.
  - assert (at_ x 2 (PNtBlocked (Some d))) as AX.
    { replace x with (j + (x - j)) by lia. apply at_stays; [exact A|]. intros y Y1 Y2. apply F; lia. }
    destruct (step_at _ _ G) as (e & S & _).
    destruct (notifier_next _ _ _ _ _ (reach_at x) AX S) as (p' & N & -> & _).
    exists (Datatypes.S x). split; [lia|exact N].
Qed.

Lemma nt_late_check j d k0 : (forall k tid e i, k0 <= k -> ls k = Some (LTick tid e) -> (d < ri1 (e_clk e i))%Z) ->
  k0 <= j -> at_ j 2 (PNtCheck (Some d)) -> nt_scan_from j.
Proof.
  intros PS LJ A. destruct (restless_goes _ _ _ A Logic.I) as (i & LI & AI & G & F).
  destruct (step_at _ _ G) as (e & S & LS).
  destruct (notifier_next _ _ _ _ _ (reach_at i) AI S) as (p' & N & E). cbn in E.
  assert (wait_or_go e (w_nt (ws i)) (Some d) = true) as WG.
  { unfold wait_or_go. apply orb_true_iff. right. apply Z.ltb_lt. apply (PS i 2 e 0); [lia|exact LS]. }
  rewrite WG in E. subst p'. exists (Datatypes.S i). split; [lia|exact N].
Qed.

Lemma nt_late j d : passes ls d -> nt_until j d -> nt_scan_from j.
Proof.
  intros [k0 PS] U. destruct (nt_until_stays j d k0 U) as [SC|[A|A]]; [exact SC| |].
  - apply (nt_later j (j + k0)); [lia|]. eapply nt_late_check; [exact PS| |exact A]. lia.
  - destruct (nt_wakes _ _ A) as (i & LI & AI). apply (nt_later j i); [lia|].
    eapply nt_late_check; [exact PS| |exact AI]. lia.
Qed.

Lemma nt_timed j d : nt_until j d -> nt_scan_from j.
Proof.
  assert (forall i, at_ i 2 (PNtCheck (Some d)) -> nt_scan_from i) as CH.
  { intros i A. destruct (restless_goes _ _ _ A Logic.I) as (x & LX & AX & G & F).
    destruct (step_at _ _ G) as (e & S & _).
    destruct (notifier_next _ _ _ _ _ (reach_at x) AX S) as (p' & N & E). cbn in E.
    destruct (wait_or_go e (w_nt (ws x)) (Some d)).
    - subst p'. exists (Datatypes.S x). split; [lia|exact N].
    - destruct E as [-> W]. apply (nt_later i (Datatypes.S x)); [lia|]. apply (nt_late _ d); [|right; exact N].
      apply (proj2 (TI (Datatypes.S x) d)). split; assumption. }
  intros [A|A]; [apply CH; exact A|]. destruct (nt_wakes _ _ A) as (i & LI & AI).
  apply (nt_later j i LI). apply CH. exact AI.
Qed.


Section Remind.
Variable k : nat.
Variable e0 : entry.
Variable T : Z.
Variable cvr st : str.
Variable ln : option Z.
Variable u : url.
Hypothesis PEN : d_ts e0 = TSPending cvr ln st u.
Hypothesis TIME : (T <= time_max)%Z.
Hypothesis INTERVAL : forall j l, k <= j -> ln = Some l -> (l + c_auth_notify_interval (conf (ws j)) <= T)%Z.

Lemma nt_waiting j nw p : k <= j -> at_ j 2 p -> nt_waits p = Some nw -> gone k e0 \/ nt_scan_from j.
Proof.
  intros L A W. destruct (there k e0 j L) as [G|I]; [left; exact G|]. right.
  destruct (reach_nt_awake _ _ (reach_at j) p nw A W) as [P|[UW|SA]].
  - eapply nt_signalled; eassumption.
  - destruct (under_way_done _ _ UW) as (i & tid & p' & LI & _ & _ & WI). apply (nt_later j (S i)); [lia|].
    destruct (nt_at (S i)) as [q AQ]. eapply nt_signalled; [exact AQ|]. rewrite WI. reflexivity.
  - assert (exists t, remind_time (lconfig (w_lk (ws j))) 0%Z ln t) as [t D].
    { destruct ln as [l|] eqn:E; [|eexists; constructor]. eexists. constructor.
      specialize (INTERVAL j l L eq_refl). unfold conf in INTERVAL. lia. }
    destruct (SA e0 cvr ln st u 0%Z t I PEN D) as (d & -> & _). apply (nt_timed j d).
    destruct p; try discriminate W; injection W as ->; [left|right]; exact A.
Qed.

Lemma nt_top j : k <= j -> at_ j 2 PNtTop -> gone k e0 \/ nt_scan_from j.
Proof.
  intros L A. destruct (restless_goes _ _ _ A Logic.I) as (i & LI & AI & G & F).
  destruct (step_at _ _ G) as (e & S & _).
  destruct (notifier_next _ _ _ _ _ (reach_at i) AI S) as (p' & N & (nw & E) & _). subst p'.
  destruct (nt_waiting (Datatypes.S i) nw _ ltac:(lia) N eq_refl) as [GO|SC]; [left; exact GO|].
  right. apply (nt_later j (Datatypes.S i)); [lia|exact SC].
Qed.

Lemma nt_looks j : k <= j -> gone k e0 \/ nt_scan_from j.
Proof.
  intros L. destruct (nt_at j) as [p A]. destruct (chain_over _ _ _ A) as (i & LI & AI).
  pose proof (role_at _ _ _ AI) as RO. cbn in RO.
  assert (gone k e0 \/ nt_scan_from i) as X.
  { destruct (chain_end p) eqn:C; try discriminate RO.
    - destruct (chain_end_do _ _ _ C).
    - apply nt_top; [lia|exact AI].
    - eapply nt_waiting; [lia|exact AI|reflexivity].
    - eapply nt_waiting; [lia|exact AI|reflexivity].
    - right. exists i. split; [lia|exact AI]. }
  destruct X as [G|SC]; [left; exact G|right; apply (nt_later j i LI SC)].
Qed.

(** Once the clock is past [T], the notifier's look changes the entry. *)
Lemma nt_gone : passes ls T -> gone k e0.
Proof.
  intros [k0 PS]. destruct (nt_looks (k + k0) ltac:(lia)) as [G|(j & LJ & A)]; [exact G|].
  destruct (restless_goes _ _ _ A Logic.I) as (i & LI & AI & G & _).
  destruct (there k e0 i ltac:(lia)) as [GO|I]; [exact GO|].
  destruct (step_at _ _ G) as (e & S & LS). exists (Datatypes.S i). split; [lia|].
  destruct (own_step _ _ _ _ _ _ (reach_at i) AI S) as [(lk' & p' & os & C & ->)|SY]; [|inversion SY].
  inversion C; subst. match goal with H : Forall2 _ _ (details lk') |- _ => rename H into F2 end.
  cbn. intros I'. 
  assert (notify_due (w_lk (ws i)) (env_now e) e0 = true) as DUE.
  { unfold notify_due. rewrite PEN. destruct ln as [l|] eqn:E; [|reflexivity].
    unfold checked_add. specialize (INTERVAL i l ltac:(lia) eq_refl). unfold conf in INTERVAL.
    destruct (Z.leb_spec (l + c_auth_notify_interval (lconfig (w_lk (ws i)))) time_max); [|reflexivity].
    apply Z.leb_le. specialize (PS i 2 e 0 ltac:(lia) LS). unfold env_now. lia. }
  assert (forall x y, Forall2 (fun e0 e' =>
        if notify_due (w_lk (ws i)) (env_now e) e0
        then d_name e' = d_name e0 /\ (account_count (w_lk (ws i)) <= d_id e')%N
             /\ d_ts e' = renotified (env_now e) (d_ts e0)
        else e' = e0) x y -> incl x (details (w_lk (ws i))) -> ~ In e0 y) as NI.
  { pose proof (inv_wf _ _ (reach_inv _ _ (reach_at i))) as WFI.
    intros x y F. induction F as [|e1 e2 x y R F IH]; intros IC; [intros []|].
    intros [->|IN]; [|apply IH; [|exact IN]; intros z Z; apply IC; right; exact Z].
    pose proof (wf_entry_count _ _ WFI I) as LT.
    destruct (notify_due (w_lk (ws i)) (env_now e) e1) eqn:D1; [lia|]. subst e1. congruence. }
  eapply NI; [exact F2|apply incl_refl|exact I'].
Qed.
End Remind.

(** * Refreshes are begun *)

Section Refreshed.
Variable k : nat.
Variable e0 : entry.
Variable a : active.
Variable T : Z.
Hypothesis ACT : d_ts e0 = TSActive a.
Hypothesis IDLE : ongoing a = false.
Hypothesis EXP : (expiry a <= time_max)%Z.
Hypothesis RIPE : ripe ws k (d_name e0) a T.

(** Nobody but a client's request and a refresh changes the entry. *)
Lemma active_left O' w e tid p lk' p' os :
  reachable O' w -> nth_error (w_threads w) tid = Some p -> csr O' w e p lk' p' os ->
  In e0 (details (w_lk w)) -> ~ In e0 (details lk') ->
  pc_role p = RoMain
  \/ (exists act r, account_of (w_lk w) (d_name e0) = Some act /\ refresh_token a = Some r
        /\ p' = PRefPost (account_count (w_lk w) + 1)%N (d_name e0) r (a_token_uri act) (refresh_pairs act r)
        /\ lk' = bump 1 (w_lk w) (d_id e0) (TSActive (set_attempt (set_ongoing a true) (Some (env_now e)) (fails a))))
  \/ (refresh_token a = None /\ exists i, In (mkEntry (d_name e0) i TSEmpty) (details lk')).
Proof.
  intros R N C I NI.
  pose proof (inv_wf _ _ (reach_inv _ _ R)) as WF.
  assert (pc_ok (w_lk w) p) as PO.
  { eapply (proj1 (Forall_forall _ _) (inv_threads _ _ (reach_inv _ _ R))). eapply nth_error_In. exact N. }
  assert (forall n e1 ts, ~ In e0 (details (bump n (w_lk w) (d_id e1) ts)) -> has (w_lk w) e1 -> e1 = e0) as SAME.
  { intros n e1 ts X H1. eapply wf_id_inj; [exact WF|exact H1|exact I|].
    destruct (N.eq_dec (d_id e0) (d_id e1)) as [E|E]; [congruence|]. exfalso. apply X. apply bump_in_other; assumption. }
  destruct C; try (left; reflexivity); try (exfalso; apply NI; exact I);
    try (match goal with H : has _ ?e1 |- _ =>
      assert (e1 = e0) as -> by (eapply SAME; eassumption) end);
    try (exfalso; cbn in PO; destruct PO as (act0 & _ & OW);
         destruct (proj2 OW e0 I eq_refl) as [_ (a1 & X & Y)]; congruence);
    try (exfalso; cbn in PO; destruct PO as (act0 & OW);
         destruct (proj2 OW e0 I eq_refl) as [_ (? & ? & ? & ? & X)]; congruence);
    try (exfalso; congruence).
  - right. left. assert (a0 = a) as -> by congruence. exists act, r. auto.
  - right. right. assert (a0 = a) as -> by congruence. split; [assumption|].
    eexists. apply bump_in_new. exact I.
  - exfalso. apply NI.
    match goal with F : Forall2 _ (details (w_lk w)) (details lk') |- _ => revert F end.
    generalize (details lk') as y, (details (w_lk w)) as x, I. clear -ACT.
    intros y x I F. induction F as [|e1 e2 x y R F IH]; [exact I|].
    destruct I as [->|I]; [|right; apply IH; exact I]. left.
    unfold notify_due in R. rewrite ACT in R. exact R.
Qed.

(** The first time the entry is gone. *)
Lemma first_gone d : In e0 (details (w_lk (ws k))) -> ~ In e0 (details (w_lk (ws (k + d)))) ->
  exists i, k <= i /\ i < k + d /\ In e0 (details (w_lk (ws i))) /\ ~ In e0 (details (w_lk (ws (S i)))).
Proof.
  intros I. induction d as [|d IH]; intros NI; [rewrite Nat.add_0_r in NI; contradiction|].
  destruct (in_dec entry_dec e0 (details (w_lk (ws (k + d))))) as [J|NJ].
  - exists (k + d). rewrite Nat.add_succ_r in NI. repeat split; try assumption; lia.
  - destruct (IH NJ) as (i & L1 & L2 & X). exists i. repeat split; try tauto; lia.
Qed.

Lemma rf_gone : passes ls T -> gone k e0.
Proof.
  intros [k0 PS]. destruct (rf_looks k e0 a ACT IDLE (k + k0) ltac:(lia)) as [G|(j & LJ & A)]; [exact G|].
  destruct (restless_goes _ _ _ A Logic.I) as (i & LI & AI & G & _).
  destruct (there k e0 i ltac:(lia)) as [GO|I]; [exact GO|].
  destruct (step_at _ _ G) as (e & S & LS).
  destruct (own_step _ _ _ _ _ _ (reach_at i) AI S) as [(lk' & p' & os & C & W)|SY]; [|inversion SY].
  inversion C; subst. match goal with H : forall i, In i ids <-> _ |- _ => rename H into IDS end.
  pose proof (reach_inv _ _ (reach_at i)) as IV.
  destruct (get_account O (ws i) IV e0 I) as (act & AC & _ & _).
  assert (In (d_id e0) ids) as II.
  { apply IDS. destruct (In_nth_error _ _ I) as [n NT]. exists e0, a, act, n.
    repeat split; try assumption.
    destruct (RIPE i act (ri1 (e_clk e (Datatypes.S n))) ltac:(lia) AC) as (d & RT & LD).
    { apply (PS i 3 e); [lia|exact LS]. }
    destruct (settings_nonneg _ _ _ _ (reach_at i) AC) as (MG & _).
    exists d. split; [apply due_time; assumption|]. specialize (PS i 3 e 0 ltac:(lia) LS). unfold env_now. lia. }
  assert (at_ (Datatypes.S i) 3 (spawn_all ids PRfTop)) as AS.
  { unfold at_. rewrite W. cbn [after_cs emit set_thread w_threads]. eapply nth_list_set_same. exact AI. }
  destruct (chain_goes _ _ _ (ASpawnRefresh (d_id e0)) AS) as (x & q & LX & AX & _ & WX).
  { rewrite <- will_do_chain. apply will_spawn; [reflexivity|exact II]. }
  set (tid := List.length (w_threads (ws x))).
  assert (at_ (Datatypes.S x) tid (PRefStart (d_id e0))) as AT.
  { unfold at_. rewrite WX. cbn [do_action add_thread w_threads set_thread].
    rewrite nth_error_app2 by (rewrite list_set_length; unfold tid; lia).
    rewrite list_set_length. unfold tid. rewrite Nat.sub_diag. reflexivity. }
  destruct (restless_goes _ _ _ AT Logic.I) as (y & LY & AY & GY & _).
  destruct (there k e0 y ltac:(lia)) as [GO|IY]; [exact GO|].
  destruct (step_at _ _ GY) as (e' & SY & _). exists (Datatypes.S y). split; [lia|].
  pose proof (inv_wf _ _ (reach_inv _ _ (reach_at y))) as WF.
  assert (forall n e1 ts, has (w_lk (ws y)) e1 -> d_id e1 = d_id e0 -> ~ In e0 (details (bump n (w_lk (ws y)) (d_id e1) ts))) as GB.
  { intros n e1 ts H1 E1 IB. apply bump_in in IB as [(e2 & I2 & E2 & ->)|[_ NE]]; [|congruence].
    pose proof (wf_entry_count _ _ WF IY) as LT. cbn in LT. lia. }
  destruct (own_step _ _ _ _ _ _ (reach_at y) AY SY) as [(lk2 & p2 & os2 & C2 & W2)|SY2]; [|inversion SY2].
  rewrite W2. cbn [after_cs emit set_thread set_lk w_lk].
  inversion C2; subst.
  - exfalso. match goal with H : forall e0 a, has _ _ -> _ |- _ => rewrite (H e0 a IY eq_refl ACT) in IDLE; discriminate IDLE end.
  - apply GB; assumption.
  - apply GB; assumption.
Qed.

Lemma refreshed : In e0 (details (w_lk (ws k))) -> passes ls T ->
  exists i, k <= i /\
   (changed_by_client ws ls i e0
    \/ (exists act r j, configured (ws i) (d_name e0) act /\ refresh_token a = Some r /\ i <= j
          /\ asks ws j (a_token_uri act) r)
    \/ (refresh_token a = None /\ holds (ws (S i)) (d_name e0) TSEmpty)).
Proof.
  intros I PS. destruct (rf_gone PS) as (j & LJ & NI).
  replace j with (k + (j - k)) in NI by lia.
  destruct (first_gone _ I NI) as (i & L1 & _ & II & NS). exists i. split; [exact L1|].
  pose proof (en_next _ _ _ EN i) as N. destruct (ls i) as [l|] eqn:LS; [|rewrite N in NS; contradiction].
  destruct l as [tid e|hs b].
  2:{ exfalso. destruct (step_ok _ _ _ _ (reach_inv _ _ (reach_at i)) N) as (_ & _ & TS & _).
      apply NS. inversion TS; subst. exact II. }
  assert (exists p, at_ i tid p) as [p A].
  { destruct (step_ok _ _ _ _ (reach_inv _ _ (reach_at i)) N) as (_ & _ & TS & _). unfold at_. inversion TS; subst; eauto. }
  destruct (own_step _ _ _ _ _ _ (reach_at i) A N) as [(lk' & p' & os & C & W)|SY].
  2:{ exfalso. apply NS. destruct SY; try exact II. rewrite do_action_lk. exact II. }
  assert (w_lk (ws (S i)) = lk') as WL by (rewrite W; reflexivity). rewrite WL in NS.
  destruct (active_left O (ws i) e tid p lk' p' os (reach_at i) A C II NS) as [RO|[(act & r & AC & RT & E & _)|(RT & x & IX)]].
  - left. pose proof (role_at _ _ _ A) as R2. rewrite RO in R2. 
    destruct tid as [|[|[|[|tid]]]]; try discriminate R2. split; [exists e; exact LS|]. rewrite WL. auto.
  - right. left. exists act, r. subst p'.
    assert (at_ (S i) tid (PRefPost (account_count (w_lk (ws i)) + 1)%N (d_name e0) r (a_token_uri act) (refresh_pairs act r))) as AT.
    { unfold at_. rewrite W. cbn [after_cs emit set_thread w_threads]. eapply nth_list_set_same. exact A. }
    destruct (restless_goes _ _ _ AT Logic.I) as (y & LY & AY & GY & _).
    destruct (step_at _ _ GY) as (e' & SY & _). exists y. split; [exact AC|]. split; [exact RT|]. split; [lia|].
    destruct (own_step _ _ _ _ _ _ (reach_at y) AY SY) as [(lk2 & p2 & os2 & C2 & W2)|SY2]; [|inversion SY2].
    inversion C2; subst. exists (refresh_pairs act r), (e_post e').
    split; [unfold observed; rewrite W2; apply skipn_trace|].
    split; unfold refresh_pairs; apply in_or_app; left; [right; right; left|right; left]; reflexivity.
  - right. right. split; [exact RT|]. eexists. rewrite WL. split; [exact IX|]. split; reflexivity.
Qed.
End Refreshed.

(** A token no refresh of which has been tried is ripe once it has expired. *)
Lemma fresh_ripe k n a : ongoing a = false -> last_attempt a = None -> ripe ws k n a (expiry a).
Proof.
  intros OG LA j act now LJ CO LT. destruct (settings_nonneg _ _ _ _ (reach_at j) CO) as (MG & _).
  destruct (Z.le_gt_cases time_min (expiry a - margin act (conf (ws j)))) as [M|M].
  - eexists. split; [apply rt_fresh; try assumption; intros l X; congruence|]. lia.
  - eexists. split; [apply rt_no_margin; try assumption; intros l X; congruence|]. lia.
Qed.

(** One whose refresh has failed, when it is time to try again. *)
Lemma failed_ripe k n a l T : ongoing a = false -> last_attempt a = Some l -> (T <= time_max)%Z ->
  (forall j act, k <= j -> configured (ws j) n act -> (l + retry_gap act (conf (ws j)) <= T)%Z) -> ripe ws k n a T.
Proof.
  intros OG LA TM RG j act now LJ CO LT. specialize (RG j act LJ CO).
  eexists. split; [eapply rt_retry; try eassumption; lia|]. exact RG.
Qed.

(** * Authorisations are announced *)

Lemma pending_left O' w e tid p lk' p' os e0 cvr ln st u :
  reachable O' w -> nth_error (w_threads w) tid = Some p -> csr O' w e p lk' p' os -> tid = 2 ->
  d_ts e0 = TSPending cvr ln st u ->
  In e0 (details (w_lk w)) -> ~ In e0 (details lk') ->
  forall cmd, c_auth_notify_cmd (lconfig (w_lk w)) = Some cmd ->
  In (AEmit (OAuthCmd cmd (d_name e0) (url_to_str u))) (chain p').
Proof.
  intros R N C -> PEN I NI cmd CM. pose proof (ro_pc _ (reach_roles _ _ R) _ _ N) as RO. cbn in RO.
  destruct C; try discriminate RO; [exfalso; apply NI; exact I|].
  rewrite <- will_do_chain. apply will_emit_cmds; [reflexivity|]. exists (d_name e0), cmd, u. split; [|reflexivity].
  apply in_flat_map. exists e0. split; [exact I|]. unfold notify_cmds.
  destruct (notify_due (w_lk w) (env_now e) e0) eqn:D.
  - rewrite CM, PEN. left. reflexivity.
  - exfalso. apply NI. match goal with F : Forall2 _ (details (w_lk w)) (details lk') |- _ => revert F end.
    generalize (details lk') as y, (details (w_lk w)) as x, I. revert D. clear.
    intros D y x I F. induction F as [|e1 e2 x y R F IH]; [exact I|].
    destruct I as [->|I]; [|right; apply IH; exact I]. left. rewrite D in R. exact R.
Qed.

Lemma announced k e0 T cvr ln st u :
  d_ts e0 = TSPending cvr ln st u -> In e0 (details (w_lk (ws k))) ->
  (T <= time_max)%Z -> passes ls T ->
  (forall j l, k <= j -> ln = Some l -> (l + c_auth_notify_interval (conf (ws j)) <= T)%Z) ->
  (forall j, k <= j -> c_auth_notify_cmd (conf (ws j)) <> None) ->
  exists i, k <= i /\
   ((exists tid, tid <> 2 /\ goes ls i tid /\ In e0 (details (w_lk (ws i))) /\ ~ In e0 (details (w_lk (ws (S i)))))
    \/ exists cmd, observed ws i = [OAuthCmd cmd (d_name e0) (url_to_str u)]).
Proof.
  intros PEN I TM PS IV CM. destruct (nt_gone k e0 T cvr st ln u PEN TM IV PS) as (j & LJ & NI).
  replace j with (k + (j - k)) in NI by lia.
  destruct (first_gone k e0 _ I NI) as (i & L1 & _ & II & NS).
  pose proof (en_next _ _ _ EN i) as N. destruct (ls i) as [l|] eqn:LS; [|rewrite N in NS; contradiction].
  destruct l as [tid e|hs b].
  2:{ exfalso. destruct (step_ok _ _ _ _ (reach_inv _ _ (reach_at i)) N) as (_ & _ & TS & _).
      apply NS. inversion TS; subst. exact II. }
  assert (exists p, at_ i tid p) as [p A].
  { destruct (step_ok _ _ _ _ (reach_inv _ _ (reach_at i)) N) as (_ & _ & TS & _). unfold at_. inversion TS; subst; eauto. }
  destruct (own_step _ _ _ _ _ _ (reach_at i) A N) as [(lk' & p' & os & C & W)|SY].
  2:{ exfalso. apply NS. destruct SY; try exact II. rewrite do_action_lk. exact II. }
  assert (w_lk (ws (S i)) = lk') as WL by (rewrite W; reflexivity).
  destruct (Nat.eq_dec tid 2) as [E2|NE].
  2:{ exists i. split; [exact L1|]. left. exists tid. split; [exact NE|]. split; [exists e; exact LS|]. auto. }
  rewrite WL in NS. destruct (c_auth_notify_cmd (conf (ws i))) as [cmd|] eqn:CC; [|destruct (CM i L1 CC)].
  pose proof (pending_left O _ _ _ _ _ _ _ _ _ _ _ _ (reach_at i) A C E2 PEN II NS cmd CC) as EM. subst tid.
  assert (at_ (S i) 2 p') as AT.
  { unfold at_. rewrite W. cbn [after_cs emit set_thread w_threads]. eapply nth_list_set_same. exact A. }
  destruct (chain_goes _ _ _ _ AT EM) as (x & q & LX & AX & _ & WX).
  exists x. split; [lia|]. right. exists cmd. unfold observed. rewrite WX, do_action_trace. apply skipn_trace.
Qed.

(** * Refreshes in flight end *)

Lemma ref_id_body_next O' e i n r b : ref_id (ref_body_next O' e i n r b) = Some i.
Proof.
  unfold ref_body_next. destruct (o_json O' b) as [v|m]; [|reflexivity].
  destruct (json_str $"error" v); [reflexivity|]. destruct (json_str $"access_token" v); [|reflexivity].
  destruct (json_u64 $"expires_in" v); [|reflexivity]. destruct (json_str $"token_type" v) as [ty|]; [|reflexivity].
  destruct (str_eqb ty $"Bearer"); reflexivity.
Qed.

Lemma csr_ref_id O' w e p lk' p' os i :
  csr O' w e p lk' p' os -> ref_id p' = Some i -> ref_id p = Some i \/ (account_count (w_lk w) <= i)%N.
Proof.
  intros C E. destruct C; try discriminate E; try (left; exact E).
  - right. injection E as <-. lia.
  - left. rewrite ref_id_post_next in E. exact E.
  - left. rewrite ref_id_body_next in E. exact E.
  - right. injection E as <-. lia.
  - destruct (e_post e); try discriminate E. cbn in E. destruct tries as [|[|n]]; discriminate E.
  - destruct wa; discriminate E.
  - destruct wa; discriminate E.
  - rewrite ref_id_emit_cmds in E; [discriminate E|reflexivity].
  - rewrite ref_id_spawn_all in E; [discriminate E|reflexivity].
Qed.

Lemma tstep_ref_id O' w l w' tid p' i :
  reachable O' w -> tstep O' w l w' -> nth_error (w_threads w') tid = Some p' -> ref_id p' = Some i ->
  (exists p, nth_error (w_threads w) tid = Some p /\ ref_id p = Some i) \/ (account_count (w_lk w) <= i)%N.
Proof.
  intros R T N E. destruct T as [t1 e p lk' p1 os N1 C|t1 e p w' N1 SY|https bytes X].
  - cbn in N. destruct (Nat.eq_dec t1 tid) as [->|NE].
    + rewrite (nth_list_set_same _ _ _ _ N1) in N. injection N as ->.
      destruct (csr_ref_id _ _ _ _ _ _ _ _ C E) as [Y|Y]; [left; eauto|right; exact Y].
    + rewrite nth_error_list_set_ne in N by congruence. left. eauto.
  - assert (forall q, ref_id q = None -> nth_error (list_set t1 q (w_threads w)) tid = Some p' ->
            exists p, nth_error (w_threads w) tid = Some p /\ ref_id p = Some i) as ST.
    { intros q Q NQ. destruct (Nat.eq_dec t1 tid) as [->|NE].
      - rewrite (nth_list_set_same _ _ _ _ N1) in NQ. congruence.
      - rewrite nth_error_list_set_ne in NQ by congruence. eauto. }
    left. destruct SY; try (eapply ST; [|exact N]; reflexivity).
    pose proof (proj1 (Forall_forall _ _) (reach_seq_ok _ _ R) _ (nth_error_In _ _ N1)) as [RK _].
    destruct a; try (eapply ST; [exact RK|exact N]; fail).
    cbn in N. destruct (Nat.lt_ge_cases tid (List.length (list_set t1 k (w_threads w)))) as [LT|GE].
    + rewrite nth_error_app1 in N by exact LT. eapply ST; [exact RK|exact N].
    + rewrite nth_error_app2 in N by exact GE.
      destruct (tid - _) as [|z] in N; cbn in N; [injection N as <-; discriminate E|destruct z; discriminate N].
  - left. cbn in N. destruct (Nat.lt_ge_cases tid (List.length (w_threads w))) as [LT|GE].
    + rewrite nth_error_app1 in N by exact LT. eauto.
    + rewrite nth_error_app2 in N by exact GE.
      destruct (tid - _) as [|z] in N; cbn in N; [injection N as <-; discriminate E|destruct z; discriminate N].
Qed.

Lemma count_grows k d : (account_count (w_lk (ws k)) <= account_count (w_lk (ws (k + d))))%N.
Proof.
  induction d as [|d IH]; [rewrite Nat.add_0_r; lia|]. rewrite Nat.add_succ_r.
  pose proof (en_next _ _ _ EN (k + d)) as N. destruct (ls (k + d)) as [l|]; [|rewrite N; exact IH].
  destruct (step_ok _ _ _ _ (reach_inv _ _ (reach_at (k + d))) N) as (_ & EV & _ & _).
  destruct EV as [C _]. lia.
Qed.

Lemma old_mark k i d : (i < account_count (w_lk (ws k)))%N ->
  forall tid p, at_ (k + d) tid p -> ref_id p = Some i -> exists q, at_ k tid q /\ ref_id q = Some i.
Proof.
  intros LT. induction d as [|d IH]; intros tid p A E; [rewrite Nat.add_0_r in A; eauto|].
  rewrite Nat.add_succ_r in A. unfold at_ in A. pose proof (en_next _ _ _ EN (k + d)) as N.
  destruct (ls (k + d)) as [l|]; [|rewrite N in A; eapply IH; eassumption].
  destruct (step_ok _ _ _ _ (reach_inv _ _ (reach_at (k + d))) N) as (_ & _ & T & _).
  destruct (tstep_ref_id _ _ _ _ _ _ _ (reach_at (k + d)) T A E) as [(q & NQ & EQ)|GE].
  - eapply IH; eassumption.
  - pose proof (count_grows k d). lia.
Qed.

Lemma marks_end k e a :
  In e (details (w_lk (ws k))) -> d_ts e = TSActive a -> ongoing a = true ->
  exists j, k <= j /\ ~ In e (details (w_lk (ws j))).
Proof.
  intros I T OG. destruct (mark_has_owner _ _ _ _ (reach_at k) I T OG) as (tid & p & N & RI).
  pose proof (wf_entry_count _ _ (inv_wf _ _ (reach_inv _ _ (reach_at k))) I) as LT.
  assert (4 <= tid) as L4.
  { pose proof (role_at k tid p N) as RO. destruct tid as [|[|[|[|tid]]]]; try lia;
      destruct p; try discriminate RI; discriminate RO. }
  destruct (thread_ends k tid L4) as (j & LJ & OV).
  { apply nth_error_Some. rewrite N. discriminate. }
  exists j. split; [exact LJ|]. intros IJ.
  destruct (mark_has_owner _ _ _ _ (reach_at j) IJ T OG) as (tid' & p' & N' & RI').
  replace j with (k + (j - k)) in N' by lia.
  destruct (old_mark k (d_id e) (j - k) LT tid' p' N' RI') as (q & NQ & EQ).
  assert (tid = tid') as <- by (eapply one_refresh_per_version; [apply (reach_at k)|exact N|exact NQ|exact RI|exact EQ]).
  replace (k + (j - k)) with j in N' by lia. unfold over in OV. rewrite OV in N'. injection N' as <-. discriminate RI'.
Qed.
End Fair.
