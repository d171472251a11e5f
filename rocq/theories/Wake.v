(** Deadlines and wakeups of the background threads. *)
From Verif Require Import Base BaseLemmas Time Utf8 Base64 Url Json Oracles Config Dump State Http
  Timers Server StateLemmas ConfigLemmas SpecServer Steps Inv Reach Own Trace SpecTimers.
Local Open Scope Z_scope.

(** * Due times *)

Lemma margin_eq act c : act_refresh_before_expiry act c = margin act c.
Proof.
  unfold act_refresh_before_expiry, margin, first_of, opt_or, opt_default.
  destruct (a_refresh_before_expiry act); [reflexivity|]. destruct (c_refresh_before_expiry c); reflexivity.
Qed.

Lemma max_age_eq act c : act_refresh_at_least act c = max_age act c.
Proof.
  unfold act_refresh_at_least, max_age, first_of, opt_or, opt_default.
  destruct (a_refresh_at_least act); [reflexivity|]. destruct (c_refresh_at_least c); reflexivity.
Qed.

Lemma retry_gap_eq act c : act_refresh_retry act c = retry_gap act c.
Proof.
  unfold act_refresh_retry, retry_gap, first_of, opt_or, opt_default.
  destruct (a_refresh_retry act); [reflexivity|]. destruct (c_refresh_retry c); reflexivity.
Qed.

Lemma first_of_nonneg a b d : dur_ok a -> dur_ok b -> 0 <= d -> 0 <= first_of a b d.
Proof.
  intros A B D. unfold first_of. destruct a as [x|]; [apply A; reflexivity|].
  destruct b as [y|]; [apply B; reflexivity|exact D].
Qed.

Lemma settings_nonneg O w n act :
  reachable O w -> configured w n act ->
  0 <= margin act (conf w) /\ 0 <= max_age act (conf w) /\ 0 <= retry_gap act (conf w)
  /\ 0 <= c_auth_notify_interval (conf w).
Proof.
  intros R C. pose proof (inv_conf _ _ (reach_inv _ _ R)) as CO.
  pose proof (account_ok_of _ _ _ _ CO C) as AO. destruct CO as [_ _ CI CA CB CR]. destruct AO as [_ _ _ AA AB AR].
  unfold conf, margin, max_age, retry_gap.
  repeat split; try apply first_of_nonneg; try assumption; try (unfold secs; lia).
Qed.

Lemma due_time act c now a t :
  expiry a <= time_max -> 0 <= margin act c ->
  refresh_due act c now a = Some t <-> refresh_time act c now a t.
Proof.
  intros EX MG. unfold refresh_due. rewrite margin_eq, max_age_eq, retry_gap_eq.
  unfold checked_add, checked_sub, opt_default.
  split.
  - intros H. destruct (ongoing a) eqn:OG; [discriminate H|].
    destruct (last_attempt a) as [l|] eqn:LA.
    + destruct (Z.leb_spec (l + retry_gap act c) time_max) as [L|L].
      * injection H as <-. eapply rt_retry; eassumption.
      * assert (forall l0, last_attempt a = Some l0 -> time_max < l0 + retry_gap act c) as NO
          by (intros l0 E; rewrite LA in E; injection E as <-; lia).
        destruct (Z.leb_spec time_min (expiry a - margin act c)) as [M|M];
          destruct (Z.leb_spec (obtained a + max_age act c) time_max) as [A|A]; injection H as <-.
        -- apply rt_fresh; assumption.
        -- rewrite <- (Z.min_l (expiry a - margin act c) (obtained a + max_age act c)) by lia.
           apply rt_fresh; assumption.
        -- apply rt_no_margin; assumption.
        -- rewrite <- (Z.min_l (Z.min now (expiry a)) (obtained a + max_age act c)) by lia.
           apply rt_no_margin; assumption.
    + assert (forall l0, last_attempt a = Some l0 -> time_max < l0 + retry_gap act c) as NO
        by (intros l0 E; rewrite LA in E; discriminate E).
      destruct (Z.leb_spec time_min (expiry a - margin act c)) as [M|M];
        destruct (Z.leb_spec (obtained a + max_age act c) time_max) as [A|A]; injection H as <-.
      * apply rt_fresh; assumption.
      * rewrite <- (Z.min_l (expiry a - margin act c) (obtained a + max_age act c)) by lia.
        apply rt_fresh; assumption.
      * apply rt_no_margin; assumption.
      * rewrite <- (Z.min_l (Z.min now (expiry a)) (obtained a + max_age act c)) by lia.
        apply rt_no_margin; assumption.
  - assert ((forall l, last_attempt a = Some l -> time_max < l + retry_gap act c) ->
            match last_attempt a with
            | Some lra => if lra + retry_gap act c <=? time_max then Some (lra + retry_gap act c) else None
            | None => None
            end = None) as NOL.
    { intros NO. destruct (last_attempt a) as [l|]; [|reflexivity].
      destruct (Z.leb_spec (l + retry_gap act c) time_max) as [L|L]; [|reflexivity].
      specialize (NO l eq_refl). lia. }
    intros [l OG LA L|OG NO M|OG NO M]; rewrite OG.
    + rewrite LA. destruct (Z.leb_spec (l + retry_gap act c) time_max); [reflexivity|lia].
    + rewrite (NOL NO). destruct (Z.leb_spec time_min (expiry a - margin act c)); [|lia].
      destruct (Z.leb_spec (obtained a + max_age act c) time_max); [reflexivity|].
      rewrite Z.min_l by lia. reflexivity.
    + rewrite (NOL NO). destruct (Z.leb_spec time_min (expiry a - margin act c)); [lia|].
      destruct (Z.leb_spec (obtained a + max_age act c) time_max); [reflexivity|].
      f_equal. lia.
Qed.

(** A different reading of the clock matters only if the time due is that very
    reading. *)
Lemma due_moves act c a now now' t t' :
  refresh_due act c now a = Some t -> refresh_due act c now' a = Some t' ->
  t <= t' \/ (t' = now' /\ now' < t).
Proof.
  unfold refresh_due. destruct (ongoing a); [discriminate|].
  destruct (match last_attempt a with Some lra => _ | None => None end) as [t0|].
  - intros [= <-] [= <-]. lia.
  - intros H H'.
    destruct (checked_sub (expiry a) (act_refresh_before_expiry act c)) as [x|];
      destruct (checked_add (obtained a) (act_refresh_at_least act c)) as [y|];
      unfold opt_default in *; injection H as <-; injection H' as <-; lia.
Qed.

Lemma due_some act c a now now' t :
  refresh_due act c now a = Some t -> exists t', refresh_due act c now' a = Some t'.
Proof.
  unfold refresh_due. destruct (ongoing a); [discriminate|].
  destruct (match last_attempt a with Some lra => _ | None => None end) as [t0|]; [eauto|].
  destruct (checked_add (obtained a) (act_refresh_at_least act c)); eauto.
Qed.

(** * What [next_wakeup] computes *)

Lemma min_some_le l x : In (Some x) l -> exists m, min_some l = Some m /\ m <= x.
Proof.
  induction l as [|y l IH]; [intros []|]. intros [->|H].
  - cbn [min_some]. eexists. split; [reflexivity|]. unfold opt_min. destruct (min_some l); lia.
  - destruct (IH H) as (m & E & L). destruct y as [y|]; cbn [min_some].
    + rewrite E. eexists. split; [reflexivity|]. unfold opt_min. lia.
    + rewrite E. eauto.
Qed.

Lemma min_some_in l m : min_some l = Some m -> In (Some m) l.
Proof.
  revert m. induction l as [|y l IH]; intros m H; [discriminate H|]. destruct y as [y|]; cbn [min_some] in H.
  - injection H as <-. unfold opt_min. destruct (min_some l) as [z|] eqn:E; [|left; reflexivity].
    destruct (Z.min_spec z y) as [[_ ->]|[_ ->]]; [right; apply IH; reflexivity|left; reflexivity].
  - right. apply IH. exact H.
Qed.

Lemma collect_at_spec f lk clk : forall ids j l,
  collect_at f lk clk j ids = Val l ->
  (forall k i, nth_error ids k = Some i -> exists x, f lk (ri1 (clk (j + k)%nat)) i = Val x /\ In x l)
  /\ (forall x, In x l -> exists k i, nth_error ids k = Some i /\ f lk (ri1 (clk (j + k)%nat)) i = Val x).
Proof.
  induction ids as [|i ids IH]; intros j l H; cbn [collect_at] in H.
  - injection H as <-. split; [intros [|k] i H; discriminate H|intros x []].
  - apply bind_val in H as (x & Fx & H). apply bind_val in H as (l' & C & H). injection H as <-.
    destruct (IH _ _ C) as [A B]. split.
    + intros [|k] i' N.
      * injection N as <-. exists x. rewrite Nat.add_0_r. split; [exact Fx|left; reflexivity].
      * destruct (A k i' N) as (x' & F' & I'). exists x'. split; [|right; exact I'].
        replace (j + S k)%nat with (S j + k)%nat by lia. exact F'.
    + intros x' [->|I'].
      * exists 0%nat, i. rewrite Nat.add_0_r. split; [reflexivity|exact Fx].
      * destruct (B x' I') as (k & i' & N & F'). exists (S k), i'. split; [exact N|].
        replace (j + S k)%nat with (S j + k)%nat by lia. exact F'.
Qed.

Lemma nth_act_ids lk k i :
  nth_error (act_ids lk) k = Some i <-> exists e, nth_error (details lk) k = Some e /\ d_id e = i.
Proof.
  unfold act_ids. rewrite nth_error_map. destruct (nth_error (details lk) k) as [e|]; cbn; split.
  - intros [= <-]. eauto.
  - intros (e' & [= <-] & <-). reflexivity.
  - discriminate.
  - intros (e' & E & _). discriminate E.
Qed.

(** The deadline is the earliest of all due times, but not more than 37 seconds
    ahead; there is one if anything is due at all. *)
Lemma next_wakeup_spec f lk clk nw :
  next_wakeup f lk clk = Val nw ->
  (forall k e0 t, nth_error (details lk) k = Some e0 -> f lk (ri1 (clk (S k))) (d_id e0) = Val (Some t) ->
     exists d, nw = Some d /\ d <= t)
  /\ (forall d, nw = Some d ->
        (d <= ri1 (clk 0%nat) + secs 37 \/ time_max < ri1 (clk 0%nat) + secs 37)
        /\ exists k e0 t, nth_error (details lk) k = Some e0 /\ f lk (ri1 (clk (S k))) (d_id e0) = Val (Some t)
                          /\ (d = t \/ d = ri1 (clk 0%nat) + secs 37)).
Proof.
  unfold next_wakeup. intros H. apply bind_val in H as (l & C & H).
  assert (from_secs max_wait_secs = secs 37) as E37 by reflexivity. rewrite E37 in H. unfold checked_add in H.
  assert (nw = match min_some l with
               | Some m => if ri1 (clk 0%nat) + secs 37 <=? time_max
                           then Some (Z.min m (ri1 (clk 0%nat) + secs 37)) else Some m
               | None => None
               end) as ->.
  { destruct (min_some l); [destruct (ri1 (clk 0%nat) + secs 37 <=? time_max)|]; congruence. }
  clear H. destruct (collect_at_spec _ _ _ _ _ _ C) as [A B]. split.
  - intros k e0 t N F. destruct (A k (d_id e0)) as (x & F' & I); [apply nth_act_ids; eauto|].
    rewrite Nat.add_1_l, F in F'. injection F' as <-. destruct (min_some_le _ _ I) as (m & -> & L).
    destruct (_ <=? time_max); [|eauto]. eexists. split; [reflexivity|lia].
  - intros d. destruct (min_some l) as [m|] eqn:M; [|discriminate].
    apply min_some_in in M. destruct (B _ M) as (k & i & N & F).
    apply nth_act_ids in N as (e0 & N & <-). rewrite Nat.add_1_l in F.
    destruct (Z.leb_spec (ri1 (clk 0%nat) + secs 37) time_max) as [L|L]; intros E.
    + assert (d = Z.min m (ri1 (clk 0%nat) + secs 37)) as -> by congruence. split; [left; lia|].
      exists k, e0, m. repeat split; try assumption. lia.
    + assert (d = m) as -> by congruence. split; [right; exact L|]. exists k, e0, m. repeat split; try assumption. left. reflexivity.
Qed.

(** * Refresher: no lost wakeups *)

Lemma will_do_chain p : will_do p = chain p.
Proof. induction p; cbn; congruence. Qed.

Definition rf_safe (lk : locked) (nw : option Z) : Prop :=
  forall e0 act a now t, has lk e0 -> account_of lk (d_name e0) = Some act -> d_ts e0 = TSActive a ->
    refresh_due act (lconfig lk) now a = Some t ->
    exists d, nw = Some d /\ (d <= t \/ (t = now /\ now < d)).

Definition nt_safe (lk : locked) (nw : option Z) : Prop :=
  forall e0 cvr ln st u now t, has lk e0 -> d_ts e0 = TSPending cvr ln st u ->
    remind_time (lconfig lk) now ln t ->
    exists d, nw = Some d /\ (d <= t \/ (t = now /\ now < d)).

Lemma rf_safe_fresh O w e nw :
  inv O w -> next_wakeup refresh_at (w_lk w) (e_clk e) = Val nw -> rf_safe (w_lk w) nw.
Proof.
  intros I H e0 act a now t Hh AC TS DU. destruct (next_wakeup_spec _ _ _ _ H) as [A _].
  destruct (In_nth_error _ _ Hh) as (k & N).
  destruct (due_some _ _ _ _ (ri1 (e_clk e (S k))) _ DU) as (t' & DU').
  destruct (A k e0 t' N) as (d & -> & L).
  { rewrite (refresh_at_in _ _ I _ _ _ Hh AC), TS. f_equal. exact DU'. }
  exists d. split; [reflexivity|]. destruct (due_moves _ _ _ _ _ _ _ DU' DU); lia.
Qed.

Lemma nt_safe_fresh O w e nw :
  inv O w -> next_wakeup notify_at (w_lk w) (e_clk e) = Val nw -> nt_safe (w_lk w) nw.
Proof.
  intros I H e0 cvr ln st u now t Hh TS RT. destruct (next_wakeup_spec _ _ _ _ H) as [A _].
  destruct (In_nth_error _ _ Hh) as (k & N).
  pose proof (notify_at_in _ _ I (ri1 (e_clk e (S k))) e0 Hh) as NA. rewrite TS in NA.
  destruct RT as [|l L].
  - destruct (A k e0 _ N NA) as (d & -> & L). exists d. split; [reflexivity|].
    destruct (Z.le_gt_cases d now); [left; assumption|right; split; [reflexivity|assumption]].
  - unfold checked_add in NA. destruct (Z.leb_spec (l + c_auth_notify_interval (lconfig (w_lk w))) time_max); [|lia].
    destruct (A k e0 _ N NA) as (d & -> & L'). exists d. split; [reflexivity|]. left. exact L'.
Qed.

(** Nothing becomes due earlier. *)
Definition calm (lk lk' : locked) : Prop :=
  lconfig lk' = lconfig lk
  /\ (forall e' a, has lk' e' -> d_ts e' = TSActive a -> ongoing a = false ->
        exists e0, has lk e0 /\ d_name e0 = d_name e' /\ d_ts e0 = TSActive a)
  .
Definition quiet (lk lk' : locked) : Prop :=
  lconfig lk' = lconfig lk
  /\ (forall e' cvr ln st u, has lk' e' -> d_ts e' = TSPending cvr ln st u ->
        exists e0, has lk e0 /\ d_ts e0 = TSPending cvr ln st u).

Lemma calm_refl lk : calm lk lk.
Proof. split; [reflexivity|]. eauto. Qed.
Lemma quiet_refl lk : quiet lk lk.
Proof. split; [reflexivity|]. eauto. Qed.

Lemma calm_bump k lk i ts : (forall a, ts = TSActive a -> ongoing a = true) -> calm lk (bump k lk i ts).
Proof.
  intros H. split; [reflexivity|]. intros e' a Hh TS OG.
  apply bump_in in Hh as [(e & X & _ & ->)|[X _]]; [|eauto].
  cbn in TS. rewrite (H _ TS) in OG. discriminate OG.
Qed.
Lemma quiet_bump k lk i ts : (forall cvr ln st u, ts <> TSPending cvr ln st u) -> quiet lk (bump k lk i ts).
Proof.
  intros H. split; [reflexivity|]. intros e' cvr ln st u Hh TS.
  apply bump_in in Hh as [(e & X & _ & ->)|[X _]]; [|eauto].
  cbn in TS. destruct (H _ _ _ _ TS).
Qed.

Lemma calm_safe lk lk' nw : calm lk lk' -> rf_safe lk nw -> rf_safe lk' nw.
Proof.
  intros [C A] S e' act a now t Hh AC TS DU.
  assert (ongoing a = false) as OG.
  { unfold refresh_due in DU. destruct (ongoing a); [discriminate DU|reflexivity]. }
  destruct (A _ _ Hh TS OG) as (e0 & H0 & N0 & T0).
  eapply S; [exact H0| |exact T0|rewrite <- C; exact DU].
  unfold account_of in *. rewrite N0, <- C. exact AC.
Qed.
Lemma quiet_safe lk lk' nw : quiet lk lk' -> nt_safe lk nw -> nt_safe lk' nw.
Proof.
  intros [C A] S e' cvr ln st u now t Hh TS RT.
  destruct (A _ _ _ _ _ Hh TS) as (e0 & H0 & T0). eapply S; [exact H0|exact T0|rewrite <- C; exact RT].
Qed.

Lemma csr_calm O w e p lk' p' os :
  inv O w -> pc_ok (w_lk w) p -> csr O w e p lk' p' os ->
  In ASigRefresher (chain p') \/ calm (w_lk w) lk'.
Proof.
  intros I PO C. pose proof (inv_wf _ _ I) as W.
  destruct C; try (right; apply calm_refl); try (right; apply calm_bump; discriminate);
    try (left; cbn; auto 6; fail).
  - (* r_start *) right. apply calm_bump. intros a' [= <-]. reflexivity.
  - (* r_trans_cmd *) right. apply calm_bump. intros a' [= <-].
    destruct PO as (act & _ & OW). destruct OW as (_ & OW). destruct (OW _ ltac:(eassumption) eq_refl) as (_ & a1 & T1 & G1).
    match goal with T : d_ts e0 = TSActive a |- _ => rewrite T in T1 end. injection T1 as <-. exact G1.
  - (* n_scan *)
    right. split; [assumption|]. intros e' a Hh TS OG.
    match goal with F : Forall2 _ _ _ |- _ => destruct (Forall2_in_r _ _ _ _ F Hh) as (e1 & X1 & P) end. cbv beta in P.
    destruct (notify_due (w_lk w) (env_now e) e1) eqn:ND; [|subst e1; eauto].
    exfalso. destruct P as (_ & _ & P). unfold notify_due in ND. rewrite TS in P.
    destruct (d_ts e1); simpl in P; discriminate.
Qed.

Lemma csr_quiet_nt O w e p lk' p' os :
  csr O w e p lk' p' os -> p <> PNtScan ->
  In ASigNotifier (chain p') \/ quiet (w_lk w) lk'.
Proof.
  intros C NS.
  destruct C; try (right; apply quiet_refl); try (right; apply quiet_bump; discriminate);
    try (left; cbn; auto 6; fail).
  congruence.
Qed.

(** The deadline of a thread that waits or is about to. *)
Definition rf_waits (p : pc) : option (option Z) :=
  match p with PRfCheck nw | PRfBlocked nw => Some nw | _ => None end.
Definition nt_waits (p : pc) : option (option Z) :=
  match p with PNtCheck nw | PNtBlocked nw => Some nw | _ => None end.

Definition rf_awake (w : world) : Prop :=
  forall p nw, nth_error (w_threads w) 3 = Some p -> rf_waits p = Some nw ->
    cv_pred (w_rf w) = true \/ under_way w ASigRefresher \/ rf_safe (w_lk w) nw.
Definition nt_awake (w : world) : Prop :=
  forall p nw, nth_error (w_threads w) 2 = Some p -> nt_waits p = Some nw ->
    cv_pred (w_nt w) = true \/ under_way w ASigNotifier \/ nt_safe (w_lk w) nw.

(** Nothing but the start of a loop follows a sequence of actions in the
    background threads. *)
Definition inner (p : pc) : bool :=
  match p with
  | PEvTop | PEvBlocked | PEvPop | PEvCmd _ _ | PEvRun _ _ _ | PEvRunning
  | PNtCheck _ | PNtBlocked _ | PNtScan | PRfCheck _ | PRfBlocked _ | PRfScan => true
  | _ => false
  end.

Fixpoint seq_top (p : pc) : Prop :=
  match p with
  | PDo _ k => inner k = false /\ seq_top k
  | _ => True
  end.

Lemma inner_emit_cmds l k : inner k = false -> inner (emit_cmds l k) = false.
Proof. intros E. destruct l as [|[[n c] u] l]; [exact E|reflexivity]. Qed.
Lemma inner_spawn_all l k : inner k = false -> inner (spawn_all l k) = false.
Proof. intros E. destruct l; [exact E|reflexivity]. Qed.

Lemma csr_seq_top O w e p lk' p' os : csr O w e p lk' p' os -> seq_top p'.
Proof.
  intros C. destruct C; simpl; auto.
  - unfold ref_post_next. destruct (e_post e); simpl; auto. destruct (is_transient k); simpl; auto.
  - unfold ref_body_next. destruct (o_json O body) as [v|m]; [|exact Logic.I].
    destruct (json_str $"error" v); [exact Logic.I|].
    destruct (json_str $"access_token" v); [|exact Logic.I].
    destruct (json_u64 $"expires_in" v); [|exact Logic.I].
    destruct (json_str $"token_type" v) as [ty|]; [|exact Logic.I].
    destruct (str_eqb ty $"Bearer"); exact Logic.I.
  - unfold http_post_next. destruct (e_post e); simpl; auto. destruct tries as [|[|n]]; simpl; auto.
  - destruct wa; simpl; auto.
  - destruct wa; simpl; auto.
  - induction (flat_map (notify_cmds (w_lk w) (env_now e)) (details (w_lk w))) as [|[[n c] u] l IH]; simpl; [exact Logic.I|].
    split; [|exact IH]. apply inner_emit_cmds. reflexivity.
  - match goal with X : NoDup ids |- _ => clear X end. match goal with X : forall i, In i ids <-> _ |- _ => clear X end.
    induction ids as [|i l IH]; simpl; [exact Logic.I|].
    split; [|exact IH]. apply inner_spawn_all. reflexivity.
Qed.

Lemma reach_seq_top O w : reachable O w -> Forall seq_top (w_threads w).
Proof.
  revert w. apply (reach_ind O (fun w => Forall seq_top (w_threads w))).
  - intros. repeat constructor.
  - intros w l w' _ _ _ _ F _ T. destruct T as [tid e p lk' p' os N C|tid e p w' N S|https bytes P]; simpl.
    + apply forall_list_set; [exact F|]. eapply csr_seq_top. exact C.
    + assert (seq_top p) as SO by (rewrite Forall_forall in F; apply F; eapply nth_error_In; exact N).
      destruct S; simpl; try (apply forall_list_set; [exact F|exact Logic.I]).
      assert (Forall seq_top (list_set tid k (w_threads w))) as F'
        by (apply forall_list_set; [exact F|apply SO]).
      destruct a; simpl; try exact F'. apply Forall_app. split; [exact F'|]. repeat constructor.
    + apply Forall_app. split; [exact F|]. repeat constructor.
Qed.

Lemma do_not_inner O w tid a k :
  reachable O w -> nth_error (w_threads w) tid = Some (PDo a k) -> inner k = false.
Proof.
  intros R N. pose proof (reach_seq_top _ _ R) as F. rewrite Forall_forall in F.
  exact (proj1 (F _ (nth_error_In _ _ N))).
Qed.

(** Signals under way stay so when another thread goes on, ... *)
Lemma under_way_other w ps tid p p' a :
  nth_error (w_threads w) tid = Some p -> ~ In a (chain p) ->
  ps = list_set tid p' (w_threads w) ->
  under_way w a -> exists tid' q, nth_error ps tid' = Some q /\ In a (chain q).
Proof.
  intros N NI -> (tid' & q & N' & I'). rewrite will_do_chain in I'. exists tid', q. split; [|exact I'].
  rewrite nth_error_list_set_ne; [exact N'|]. intros ->. rewrite N in N'. injection N' as <-. exact (NI I').
Qed.

Lemma csr_no_chain O w e p lk' p' os : csr O w e p lk' p' os -> chain p = [].
Proof. intros C. destruct C; reflexivity. Qed.

(** ... and a thread with actions to take keeps them but for the first. *)
Lemma under_way_do w tid a k b :
  nth_error (w_threads w) tid = Some (PDo a k) -> under_way w b -> a <> b ->
  under_way (do_action (set_thread w tid k) a) b.
Proof.
  intros N (tid' & q & N' & I') NE. rewrite will_do_chain in I'.
  assert (forall w2, w_threads w2 = list_set tid k (w_threads w) \/ (exists x, w_threads w2 = list_set tid k (w_threads w) ++ [x]) ->
            under_way w2 b) as U.
  { intros w2 TH. assert (exists q', nth_error (list_set tid k (w_threads w)) tid' = Some q' /\ In b (chain q')) as (q' & N2 & I2).
    { destruct (Nat.eq_dec tid tid') as [->|NT].
      - rewrite N in N'. injection N' as <-. exists k. split; [eapply nth_list_set_same; exact N|].
        destruct I' as [->|I']; [congruence|exact I'].
      - exists q. split; [|exact I']. rewrite nth_error_list_set_ne; [exact N'|exact NT]. }
    exists tid', q'. rewrite will_do_chain. split; [|exact I2].
    destruct TH as [->|(x & ->)]; [exact N2|]. rewrite nth_error_app1; [exact N2|]. apply nth_error_Some. congruence. }
  apply U. destruct a; cbn; eauto.
Qed.

Lemma do_threads w tid k a tid' q :
  nth_error (list_set tid k (w_threads w)) tid' = Some q ->
  nth_error (w_threads (do_action (set_thread w tid k) a)) tid' = Some q.
Proof.
  intros N. destruct a; cbn; try exact N.
  rewrite nth_error_app1; [exact N|]. apply nth_error_Some. congruence.
Qed.

(** A step of thread [tid] that touches neither the state nor the signals
    under way. *)
Lemma under_way_set w tid p p' b w' :
  nth_error (w_threads w) tid = Some p -> chain p = [] -> w_threads w' = list_set tid p' (w_threads w) ->
  under_way w b -> under_way w' b.
Proof.
  intros N C TH U. destruct (under_way_other w _ tid p p' b N ltac:(rewrite C; intros []) eq_refl U) as (t' & q & Nq & Iq).
  exists t', q. rewrite will_do_chain, TH. auto.
Qed.

Lemma under_way_add w b w' x :
  w_threads w' = w_threads w ++ [x] -> under_way w b -> under_way w' b.
Proof.
  intros TH (t & q & N & I). exists t, q. split; [|exact I]. rewrite TH, nth_error_app1; [exact N|].
  apply nth_error_Some. congruence.
Qed.

Lemma do_action_lk w a : w_lk (do_action w a) = w_lk w.
Proof. destruct a; reflexivity. Qed.

Ltac threads H :=
  cbn [w_threads set_ev set_evq set_nt set_rf set_thread set_lk emit add_thread] in H.

Lemma reach_rf_awake O w : reachable O w -> rf_awake w.
Proof.
  apply reach_ind.
  - intros e c hp hsp pk _ _ p nw N Wt. cbn in N. injection N as <-. discriminate Wt.
  - intros w0 l w' R I I' A IH _ T p3 nw N3 W3.
    destruct (reach_roles _ _ R) as [LEN RO].
    destruct T as [tid e p lk' p' os N C|tid e p w' N S|https bytes P].
    + assert (pc_ok (w_lk w0) p) as PO
        by (pose proof (inv_threads _ _ I) as TH; rewrite Forall_forall in TH; apply TH; eapply nth_error_In; exact N).
      cbn [w_threads after_cs emit set_thread set_lk w_rf w_lk] in *.
      destruct (Nat.eq_dec tid 3) as [->|NT].
      * rewrite (nth_list_set_same _ _ _ _ N) in N3. injection N3 as ->.
        pose proof (RO _ _ N) as RL.
        destruct C; cbn in RL; try discriminate RL.
        -- (* f_top *) injection W3 as <-. right. right. eapply rf_safe_fresh; eassumption.
        -- (* f_scan *) destruct ids; discriminate W3.
      * rewrite nth_error_list_set_ne in N3 by exact NT.
        destruct (IH _ _ N3 W3) as [P|[U|S]].
        -- left. exact P.
        -- right. left. eapply under_way_set; [exact N|eapply csr_no_chain; exact C|reflexivity|exact U].
        -- destruct (csr_calm _ _ _ _ _ _ _ I PO C) as [SG|CA].
           ++ right. left. exists tid, p'. rewrite will_do_chain. split; [|exact SG].
              cbn. eapply nth_list_set_same. exact N.
           ++ right. right. cbn. eapply calm_safe; eassumption.
    + destruct S as [a k|P|P|P|n ev q Q|Q|nw0 G|nw0 G|nw0 G|nw0 G|nw0 G|nw0 G];
        try (match type of N with nth_error _ tid = Some ?q =>
               assert (tid <> 3%nat) as NT by (intros ->; pose proof (RO _ _ N) as RL; discriminate RL);
               threads N3; rewrite nth_error_list_set_ne in N3 by exact NT;
               destruct (IH _ _ N3 W3) as [P'|[U|S]];
                 [left; exact P'|right; left; eapply under_way_set; [exact N|reflexivity|reflexivity|exact U]|right; right; exact S]
             end; fail).
      * (* s_do *)
        destruct (Nat.eq_dec tid 3) as [->|NT].
        -- rewrite (do_threads w0 3 k a 3 k (nth_list_set_same _ _ _ _ N)) in N3. injection N3 as <-.
           pose proof (do_not_inner _ _ _ _ _ R N) as IN. destruct k; try discriminate W3; discriminate IN.
        -- assert (nth_error (w_threads w0) 3 = Some p3) as N3'.
           { destruct (nth_error (w_threads w0) 3) as [q|] eqn:Q; [|apply nth_error_None in Q; lia].
             rewrite (do_threads w0 tid k a 3 q) in N3; [exact N3|]. rewrite nth_error_list_set_ne by exact NT. exact Q. }
           destruct (IH _ _ N3' W3) as [P|[U|S]].
           ++ left. destruct a; exact P || reflexivity.
           ++ assert (a = ASigRefresher \/ a <> ASigRefresher) as [->|NE] by (destruct a; (left; reflexivity) || (right; discriminate)).
              ** left. reflexivity.
              ** right. left. apply under_way_do; assumption.
           ++ right. right. rewrite do_action_lk. exact S.
      * (* s_rf_go *)
        assert (tid = 3%nat) as -> by (pose proof (RO _ _ N) as RL; destruct tid as [|[|[|[|n]]]]; discriminate RL || reflexivity).
        threads N3. rewrite (nth_list_set_same _ _ _ _ N) in N3. injection N3 as <-. discriminate W3.
      * (* s_rf_block *)
        assert (tid = 3%nat) as -> by (pose proof (RO _ _ N) as RL; destruct tid as [|[|[|[|n]]]]; discriminate RL || reflexivity).
        threads N3. rewrite (nth_list_set_same _ _ _ _ N) in N3. injection N3 as <-. injection W3 as <-.
        unfold wait_or_go in G. apply orb_false_iff in G as [GP _].
        destruct (IH _ _ N eq_refl) as [P|[U|S]]; [congruence| |right; right; exact S].
        right. left. eapply under_way_set; [exact N|reflexivity|reflexivity|exact U].
      * (* s_rf_wake *)
        assert (tid = 3%nat) as -> by (pose proof (RO _ _ N) as RL; destruct tid as [|[|[|[|n]]]]; discriminate RL || reflexivity).
        threads N3. rewrite (nth_list_set_same _ _ _ _ N) in N3. injection N3 as <-. injection W3 as <-.
        destruct (IH _ _ N eq_refl) as [P|[U|S]]; [left; exact P| |right; right; exact S].
        right. left. eapply under_way_set; [exact N|reflexivity|reflexivity|exact U].
    + threads N3. rewrite nth_error_app1 in N3 by lia.
      destruct (IH _ _ N3 W3) as [P'|[U|S]]; [left; exact P'| |right; right; exact S].
      right. left. eapply under_way_add; [reflexivity|exact U].
Qed.

Lemma reach_nt_awake O w : reachable O w -> nt_awake w.
Proof.
  apply reach_ind.
  - intros e c hp hsp pk _ _ p nw N Wt. cbn in N. injection N as <-. discriminate Wt.
  - intros w0 l w' R I I' A IH _ T p3 nw N3 W3.
    destruct (reach_roles _ _ R) as [LEN RO].
    destruct T as [tid e p lk' p' os N C|tid e p w' N S|https bytes P].
    + cbn [w_threads after_cs emit set_thread set_lk w_nt w_lk] in *.
      destruct (Nat.eq_dec tid 2) as [->|NT].
      * rewrite (nth_list_set_same _ _ _ _ N) in N3. injection N3 as ->.
        pose proof (RO _ _ N) as RL.
        destruct C; cbn in RL; try discriminate RL.
        -- (* n_top *) injection W3 as <-. right. right. eapply nt_safe_fresh; eassumption.
        -- (* n_scan *) exfalso. revert W3.
           destruct (flat_map (notify_cmds (w_lk w0) (env_now e)) (details (w_lk w0))) as [|[[n c] u] ll]; discriminate.
      * rewrite nth_error_list_set_ne in N3 by exact NT.
        destruct (IH _ _ N3 W3) as [P|[U|S]].
        -- left. exact P.
        -- right. left. eapply under_way_set; [exact N|eapply csr_no_chain; exact C|reflexivity|exact U].
        -- destruct (csr_quiet_nt _ _ _ _ _ _ _ C) as [SG|CA].
           ++ intros ->. pose proof (RO _ _ N) as RL. destruct tid as [|[|[|[|n]]]]; try discriminate RL. congruence.
           ++ right. left. exists tid, p'. rewrite will_do_chain. split; [|exact SG].
              cbn. eapply nth_list_set_same. exact N.
           ++ right. right. cbn. eapply quiet_safe; eassumption.
    + destruct S as [a k|P|P|P|n ev q Q|Q|nw0 G|nw0 G|nw0 G|nw0 G|nw0 G|nw0 G];
        try (match type of N with nth_error _ tid = Some ?q =>
               assert (tid <> 2%nat) as NT by (intros ->; pose proof (RO _ _ N) as RL; discriminate RL);
               threads N3; rewrite nth_error_list_set_ne in N3 by exact NT;
               destruct (IH _ _ N3 W3) as [P'|[U|S]];
                 [left; exact P'|right; left; eapply under_way_set; [exact N|reflexivity|reflexivity|exact U]|right; right; exact S]
             end; fail).
      * (* s_do *)
        destruct (Nat.eq_dec tid 2) as [->|NT].
        -- rewrite (do_threads w0 2 k a 2 k (nth_list_set_same _ _ _ _ N)) in N3. injection N3 as <-.
           pose proof (do_not_inner _ _ _ _ _ R N) as IN. destruct k; try discriminate W3; discriminate IN.
        -- assert (nth_error (w_threads w0) 2 = Some p3) as N3'.
           { destruct (nth_error (w_threads w0) 2) as [q|] eqn:Q; [|apply nth_error_None in Q; lia].
             rewrite (do_threads w0 tid k a 2 q) in N3; [exact N3|]. rewrite nth_error_list_set_ne by exact NT. exact Q. }
           destruct (IH _ _ N3' W3) as [P|[U|S]].
           ++ left. destruct a; exact P || reflexivity.
           ++ assert (a = ASigNotifier \/ a <> ASigNotifier) as [->|NE] by (destruct a; (left; reflexivity) || (right; discriminate)).
              ** left. reflexivity.
              ** right. left. apply under_way_do; assumption.
           ++ right. right. rewrite do_action_lk. exact S.
      * (* s_nt_go *)
        assert (tid = 2%nat) as -> by (pose proof (RO _ _ N) as RL; destruct tid as [|[|[|[|n]]]]; discriminate RL || reflexivity).
        threads N3. rewrite (nth_list_set_same _ _ _ _ N) in N3. injection N3 as <-. discriminate W3.
      * (* s_nt_block *)
        assert (tid = 2%nat) as -> by (pose proof (RO _ _ N) as RL; destruct tid as [|[|[|[|n]]]]; discriminate RL || reflexivity).
        threads N3. rewrite (nth_list_set_same _ _ _ _ N) in N3. injection N3 as <-. injection W3 as <-.
        unfold wait_or_go in G. apply orb_false_iff in G as [GP _].
        destruct (IH _ _ N eq_refl) as [P|[U|S]]; [congruence| |right; right; exact S].
        right. left. eapply under_way_set; [exact N|reflexivity|reflexivity|exact U].
      * (* s_nt_wake *)
        assert (tid = 2%nat) as -> by (pose proof (RO _ _ N) as RL; destruct tid as [|[|[|[|n]]]]; discriminate RL || reflexivity).
        threads N3. rewrite (nth_list_set_same _ _ _ _ N) in N3. injection N3 as <-. injection W3 as <-.
        destruct (IH _ _ N eq_refl) as [P|[U|S]]; [left; exact P| |right; right; exact S].
        right. left. eapply under_way_set; [exact N|reflexivity|reflexivity|exact U].
    + threads N3. rewrite nth_error_app1 in N3 by lia.
      destruct (IH _ _ N3 W3) as [P'|[U|S]]; [left; exact P'| |right; right; exact S].
      right. left. eapply under_way_add; [reflexivity|exact U].
Qed.

(** A thread that has not been notified has nothing set to be notified of. *)
Definition cv_ok (c : cv) : Prop := cv_waiting c = true -> cv_pred c = false.

Lemma reach_cv O w : reachable O w -> cv_ok (w_ev w) /\ cv_ok (w_nt w) /\ cv_ok (w_rf w).
Proof.
  revert w. apply (reach_ind O (fun w => cv_ok (w_ev w) /\ cv_ok (w_nt w) /\ cv_ok (w_rf w))).
  - intros. repeat split; intros H; discriminate H.
  - intros w l w' _ _ _ _ (E & N & F) _ T. destruct T as [tid e p lk' p' os _ _|tid e p w' _ S|https bytes _].
    + cbn. auto.
    + destruct S; try (cbn; repeat split; try assumption; intros X; discriminate X || reflexivity; fail).
      destruct a; cbn; repeat split; try assumption; intros X; discriminate X.
    + cbn. auto.
Qed.

Lemma refresher_no_lost_wakeup O w nw :
  reachable O w -> refresher_sleeps w nw -> ~ under_way w ASigRefresher ->
  forall n act a now t, configured w n act -> holds w n (TSActive a) -> time_ok (expiry a) ->
    refresh_time act (conf w) now a t ->
    exists d, nw = Some d /\ (d <= t \/ (t = now /\ now < d)).
Proof.
  intros R [N3 Wt] NU n act a now t C (e0 & Hh & <- & TS) EX RT.
  destruct (reach_rf_awake _ _ R _ _ N3 eq_refl) as [P|[U|S]].
  - destruct (reach_cv _ _ R) as (_ & _ & K). rewrite (K Wt) in P. discriminate P.
  - contradiction.
  - eapply S; [exact Hh|exact C|exact TS|].
    apply due_time; [apply EX|eapply settings_nonneg; eassumption|exact RT].
Qed.

Lemma notifier_no_lost_wakeup O w nw :
  reachable O w -> notifier_sleeps w nw -> ~ under_way w ASigNotifier ->
  forall n cvr ln st u now t, holds w n (TSPending cvr ln st u) -> remind_time (conf w) now ln t ->
    exists d, nw = Some d /\ (d <= t \/ (t = now /\ now < d)).
Proof.
  intros R [N3 Wt] NU n cvr ln st u now t (e0 & Hh & <- & TS) RT.
  destruct (reach_nt_awake _ _ R _ _ N3 eq_refl) as [P|[U|S]].
  - destruct (reach_cv _ _ R) as (_ & K & _). rewrite (K Wt) in P. discriminate P.
  - contradiction.
  - eapply S; [exact Hh|exact TS|exact RT].
Qed.
