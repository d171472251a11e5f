(** Proofs about whole threads: every worker ends after a bounded number of its
    own steps, and its history is one of those of SpecSessions.v. *)
From Verif Require Import Base BaseLemmas Time Utf8 Base64 Url Json Oracles Config Dump State Http
  Timers Server StateLemmas ConfigLemmas Steps Inv Reach SpecServer Own Trace Pend Basic Decide SpecPages SpecSessions.

Local Open Scope nat_scope.

Definition obs_of (a : action) : list obs := action_obs a.

(** * One step of one thread *)

(** The next program counter and what was emitted. *)
Inductive moves (O : oracles) (w : world) (e : env) : pc -> pc -> list obs -> Prop :=
| mv_cs p lk' p' os : csr O w e p lk' p' os -> moves O w e p p' os
| mv_do a k : moves O w e (PDo a k) k (action_obs a).

Lemma skipn_trace (t os : list obs) : skipn (List.length t) (t ++ os) = os.
Proof. rewrite skipn_app, skipn_all, Nat.sub_diag. reflexivity. Qed.

Lemma worker_step O w tid p e w' :
  reachable O w -> nth_error (w_threads w) tid = Some p -> pc_role p = RoWorker ->
  step O w (LTick tid e) = SNext w' ->
  exists p' os, moves O w e p p' os /\ nth_error (w_threads w') tid = Some p'
                /\ skipn (List.length (w_trace w)) (w_trace w') = os.
Proof.
  intros R N RO S. destruct (step_ok _ _ _ _ (reach_inv _ _ R) S) as (_ & _ & T & _).
  inversion T as [t1 e1 q lk' p' os N1 C EL EW|t1 e1 q w1 N1 SY EL EW|]; subst.
  - assert (q = p) as -> by congruence. exists p', os. split; [eapply mv_cs; exact C|]. split.
    + simpl. eapply nth_list_set_same. exact N.
    + apply skipn_trace.
  - assert (q = p) as -> by congruence. destruct SY; try discriminate RO.
    exists k, (action_obs a). split; [apply mv_do|]. split.
    + assert (nth_error (list_set tid k (w_threads w)) tid = Some k) as X
        by (eapply nth_list_set_same; exact N).
      destruct a; simpl; try exact X. rewrite nth_error_app1; [exact X|].
      apply nth_error_Some. rewrite X. discriminate.
    + rewrite do_action_trace. apply skipn_trace.
Qed.

Lemma moves_role O w e p p' os : moves O w e p p' os -> pc_role p' = pc_role p.
Proof. intros [p0 lk' p0' os0 C|a k]; [eapply csr_role; exact C|reflexivity]. Qed.

(** * Bounds *)

(** How many steps a worker still has before it, at most. *)
Fixpoint left (p : pc) : nat :=
  match p with
  | PDo _ k => S (left k)
  | PHttpNotify _ _ _ => 3
  | PHttpFail _ _ => 4
  | PHttpBody _ _ => 5
  | PHttpPost _ _ _ tries => S (pred tries + 5)
  | PHttpStart _ _ => 17
  | PRefPerm _ _ _ => 3
  | PRefCmdDone _ _ _ | PRefGot _ _ _ _ _ _ => 4
  | PRefCmd _ _ _ | PRefBody _ _ _ _ => 5
  | PRefTransient _ _ _ => 6
  | PRefPost _ _ _ _ _ => 7
  | PRefStart _ => 8
  | _ => 0
  end.

Lemma moves_left O w e p p' os : moves O w e p p' os -> pc_role p = RoWorker -> left p' < left p.
Proof.
  intros [p0 lk' p0' os0 C|a k] RO; [|simpl; lia].
  destruct C; try discriminate RO; cbn [left respond push_event pred Nat.add retry_post]; try lia.
  - destruct (e_post e); cbn [ref_post_next left]; try lia. destruct (is_transient k); cbn [left]; lia.
  - unfold ref_body_next. destruct (o_json O body) as [v|m]; [|cbn; lia].
    destruct (json_str $"error" v); [cbn; lia|].
    destruct (json_str $"access_token" v); [|cbn; lia].
    destruct (json_u64 $"expires_in" v); [|cbn; lia].
    destruct (json_str $"token_type" v) as [ty|]; [|cbn; lia].
    destruct (str_eqb ty $"Bearer"); cbn; lia.
  - destruct (e_post e); cbn [http_post_next left]; try lia. destruct tries as [|[|n]]; cbn [left pred]; lia.
  - destruct wa; cbn; lia.
  - destruct wa; cbn; lia.
Qed.

Lemma own_steps_cons tid l ls : own_steps tid (l :: ls) = (if is_tick tid l then 1 else 0) + own_steps tid ls.
Proof. unfold own_steps. simpl. destruct (is_tick tid l); reflexivity. Qed.

Lemma bounded O ls : forall w tid p w',
  reachable O w -> nth_error (w_threads w) tid = Some p -> pc_role p = RoWorker ->
  run O w ls = Some (SNext w') -> own_steps tid ls <= left p.
Proof.
  induction ls as [|l ls IH]; intros w tid p w' R N RO E; [unfold own_steps; simpl; lia|].
  simpl in E. destruct (step O w l) as [| |w1] eqn:S; try discriminate.
  assert (reachable O w1) as R1 by (eapply reach_step; eassumption).
  rewrite own_steps_cons. destruct (is_tick tid l) eqn:TK.
  - destruct l as [t e|]; [|discriminate]. simpl in TK. apply Nat.eqb_eq in TK. subst t.
    destruct (worker_step _ _ _ _ _ _ R N RO S) as (p1 & os & M & N1 & _).
    pose proof (moves_left _ _ _ _ _ _ M RO) as LT.
    assert (own_steps tid ls <= left p1) as B
      by (eapply IH; [exact R1|exact N1|rewrite (moves_role _ _ _ _ _ _ M); exact RO|exact E]).
    lia.
  - assert (nth_error (w_threads w1) tid = Some p) as N1.
    { destruct (step_ok _ _ _ _ (reach_inv _ _ R) S) as (_ & _ & T & _).
      eapply tstep_other; try eassumption. intros e ->. simpl in TK. rewrite Nat.eqb_refl in TK. discriminate. }
    eapply IH; eassumption.
Qed.

(** * Histories *)

(** The generic argument: a family of languages closed under the moves of the
    thread contains its history. *)
Lemma history O (ok : pc -> Prop) (L : pc -> list obs -> Prop) :
  (forall p, ok p -> pc_role p = RoWorker) ->
  (ok PDone -> L PDone []) ->
  (forall w e p p' os, reachable O w -> pc_ok (w_lk w) p -> ok p -> moves O w e p p' os ->
     ok p' /\ forall t, L p' t -> L p (os ++ t)) ->
  forall ls w tid p w',
  reachable O w -> nth_error (w_threads w) tid = Some p -> ok p ->
  run O w ls = Some (SNext w') -> over w' tid -> L p (said O tid w ls).
Proof.
  intros W D M. induction ls as [|l ls IH]; intros w tid p w' R N OK E V.
  - simpl in E. injection E as <-. unfold over in V. assert (p = PDone) as -> by congruence. simpl. auto.
  - simpl in E. simpl. destruct (step O w l) as [| |w1] eqn:S; try discriminate.
    assert (reachable O w1) as R1 by (eapply reach_step; eassumption).
    destruct (is_tick tid l) eqn:TK.
    + destruct l as [t e|]; [|discriminate]. simpl in TK. apply Nat.eqb_eq in TK. subst t.
      destruct (worker_step _ _ _ _ _ _ R N (W _ OK) S) as (p1 & os & MV & N1 & ->).
      assert (pc_ok (w_lk w) p) as PO.
      { pose proof (inv_threads _ _ (reach_inv _ _ R)) as TH. rewrite Forall_forall in TH. apply TH.
        eapply nth_error_In. exact N. }
      destruct (M _ _ _ _ _ R PO OK MV) as [OK1 ST]. apply ST. eapply IH; eassumption.
    + assert (nth_error (w_threads w1) tid = Some p) as N1.
      { destruct (step_ok _ _ _ _ (reach_inv _ _ R) S) as (_ & _ & T & _).
        eapply tstep_other; try eassumption. intros e ->. simpl in TK. rewrite Nat.eqb_refl in TK. discriminate. }
      simpl. eapply IH; eassumption.
Qed.

(** ** Connections *)

Definition conn_action (a : action) : Prop :=
  match a with
  | AEmit (OHttpResp _) | ASigRefresher | ASigEventer | APushEvent _ EvNew => True
  | _ => False
  end.

Fixpoint conn_pc (p : pc) : Prop :=
  match p with
  | PDone | PHttpStart _ _ | PHttpBody _ _ | PHttpFail _ _ => True
  | PDo a k => conn_action a /\ conn_pc k
  | PHttpNotify _ _ wa => wa = false
  | PHttpPost _ _ _ tries => tries <> 0
  | _ => False
  end.

Lemma conn_worker p : conn_pc p -> pc_role p = RoWorker.
Proof. induction p; simpl; try contradiction; try reflexivity. intros [_ K]. auto. Qed.

Fixpoint conn_lang (p : pc) (t : list obs) : Prop :=
  match p with
  | PDone => t = []
  | PDo a k => exists t', t = action_obs a ++ t' /\ conn_lang k t'
  | PHttpNotify n m _ => exists o, t = [o] /\ tells n o
  | PHttpFail _ _ => t = [] \/ exists n o, t = [o] /\ tells n o
  | PHttpBody _ body => exchange_end (PRBody body) t
  | PHttpPost _ uri pairs tries =>
      exists rs r t', t = map (OPost uri pairs) rs ++ t' /\ attempts tries rs r /\ exchange_end r t'
  | PHttpStart _ _ => conversation t
  | _ => False
  end.

Lemma fail_end r i m t : conn_lang (PHttpFail i m) t -> exchange_end r t.
Proof. intros [->|(n & o & -> & T)]; [apply xe_nothing|eapply xe_failed; exact T]. Qed.

Lemma csr_conn O w e p p' os :
  reachable O w -> pc_ok (w_lk w) p -> conn_pc p -> moves O w e p p' os ->
  conn_pc p' /\ forall t, conn_lang p' t -> conn_lang p (os ++ t).
Proof.
  intros R PO CP M. destruct M as [p0 lk' p0' os0 C|a k].
  2:{ destruct CP as [_ CP]. split; [exact CP|]. intros t L. simpl. eauto. }
  destruct C; try (exfalso; exact CP); cbn [conn_pc] in CP.
  - (* no answer *)
    exfalso. eapply redirect_known; eassumption.
  - (* plain answer *)
    split; [repeat split|]. intros t (t' & -> & ->). simpl. apply cv_answered. assumption.
  - (* refused *)
    split; [repeat split|]. intros t (t' & -> & o & -> & T). simpl. eapply cv_refused. exact T.
  - (* accepted *)
    split; [repeat split; discriminate|]. intros t (t' & -> & rs & r & t2 & -> & AT & EX).
    simpl. eapply cv_exchange; eassumption.
  - (* a POST *)
    destruct tries as [|k]; [congruence|].
    destruct (e_post e) as [body|m|code body|tr m] eqn:EP; cbn [http_post_next].
    + split; [exact Logic.I|]. intros t L. exists [PRBody body], (PRBody body), t.
      split; [reflexivity|]. split; [apply at_last; intros ? ? X; discriminate X|exact L].
    + split; [exact Logic.I|]. intros t L. exists [PRBodyErr m], (PRBodyErr m), t.
      split; [reflexivity|]. split; [apply at_last; intros ? ? X; discriminate X|eapply fail_end; exact L].
    + split; [exact Logic.I|]. intros t L. exists [PRStatus code body], (PRStatus code body), t.
      split; [reflexivity|]. split; [apply at_last; intros ? ? X; discriminate X|eapply fail_end; exact L].
    + destruct k as [|k].
      * split; [exact Logic.I|]. intros t L. exists [PRTransport tr m], (PRTransport tr m), t.
        split; [reflexivity|]. split; [apply at_giveup|eapply fail_end; exact L].
      * split; [discriminate|]. intros t (rs & r & t2 & -> & AT & EX).
        exists (PRTransport tr m :: rs), r, t2. split; [reflexivity|]. split; [apply at_retry; exact AT|exact EX].
  - split; [exact Logic.I|]. intros t L. simpl. eapply fail_end. exact L.
  - split; [exact Logic.I|]. intros t ->. simpl. apply xe_nothing.
  - split; [exact Logic.I|]. intros t ->. simpl. apply xe_nothing.
  - split; [repeat split|]. intros t (t1 & -> & t2 & -> & t3 & -> & ->). simpl. apply xe_token.
  - split; [exact Logic.I|]. intros t ->. simpl. left. reflexivity.
  - assert (is_active (d_ts e0) = false) as ->.
    { destruct PO as (act & _ & F). destruct (F e0) as [_ (cvr & ln & st & u & ->)]; [assumption|reflexivity|reflexivity]. }
    split; [reflexivity|]. intros t (o & -> & T). simpl. right. eauto.
  - subst wa. split; [exact Logic.I|]. intros t ->. simpl.
    eexists. split; [reflexivity|]. eexists. right. eexists. reflexivity.
  - subst wa. split; [exact Logic.I|]. intros t ->. simpl.
    eexists. split; [reflexivity|]. eexists. left. reflexivity.
Qed.

(** ** Refreshes *)

Definition ref_action (a : action) : Prop :=
  match a with
  | ASigRefresher | ASigEventer | APushEvent _ EvRefresh | APushEvent _ EvInvalidated => True
  | _ => False
  end.

(** [PRefBody]'s body is what the POST returned, so the language of the later
    stages is indexed by the outcome. *)
Fixpoint ref_lang (O : oracles) (p : pc) (t : list obs) : Prop :=
  match p with
  | PDone => t = []
  | PDo a k => exists t', t = action_obs a ++ t' /\ ref_lang O k t'
  | PRefStart _ => refresh_session O t
  | PRefPost _ _ _ uri pairs => exists r t', t = OPost uri pairs r :: t' /\ refresh_end O r t'
  | PRefBody _ _ _ body => refresh_end O (PRBody body) t
  | PRefGot _ _ _ _ _ _ => t = [] \/ (exists n, t = [OEvent n EvRefresh]) \/ exists n, t = [OEvent n EvInvalidated]
  | PRefPerm _ _ _ => t = [] \/ exists n, t = [OEvent n EvInvalidated]
  | PRefTransient _ _ _ | PRefCmd _ _ _ => forall r, transient r -> refresh_end O r t
  | PRefCmdDone _ n true => t = []
  | PRefCmdDone _ n false => t = [OEvent n EvInvalidated]
  | _ => False
  end.

Fixpoint ref_pc (p : pc) : Prop :=
  match p with
  | PDone | PRefStart _ | PRefPost _ _ _ _ _ | PRefBody _ _ _ _ | PRefGot _ _ _ _ _ _ | PRefPerm _ _ _
  | PRefTransient _ _ _ | PRefCmd _ _ _ | PRefCmdDone _ _ _ => True
  | PDo a k => ref_action a /\ ref_pc k
  | _ => False
  end.

Lemma ref_worker p : ref_pc p -> pc_role p = RoWorker.
Proof. induction p; simpl; try contradiction; try reflexivity. intros [_ K]. auto. Qed.

Lemma perm_end O r i n m t : permanent O r -> ref_lang O (PRefPerm i n m) t -> refresh_end O r t.
Proof. intros P [->|(x & ->)]; [apply re_stale|apply re_refused; exact P]. Qed.

Lemma csr_ref O w e p p' os :
  reachable O w -> pc_ok (w_lk w) p -> ref_pc p -> moves O w e p p' os ->
  ref_pc p' /\ forall t, ref_lang O p' t -> ref_lang O p (os ++ t).
Proof.
  intros R PO CP M. destruct M as [p0 lk' p0' os0 C|a k].
  2:{ destruct CP as [_ CP]. split; [exact CP|]. intros t L. simpl. eauto. }
  destruct C; try (exfalso; exact CP); cbn [ref_pc] in CP.
  - split; [exact Logic.I|]. intros t ->. apply rs_nothing.
  - split; [exact Logic.I|]. intros t (r' & t' & -> & X). simpl. apply rs_posted. exact X.
  - split; [exact Logic.I|]. intros t ->. apply rs_nothing.
  - (* the POST *)
    destruct (e_post e) as [body|m|code body|tr m] eqn:EP; cbn [ref_post_next].
    + split; [exact Logic.I|]. intros t L. simpl. eauto.
    + split; [exact Logic.I|]. intros t L. simpl. do 2 eexists. split; [reflexivity|]. apply L. exact Logic.I.
    + split; [exact Logic.I|]. intros t L. simpl. do 2 eexists. split; [reflexivity|].
      eapply perm_end; [exact Logic.I|exact L].
    + destruct (is_transient tr) eqn:TR.
      * split; [exact Logic.I|]. intros t L. simpl. do 2 eexists. split; [reflexivity|]. apply L.
        destruct tr; try discriminate TR; exact Logic.I.
      * split; [exact Logic.I|]. intros t L. simpl. do 2 eexists. split; [reflexivity|].
        eapply perm_end; [|exact L]. destruct tr; try discriminate TR; exact Logic.I.
  - (* the body *)
    assert (forall i' n' m', (forall v tok exs, o_json O body = inl v -> ~ grants v tok exs) ->
      ref_pc (PRefPerm i' n' m') /\ forall t, ref_lang O (PRefPerm i' n' m') t -> ref_lang O (PRefBody i name rtok body) ([] ++ t)) as PERM.
    { intros i' n' m' NG. split; [exact Logic.I|]. intros t L. simpl. eapply perm_end; [exact NG|exact L]. }
    unfold ref_body_next. destruct (o_json O body) as [v|m] eqn:J; [|apply PERM; discriminate].
    destruct (json_str $"error" v) as [er|] eqn:JE.
    { apply PERM. intros v' tok exs [= <-] (X & _). congruence. }
    destruct (json_str $"access_token" v) as [tok|] eqn:JA.
    2:{ apply PERM. intros v' tok' exs' [= <-] (_ & X & _). congruence. }
    destruct (json_u64 $"expires_in" v) as [exs|] eqn:JX.
    2:{ apply PERM. intros v' tok' exs' [= <-] (_ & _ & _ & X). congruence. }
    destruct (json_str $"token_type" v) as [ty|] eqn:JT.
    2:{ apply PERM. intros v' tok' exs' [= <-] (_ & _ & X & _). congruence. }
    destruct (str_eqb_spec ty $"Bearer") as [->|NB].
    2:{ apply PERM. intros v' tok' exs' [= <-] (_ & _ & X & _). congruence. }
    assert (grants v tok exs) as G by (repeat split; assumption).
    split; [exact Logic.I|]. intros t [->|[(n & ->)|(n & ->)]]; simpl.
    + apply re_stale.
    + eapply re_token; eassumption.
    + eapply re_unrepresentable; eassumption.
  - split; [exact Logic.I|]. intros t ->. left. reflexivity.
  - split; [repeat split|]. intros t (t1 & -> & t2 & -> & t3 & -> & ->). right. left. eexists. reflexivity.
  - split; [repeat split|]. intros t (t1 & -> & t2 & -> & ->). right. right. eexists. reflexivity.
  - split; [exact Logic.I|]. intros t ->. left. reflexivity.
  - split; [repeat split|]. intros t (t1 & -> & t2 & -> & ->). right. eexists. reflexivity.
  - split; [repeat split|]. intros t (t1 & -> & ->) r' TR. apply re_stale.
  - split; [repeat split|]. intros t (t1 & -> & ->) r' TR. apply re_stale.
  - split; [exact Logic.I|]. intros t L. exact L.
  - split; [exact Logic.I|]. intros t L r' TR. cbn [ref_lang] in L. destruct (e_cmd_ok e); subst t.
    + apply re_kept. exact TR.
    + apply re_given_up. exact TR.
  - split; [repeat split|]. intros t (t1 & -> & ->). reflexivity.
  - split; [repeat split|]. intros t (t1 & -> & t2 & -> & t3 & -> & ->). reflexivity.
  - split; [repeat split|]. intros t (t1 & -> & ->). reflexivity.
  - split; [repeat split|]. intros t (t1 & -> & t2 & -> & t3 & -> & ->). reflexivity.
Qed.

(** ** Statements *)

Lemma conn_new O w https bytes w1 :
  reachable O w -> step O w (LHttpConn https bytes) = SNext w1 ->
  reachable O w1 /\ nth_error (w_threads w1) (List.length (w_threads w)) = Some (PHttpStart https bytes).
Proof.
  intros R S. split; [eapply reach_step; eassumption|].
  destruct (step_ok _ _ _ _ (reach_inv _ _ R) S) as (_ & _ & T & _). inversion T; subst. simpl.
  rewrite nth_error_app2, Nat.sub_diag by lia. reflexivity.
Qed.

(** A step that starts a thread, other than a connection, starts a refresh. *)
Lemma ref_new O w t e w1 p :
  reachable O w -> step O w (LTick t e) = SNext w1 ->
  nth_error (w_threads w1) (List.length (w_threads w)) = Some p ->
  exists i, p = PRefStart i.
Proof.
  intros R S N. destruct (step_ok _ _ _ _ (reach_inv _ _ R) S) as (_ & _ & T & _).
  assert (forall x, nth_error (list_set t x (w_threads w)) (List.length (w_threads w)) = None) as NO.
  { intros x. apply nth_error_None. rewrite list_set_length. lia. }
  inversion T as [t1 e1 q lk' p' os N1 C EL EW|t1 e1 q w' N1 SY EL EW|]; subst.
  - simpl in N. rewrite NO in N. discriminate.
  - destruct SY; simpl in N; try (rewrite NO in N; discriminate).
    destruct a; simpl in N; try (rewrite NO in N; discriminate).
    rewrite nth_error_app2 in N by (rewrite list_set_length; lia).
    rewrite list_set_length, Nat.sub_diag in N. injection N as <-. eauto.
Qed.

Lemma connection_bounded O w https bytes w1 ls w2 :
  reachable O w -> step O w (LHttpConn https bytes) = SNext w1 -> run O w1 ls = Some (SNext w2) ->
  own_steps (List.length (w_threads w)) ls <= 17.
Proof.
  intros R S E. destruct (conn_new _ _ _ _ _ R S) as [R1 N1].
  apply (bounded _ _ _ _ _ _ R1 N1 eq_refl E).
Qed.

Lemma refresh_bounded O w t e w1 ls w2 p :
  reachable O w -> step O w (LTick t e) = SNext w1 ->
  nth_error (w_threads w1) (List.length (w_threads w)) = Some p ->
  run O w1 ls = Some (SNext w2) ->
  own_steps (List.length (w_threads w)) ls <= 8.
Proof.
  intros R S N E. destruct (ref_new _ _ _ _ _ _ R S N) as [i ->].
  assert (reachable O w1) as R1 by (eapply reach_step; eassumption).
  apply (bounded _ _ _ _ _ _ R1 N eq_refl E).
Qed.

Lemma connection_history O w https bytes w1 ls w2 :
  reachable O w -> step O w (LHttpConn https bytes) = SNext w1 -> run O w1 ls = Some (SNext w2) ->
  over w2 (List.length (w_threads w)) ->
  conversation (said O (List.length (w_threads w)) w1 ls).
Proof.
  intros R S E V. destruct (conn_new _ _ _ _ _ R S) as [R1 N1].
  apply (history O conn_pc conn_lang conn_worker (fun _ => eq_refl)) with (ls := ls) (w := w1)
    (tid := List.length (w_threads w)) (w' := w2) (p := PHttpStart https bytes); try assumption; [|exact Logic.I].
  exact (csr_conn O).
Qed.

Lemma refresh_history O w t e w1 ls w2 p :
  reachable O w -> step O w (LTick t e) = SNext w1 ->
  nth_error (w_threads w1) (List.length (w_threads w)) = Some p ->
  run O w1 ls = Some (SNext w2) ->
  over w2 (List.length (w_threads w)) ->
  refresh_session O (said O (List.length (w_threads w)) w1 ls).
Proof.
  intros R S N E V. destruct (ref_new _ _ _ _ _ _ R S N) as [i ->].
  assert (reachable O w1) as R1 by (eapply reach_step; eassumption).
  apply (history O ref_pc (ref_lang O) ref_worker (fun _ => eq_refl)) with (ls := ls) (w := w1)
    (tid := List.length (w_threads w)) (w' := w2) (p := PRefStart i); try assumption; [|exact Logic.I].
  intros w0 e0 p p' os R0 PO OK M. eapply csr_ref; eassumption.
Qed.

(** * Nothing is ever stuck *)

Lemma enabled O w tid p e :
  reachable O w -> w_alive w = true -> nth_error (w_threads w) tid = Some p ->
  ~ breaks_down O w (LTick tid e) ->
  p = PDone \/ waits w e tid \/ exists w', step O w (LTick tid e) = SNext w'.
Proof.
  intros R A N NB. destruct (step O w (LTick tid e)) as [| |w'] eqn:S.
  - assert (pc_role p = tid_role tid) as RO by (apply (ro_pc _ (reach_roles _ _ R)); exact N).
    unfold step in S. rewrite A, N in S. cbn [negb] in S.
    assert (forall q c, run_cs w tid q c <> SStuck) as RC.
    { intros q [[[x y] z]|m|]; discriminate. }
    destruct p; cbn [step_thread] in S; try discriminate S; try (exfalso; exact (RC _ _ S)).
    + left. reflexivity.
    + right. left. destruct tid as [|[|[|[|tid]]]]; try discriminate RO.
      destruct (e_client e) as [req|] eqn:C; [|apply wt_client; assumption].
      exfalso. destruct (request O e w req) as [[[x y] z]|m|]; discriminate S.
    + destruct (cv_pred (w_ev w)); discriminate S.
    + right. left. destruct tid as [|[|[|[|tid]]]]; try discriminate RO.
      destruct (cv_waiting (w_ev w)) eqn:CW; [|discriminate S]. destruct (e_wake e) eqn:EW; [discriminate S|].
      apply wt_eventer; assumption.
    + destruct (w_evq w) as [|[n ev] q]; discriminate S.
    + destruct (c_token_event_cmd (lconfig (w_lk w))); discriminate S.
    + destruct (next_wakeup notify_at (w_lk w) (e_clk e)); discriminate S.
    + destruct (wait_or_go e (w_nt w) nw); discriminate S.
    + right. left. destruct tid as [|[|[|[|tid]]]]; try discriminate RO.
      destruct (cv_waiting (w_nt w)) eqn:CW; [|discriminate S]. destruct (e_wake e) eqn:EW; [discriminate S|].
      eapply wt_notifier; eassumption.
    + destruct (next_wakeup refresh_at (w_lk w) (e_clk e)); discriminate S.
    + destruct (wait_or_go e (w_rf w) nw); discriminate S.
    + right. left. destruct tid as [|[|[|[|tid]]]]; try discriminate RO.
      destruct (cv_waiting (w_rf w)) eqn:CW; [|discriminate S]. destruct (e_wake e) eqn:EW; [discriminate S|].
      eapply wt_refresher; eassumption.
  - exfalso. exact (NB (panics_only _ _ _ R S)).
  - right. right. eauto.
Qed.

(** The four permanent threads never end. *)
Lemma permanent_threads O w tid :
  reachable O w -> tid < 4 -> exists p, nth_error (w_threads w) tid = Some p /\ p <> PDone.
Proof.
  intros R LT. pose proof (reach_roles _ _ R) as [LEN RO].
  destruct (nth_error (w_threads w) tid) as [p|] eqn:N.
  - exists p. split; [reflexivity|]. intros ->. specialize (RO _ _ N). simpl in RO.
    destruct tid as [|[|[|[|tid]]]]; try discriminate RO. lia.
  - apply nth_error_None in N. lia.
Qed.

Lemma enabled_or_waiting O w tid e :
  reachable O w -> w_alive w = true -> tid < List.length (w_threads w) -> ~ breaks_down O w (LTick tid e) ->
  (over w tid /\ 4 <= tid) \/ waits w e tid \/ exists w', step O w (LTick tid e) = SNext w'.
Proof.
  intros R A LT NB. destruct (nth_error (w_threads w) tid) as [p|] eqn:N; [|apply nth_error_None in N; lia].
  destruct (enabled O w tid p e R A N NB) as [->|[W|X]]; [left|right; left; exact W|right; right; exact X].
  split; [exact N|]. destruct (le_lt_dec 4 tid) as [L|L]; [exact L|].
  destruct (permanent_threads O w tid R L) as (p & N' & D). congruence.
Qed.
