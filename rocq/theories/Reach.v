(** The basic invariant holds in every reachable state. *)
From Verif Require Import Base BaseLemmas Time Utf8 Base64 Url Json Oracles Config Located Dump State Http
  Timers Server StateLemmas ConfigLemmas Locate Steps SpecStatus Inv.

(** The account a bumped entry belongs to is as before. *)
Lemma owns_new k lk e0 act ts (P : tokenstate -> Prop) :
  wf lk -> has lk e0 -> account_of lk (d_name e0) = Some act -> P ts ->
  owns (bump k lk (d_id e0) ts) (account_count lk + k)%N act P.
Proof.
  intros W H A HP. split; [simpl; lia|].
  intros e I E. apply bump_in in I as [(e1 & H1 & E1 & ->)|[I N]].
  - simpl. split; [|exact HP]. exists act. split; [|apply secure_eq_refl].
    assert (e1 = e0) by (apply (wf_id_inj lk); auto). subst e1. exact A.
  - exfalso. pose proof (wf_entry_count _ _ W I). lia.
Qed.

Lemma owns_has lk e0 act (P : tokenstate -> Prop) :
  wf lk -> has lk e0 -> account_of lk (d_name e0) = Some act -> P (d_ts e0) ->
  owns lk (d_id e0) act P.
Proof.
  intros W H A HP. split; [exact (wf_entry_count _ _ W H)|].
  intros e I E. assert (e = e0) by (apply (wf_id_inj lk); auto). subst e.
  split; [|exact HP]. exists act. split; [exact A|apply secure_eq_refl].
Qed.

Lemma owns_same lk i act e0 P :
  wf lk -> owns lk i act P -> has lk e0 -> d_id e0 = i ->
  exists a, account_of lk (d_name e0) = Some a /\ secure_eq a act = true /\ a_name act = d_name e0
            /\ P (d_ts e0).
Proof.
  intros W [L F] H E. destruct (F e0 H E) as [(a & A & S) HP]. exists a.
  split; [exact A|]. split; [exact S|]. split; [|exact HP].
  destruct (wf_account _ _ W H) as (a' & A' & N). unfold account_of in A. rewrite A in A'. injection A' as <-.
  apply secure_eq_fields in S. destruct S as [S _]. congruence.
Qed.

Lemma pc_ok_emit_cmds lk l k : pc_ok lk k -> pc_ok lk (emit_cmds l k).
Proof. intros K. induction l as [|[[n c] u] l IH]; simpl; auto. Qed.

Lemma pc_ok_spawn_all lk ids k :
  pc_ok lk k -> (forall i, In i ids -> (i < account_count lk)%N) -> pc_ok lk (spawn_all ids k).
Proof.
  intros K. induction ids as [|i ids IH]; intros H; simpl; [exact K|]. split.
  - apply H. left. reflexivity.
  - apply IH. intros j Hj. apply H. right. exact Hj.
Qed.

Lemma csr_ok O w e p lk' p' os :
  inv O w -> pc_ok (w_lk w) p -> csr O w e p lk' p' os ->
  wf lk' /\ evolves (w_lk w) lk' /\ conf_ok O (lconfig lk') /\ pc_ok lk' p'.
Proof.
  intros I PO C. destruct I as [W CO PT TH].
  assert (forall k i ts, wf (bump k (w_lk w) i ts) /\ evolves (w_lk w) (bump k (w_lk w) i ts)
                         /\ conf_ok O (lconfig (bump k (w_lk w) i ts))) as B.
  { intros k i ts. split; [apply bump_wf; exact W|]. split; [apply bump_evolves; exact W|exact CO]. }
  assert (wf (w_lk w) /\ evolves (w_lk w) (w_lk w) /\ conf_ok O (lconfig (w_lk w))) as R.
  { split; [exact W|]. split; [apply evolves_refl; exact W|exact CO]. }
  assert (forall k i ts (Q : Prop), Q -> wf (bump k (w_lk w) i ts) /\ evolves (w_lk w) (bump k (w_lk w) i ts)
                         /\ conf_ok O (lconfig (bump k (w_lk w) i ts)) /\ Q) as BQ.
  { intros k i ts Q q. destruct (B k i ts) as (b1 & b2 & b3). auto. }
  assert (forall (Q : Prop), Q -> wf (w_lk w) /\ evolves (w_lk w) (w_lk w)
                         /\ conf_ok O (lconfig (w_lk w)) /\ Q) as RQ.
  { intros Q q. destruct R as (b1 & b2 & b3). auto. }
  destruct C; try (apply RQ; simpl; tauto); try (apply BQ; simpl; tauto).
  - (* m_spawn *) apply RQ. simpl. split; [|tauto]. eapply wf_entry_count; eassumption.
  - (* m_reload *)
    match goal with U : update_conf _ _ = _ |- _ =>
      destruct (update_conf_spec _ _ _ W (co_wf _ _ ltac:(eassumption)) U) as (W' & EV & LC & _) end.
    split; [exact W'|]. split; [exact EV|]. rewrite LC. split; [assumption|]. simpl. tauto.
  - (* m_restore *)
    split; [assumption|]. split; [assumption|].
    match goal with E : lconfig lk' = _ |- _ => rewrite E end. split; [exact CO|]. simpl. tauto.
  - (* r_start *)
    apply BQ. simpl. exists act. split; [assumption|]. split; [reflexivity|]. split; [reflexivity|].
    apply owns_new; try assumption. eexists. split; [reflexivity|]. split; [reflexivity|assumption].
  - (* r_post *)
    apply RQ. destruct PO as (act & N & _ & _ & OW).
    assert (exists act0, a_name act0 = name /\ owns (w_lk w) i act0 refreshing) as P2.
    { exists act. split; [exact N|]. eapply owns_weaken; [|exact OW]. apply refreshing_with_weaken. }
    unfold ref_post_next. destruct (e_post e) as [b|m|c b|k m]; simpl; eauto.
    destruct (is_transient k); simpl; exact P2.
  - (* r_body *)
    apply RQ. destruct PO as (act & N & OW).
    assert (exists act0, a_name act0 = name /\ owns (w_lk w) i act0 refreshing) as P2.
    { exists act. split; [exact N|]. eapply owns_weaken; [|exact OW]. apply refreshing_with_weaken. }
    unfold ref_body_next. destruct (o_json O body) as [v|m]; [|exact P2].
    destruct (json_str $"error" v); [exact P2|].
    destruct (json_str $"access_token" v); [|exact P2].
    destruct (json_u64 $"expires_in" v); [|exact P2].
    destruct (json_str $"token_type" v) as [ty|]; [|exact P2].
    destruct (str_eqb ty $"Bearer"); exact P2.
  - (* r_trans_cmd *)
    apply BQ. simpl. destruct PO as (act & N & OW).
    destruct (owns_same _ _ _ _ _ W OW ltac:(eassumption) eq_refl) as (a1 & A1 & S1 & N1 & (a2 & T2 & Og)).
    assert (a_name a1 = name) as NA by (apply secure_eq_fields in S1; destruct S1 as [S1 _]; congruence).
    exists a1. split; [exact NA|].
    match goal with |- owns ?l _ _ _ => pose proof (owns_new 0 (w_lk w) e0 a1
      (TSActive (set_attempt a (Some (env_now e)) (N.succ (fails a)))) refreshing W ltac:(assumption) A1) as ON end.
    rewrite N.add_0_r in ON. apply ON. eexists. split; [reflexivity|]. simpl. congruence.
  - (* h_code *)
    apply RQ. simpl. split; [tauto|]. exists act, code, cvr, (url_to_str ru), st, u.
    split; [reflexivity|]. split; [reflexivity|]. apply owns_has; try assumption. exists ln. assumption.
  - (* h_post *)
    apply RQ. destruct PO as (act & code & cvr & ru & st & u & EU & EP & OW).
    assert (exists act0, owns (w_lk w) i act0 pending) as P2.
    { exists act. eapply owns_weaken; [|exact OW]. apply pending_with_weaken. }
    unfold http_post_next. destruct (e_post e) as [b|m|c b|k m]; simpl; eauto.
    destruct tries as [|[|n]]; simpl; eauto. exists act, code, cvr, ru, st, u. auto.
  - (* h_notify_cmd *) apply RQ. destruct wa; simpl; tauto.
  - (* h_notify_log *) apply RQ. destruct wa; simpl; tauto.
  - (* n_scan *)
    split; [assumption|]. split; [assumption|].
    match goal with E : lconfig lk' = _ |- _ => rewrite E end. split; [exact CO|].
    apply pc_ok_emit_cmds. exact Logic.I.
  - (* f_scan *)
    apply RQ. apply pc_ok_spawn_all; [exact Logic.I|].
    intros i Hi. match goal with X : forall i, In i ids <-> _ |- _ => apply X in Hi end.
    destruct Hi as (e0 & a & act & j & Hh & Ee & _). rewrite <- Ee. eapply wf_entry_count; eassumption.
Qed.

Lemma forall_list_set {A} (P : A -> Prop) i x l : Forall P l -> P x -> Forall P (list_set i x l).
Proof.
  intros F Px. rewrite Forall_forall in *. intros y Hy. apply in_list_set in Hy as [->|Hy]; auto.
Qed.

Lemma syn_ok O w tid e p w' :
  inv O w -> pc_ok (w_lk w) p -> syn w tid e p w' -> inv O w' /\ w_lk w' = w_lk w.
Proof.
  intros I PO S. destruct I as [W CO PT TH].
  destruct S; try (split; [|reflexivity]; constructor; simpl; try assumption;
                   apply forall_list_set; [assumption|exact Logic.I]).
  destruct PO as [AO PK].
  assert (Forall (pc_ok (w_lk w)) (list_set tid k (w_threads w))) as F
    by (apply forall_list_set; assumption).
  destruct a; simpl; (split; [|reflexivity]); constructor; simpl; try assumption.
  apply Forall_app. split; [exact F|]. constructor; [exact AO|constructor].
Qed.

(** One step keeps the invariant, and only lets the state evolve. *)
Lemma tstep_ok O w l w' :
  inv O w -> tstep O w l w' -> inv O w' /\ evolves (w_lk w) (w_lk w').
Proof.
  intros I T. pose proof (inv_threads _ _ I) as TH. pose proof (inv_wf _ _ I) as W.
  destruct T as [tid e p lk' p' os N C|tid e p w' N S|https bytes P].
  - assert (pc_ok (w_lk w) p) as PO.
    { rewrite Forall_forall in TH. apply TH. eapply nth_error_In. exact N. }
    destruct (csr_ok _ _ _ _ _ _ _ I PO C) as (W' & EV & CO' & PO').
    split; [|exact EV]. destruct I as [_ _ PT _]. constructor; simpl; try assumption.
    apply forall_list_set; [|exact PO'].
    eapply Forall_impl; [|exact TH]. intros q. apply pc_ok_evolves. exact EV.
  - assert (pc_ok (w_lk w) p) as PO.
    { rewrite Forall_forall in TH. apply TH. eapply nth_error_In. exact N. }
    destruct (syn_ok _ _ _ _ _ _ I PO S) as [I' E]. split; [exact I'|].
    rewrite E. apply evolves_refl. exact W.
  - destruct I as [_ CO PT _]. split.
    + constructor; simpl; try assumption. apply Forall_app. split; [exact TH|].
      constructor; [exact Logic.I|constructor].
    + simpl. apply evolves_refl. exact W.
Qed.

Lemma step_ok O w l w' :
  inv O w -> step O w l = SNext w' ->
  inv O w' /\ evolves (w_lk w) (w_lk w') /\ tstep O w l w' /\ w_alive w = true.
Proof.
  intros I S. pose proof (step_spec O w l I) as SP. rewrite S in SP. destruct SP as [A T].
  destruct (tstep_ok _ _ _ _ I T) as [I' EV]. auto.
Qed.

Lemma config_from_path_ok O e c : config_from_path O e = Val c -> conf_ok O c.
Proof.
  unfold config_from_path. destruct (e_file e) as [s|]; [|discriminate].
  destruct (utf8_valid s); [|discriminate]. intros E. apply from_str_val in E. exact (config_from_str_ok _ _ _ _ E).
Qed.

Lemma inv_init O c hp hsp pk : conf_ok O c -> inv O (init_world c hp hsp pk).
Proof.
  intros C. constructor; simpl.
  - apply locked_new_wf. exact (co_wf _ _ C).
  - exact C.
  - destruct (co_wf _ _ C) as (_ & _ & _ & L).
    destruct (c_http_listen c), (c_https_listen c); destruct L; (left; discriminate) || (right; discriminate) || congruence.
  - repeat constructor.
Qed.

Lemma reach_inv O w : reachable O w -> inv O w.
Proof.
  induction 1 as [e c hp hsp pk C|w l w' R IH S].
  - apply inv_init. eapply config_from_path_ok. exact C.
  - eapply step_ok; eassumption.
Qed.

(** Induction over reachable states in terms of [tstep]. *)
Lemma reach_ind (O : oracles) (P : world -> Prop) :
  (forall e c hp hsp pk, config_from_path O e = Val c -> conf_ok O c -> P (init_world c hp hsp pk)) ->
  (forall w l w', reachable O w -> inv O w -> inv O w' -> w_alive w = true ->
     P w -> step O w l = SNext w' -> tstep O w l w' -> P w') ->
  forall w, reachable O w -> P w.
Proof.
  intros H0 HS. induction 1 as [e c hp hsp pk C|w l w' R IH S].
  - eapply H0; [exact C|eapply config_from_path_ok; exact C].
  - pose proof (reach_inv _ _ R) as I. destruct (step_ok _ _ _ _ I S) as (I' & EV & T & A).
    eapply HS; eassumption.
Qed.

(** Several steps. *)
Inductive steps (O : oracles) : world -> world -> Prop :=
| steps_refl w : steps O w w
| steps_step w1 l w2 w3 : steps O w1 w2 -> step O w2 l = SNext w3 -> steps O w1 w3.

Lemma steps_trans O w1 w2 w3 : steps O w1 w2 -> steps O w2 w3 -> steps O w1 w3.
Proof. intros A B. induction B; [exact A|]. eapply steps_step; [apply IHB; exact A|eassumption]. Qed.

Lemma steps_reachable O w w' : reachable O w -> steps O w w' -> reachable O w'.
Proof. intros R S. induction S; [exact R|]. eapply reach_step; [apply IHS; exact R|eassumption]. Qed.

Lemma steps_evolves O w w' : reachable O w -> steps O w w' -> evolves (w_lk w) (w_lk w').
Proof.
  intros R S. induction S as [w|w1 l w2 w3 S IH E]; [apply evolves_refl, (reach_inv O), R|].
  eapply evolves_trans; [apply IH; exact R|].
  assert (inv O w2) as I by (apply reach_inv; eapply steps_reachable; eassumption).
  destruct (step_ok _ _ _ _ I E) as (_ & EV & _). exact EV.
Qed.

Lemma run_steps O ls : forall w w', run O w ls = Some (SNext w') -> steps O w w'.
Proof.
  induction ls as [|l ls IH]; simpl; intros w w' E; [injection E as <-; constructor|].
  destruct (step O w l) as [| |w1] eqn:S; try discriminate.
  eapply steps_trans; [eapply steps_step; [apply steps_refl|exact S]|apply IH; exact E].
Qed.

Lemma steps_run O w w' : steps O w w' -> exists ls, run O w ls = Some (SNext w').
Proof.
  intros S. induction S as [w|w1 l w2 w3 S [ls IH] E]; [exists []; reflexivity|].
  exists (ls ++ [l]). revert w1 S IH. induction ls as [|x ls IH']; simpl; intros w1 S IH.
  - injection IH as ->. rewrite E. reflexivity.
  - destruct (step O w1 x) as [| |wx] eqn:SX; try discriminate. apply IH'; [|exact IH].
    eapply run_steps. exact IH.
Qed.

(** Threads panic in one case only. *)
Lemma panics_only O w l : reachable O w -> step O w l = SPanic -> breaks_down O w l.
Proof.
  intros R E. pose proof (step_spec O w l (reach_inv _ _ R)) as S. rewrite E in S. exact S.
Qed.

Lemma never_panics O w l : reachable O w -> ~ breaks_down O w l -> step O w l <> SPanic.
Proof. intros R B E. exact (B (panics_only O w l R E)). Qed.

Lemma main_only O w tid e p :
  nth_error (w_threads w) tid = Some p -> p <> PMain -> ~ breaks_down O w (LTick tid e).
Proof. intros N NM B. inversion B; subst. congruence. Qed.

Lemma not_status O w tid e : e_client e <> Some $"status:" -> ~ breaks_down O w (LTick tid e).
Proof. intros N B. inversion B; subst. congruence. Qed.

(** Traces only grow. *)
Lemma tstep_trace O w l w' : tstep O w l w' -> exists os, w_trace w' = w_trace w ++ os.
Proof.
  intros T. destruct T as [tid e p lk' p' os N C|tid e p w' N S|https bytes P].
  - exists os. reflexivity.
  - destruct S; try (exists []; simpl; rewrite app_nil_r; reflexivity).
    destruct a; simpl; try (exists []; rewrite app_nil_r; reflexivity); eexists; reflexivity.
  - eexists. reflexivity.
Qed.

Lemma steps_trace O w w' : reachable O w -> steps O w w' -> exists os, w_trace w' = w_trace w ++ os.
Proof.
  intros R S. induction S as [w|w1 l w2 w3 S IH E].
  - exists []. rewrite app_nil_r. reflexivity.
  - destruct (IH R) as [os E1].
    assert (inv O w2) as I by (apply reach_inv; eapply steps_reachable; eassumption).
    destruct (step_ok _ _ _ _ I E) as (_ & _ & T & _). destruct (tstep_trace _ _ _ _ T) as [os' E2].
    exists (os ++ os'). rewrite E2, E1, app_assoc. reflexivity.
Qed.
