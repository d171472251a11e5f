(** Code exchanges: what becomes of them, and how often (C17-C19). *)
From Verif Require Import Base BaseLemmas Time Utf8 Base64 Url Json Oracles Config Dump State Http
  Timers Server StateLemmas ConfigLemmas SpecServer Steps Inv Reach Own Trace Origin Pend Basic Decide Refresh Loss.

(** * The POST and its repetitions *)

Lemma own_envs_split tid ls e es :
  own_envs tid ls = e :: es ->
  exists l1 l2, ls = l1 ++ LTick tid e :: l2 /\ own_steps tid l1 = 0 /\ own_envs tid l2 = es.
Proof.
  induction ls as [|l ls IH]; [discriminate|]. intros E.
  destruct (is_tick tid l) eqn:TK.
  - destruct l as [t e1|]; [|discriminate TK]. simpl in TK. unfold own_envs in E. cbn [flat_map] in E.
    rewrite TK in E. apply Nat.eqb_eq in TK. subst t. injection E as <- E. exists [], ls. auto.
  - assert (own_envs tid ls = e :: es) as E'.
    { unfold own_envs in *. cbn [flat_map] in E. destruct l as [t e1|]; [|exact E]. simpl in TK. rewrite TK in E. exact E. }
    destruct (IH E') as (l1 & l2 & -> & K1 & K2). exists (l :: l1), l2. split; [reflexivity|].
    split; [|exact K2]. unfold own_steps in *. cbn [filter]. rewrite TK. exact K1.
Qed.

Lemma own_envs_nil tid ls : own_envs tid ls = [] -> own_steps tid ls = 0.
Proof.
  unfold own_envs, own_steps. induction ls as [|l ls IH]; [reflexivity|]. cbn [flat_map filter].
  destruct l as [t e|]; [|exact IH]. cbn [is_tick]. destruct (Nat.eqb t tid); [discriminate|exact IH].
Qed.

Lemma post_attempts O tid i uri pairs k rs r : attempts k rs r -> forall ls w w1,
  reachable O w -> nth_error (w_threads w) tid = Some (PHttpPost i uri pairs k) ->
  run O w ls = Some (SNext w1) -> map e_post (own_envs tid ls) = rs ->
  reachable O w1 /\ exists m, match r with PRBody _ => True | _ => exchange_reason O uri r m end
    /\ nth_error (w_threads w1) tid
    = Some (match r with PRBody body => PHttpBody i body | _ => PHttpFail i m end).
Proof.
  assert (forall k' ls w w1 e es, reachable O w -> nth_error (w_threads w) tid = Some (PHttpPost i uri pairs k') ->
    run O w ls = Some (SNext w1) -> own_envs tid ls = e :: es ->
    exists l2 w2, reachable O w2 /\ nth_error (w_threads w2) tid = Some (http_post_next i uri pairs k' (e_post e))
      /\ run O w2 l2 = Some (SNext w1) /\ own_envs tid l2 = es) as ST.
  { intros k' ls w w1 e es R N E OE. apply own_envs_split in OE as (l1 & l2 & -> & K1 & K2).
    apply run_app in E as (wa & E1 & E2). destruct (run_quiet _ _ _ _ _ _ R E1 K1 N) as [Ra Na].
    apply run_step_one in E2 as (wb & Sb & E2). exists l2, wb.
    split; [eapply reach_step; eassumption|]. split; [|auto].
    rewrite (step_at _ _ _ _ _ (step_alive _ _ _ _ Sb) Na) in Sb. cbn [step_thread] in Sb.
    injection Sb as <-. cbn [w_threads emit set_thread]. eapply nth_list_set_same. exact Na. }
  induction 1 as [k r NT|t m|k t m rs r AT IH]; intros ls w w1 R N E OE.
  - destruct (own_envs tid ls) as [|e [|e2 es]] eqn:OV; try discriminate OE. injection OE as <-.
    destruct (ST _ _ _ _ _ _ R N E OV) as (l2 & w2 & R2 & N2 & E2 & O2).
    destruct (run_quiet _ _ _ _ _ _ R2 E2 (own_envs_nil _ _ O2) N2) as [R1 N1]. split; [exact R1|].
    destruct (e_post e) as [body|m|code body|k2 m] eqn:EP; cbn [http_post_next] in N1;
      [exists []; split; [exact I|exact N1]|eexists; split; [constructor|exact N1]
      |eexists; split; [|exact N1]; destruct body; constructor|]. exfalso. apply (NT k2 m). reflexivity.
  - destruct (own_envs tid ls) as [|e [|e2 es]] eqn:OV; try discriminate OE. injection OE as EP.
    destruct (ST _ _ _ _ _ _ R N E OV) as (l2 & w2 & R2 & N2 & E2 & O2).
    destruct (run_quiet _ _ _ _ _ _ R2 E2 (own_envs_nil _ _ O2) N2) as [R1 N1]. split; [exact R1|].
    rewrite EP in N1. eexists. split; [constructor|exact N1].
  - destruct (own_envs tid ls) as [|e es] eqn:OV; try discriminate OE. injection OE as EP ES.
    destruct (ST _ _ _ _ _ _ R N E OV) as (l2 & w2 & R2 & N2 & E2 & O2). rewrite EP in N2.
    eapply IH; try eassumption. rewrite O2. exact ES.
Qed.

(** ** Success *)

Lemma exch_pending O w tid p i e0 :
  reachable O w -> nth_error (w_threads w) tid = Some p ->
  match p with PHttpPost j _ _ _ | PHttpBody j _ | PHttpFail j _ => j = i | _ => False end ->
  In e0 (details (w_lk w)) -> d_id e0 = i -> exists cvr ln st u, d_ts e0 = TSPending cvr ln st u.
Proof.
  intros R N M H E. pose proof (inv_threads _ _ (reach_inv _ _ R)) as TH. rewrite Forall_forall in TH.
  pose proof (TH _ (nth_error_In _ _ N)) as PO. destruct p; try contradiction; subst; simpl in PO.
  - destruct PO as (act & code & cvr & ru & st & u & _ & _ & _ & F). destruct (F _ H eq_refl) as [_ (ln & X)].
    exists cvr, ln, st, u. exact X.
  - destruct PO as (act & _ & F). destruct (F _ H eq_refl) as [_ X]. exact X.
  - destruct PO as (act & _ & F). destruct (F _ H eq_refl) as [_ X]. exact X.
Qed.

Lemma exchange_ok O w tid i uri pairs k rs body ls w1 e v tok exs n ts act :
  reachable O w -> nth_error (w_threads w) tid = Some (PHttpPost i uri pairs k) ->
  run O w ls = Some (SNext w1) -> w_alive w1 = true -> map e_post (own_envs tid ls) = rs -> attempts k rs (PRBody body) ->
  o_json O body = inl v -> grants v tok exs -> In (mkEntry n i ts) (details (w_lk w1)) -> configured w1 n act ->
  exists lk',
    let now := env_now e in
    let stores ex :=
      becomes w1 lk' n (TSActive (mkActive tok now ex (json_str $"refresh_token" v) false 0 None))
      /\ step O w1 (LTick tid e)
         = SNext (set_thread (set_lk w1 lk') tid
                    (do_all [ASigRefresher; APushEvent n EvNew; ASigEventer] PDone)) in
    if (now + exs * 1000000000 <=? time_max)%Z then stores (now + exs * 1000000000)%Z
    else if (now + max_age act (lconfig (w_lk w1)) <=? time_max)%Z
    then stores (now + max_age act (lconfig (w_lk w1)))%Z
    else step O w1 (LTick tid e) = SNext (set_thread w1 tid PDone).
Proof.
  intros R N E A OE AT J (JE & JA & JT & JX) H CF.
  destruct (post_attempts O tid i uri pairs k rs _ AT ls w w1 R N E OE) as (R1 & m & _ & N1).
  pose proof (reach_inv _ _ R1) as I. pose proof (inv_wf _ _ I) as W.
  rewrite (step_at _ _ _ _ _ A N1). cbn [step_thread]. unfold http_body.
  assert (is_act_id_valid (w_lk w1) i = true) as V by apply (is_valid w1 _ H). rewrite J, V, JE, JT, JX, JA.
  rewrite (proj2 (str_eqb_eq _ _) eq_refl).
  pose proof (ct_account_in _ _ act W H CF) as CA. cbn [d_id] in CA.
  pose proof (fun ts => tokenstate_replace_in _ _ ts W H) as TR. cbn [d_id] in TR.
  pose proof (fun ts => bump_becomes w1 0 _ ts W H) as BB. cbn [d_id d_name] in BB.
  assert (a_name act = n) as NM.
  { destruct (holds_configured O w1 n ts R1) as (act1 & C1 & X); [exists (mkEntry n i ts); auto|].
    unfold configured in *. congruence. }
  cbv zeta. unfold expiry_instant, from_secs, checked_add, nanos. rewrite CA. cbn [bind]. rewrite max_age_is.
  destruct (env_now e + exs * 1000000000 <=? time_max)%Z eqn:B1; [|
    destruct (env_now e + max_age act (lconfig (w_lk w1)) <=? time_max)%Z eqn:B2]; cbn [ok_or bind].
  - rewrite TR. cbn [bind run_cs]. rewrite emit_nil, NM. eexists. split; [apply BB|reflexivity].
  - rewrite TR. cbn [bind run_cs]. rewrite emit_nil, NM. eexists. split; [apply BB|reflexivity].
  - exists (w_lk w1). reflexivity.
Qed.

(** ** Failure *)

Lemma exchange_fail_step O w tid i m e n ts :
  reachable O w -> w_alive w = true -> nth_error (w_threads w) tid = Some (PHttpFail i m) ->
  In (mkEntry n i ts) (details (w_lk w)) ->
  exists lk', becomes w lk' n TSEmpty
    /\ step O w (LTick tid e)
       = SNext (set_thread (set_lk w lk') tid (PHttpNotify n ($"Authentication for " ++ n ++ $" failed: " ++ m) false)).
Proof.
  intros R A N H. pose proof (reach_inv _ _ R) as I. pose proof (inv_wf _ _ I) as W.
  destruct (exch_pending O w tid _ i _ R N eq_refl H eq_refl) as (cvr & ln & st & u & T). cbn [d_ts] in T. subst ts.
  rewrite (step_at _ _ _ _ _ A N). cbn [step_thread]. unfold http_fail.
  assert (is_act_id_valid (w_lk w) i = true) as V by apply (is_valid w _ H). rewrite V.
  pose proof (ct_tokenstate_in _ _ W H) as CT. cbn [d_id d_ts] in CT. rewrite CT. cbn [bind].
  pose proof (fun ts => tokenstate_replace_in _ _ ts W H) as TR. cbn [d_id] in TR. rewrite TR. cbn [bind].
  destruct (wf_account _ _ W H) as (act & L & NM). cbn [d_name] in L, NM.
  pose proof (bump_in_new 0 (w_lk w) _ TSEmpty H) as H'. cbn [d_name d_id] in H'.
  pose proof (ct_account_in _ _ act (bump_wf 0 _ i TSEmpty W) H' L) as CA. cbn [d_id] in CA.
  rewrite N.add_0_r in CA. rewrite CA. cbn [bind run_cs]. rewrite emit_nil, NM.
  eexists. split; [apply (bump_becomes w 0 _ TSEmpty W H)|reflexivity].
Qed.

Lemma exchange_notify_step O w tid e n m :
  w_alive w = true -> nth_error (w_threads w) tid = Some (PHttpNotify n m false) ->
  step O w (LTick tid e)
  = SNext (emit (set_thread w tid PDone)
             [match c_error_notify_cmd (lconfig (w_lk w)) with Some cmd => OErrCmd cmd n m | None => OErrLog n m end]).
Proof.
  intros A N. rewrite (step_at _ _ _ _ _ A N). cbn [step_thread]. unfold http_notify.
  destruct (c_error_notify_cmd (lconfig (w_lk w))); cbn [run_cs]; rewrite set_lk_same; reflexivity.
Qed.

(** The exchange does not hand over a token. *)
Definition refused (O : oracles) (r : post_result) : Prop :=
  match r with PRBody body => forall v tok exs, o_json O body = inl v -> ~ grants v tok exs | _ => True end.

Lemma exchange_failed O w tid i uri pairs k rs r ls w1 w2 w3 e e' n ts l2 l3 :
  reachable O w -> nth_error (w_threads w) tid = Some (PHttpPost i uri pairs k) ->
  run O w ls = Some (SNext w1) -> map e_post (own_envs tid ls) = rs -> attempts k rs r -> refused O r ->
  (* one more step for a body *)
  run O w1 l2 = Some (SNext w2) -> own_steps tid l2 = match r with PRBody _ => 1 | _ => 0 end ->
  w_alive w2 = true -> In (mkEntry n i ts) (details (w_lk w2)) ->
  exists m lk' w2',
    exchange_reason O uri r m /\ becomes w2 lk' n TSEmpty
    /\ step O w2 (LTick tid e) = SNext w2'
    /\ w2' = set_thread (set_lk w2 lk') tid (PHttpNotify n ($"Authentication for " ++ n ++ $" failed: " ++ m) false)
    /\ (run O w2' l3 = Some (SNext w3) -> own_steps tid l3 = 0 -> w_alive w3 = true ->
        step O w3 (LTick tid e')
        = SNext (emit (set_thread w3 tid PDone)
            [match c_error_notify_cmd (lconfig (w_lk w3)) with
             | Some cmd => OErrCmd cmd n ($"Authentication for " ++ n ++ $" failed: " ++ m)
             | None => OErrLog n ($"Authentication for " ++ n ++ $" failed: " ++ m) end])).
Proof.
  intros R N E OE AT RF E2 K2 A2 H.
  destruct (post_attempts O tid i uri pairs k rs _ AT ls w w1 R N E OE) as (R1 & m1 & WHY1 & N1).
  assert (reachable O w2) as R2 by (eapply steps_reachable; [exact R1|eapply run_steps; exact E2]).
  assert (exists m, nth_error (w_threads w2) tid = Some (PHttpFail i m) /\ exchange_reason O uri r m) as (m & N2 & WHY).
  { destruct r as [body|m|code body|k2 m]; try (destruct (run_quiet _ _ _ _ _ _ R1 E2 K2 N1); exists m1; split; [assumption|exact WHY1]; fail).
    apply own_steps_one in K2 as (l1 & e1 & l2' & -> & K1 & K2).
    apply run_app in E2 as (wa & E1 & E2). destruct (run_quiet _ _ _ _ _ _ R1 E1 K1 N1) as [Ra Na].
    apply run_step_one in E2 as (wb & Sb & E2).
    assert (reachable O wb) as Rb by (eapply reach_step; eassumption).
    assert (In (mkEntry n i ts) (details (w_lk wa))) as Ha.
    { assert (i < account_count (w_lk wa))%N as LT.
      { pose proof (inv_threads _ _ (reach_inv _ _ Ra)) as TH. rewrite Forall_forall in TH.
        destruct (TH _ (nth_error_In _ _ Na)) as (act & L & _). exact L. }
      assert (evolves (w_lk wa) (w_lk w2)) as [_ K].
      { apply (steps_evolves O wa w2 Ra). apply (run_steps O (LTick tid e1 :: l2')). cbn [run]. rewrite Sb. exact E2. }
      destruct (K _ H LT) as [X _]. exact X. }
    pose proof (inv_wf _ _ (reach_inv _ _ Ra)) as W.
    rewrite (step_at _ _ _ _ _ (step_alive _ _ _ _ Sb) Na) in Sb. cbn [step_thread] in Sb.
    assert (exists m, http_body O e1 (w_lk wa) i body = Val (w_lk wa, PHttpFail i m, []) /\ exchange_reason O uri (PRBody body) m)
      as (m & HB & WHY).
    { unfold http_body. destruct (o_json O body) as [v|m] eqn:J; [|eauto using er_no_json].
      assert (is_act_id_valid (w_lk wa) i = true) as V by apply (is_valid wa _ Ha). rewrite V.
      destruct (json_str $"error" v) eqn:JE; [eauto using er_error|].
      assert (exchange_reason O uri (PRBody body) $"invalid response received") as UX
        by (apply (er_unexpected O uri body v J JE); intros tok exs; exact (RF v tok exs J)).
      destruct (json_str $"token_type" v) as [ty|] eqn:JT; [|eauto].
      destruct (json_u64 $"expires_in" v) as [exs|] eqn:JX; [|eauto].
      destruct (json_str $"access_token" v) as [tok|] eqn:JA; [|eauto].
      destruct (str_eqb ty $"Bearer") eqn:TB; [|eauto].
      exfalso. apply str_eqb_eq in TB. subst ty. apply (RF v tok exs J). repeat split; assumption. }
    rewrite HB in Sb. cbn [run_cs] in Sb. injection Sb as <-.
    exists m. split; [|exact WHY]. eapply run_quiet; try eassumption. rewrite emit_nil. cbn [w_threads set_thread set_lk].
    exact (nth_list_set_same _ _ _ _ Na). }
  destruct (exchange_fail_step O w2 tid i m e n ts R2 A2 N2 H) as (lk' & B & S).
  exists m, lk'. eexists. split; [exact WHY|]. split; [exact B|]. split; [exact S|]. split; [reflexivity|].
  intros E3 K3 A3. assert (reachable O (set_thread (set_lk w2 lk') tid
      (PHttpNotify n ($"Authentication for " ++ n ++ $" failed: " ++ m) false))) as R2' by (eapply reach_step; eassumption).
  destruct (run_quiet _ tid _ _ _ _ R2' E3 K3 (nth_list_set_same _ _ _ _ N2)) as [R3 N3].
  apply exchange_notify_step; assumption.
Qed.

(** * A state that is gone stays gone (C17) *)

(** Authorisations stay with their account, and only come into being by drawing
    their state. *)
Lemma awaits_step O w l w' m st :
  reachable O w -> step O w l = SNext w' -> awaits w' m st ->
  awaits w m st \/ (In st (states_drawn [l]) /\ forall k, awaits w' k st -> awaits w k st \/ k = m).
Proof.
  intros R S AW.
  pose proof (inv_wf _ _ (reach_inv _ _ R)) as W.
  destruct (step_ok _ _ _ _ (reach_inv _ _ R) S) as (I' & _ & T & _).
  assert (w_lk w' = w_lk w -> awaits w m st) as SAME.
  { intros E. destruct AW as (cvr & ln & u & H). unfold holds in H. rewrite E in H. exists cvr, ln, u. exact H. }
  destruct T as [tid e p lk' p' os N C|tid e p w' N SY|https bytes X].
  2:{ left. apply SAME. destruct SY; try reflexivity. destruct a; reflexivity. }
  2:{ left. apply SAME. reflexivity. }
  assert (forall k, awaits (after_cs w tid lk' p' os) k st -> awaits w k st \/
    (p = PMain /\ b64_encode (e_state_bytes e) = st /\ exists req u, os = [OClient req; OAuthUrl k u])) as K.
  { intros k (cvr & ln & u & e' & H' & N' & T').
    destruct (csr_pending _ _ _ _ _ _ _ e' cvr ln st u W C H' T')
      as [H0|e0 ln0 -> H0 NE T0 _ _|e0 req act -> H0 NE NA OS AO AU _ _ ->].
    - left. exists cvr, ln, u, e'. auto.
    - left. exists cvr, ln0, u, e0. split; [exact H0|]. split; [congruence|exact T0].
    - right. split; [reflexivity|]. split; [reflexivity|]. exists req, u. rewrite <- NE, N' in OS. exact OS. }
  destruct (K m AW) as [L|(-> & ES & req & u & OS)]; [left; exact L|right].
  assert (tid = 0) as ->.
  { pose proof (ro_pc _ (reach_roles _ _ R) _ _ N) as RP. destruct tid as [|[|[|[|]]]]; try discriminate RP; reflexivity. }
  split; [left; exact ES|]. intros k AK. destruct (K k AK) as [L|(_ & _ & req2 & u2 & OS2)]; [left; exact L|right].
  rewrite OS in OS2. injection OS2 as _ <- _. reflexivity.
Qed.

Lemma states_drawn_cons l ls : states_drawn (l :: ls) = states_drawn [l] ++ states_drawn ls.
Proof. unfold states_drawn. cbn [flat_map]. rewrite app_nil_r. reflexivity. Qed.

Lemma states_drawn_app a b : states_drawn (a ++ b) = states_drawn a ++ states_drawn b.
Proof. unfold states_drawn. apply flat_map_app. Qed.

Lemma awaits_run O st m ls : forall w w',
  reachable O w -> run O w ls = Some (SNext w') -> ~ In st (states_drawn ls) -> awaits w' m st -> awaits w m st.
Proof.
  induction ls as [|l ls IH]; intros w w' R E F AW; cbn [run] in E.
  - injection E as <-. exact AW.
  - destruct (step O w l) as [| |w1] eqn:S; try discriminate E. rewrite states_drawn_cons in F.
    assert (awaits w1 m st) as A1.
    { apply (IH w1 w'); [eapply reach_step; eassumption|exact E| |exact AW]. intros X. apply F, in_or_app. right. exact X. }
    destruct (awaits_step O w l w1 m st R S A1) as [L|[L _]]; [exact L|]. exfalso. apply F, in_or_app. left. exact L.
Qed.

Lemma NoDup_app_inv {A} (a b : list A) : NoDup (a ++ b) -> NoDup a /\ NoDup b /\ forall x, In x a -> ~ In x b.
Proof.
  induction a as [|y a IH]; intros H; [split; [constructor|]; split; [exact H|intros x []]|].
  inversion H as [|z zs N1 N2]; subst. destruct (IH N2) as (Ha & Hb & D). split; [|split; [exact Hb|]].
  - constructor; [|exact Ha]. intros X. apply N1, in_or_app. left. exact X.
  - intros x [<-|X]; [|apply D, X]. intros Y. apply N1, in_or_app. right. exact Y.
Qed.

Lemma awaits_init c hp hsp pk n st : ~ awaits (init_world c hp hsp pk) n st.
Proof. intros (cvr & ln & u & e0 & H & _ & T). apply locked_new_empty in H. congruence. Qed.

(** With distinct random states, a state belongs to one account. *)
Lemma awaits_unique O ls : forall w w' seen,
  reachable O w -> run O w ls = Some (SNext w') -> NoDup (seen ++ states_drawn ls) ->
  (forall n st, awaits w n st -> In st seen) ->
  (forall n m st, awaits w n st -> awaits w m st -> n = m) ->
  (forall n st, awaits w' n st -> In st (seen ++ states_drawn ls))
  /\ (forall n m st, awaits w' n st -> awaits w' m st -> n = m).
Proof.
  induction ls as [|l ls IH]; intros w w' seen R E ND A1 A2; cbn [run] in E.
  - injection E as <-. split; [|exact A2]. intros n st H. apply in_or_app. left. apply (A1 n), H.
  - destruct (step O w l) as [| |w1] eqn:S; try discriminate E.
    rewrite states_drawn_cons, app_assoc in ND. rewrite states_drawn_cons, app_assoc.
    apply (IH w1 w'); [eapply reach_step; eassumption|exact E|exact ND| |].
    + intros n st H. destruct (awaits_step O w l w1 n st R S H) as [L|[L _]]; apply in_or_app; [left; apply (A1 n), L|right; exact L].
    + intros n m st H1 H2.
      assert (~ (In st (states_drawn [l]) /\ exists k, awaits w k st)) as NN.
      { intros (X & k & Y). apply NoDup_app_inv in ND as (ND & _). apply NoDup_app_inv in ND as (_ & _ & D).
        apply (D st); [apply (A1 k), Y|exact X]. }
      destruct (awaits_step O w l w1 n st R S H1) as [L1|[L1 K1]];
        destruct (awaits_step O w l w1 m st R S H2) as [L2|[L2 K2]].
      * apply (A2 n m st); assumption.
      * exfalso. apply NN. split; [exact L2|exists n; exact L1].
      * exfalso. apply NN. split; [exact L1|exists m; exact L2].
      * destruct (K1 m H2) as [X|X]; [|congruence]. exfalso. apply NN. split; [exact L1|exists m; exact X].
Qed.

Lemma gone_state O e0 c hp hsp pk l0 l1 l2 w0 w1 w2 n st :
  config_from_path O e0 = Val c ->
  run O (init_world c hp hsp pk) l0 = Some (SNext w0) -> run O w0 l1 = Some (SNext w1) ->
  run O w1 l2 = Some (SNext w2) -> NoDup (states_drawn (l0 ++ l1 ++ l2)) ->
  awaits w0 n st -> ~ awaits w1 n st ->
  (forall m, ~ awaits w2 m st)
  /\ forall tid e https bytes uri,
       w_alive w2 = true -> nth_error (w_threads w2) tid = Some (PHttpStart https bytes) ->
       parse_get O https bytes = Some uri -> lookup $"state" (query_pairs uri) = Some st ->
       exists resp, step O w2 (LTick tid e) = SNext (set_thread w2 tid (do_all [AEmit (OHttpResp resp)] PDone)).
Proof.
  intros CF E0 E1 E2 ND H0 H1. pose proof (reach_init O e0 c hp hsp pk CF) as R.
  rewrite !states_drawn_app in ND. apply NoDup_app_inv in ND as (ND0 & ND12 & D).
  destruct (awaits_unique O l0 _ w0 [] R E0 ND0) as [IN UN];
    [intros m s X; apply awaits_init in X; contradiction|intros m m' s X; apply awaits_init in X; contradiction|].
  assert (reachable O w0) as R0 by (eapply steps_reachable; [exact R|eapply run_steps; exact E0]).
  assert (reachable O w1) as R1 by (eapply steps_reachable; [exact R0|eapply run_steps; exact E1]).
  assert (reachable O w2) as R2 by (eapply steps_reachable; [exact R1|eapply run_steps; exact E2]).
  specialize (D st (IN n st H0)).
  assert (forall m, ~ awaits w2 m st) as G.
  { intros m A2. assert (awaits w1 m st) as A1.
    { apply (awaits_run O st m l2 w1 w2 R1 E2); [|exact A2]. intros X. apply D, in_or_app. right. exact X. }
    assert (awaits w0 m st) as A0.
    { apply (awaits_run O st m l1 w0 w1 R0 E1); [|exact A1]. intros X. apply D, in_or_app. left. exact X. }
    apply H1. rewrite (UN n m st H0 A0). exact A1. }
  split; [exact G|]. intros tid e https bytes uri A N PG LS.
  eapply callback_unmatched; try eassumption.
  intros uri' st' m cvr ln u PG' LS'. rewrite PG in PG'. injection PG' as <-. rewrite LS in LS'. injection LS' as <-.
  intros X. apply (G m). exists cvr, ln, u. exact X.
Qed.

(** * No more new tokens than authorisations (C17) *)

Definition new_action (n : str) (a : action) : nat :=
  match a with APushEvent m EvNew => if str_eqb m n then 1 else 0 | _ => 0 end.
Definition new_actions (n : str) (l : list action) : nat := fold_right (fun a k => new_action n a + k) 0 l.
Definition new_pcs (n : str) (ps : list pc) : nat := fold_right (fun p k => new_actions n (chain p) + k) 0 ps.

Lemma new_actions_app n a b : new_actions n (a ++ b) = new_actions n a + new_actions n b.
Proof. induction a as [|x a IH]; simpl; [reflexivity|]. rewrite IH. lia. Qed.
Lemma new_pcs_app n a b : new_pcs n (a ++ b) = new_pcs n a + new_pcs n b.
Proof. induction a as [|x a IH]; simpl; [reflexivity|]. rewrite IH. lia. Qed.

Lemma new_pcs_set n tid p p' ps :
  nth_error ps tid = Some p ->
  new_pcs n (list_set tid p' ps) + new_actions n (chain p) = new_pcs n ps + new_actions n (chain p').
Proof.
  intros N. destruct (list_set_split tid p' ps p N) as (l1 & l2 & -> & _ & ->).
  rewrite !new_pcs_app. simpl. lia.
Qed.

Lemma count_new_app n a b : count_new n (a ++ b) = count_new n a + count_new n b.
Proof. induction a as [|[] a IH]; simpl; try exact IH; try reflexivity. destruct ev; simpl; rewrite ?IH; lia. Qed.
Lemma count_urls_app n a b : count_urls n (a ++ b) = count_urls n a + count_urls n b.
Proof. induction a as [|[] a IH]; simpl; try exact IH; try reflexivity. rewrite IH. lia. Qed.

Definition is_pending (w : world) (n : str) : Prop := exists cvr ln st u, holds w n (TSPending cvr ln st u).

Definition counted (n : str) (w : world) : Prop :=
  count_new n (w_trace w) + new_pcs n (w_threads w) <= count_urls n (w_trace w)
  /\ (is_pending w n -> count_new n (w_trace w) + new_pcs n (w_threads w) < count_urls n (w_trace w)).

Lemma new_actions_none n l : (forall m, ~ In (APushEvent m EvNew) l) -> new_actions n l = 0.
Proof.
  induction l as [|a l IH]; [reflexivity|]. intros H. simpl. rewrite IH by (intros m X; apply (H m); right; exact X).
  destruct a; try reflexivity. destruct ev; try reflexivity. exfalso. apply (H name). left. reflexivity.
Qed.

(** Who schedules a new token has just completed an authorisation. *)
Lemma csr_new O w e p lk' p' os n :
  wf (w_lk w) -> csr O w e p lk' p' os ->
  new_actions n (chain p') = 0
  \/ (new_actions n (chain p') = 1 /\ exists e0 body ts, p = PHttpBody (d_id e0) body /\ has (w_lk w) e0 /\ d_name e0 = n
        /\ lk' = bump 0 (w_lk w) (d_id e0) ts /\ is_active ts = true).
Proof.
  intros W C. destruct C; try (left; reflexivity).
  - left. rewrite chain_ref_post_next. reflexivity.
  - left. rewrite chain_ref_body_next. reflexivity.
  - left. rewrite chain_http_post_next. reflexivity.
  - simpl. destruct (str_eqb (d_name e0) n) eqn:EN; [right|left; reflexivity].
    split; [reflexivity|]. apply str_eqb_eq in EN. do 3 eexists. split; [reflexivity|].
    split; [eassumption|]. split; [exact EN|]. split; reflexivity.
  - left. destruct wa; reflexivity.
  - left. destruct wa; reflexivity.
  - left. apply new_actions_none. intros m X. apply chain_emit_cmds in X as [(? & ? & ? & _ & X)|[]]. discriminate X.
  - left. apply new_actions_none. intros m X. apply chain_spawn_all in X as [(? & _ & X)|[]]. discriminate X.
Qed.

Lemma csr_counts O w e p lk' p' os n :
  csr O w e p lk' p' os -> count_new n os = 0
  /\ (count_urls n os = 0 \/ (count_urls n os = 1 /\ p = PMain)).
Proof.
  intros C. destruct C; simpl; auto.
  destruct (str_eqb (d_name e0) n); auto.
Qed.

Lemma reach_counted O n w : reachable O w -> counted n w.
Proof.
  revert w. apply (reach_ind O).
  - intros e c hp hsp pk _ _. split; [apply Nat.le_refl|]. intros (cvr & ln & st & u & e0 & H & _ & T).
    apply locked_new_empty in H. congruence.
  - intros w l w' R I I' A [IH1 IH2] S T. pose proof (inv_wf _ _ I) as W.
    assert (Forall (fun p => forall a, In a (chain p) -> match a with AEmit (OEvent _ _) | AEmit (OAuthUrl _ _) => False | _ => True end) (w_threads w)) as NE.
    { clear - R. revert w R. apply (reach_ind O).
      - intros. repeat constructor; intros a [].
      - intros w l w' R I I' A F S T. eapply tstep_chain_inv; try eassumption.
        intros e p lk' p' os a C Ia. pose proof (csr_chain _ _ _ _ _ _ _ a C Ia) as X.
        destruct a; try exact Logic.I. destruct o; try exact Logic.I; exact X. }
    destruct T as [tid e p lk' p' os N C|tid e p w' N SY|https bytes X].
    + unfold counted. cbn [w_trace w_threads after_cs emit set_thread set_lk].
      rewrite count_new_app, count_urls_app.
      destruct (csr_counts _ _ _ _ _ _ _ n C) as [-> CU].
      pose proof (new_pcs_set n tid p p' (w_threads w) N) as NS.
      destruct (chain p) eqn:CP.
      2:{ exfalso. destruct C; discriminate CP. }
      simpl in NS.
      destruct (csr_new _ _ _ _ _ _ _ n W C) as [Z|(Z & e0 & body & ts & -> & H0 & NM & -> & IA)]; rewrite Z in NS.
      * assert (is_pending (after_cs w tid lk' p' os) n -> is_pending w n \/ count_urls n os = 1) as PB.
        { intros (cvr & ln & st & u & e' & H' & N' & T').
          destruct (csr_pending _ _ _ _ _ _ _ e' cvr ln st u W C H' T')
            as [H0|e0 ln0 -> H0 NM T0 _ _|e0 req act -> H0 NM NA OS AO AU _ _ _].
          - left. exists cvr, ln, st, u, e'. auto.
          - left. exists cvr, ln0, st, u, e0. split; [exact H0|]. split; [congruence|exact T0].
          - right. rewrite OS. simpl. rewrite <- NM, N'. rewrite (proj2 (str_eqb_eq _ _) eq_refl). reflexivity. }
        split; [destruct CU as [->|[-> _]]; lia|].
        intros P. destruct (PB P) as [P0|U1]; [specialize (IH2 P0); destruct CU as [->|[-> _]]; lia|lia].
      * assert (is_pending w n) as P0.
        { destruct (exch_pending O w tid _ (d_id e0) e0 R N eq_refl H0 eq_refl) as (cvr & ln & st & u & T0).
          exists cvr, ln, st, u, e0. auto. }
        specialize (IH2 P0). destruct CU as [->|[_ X]]; [|discriminate X]. split; [lia|].
        intros (cvr & ln & st & u & e' & H' & N' & T'). exfalso.
        unfold after_cs in H'. cbn [w_lk emit set_thread set_lk] in H'.
        apply bump_in in H' as [(e2 & I2 & E2 & ->)|[I1 NE1]].
        -- simpl in T'. subst ts. discriminate IA.
        -- apply NE1. f_equal. apply (wf_name_inj (w_lk w)); auto. congruence.
    + assert (w_lk w' = w_lk w) as LK by (destruct SY; try reflexivity; destruct a; reflexivity).
      assert (is_pending w' n -> is_pending w n) as PB by (unfold is_pending, holds; rewrite LK; auto).
      assert (count_new n (w_trace w') + new_pcs n (w_threads w') = count_new n (w_trace w) + new_pcs n (w_threads w)
              /\ count_urls n (w_trace w') = count_urls n (w_trace w)) as [E1 E2].
      { pose proof (fun k => new_pcs_set n tid p k (w_threads w) N) as NS.
        destruct SY; try (match goal with |- context [set_thread w tid ?k] => specialize (NS k) end; simpl in *; lia).
        specialize (NS k). rewrite do_action_trace, count_new_app, count_urls_app.
        rewrite Forall_forall in NE. specialize (NE _ (nth_error_In _ _ N) a (or_introl eq_refl)).
        destruct a; simpl in *; try lia.
        - destruct ev; simpl in *; lia.
        - rewrite new_pcs_app. simpl. lia.
        - destruct o; simpl in *; try contradiction; lia. }
      split; [lia|]. intros P. specialize (IH2 (PB P)). lia.
    + unfold counted. cbn [w_trace w_threads emit add_thread]. rewrite count_new_app, count_urls_app, new_pcs_app. simpl.
      split; [lia|]. intros P. specialize (IH2 P). lia.
Qed.

Lemma tokens_le_authorisations O n w : reachable O w -> count_new n (w_trace w) <= count_urls n (w_trace w).
Proof. intros R. destruct (reach_counted O n w R) as [H _]. lia. Qed.
