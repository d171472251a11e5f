(** What becomes of refresh attempts (C20-C23). *)
From Verif Require Import Base BaseLemmas Time Utf8 Base64 Url Json Oracles Config Dump State Http
  Timers Server StateLemmas ConfigLemmas SpecServer Steps Inv Reach Own Trace Origin Basic Decide.

(** * A thread's own steps within a run *)

Lemma run_quiet O tid p ls : forall w w',
  reachable O w -> run O w ls = Some (SNext w') -> own_steps tid ls = 0 ->
  nth_error (w_threads w) tid = Some p -> reachable O w' /\ nth_error (w_threads w') tid = Some p.
Proof.
  induction ls as [|l ls IH]; intros w w' R E K N; cbn [run] in E.
  - injection E as <-. auto.
  - destruct (step O w l) as [| |w1] eqn:S; try discriminate.
    unfold own_steps in K. cbn [filter] in K. destruct (is_tick tid l) eqn:TK; [discriminate K|].
    assert (reachable O w1) as R1 by (eapply reach_step; eassumption).
    eapply IH; try eassumption.
    destruct (step_ok _ _ _ _ (reach_inv _ _ R) S) as (_ & _ & T & _).
    eapply tstep_other; try eassumption. intros e ->. simpl in TK. rewrite Nat.eqb_refl in TK. discriminate.
Qed.

Lemma run_app O l1 : forall l2 w w',
  run O w (l1 ++ l2) = Some (SNext w') ->
  exists w1, run O w l1 = Some (SNext w1) /\ run O w1 l2 = Some (SNext w').
Proof.
  induction l1 as [|l l1 IH]; intros l2 w w' E; cbn [run app] in *; [eauto|].
  destruct (step O w l); try discriminate. apply IH. exact E.
Qed.

Lemma own_steps_one tid ls :
  own_steps tid ls = 1 ->
  exists l1 e l2, ls = l1 ++ LTick tid e :: l2 /\ own_steps tid l1 = 0 /\ own_steps tid l2 = 0.
Proof.
  unfold own_steps. induction ls as [|l ls IH]; cbn [filter]; [discriminate|].
  destruct (is_tick tid l) eqn:TK.
  - intros [= K]. destruct l as [t e|]; [|discriminate TK]. simpl in TK. apply Nat.eqb_eq in TK. subst t.
    exists [], e, ls. auto.
  - intros K. destruct (IH K) as (l1 & e & l2 & -> & K1 & K2). exists (l :: l1), e, l2.
    split; [reflexivity|]. cbn [filter]. rewrite TK. auto.
Qed.

Lemma run_step_one O w l ls w' :
  run O w (l :: ls) = Some (SNext w') -> exists w1, step O w l = SNext w1 /\ run O w1 ls = Some (SNext w').
Proof. cbn [run]. destruct (step O w l) as [| |w1]; try discriminate. eauto. Qed.

Lemma nth_set w tid p p' : nth_error (w_threads w) tid = Some p ->
  nth_error (w_threads (set_thread w tid p')) tid = Some p'.
Proof. intros N. exact (nth_list_set_same _ _ _ _ N). Qed.

Lemma step_at O w tid p e : w_alive w = true -> nth_error (w_threads w) tid = Some p ->
  step O w (LTick tid e) = step_thread O w tid p e.
Proof. intros A N. unfold step. rewrite A, N. reflexivity. Qed.

Lemma step_alive O w l w' : step O w l = SNext w' -> w_alive w = true.
Proof. unfold step. destruct (w_alive w); [reflexivity|discriminate]. Qed.

(** ** The POST and what follows *)

Lemma after_post O w tid i n rt uri pairs e w1 :
  nth_error (w_threads w) tid = Some (PRefPost i n rt uri pairs) ->
  step O w (LTick tid e) = SNext w1 ->
  nth_error (w_threads w1) tid = Some (ref_post_next i n rt (e_post e)).
Proof.
  intros N S. rewrite (step_at _ _ _ _ _ (step_alive _ _ _ _ S) N) in S. cbn [step_thread] in S.
  injection S as <-. cbn [w_threads emit set_thread]. eapply nth_list_set_same. exact N.
Qed.

Lemma after_body O w tid i n rt body e w1 :
  nth_error (w_threads w) tid = Some (PRefBody i n rt body) ->
  step O w (LTick tid e) = SNext w1 ->
  nth_error (w_threads w1) tid = Some (ref_body_next O e i n rt body).
Proof.
  intros N S. rewrite (step_at _ _ _ _ _ (step_alive _ _ _ _ S) N) in S. cbn [step_thread] in S.
  injection S as <-. cbn [w_threads emit set_thread]. eapply nth_list_set_same. exact N.
Qed.

(** What the refresh does with a body. *)
Lemma body_not_granted O e i n rt body :
  (forall v tok exs, o_json O body = inl v -> ~ grants v tok exs) ->
  exists m, ref_body_next O e i n rt body = PRefPerm i n m.
Proof.
  intros NG. unfold ref_body_next. destruct (o_json O body) as [v|m] eqn:J; [|eauto].
  destruct (json_str $"error" v) eqn:JE; [eauto|].
  destruct (json_str $"access_token" v) as [tok|] eqn:JA; [|eauto].
  destruct (json_u64 $"expires_in" v) as [exs|] eqn:JX; [|eauto].
  destruct (json_str $"token_type" v) as [ty|] eqn:JT; [|eauto].
  destruct (str_eqb ty $"Bearer") eqn:TB; [|eauto].
  exfalso. apply (NG v tok exs eq_refl). apply str_eqb_eq in TB. subst ty. repeat split; assumption.
Qed.

Lemma body_granted O e i n rt body v tok exs :
  o_json O body = inl v -> grants v tok exs ->
  ref_body_next O e i n rt body =
    PRefGot i n tok exs (match json_get $"refresh_token" v with
                         | None => Some rt | Some (JStr x) => Some x | Some _ => None end) (env_now e).
Proof.
  intros J (JE & JA & JT & JX). unfold ref_body_next. rewrite J, JE, JA, JX, JT.
  rewrite (proj2 (str_eqb_eq _ _) eq_refl). reflexivity.
Qed.

(** The thread's name is the name of the account it works for. *)
Lemma thread_name O w tid p i n e0 :
  reachable O w -> nth_error (w_threads w) tid = Some p ->
  match p with
  | PRefPost j m _ _ _ | PRefBody j m _ _ | PRefGot j m _ _ _ _ | PRefPerm j m _ | PRefTransient j m _
  | PRefCmd j m _ | PRefCmdDone j m _ => j = i /\ m = n
  | _ => False end ->
  In e0 (details (w_lk w)) -> d_id e0 = i ->
  d_name e0 = n /\ exists a, d_ts e0 = TSActive a /\ ongoing a = true.
Proof.
  intros R N M H E. pose proof (reach_inv _ _ R) as I. pose proof (inv_wf _ _ I) as W.
  assert (pc_ok (w_lk w) p) as PO.
  { pose proof (inv_threads _ _ I) as TH. rewrite Forall_forall in TH. apply TH. eapply nth_error_In. exact N. }
  assert (exists act, a_name act = n /\ owns (w_lk w) i act refreshing) as (act & NA & OW).
  { destruct p; try contradiction; destruct M as [-> ->]; simpl in PO.
    - destruct PO as (act & NA & _ & _ & OW). exists act. split; [exact NA|].
      eapply owns_weaken; [|exact OW]. apply refreshing_with_weaken.
    - destruct PO as (act & NA & OW). exists act. split; [exact NA|].
      eapply owns_weaken; [|exact OW]. apply refreshing_with_weaken.
    - exact PO.
    - exact PO.
    - exact PO.
    - exact PO.
    - exact PO. }
  destruct (owns_same _ _ _ _ _ W OW H E) as (a & _ & _ & NM & P). split; [congruence|exact P].
Qed.

Lemma not_valid w i : ~ current w i -> is_act_id_valid (w_lk w) i = false.
Proof.
  intros NC. destruct (is_act_id_valid (w_lk w) i) eqn:V; [|reflexivity].
  exfalso. apply NC. apply valid_iff in V. exact V.
Qed.

Lemma is_valid w e0 : has (w_lk w) e0 -> is_act_id_valid (w_lk w) (d_id e0) = true.
Proof. intros H. apply valid_iff. exists e0. auto. Qed.

(** * Permanent failures (C21) *)

Lemma perm_step O w tid i n m e :
  reachable O w -> w_alive w = true -> nth_error (w_threads w) tid = Some (PRefPerm i n m) ->
  (forall n' ts, In (mkEntry n' i ts) (details (w_lk w)) ->
     exists lk', becomes w lk' n' TSEmpty
       /\ step O w (LTick tid e)
          = SNext (set_thread (set_lk w lk') tid (do_all [APushEvent n' EvInvalidated; ASigEventer] PDone)))
  /\ (~ current w i -> step O w (LTick tid e) = SNext (set_thread w tid PDone)).
Proof.
  intros R A N. pose proof (reach_inv _ _ R) as I. pose proof (inv_wf _ _ I) as W.
  rewrite (step_at _ _ _ _ _ A N). cbn [step_thread]. split.
  - intros n' ts H. destruct (thread_name O w tid _ i n _ R N (conj eq_refl eq_refl) H eq_refl) as [NM _].
    cbn [d_name] in NM. subst n'.
    exists (bump 0 (w_lk w) i TSEmpty). split; [apply (bump_becomes w 0 (mkEntry n i ts) TSEmpty W H)|].
    unfold ref_perm. change i with (d_id (mkEntry n i ts)). rewrite (is_valid w _ H), (tokenstate_replace_in _ _ _ W H).
    cbn [bind d_id].
    destruct (wf_account _ _ W H) as (act & L & _). cbn [d_name] in L.
    assert (In (mkEntry n (account_count (w_lk w) + 0)%N TSEmpty) (details (bump 0 (w_lk w) i TSEmpty))) as H'
      by apply (bump_in_new 0 (w_lk w) (mkEntry n i ts) TSEmpty H).
    pose proof (ct_account_in _ _ act (bump_wf 0 _ i TSEmpty W) H' L) as CA. cbn [d_id] in CA.
    rewrite N.add_0_r in CA. rewrite CA. cbn [bind run_cs]. rewrite emit_nil. reflexivity.
  - intros NC. unfold ref_perm. rewrite (not_valid _ _ NC). cbn [run_cs].
    rewrite set_lk_same, emit_nil. reflexivity.
Qed.

Lemma permanent_failure O w tid i n rt uri pairs e ls w1 e' :
  reachable O w -> nth_error (w_threads w) tid = Some (PRefPost i n rt uri pairs) ->
  permanent O (e_post e) -> run O w (LTick tid e :: ls) = Some (SNext w1) -> w_alive w1 = true ->
  own_steps tid ls = match e_post e with PRBody _ => 1 | _ => 0 end ->
  (forall n' ts, In (mkEntry n' i ts) (details (w_lk w1)) ->
     exists lk', becomes w1 lk' n' TSEmpty
       /\ step O w1 (LTick tid e')
          = SNext (set_thread (set_lk w1 lk') tid (do_all [APushEvent n' EvInvalidated; ASigEventer] PDone)))
  /\ (~ current w1 i -> step O w1 (LTick tid e') = SNext (set_thread w1 tid PDone)).
Proof.
  intros R N P E A K. apply run_step_one in E as (w0 & S & E).
  pose proof (after_post _ _ _ _ _ _ _ _ _ _ N S) as N0.
  assert (reachable O w0) as R0 by (eapply reach_step; eassumption).
  assert (exists m, reachable O w1 /\ nth_error (w_threads w1) tid = Some (PRefPerm i n m)) as (m & R1 & N1).
  { destruct (e_post e) as [body|m|code body|k m]; cbn [ref_post_next] in N0; try contradiction.
    - apply own_steps_one in K as (l1 & e1 & l2 & -> & K1 & K2).
      apply run_app in E as (wa & E1 & E2). destruct (run_quiet _ _ _ _ _ _ R0 E1 K1 N0) as [Ra Na].
      apply run_step_one in E2 as (wb & Sb & E2).
      pose proof (after_body _ _ _ _ _ _ _ _ _ Na Sb) as Nb.
      destruct (body_not_granted O e1 i n rt body P) as [m EB]. rewrite EB in Nb.
      assert (reachable O wb) as Rb by (eapply reach_step; eassumption).
      destruct (run_quiet _ _ _ _ _ _ Rb E2 K2 Nb). eauto.
    - destruct (run_quiet _ _ _ _ _ _ R0 E K N0). eauto.
    - destruct k; try contradiction. cbn [is_transient] in N0. destruct (run_quiet _ _ _ _ _ _ R0 E K N0). eauto. }
  exact (perm_step O w1 tid i n m e' R1 A N1).
Qed.

(** * Successful refreshes (C23) *)

Lemma refresh_granted O w tid i n rt uri pairs e body v tok exs l1 e1 l2 w1 e' :
  reachable O w -> nth_error (w_threads w) tid = Some (PRefPost i n rt uri pairs) ->
  e_post e = PRBody body -> o_json O body = inl v -> grants v tok exs ->
  run O w (LTick tid e :: l1 ++ LTick tid e1 :: l2) = Some (SNext w1) -> w_alive w1 = true ->
  own_steps tid l1 = 0 -> own_steps tid l2 = 0 ->
  (forall n' ts, In (mkEntry n' i ts) (details (w_lk w1)) ->
     exists a act lk',
       ts = TSActive a /\ configured w1 n' act /\
       let now := env_now e1 in
       let rt' := match json_get $"refresh_token" v with
                  | None => refresh_token a
                  | Some (JStr x) => Some x
                  | Some _ => None
                  end in
       let stores ex :=
         becomes w1 lk' n' (TSActive (mkActive tok now ex rt' false 0 None))
         /\ step O w1 (LTick tid e')
            = SNext (set_thread (set_lk w1 lk') tid
                       (do_all [ASigRefresher; APushEvent n' EvRefresh; ASigEventer] PDone)) in
       if (now + exs * 1000000000 <=? time_max)%Z then stores (now + exs * 1000000000)%Z
       else if (now + max_age act (lconfig (w_lk w1)) <=? time_max)%Z
       then stores (now + max_age act (lconfig (w_lk w1)))%Z
       else becomes w1 lk' n' TSEmpty
            /\ step O w1 (LTick tid e')
               = SNext (set_thread (set_lk w1 lk') tid (do_all [APushEvent n' EvInvalidated; ASigEventer] PDone)))
  /\ (~ current w1 i -> step O w1 (LTick tid e') = SNext (set_thread w1 tid PDone)).
Proof.
  intros R N EP J G E A K1 K2. apply run_step_one in E as (w0 & S & E).
  pose proof (after_post _ _ _ _ _ _ _ _ _ _ N S) as N0. rewrite EP in N0. cbn [ref_post_next] in N0.
  assert (reachable O w0) as R0 by (eapply reach_step; eassumption).
  apply run_app in E as (wa & E1 & E2). destruct (run_quiet _ _ _ _ _ _ R0 E1 K1 N0) as [Ra Na].
  apply run_step_one in E2 as (wb & Sb & E2).
  pose proof (after_body _ _ _ _ _ _ _ _ _ Na Sb) as Nb.
  rewrite (body_granted _ _ _ _ _ _ _ _ _ J G) in Nb.
  assert (reachable O wb) as Rb by (eapply reach_step; eassumption).
  destruct (run_quiet _ _ _ _ _ _ Rb E2 K2 Nb) as [R1 N1].
  pose proof (reach_inv _ _ R1) as I. pose proof (inv_wf _ _ I) as W.
  rewrite (step_at _ _ _ _ _ A N1). cbn [step_thread]. unfold ref_got. split.
  - intros n' ts H. destruct (thread_name O w1 tid _ i n _ R1 N1 (conj eq_refl eq_refl) H eq_refl) as [NM (a & T & OG)].
    cbn [d_name d_ts] in NM, T. subst n' ts.
    destruct (wf_account _ _ W H) as (act & L & _). cbn [d_name] in L.
    (* the refresh token is still the one sent *)
    assert (refresh_token a = Some rt) as RT.
    { assert (evolves (w_lk wa) (w_lk w1)) as EV.
      { apply (steps_evolves O wa w1 Ra). apply (run_steps O (LTick tid e1 :: l2)). cbn [run]. rewrite Sb. exact E2. }
      pose proof (inv_threads _ _ (reach_inv _ _ Ra)) as TH. rewrite Forall_forall in TH.
      destruct (TH _ (nth_error_In _ _ Na)) as (act0 & _ & OW).
      apply (owns_evolves _ _ _ _ _ EV) in OW. destruct OW as [_ OW].
      destruct (OW _ H eq_refl) as [_ (a' & TA & _ & X)]. cbn [d_ts] in TA. injection TA as <-. exact X. }
    exists a, act. rewrite RT. cbv zeta.
    pose proof (ct_account_in _ _ act W H L) as CA. cbn [d_id] in CA.
    assert (is_act_id_valid (w_lk w1) i = true) as V by apply (is_valid w1 _ H). rewrite V.
    unfold expiry_instant, from_secs, checked_add, nanos. rewrite CA. cbn [bind]. rewrite max_age_is.
    pose proof (fun ts => tokenstate_replace_in _ _ ts W H) as TR. cbn [d_id] in TR.
    pose proof (fun ts => bump_becomes w1 0 _ ts W H) as BB. cbn [d_id d_name] in BB.
    set (rt' := match json_get $"refresh_token" v with None => Some rt | Some (JStr x) => Some x | Some _ => None end).
    destruct (env_now e1 + exs * 1000000000 <=? time_max)%Z eqn:B1; [|
      destruct (env_now e1 + max_age act (lconfig (w_lk w1)) <=? time_max)%Z eqn:B2]; cbn [ok_or];
      rewrite TR; cbn [bind run_cs]; rewrite emit_nil; eexists (bump 0 (w_lk w1) i _);
      (split; [reflexivity|]); (split; [exact L|]); (split; [apply BB|reflexivity]).
  - intros NC. rewrite (not_valid _ _ NC). cbn [run_cs]. rewrite set_lk_same, emit_nil. reflexivity.
Qed.

(** * Network failures (C20) *)

Lemma transient_failure O w tid i n rt uri pairs e ls w1 e' :
  reachable O w -> nth_error (w_threads w) tid = Some (PRefPost i n rt uri pairs) ->
  transient (e_post e) -> run O w (LTick tid e :: ls) = Some (SNext w1) -> w_alive w1 = true ->
  own_steps tid ls = 0 ->
  (forall n' ts, In (mkEntry n' i ts) (details (w_lk w1)) ->
     exists a lk', ts = TSActive a /\
       let f := (fails a + 1)%N in
       let keeps og := becomes w1 lk' n' (TSActive (mkActive (access_token a) (obtained a) (expiry a)
                                            (refresh_token a) og f (Some (env_now e')))) in
       match c_transient_error_if_cmd (lconfig (w_lk w1)), (f mod 6 =? 0)%N with
       | Some cmd, true =>
           keeps true /\ exists i', In (mkEntry n' i' (TSActive (mkActive (access_token a) (obtained a) (expiry a)
                                            (refresh_token a) true f (Some (env_now e'))))) (details lk')
             /\ step O w1 (LTick tid e') = SNext (set_thread (set_lk w1 lk') tid (PRefCmd i' n' cmd))
       | _, _ => keeps false
             /\ step O w1 (LTick tid e') = SNext (set_thread (set_lk w1 lk') tid (do_all [ASigRefresher] PDone))
       end)
  /\ (~ current w1 i -> step O w1 (LTick tid e') = SNext (set_thread w1 tid (do_all [ASigRefresher] PDone))).
Proof.
  intros R N P E A K. apply run_step_one in E as (w0 & S & E).
  pose proof (after_post _ _ _ _ _ _ _ _ _ _ N S) as N0.
  assert (reachable O w0) as R0 by (eapply reach_step; eassumption).
  assert (exists m, reachable O w1 /\ nth_error (w_threads w1) tid = Some (PRefTransient i n m)) as (m & R1 & N1).
  { destruct (e_post e) as [body|m|code body|k m]; cbn [ref_post_next] in N0; try contradiction.
    - destruct (run_quiet _ _ _ _ _ _ R0 E K N0). eauto.
    - destruct k; try contradiction; cbn [is_transient] in N0; destruct (run_quiet _ _ _ _ _ _ R0 E K N0); eauto. }
  pose proof (reach_inv _ _ R1) as I. pose proof (inv_wf _ _ I) as W.
  rewrite (step_at _ _ _ _ _ A N1). cbn [step_thread]. unfold ref_transient. split.
  - intros n' ts H. destruct (thread_name O w1 tid _ i n _ R1 N1 (conj eq_refl eq_refl) H eq_refl) as [NM (a & T & OG)].
    cbn [d_name d_ts] in NM, T. subst n' ts. 
    assert (is_act_id_valid (w_lk w1) i = true) as V by apply (is_valid w1 _ H). rewrite V.
    pose proof (ct_tokenstate_in _ _ W H) as CT. cbn [d_id d_ts] in CT. rewrite CT. cbn [bind].
    pose proof (fun ts => tokenstate_replace_in _ _ ts W H) as TR. cbn [d_id] in TR. rewrite TR. cbn [bind].
    pose proof (fun k ts => bump_becomes w1 k _ ts W H) as BB. cbn [d_id d_name] in BB.
    set (a1 := set_attempt a (Some (env_now e')) (N.succ (fails a))).
    assert (a1 = mkActive (access_token a) (obtained a) (expiry a) (refresh_token a) true (fails a + 1)%N (Some (env_now e'))) as EA.
    { unfold a1, set_attempt. rewrite OG, N.add_1_r. reflexivity. }
    pose proof (bump_in_new 0 (w_lk w1) _ (TSActive a1) H) as H1. cbn [d_name d_id] in H1. rewrite N.add_0_r in H1.
    pose proof (bump_wf 0 _ i (TSActive a1) W) as W1.
    pose proof (tokenstate_replace_in _ _ (TSActive (mkActive (access_token a) (obtained a) (expiry a)
                 (refresh_token a) false (fails a + 1)%N (Some (env_now e')))) W1 H1) as TR1. cbn [d_id] in TR1.
    pose proof (find_id_in _ _ W1 H1) as FI. cbn [d_id] in FI.
    assert (tokenstate_set_ongoing_refresh (bump 0 (w_lk w1) i (TSActive a1)) (account_count (w_lk w1)) false =
            Val (bump 1 (w_lk w1) i (TSActive (mkActive (access_token a) (obtained a) (expiry a)
                 (refresh_token a) false (fails a + 1)%N (Some (env_now e')))), (account_count (w_lk w1) + 1)%N)) as SO.
    { unfold tokenstate_set_ongoing_refresh. rewrite FI. cbn [unwrap bind d_ts]. rewrite EA. cbn [access_token obtained expiry refresh_token fails last_attempt].
      rewrite <- EA, TR1. rewrite (bump_twice _ _ _ _ W).
      cbn [account_count bump]. rewrite N.add_0_r. reflexivity. }
    fold a1. change transient_error_retries with 6%N. cbn [lconfig bump].
    assert (N.succ (fails a) = fails a + 1)%N as SF by (rewrite N.add_1_r; reflexivity). rewrite SF.
    destruct ((fails a + 1) mod 6 =? 0)%N eqn:M6.
    + destruct (c_transient_error_if_cmd (lconfig (w_lk w1))) as [cmd|].
      * exists a, (bump 0 (w_lk w1) i (TSActive a1)). split; [reflexivity|]. cbv zeta.
        try rewrite M6; rewrite <- EA. split; [apply BB|]. exists (account_count (w_lk w1)). split; [exact H1|].
        cbn [run_cs]. rewrite emit_nil. reflexivity.
      * exists a. eexists. split; [reflexivity|]. cbv zeta. try rewrite M6; rewrite SO. cbn [bind run_cs]. rewrite emit_nil.
        split; [apply BB|reflexivity].
    + exists a. eexists. split; [reflexivity|]. cbv zeta. try rewrite M6; rewrite SO. cbn [bind run_cs]. rewrite emit_nil.
      destruct (c_transient_error_if_cmd (lconfig (w_lk w1))); (split; [apply BB|reflexivity]).
  - intros NC. rewrite (not_valid _ _ NC). cbn [run_cs]. rewrite set_lk_same, emit_nil. reflexivity.
Qed.

(** The command that decides whether to go on. *)
Lemma transient_cmd O w tid i n cmd e ls w1 e' :
  reachable O w -> nth_error (w_threads w) tid = Some (PRefCmd i n cmd) ->
  run O w (LTick tid e :: ls) = Some (SNext w1) -> w_alive w1 = true -> own_steps tid ls = 0 ->
  (exists w0, step O w (LTick tid e) = SNext w0 /\ w_trace w0 = w_trace w ++ [OTransientCmd cmd n (e_cmd_ok e)])
  /\ (forall n' ts, In (mkEntry n' i ts) (details (w_lk w1)) ->
     exists a lk', ts = TSActive a /\
       if e_cmd_ok e
       then becomes w1 lk' n' (TSActive (mkActive (access_token a) (obtained a) (expiry a)
                                           (refresh_token a) false (fails a) (last_attempt a)))
            /\ step O w1 (LTick tid e') = SNext (set_thread (set_lk w1 lk') tid (do_all [ASigRefresher] PDone))
       else becomes w1 lk' n' TSEmpty
            /\ step O w1 (LTick tid e') = SNext (set_thread (set_lk w1 lk') tid
                 (do_all [APushEvent n' EvInvalidated; ASigEventer; ASigRefresher] PDone)))
  /\ (~ current w1 i ->
      step O w1 (LTick tid e') = SNext (set_thread w1 tid
        (do_all (if e_cmd_ok e then [ASigRefresher] else [APushEvent n EvInvalidated; ASigEventer; ASigRefresher]) PDone))).
Proof.
  intros R N E A K. apply run_step_one in E as (w0 & S & E).
  pose proof S as S'. rewrite (step_at _ _ _ _ _ (step_alive _ _ _ _ S) N) in S'. cbn [step_thread] in S'.
  injection S' as EW.
  assert (reachable O w0) as R0 by (eapply reach_step; eassumption).
  assert (nth_error (w_threads w0) tid = Some (PRefCmdDone i n (e_cmd_ok e))) as N0.
  { rewrite <- EW. cbn [w_threads emit set_thread]. eapply nth_list_set_same. exact N. }
  destruct (run_quiet _ _ _ _ _ _ R0 E K N0) as [R1 N1].
  pose proof (reach_inv _ _ R1) as I. pose proof (inv_wf _ _ I) as W.
  split; [exists w0; split; [exact S|rewrite <- EW; reflexivity]|].
  rewrite (step_at _ _ _ _ _ A N1). cbn [step_thread]. unfold ref_cmd_done. split.
  - intros n' ts H. destruct (thread_name O w1 tid _ i n _ R1 N1 (conj eq_refl eq_refl) H eq_refl) as [NM (a & T & OG)].
    cbn [d_name d_ts] in NM, T. subst n' ts. exists a.
    assert (is_act_id_valid (w_lk w1) i = true) as V by apply (is_valid w1 _ H). rewrite V.
    pose proof (fun ts => tokenstate_replace_in _ _ ts W H) as TR. cbn [d_id] in TR.
    pose proof (fun k ts => bump_becomes w1 k _ ts W H) as BB. cbn [d_id d_name] in BB.
    pose proof (find_id_in _ _ W H) as FI. cbn [d_id] in FI.
    destruct (e_cmd_ok e).
    + unfold tokenstate_set_ongoing_refresh. rewrite FI. cbn [unwrap bind d_ts]. rewrite TR. cbn [bind run_cs].
      rewrite emit_nil. eexists. split; [reflexivity|]. split; [apply BB|reflexivity].
    + rewrite TR. cbn [bind run_cs]. rewrite emit_nil. eexists. split; [reflexivity|]. split; [apply BB|reflexivity].
  - intros NC. rewrite (not_valid _ _ NC). destruct (e_cmd_ok e); cbn [run_cs]; rewrite set_lk_same, emit_nil; reflexivity.
Qed.
