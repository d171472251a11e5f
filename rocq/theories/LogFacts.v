(** What the log says about refreshes and commands, and that it says nothing secret (C80, C81). *)
From Verif Require Import Base BaseLemmas Time Utf8 Base64 Url Json Oracles Config Dump State Http Timers Server Startup Log
  SpecServer SpecLife SpecUtf8 SpecSecrets Utf8Spec SpecLog StateLemmas Steps Inv Reach Own Trace Origin Pend Decide Refresh Loss Wake Events Life
  Secrets LogLemmas.

(** * Why a refresh is about to fail *)

Definition says (O : oracles) (lk : locked) (t : list obs) (p : pc) : Prop :=
  match p with
  | PRefBody i n rt body => refreshed_with t rt (PRBody body)
  | PRefPerm i n msg => exists rt r, refreshed_with t rt r /\ turned_down O n r msg /\ of_id lk i (refreshing_with rt)
  | PRefTransient i n msg => exists rt r, refreshed_with t rt r /\ unreachable r msg /\ of_id lk i (refreshing_with rt)
  | _ => True
  end.

Lemma says_mono O lk lk' t os p : evolves lk lk' -> says O lk t p -> says O lk' (t ++ os) p.
Proof.
  intros EV. destruct p; simpl; auto.
  - apply refreshed_with_app.
  - intros (rt & r & H1 & H2 & H3). exists rt, r.
    split; [apply refreshed_with_app; exact H1|]. split; [exact H2|eapply of_id_evolves; eassumption].
  - intros (rt & r & H1 & H2 & H3). exists rt, r.
    split; [apply refreshed_with_app; exact H1|]. split; [exact H2|eapply of_id_evolves; eassumption].
Qed.

Lemma csr_says O w tid e p lk' p' os :
  reachable O w -> inv O w -> nth_error (w_threads w) tid = Some p -> pc_ok (w_lk w) p ->
  says O (w_lk w) (w_trace w) p -> evolves (w_lk w) lk' -> csr O w e p lk' p' os ->
  says O lk' (w_trace w ++ os) (last_pc p').
Proof.
  intros R I N PO PW EV C. pose proof (inv_wf _ _ I) as W.
  assert (says O lk' (w_trace w ++ os) p) as PW' by (apply (says_mono O (w_lk w)); assumption).
  destruct C; try exact Logic.I; try (cbn [last_pc says reply respond push_event]; exact Logic.I).
  - destruct PO as (act & _ & _ & -> & OW). apply owns_of_id in OW.
    assert (refreshed_with (w_trace w ++ [OPost uri (refresh_pairs act rtok) (e_post e)]) rtok (e_post e)) as RW.
    { exists uri, (refresh_pairs act rtok). split; [apply in_or_app; right; left; reflexivity|apply lookup_rt]. }
    destruct (e_post e) as [body|m|code body|k m] eqn:EP; cbn [ref_post_next].
    + exact RW.
    + exists rtok, (PRBodyErr m). split; [exact RW|]. split; [constructor|exact OW].
    + exists rtok, (PRStatus code body). split; [exact RW|]. split; [|exact OW]. destruct body; constructor.
    + destruct k; cbn [is_transient]; cbn [last_pc says]; exists rtok; eexists; (split; [exact RW|]);
        (split; [|exact OW]); constructor; discriminate.
  - destruct PO as (act & _ & OW). apply owns_of_id in OW. simpl in PW'. unfold ref_body_next.
    destruct (o_json O body) as [v|m] eqn:J.
    2: { cbn [last_pc says]. exists rtok, (PRBody body). split; [exact PW'|]. split; [|exact OW]. constructor. exact J. }
    destruct (json_str $"error" v) as [m|] eqn:JE.
    { cbn [last_pc says]. exists rtok, (PRBody body). split; [exact PW'|]. split; [|exact OW]. eapply td_error; eassumption. }
    assert ((forall tok exs, ~ grants v tok exs) ->
      exists rt r, refreshed_with (w_trace w ++ []) rt r /\ turned_down O name r $"Received JSON in unexpected format"
        /\ of_id (w_lk w) i (refreshing_with rt)) as K.
    { intros NG. exists rtok, (PRBody body). split; [exact PW'|]. split; [|exact OW]. eapply td_unexpected; eassumption. }
    destruct (json_str $"access_token" v) as [tok|] eqn:JA; [|apply K; intros ? ? (_ & X & _); congruence].
    destruct (json_u64 $"expires_in" v) as [exs|] eqn:JX; [|apply K; intros ? ? (_ & _ & _ & X); congruence].
    destruct (json_str $"token_type" v) as [ty|] eqn:JT; [|apply K; intros ? ? (_ & _ & X & _); congruence].
    destruct (str_eqb ty $"Bearer") eqn:TB; [exact Logic.I|]. apply K. intros ? ? (_ & _ & X & _).
    rewrite JT in X. injection X as ->. rewrite (proj2 (str_eqb_eq _ _) eq_refl) in TB. discriminate TB.
  - destruct (e_post e) as [body|m|code body|k m]; cbn [http_post_next]; try exact Logic.I.
    destruct tries as [|[|n]]; exact Logic.I.
  - destruct wa; exact Logic.I.
  - destruct wa; exact Logic.I.
  - rewrite last_emit_cmds. exact Logic.I.
  - rewrite last_spawn_all. exact Logic.I.
Qed.

Lemma reach_says O w : reachable O w -> Forall (fun p => says O (w_lk w) (w_trace w) (last_pc p)) (w_threads w).
Proof.
  apply (thread_inv O (fun lk t p => says O lk t (last_pc p))).
  - intros lk t p. destruct p; intros X; try discriminate X; exact Logic.I.
  - auto.
  - intros lk lk' t os p _ EV. apply says_mono. exact EV.
  - intros w0 tid e p lk' p' os R I N PO PW EV C. eapply csr_says; try eassumption.
    destruct C; simpl in *; try exact PW; exact Logic.I.
Qed.

Lemma valid_has lk i : is_act_id_valid lk i = true -> exists e0, has lk e0 /\ d_id e0 = i.
Proof.
  unfold is_act_id_valid. intros E. apply existsb_exists in E as (e0 & I & E). apply N.eqb_eq in E. exists e0. auto.
Qed.

Lemma info_sound O w tid e x m :
  reachable O w -> In (LInfo, m) (log_of O w (LTick tid e) x) -> exists n, refresh_line O w n m.
Proof.
  intros R IN. unfold log_of in IN. destruct (nth_error (w_threads w) tid) as [p|] eqn:N; [|destruct IN].
  pose proof (reach_inv _ _ R) as I. pose proof (inv_wf _ _ I) as W.
  pose proof (reach_says _ _ R) as SA. rewrite Forall_forall in SA. specialize (SA _ (nth_error_In _ _ N)).
  pose proof (reach_why _ _ R) as WH. rewrite Forall_forall in WH. specialize (WH _ (nth_error_In _ _ N)).
  assert (forall y, ~ In (LInfo, m) (complain LError y)) as NC.
  { intros [y|]; [intros [X|[]]; discriminate X|intros []]. }
  assert (forall c, ~ In (LInfo, m) (http_log c)) as NH.
  { intros [c|y|]; try intros []; try discriminate; contradiction. }
  destruct p; cbn [thread_log last_pc says pc_why] in IN, SA, WH; try (destruct IN; fail).
  - destruct a as [ | | | | |o|]; try (destruct IN; fail). destruct o; try (destruct IN; fail). exfalso. exact (NC _ IN).
  - exfalso. destruct (e_client e) as [req|]; [|destruct IN]. unfold client_log in IN.
    destruct (request O e w req); try (destruct IN as [X|[]]; discriminate X).
    all: destruct (split_first ":"%char req) as [[c r]|]; [|destruct IN]; destruct (unknown_command c r);
      [destruct IN as [X|[]]; discriminate X|destruct IN].
  - unfold got_log in IN. destruct (is_act_id_valid (w_lk w) i) eqn:V; [|destruct IN].
    destruct (valid_has _ _ V) as (e0 & H0 & <-).
    destruct (get_account O w I e0 H0) as (act & AO & NA & CA).
    pose proof (expiry_instant_spec _ _ act now expires_in W H0 AO) as ES.
    destruct (expiry_instant (w_lk w) (d_id e0) now expires_in) as [ex|m'|] eqn:EI; try (destruct IN; fail).
    destruct IN as [X|[]]. injection X as <-.
    destruct WH as (rt & body & v & H1 & H2 & H3 & H4).
    destruct (proj2 H4 e0 H0 eq_refl) as (a & TS & _ & RT).
    destruct (thread_name O w tid _ (d_id e0) name e0 R N (conj eq_refl eq_refl) H0 eq_refl) as [NM _].
    exists name.
    assert (m' = $"Can't represent expiry") as ->.
    { unfold expiry_instant in EI. destruct (checked_add now (from_secs expires_in)); [discriminate EI|].
      rewrite CA in EI. cbn [bind] in EI. destruct (checked_add now _); cbn [ok_or] in EI; [discriminate EI|].
      injection EI as <-. reflexivity. }
    rewrite <- NM in *. eapply rl_expiry; try eassumption. exists e0. auto.
  - destruct (is_act_id_valid (w_lk w) i) eqn:V; [|destruct IN]. destruct (valid_has _ _ V) as (e0 & H0 & <-).
    destruct IN as [X|[]]. injection X as <-. destruct SA as (rt & r & H1 & H2 & H3).
    destruct (proj2 H3 e0 H0 eq_refl) as (a & TS & _ & RT).
    destruct (thread_name O w tid _ (d_id e0) name e0 R N (conj eq_refl eq_refl) H0 eq_refl) as [NM _].
    exists name. eapply rl_refused; try eassumption. exists e0. auto.
  - unfold transient_log in IN. destruct (is_act_id_valid (w_lk w) i) eqn:V; [|destruct IN].
    destruct (valid_has _ _ V) as (e0 & H0 & <-). rewrite (ct_tokenstate_in _ _ W H0) in IN.
    destruct SA as (rt & r & H1 & H2 & H3).
    destruct (proj2 H3 e0 H0 eq_refl) as (a & TS & _ & RT). rewrite TS in IN.
    destruct ((N.succ (fails a) mod transient_error_retries =? 0)%N && is_some (c_transient_error_if_cmd (lconfig (w_lk w))));
      [destruct IN|]. destruct IN as [X|[]]. injection X as <-.
    destruct (thread_name O w tid _ (d_id e0) name e0 R N (conj eq_refl eq_refl) H0 eq_refl) as [NM _].
    exists name. eapply rl_unreachable; try eassumption. exists e0. auto.
  - destruct ok; [destruct IN|]. destruct IN as [X|[]]. injection X as <-. destruct WH as (_ & _ & cmd & H).
    exists name. econstructor. exact H.
  - exfalso. exact (NH _ IN).
  - exfalso. exact (NH _ IN).
  - exfalso. destruct (c_error_notify_cmd (lconfig (w_lk w))); [exact (NC _ IN)|]. destruct IN as [X|[]]. discriminate X.
  - exfalso. exact (NC _ IN).
Qed.

(** * What is lost is logged *)

Lemma valid_in lk e0 : has lk e0 -> is_act_id_valid lk (d_id e0) = true.
Proof. intros H. unfold is_act_id_valid. apply existsb_exists. exists e0. split; [exact H|apply N.eqb_refl]. Qed.

Lemma loss_logged O w tid e w' n a x :
  reachable O w -> step O w (LTick tid e) = SNext w' -> holds w n (TSActive a) ->
  (forall a', ~ holds w' n (TSActive a')) -> tid <> 0 -> refresh_token a <> None ->
  exists m, log_of O w (LTick tid e) x = [(LInfo, m)] /\ refresh_line O w n m
            /\ exists r, m = $"Permanent refresh error for " ++ n ++ r.
Proof.
  intros R S H L T0 RT. pose proof (reach_inv _ _ R) as I. pose proof (inv_wf _ _ I) as W.
  destruct (loss_announced O w tid e w' n a R S H L T0 RT) as [_ (k & PE)].
  destruct (step_ok _ _ _ _ I S) as (I' & EV & T & A).
  inversion T as [t1 e1 p lk' p' os N C EL EW|t1 e1 p w1 N SY EL EW|]; subst.
  2:{ exfalso. assert (w_lk w' = w_lk w) as E by (destruct SY; try reflexivity; destruct a0; reflexivity).
      apply (L a). unfold holds in *. rewrite E. exact H. }
  assert (p' = PDo (APushEvent n EvInvalidated) k) as PP.
  { simpl in PE. rewrite (nth_list_set_same _ _ _ _ N) in PE. congruence. }
  assert (forall e0 ts, has (w_lk w) e0 -> lk' = bump 0 (w_lk w) (d_id e0) ts ->
            e0 = mkEntry n (d_id e0) (TSActive a) /\ is_active ts = false) as LB.
  { intros e0 ts H0 ->. exact (lost_bump 0 w tid os _ p' e0 ts n a W H0 eq_refl H L). }
  assert (forall m, In (LInfo, m) (log_of O w (LTick tid e) x) -> exists n', refresh_line O w n' m) as SD
    by (intros m; apply info_sound; exact R).
  pose proof (reach_says _ _ R) as SA. rewrite Forall_forall in SA. specialize (SA _ (nth_error_In _ _ N)).
  pose proof (reach_why _ _ R) as WH. rewrite Forall_forall in WH. specialize (WH _ (nth_error_In _ _ N)).
  destruct C; try discriminate PP; try (exfalso; apply (L a); exact H).
  - (* unrepresentable *)
    match goal with H0 : has (w_lk w) e0, X : expiry_instant _ _ _ _ = Err _ |- _ => rename H0 into HE; rename X into EI end.
    unfold log_of. rewrite N. cbn [thread_log]. unfold got_log. rewrite (valid_in _ _ HE), EI.
    injection PP as -> _. eexists. split; [reflexivity|]. split; [|eexists; reflexivity].
    cbn [last_pc pc_why] in WH. destruct WH as (rt1 & body & v & H1 & H2 & H3 & H4).
    destruct (get_account O w I e0 HE) as (act & AO & NA & CA).
    pose proof (expiry_instant_spec _ _ act now exs W HE AO) as ES. rewrite EI in ES.
    destruct (proj2 H4 e0 HE eq_refl) as (a1 & TS & _ & RT1).
    destruct (LB e0 _ HE eq_refl) as [E0 _]. assert (d_name e0 = n) as NM by (rewrite E0; reflexivity).
    assert (m = $"Can't represent expiry") as ->.
    { unfold expiry_instant in EI. destruct (checked_add now (from_secs exs)); [discriminate EI|].
      rewrite CA in EI. cbn [bind] in EI. destruct (checked_add now _); cbn [ok_or] in EI; [discriminate EI|].
      injection EI as <-. reflexivity. }
    rewrite <- NM in *. apply (rl_expiry O w (d_name e0) a1 rt1 body v tok exs now act); try assumption. exists e0. auto.
  - (* refused *)
    match goal with H0 : has (w_lk w) e0 |- _ => rename H0 into HE end.
    unfold log_of. rewrite N. cbn [thread_log]. rewrite (valid_in _ _ HE).
    injection PP as -> _. eexists. split; [reflexivity|]. split; [|eexists; reflexivity].
    cbn [last_pc says] in SA. destruct SA as (rt & r & H1 & H2 & H3).
    destruct (proj2 H3 e0 HE eq_refl) as (a1 & TS & _ & RT1).
    destruct (LB e0 _ HE eq_refl) as [E0 _]. assert (d_name e0 = n) as NM by (rewrite E0; reflexivity).
    apply (rl_refused O w n a1 rt r); try assumption. exists e0. auto.
  - (* given up by the command *)
    unfold log_of. rewrite N. cbn [thread_log]. injection PP as -> _. eexists. split; [reflexivity|].
    split; [|eexists; reflexivity]. cbn [last_pc pc_why] in WH. destruct WH as (_ & _ & cmd & H1). econstructor. exact H1.
  - exfalso. destruct (flat_map _ _) as [|[[n1 c1] u1] l1]; discriminate PP.
Qed.

(** * Failures that are counted *)

Lemma failure_logged O w tid e w' n a a' x :
  reachable O w -> step O w (LTick tid e) = SNext w' -> holds w n (TSActive a) -> holds w' n (TSActive a') ->
  fails a' = N.succ (fails a) ->
  (exists m, log_of O w (LTick tid e) x = [(LInfo, m)] /\ refresh_line O w n m
             /\ exists r, m = $"Transitory refresh error for " ++ n ++ r)
  \/ ((fails a' mod 6 = 0)%N /\ (exists i cmd, c_transient_error_if_cmd (lconfig (w_lk w)) = Some cmd
        /\ nth_error (w_threads w') tid = Some (PRefCmd i n cmd))
      /\ log_of O w (LTick tid e) x = []).
Proof.
  intros R S (e0 & H0 & NM & TS) HA' FS. pose proof (reach_inv _ _ R) as I. pose proof (inv_wf _ _ I) as W.
  destruct e0 as [n0 i0 ts0]. cbn [d_name d_ts] in NM, TS. subst n0 ts0.
  pose proof (life_step O w _ w' n i0 _ _ R S H0 HA') as LF.
  assert (forall m msg, nth_error (w_threads w) tid = Some (PRefTransient i0 m msg) ->
    (exists m0, log_of O w (LTick tid e) x = [(LInfo, m0)] /\ refresh_line O w n m0
             /\ exists r, m0 = $"Transitory refresh error for " ++ n ++ r)
    \/ ((fails a' mod 6 = 0)%N /\ (exists i cmd, c_transient_error_if_cmd (lconfig (w_lk w)) = Some cmd
          /\ nth_error (w_threads w') tid = Some (PRefCmd i n cmd))
        /\ log_of O w (LTick tid e) x = [])) as K.
  { intros m msg N.
    assert (m = n) as ->.
    { destruct (thread_name O w tid _ i0 m _ R N (conj eq_refl eq_refl) H0 eq_refl) as [X _]. symmetry. exact X. }
    pose proof (reach_says _ _ R) as SA. rewrite Forall_forall in SA. specialize (SA _ (nth_error_In _ _ N)).
    cbn [last_pc says] in SA. destruct SA as (rt & r & H1 & H2 & H3).
    destruct (proj2 H3 _ H0 eq_refl) as (a1 & TS & _ & RT). cbn [d_ts] in TS. injection TS as <-.
    unfold log_of. rewrite N. cbn [thread_log]. unfold transient_log.
    pose proof (valid_in (w_lk w) _ H0) as VI. cbn [d_id] in VI. rewrite VI. pose proof (ct_tokenstate_in (w_lk w) _ W H0) as CT. cbn [d_id d_ts] in CT. rewrite CT.
    rewrite FS. destruct (N.succ (fails a) mod transient_error_retries =? 0)%N eqn:SIX.
    - destruct (c_transient_error_if_cmd (lconfig (w_lk w))) as [cmd|] eqn:TC; cbn [is_some andb].
      + right. split; [apply N.eqb_eq; exact SIX|]. split; [|reflexivity].
        destruct (step_ok _ _ _ _ I S) as (I' & EV & T & A).
        inversion T as [t1 e1 p lk' p' os N1 C EL EW|t1 e1 p w1 N1 SY EL EW|]; subst; rewrite N in N1; injection N1 as <-.
        2: inversion SY.
        assert (nth_error (w_threads (after_cs w tid lk' p' os)) tid = Some p') as N'
          by exact (nth_list_set_same _ _ _ _ N).
        rewrite N'. apply N.eqb_eq in SIX.
        inversion C; subst.
        * exfalso. unfold stale in *. congruence.
        * exfalso.
          match goal with X : ~ (exists cmd, _), HE : has _ e0, TE : d_ts e0 = TSActive ?b |- _ => apply X; exists cmd;
            assert (e0 = mkEntry n (d_id e0) (TSActive a)) as E0 by (apply (wf_id_inj (w_lk w)); auto);
            rewrite E0 in TE; cbn in TE; injection TE as <-; auto end.
        * do 2 eexists. split; [reflexivity|]. do 2 f_equal. congruence.
      + left. eexists. split; [reflexivity|]. split; [|eexists; reflexivity].
        eapply rl_unreachable; try eassumption. eexists. split; [exact H0|]. auto.
    - cbn [andb]. left. eexists. split; [reflexivity|]. split; [|eexists; reflexivity].
      eapply rl_unreachable; try eassumption. eexists. split; [exact H0|]. auto. }
  inversion LF; subst; try (eapply K; eassumption); exfalso; cbn [fails] in FS; try lia.
Qed.

(** * Warnings *)

Definition docb (q : str) : bool :=
  match split_first ":"%char q with
  | None => false
  | Some (c, r) =>
      (match r with [] => existsb (str_eqb c) [$"dump"; $"info"; $"reload"; $"shutdown"; $"status"] | _ => false end)
      || str_eqb c $"restore" || (str_eqb c $"revoke" && utf8_valid r)
      || ((str_eqb c $"refresh" || str_eqb c $"showtoken") && utf8_valid r && is_some (split_first " "%char r))
  end.

Lemma docb_iff q : docb q = true <-> documented q.
Proof.
  assert (forall c r, existsb (Ascii.eqb ":"%char) c = false -> split_first ":"%char (c ++ $":" ++ r) = Some (c, r)) as SF.
  { intros c r E. apply split_first_some. split; [reflexivity|]. intros IN. rewrite <- not_true_iff_false, existsb_exists in E.
    apply E. exists ":"%char. split; [exact IN|apply Ascii.eqb_refl]. }
  split.
  - unfold docb. destruct (split_first ":"%char q) as [[c r]|] eqn:SP; [|discriminate].
    apply split_first_some in SP as [-> NC]. change ([":"%char] ++ r) with ($":" ++ r).
    rewrite !orb_true_iff, !andb_true_iff, orb_true_iff. intros [[[H|H]|[H UV]]|[[H UV] SS]].
    + destruct r; [|discriminate H]. apply existsb_exists in H as (k & IN & E). apply str_eqb_eq in E as <-.
      destruct IN as [<-|[<-|[<-|[<-|[<-|[]]]]]]; constructor.
    + apply str_eqb_eq in H as ->. exact (doc_restore r).
    + apply str_eqb_eq in H as ->. exact (doc_revoke r UV).
    + destruct (split_first " "%char r) as [[wu n]|] eqn:S2; [|discriminate SS].
      apply split_first_some in S2 as [-> NI].
      destruct H as [H|H]; apply str_eqb_eq in H as ->; [exact (doc_refresh wu n NI UV)|exact (doc_show wu n NI UV)].
  - intros [ | | | wu n NI UV | bytes | n UV | wu n NI UV | | ]; try reflexivity; unfold docb.
    + change ($"refresh:" ++ wu ++ $" " ++ n) with ($"refresh" ++ $":" ++ wu ++ $" " ++ n). rewrite (SF $"refresh" _ eq_refl), UV.
      rewrite (proj2 (split_first_some " "%char (wu ++ $" " ++ n) wu n)) by (split; [reflexivity|exact NI]).
      cbn [is_some]. rewrite !orb_true_iff. right. reflexivity.
    + change ($"restore:" ++ bytes) with ($"restore" ++ $":" ++ bytes). rewrite (SF $"restore" _ eq_refl).
      rewrite !orb_true_iff. left. left. right. reflexivity.
    + change ($"revoke:" ++ n) with ($"revoke" ++ $":" ++ n). rewrite (SF $"revoke" _ eq_refl), UV.
      rewrite !orb_true_iff. left. right. reflexivity.
    + change ($"showtoken:" ++ wu ++ $" " ++ n) with ($"showtoken" ++ $":" ++ wu ++ $" " ++ n). rewrite (SF $"showtoken" _ eq_refl), UV.
      rewrite (proj2 (split_first_some " "%char (wu ++ $" " ++ n) wu n)) by (split; [reflexivity|exact NI]).
      cbn [is_some]. rewrite !orb_true_iff. right. reflexivity.
Qed.

Lemma no_expiry_text lk i now exs m : expiry_instant lk i now exs = Err m -> m = $"Can't represent expiry".
Proof.
  unfold expiry_instant. destruct (checked_add now (from_secs exs)); [discriminate|].
  destruct (ct_account lk i) as [act|m'|] eqn:CA; cbn [bind]; [|intros _|discriminate].
  - destruct (checked_add now _); cbn [ok_or]; [discriminate|]. intros [= <-]. reflexivity.
  - exfalso. unfold ct_account in CA. destruct (find_id i (details lk)) as [e0|]; cbn [unwrap bind] in CA; [|discriminate CA].
    destruct (lookup (d_name e0) _); discriminate CA.
Qed.

Lemma http_start_log O w https bytes : reachable O w -> http_log (http_start O w https bytes) = [].
Proof.
  intros R. pose proof (reach_inv _ _ R) as I. pose proof (inv_wf _ _ I) as W.
  unfold http_start. destruct (parse_get O https bytes) as [uri|]; [|reflexivity].
  destruct (find_pair $"state" (query_pairs uri)) as [st|]; [|reflexivity].
  destruct (act_id_matching_token_state (w_lk w) st) as [i|] eqn:M; [|reflexivity].
  unfold act_id_matching_token_state in M. destruct (find _ (details (w_lk w))) as [e0|] eqn:F; [|discriminate M].
  injection M as <-. apply find_some in F as [H F]. destruct (d_ts e0) as [|cvr ln st' u|a] eqn:T; try discriminate F.
  destruct (get_account O w I e0 H) as (act & AO & NA & CA). rewrite CA. cbn [bind].
  destruct (account_redirect_uri O act (w_http w) (w_https w)) as [ru|m|] eqn:RU; cbn [bind]; [|exfalso|reflexivity].
  2: exact (redirect_known O w e0 cvr ln st' u act m R H T AO RU).
  destruct (negb _); [reflexivity|]. destruct (find_pair $"error" (query_pairs uri)) as [reason|].
  - destruct (tokenstate_replace (w_lk w) (d_id e0) TSEmpty) as [[lk' i']|m|] eqn:TR; cbn [bind]; [|exfalso|reflexivity].
    + destruct (ct_account lk' i') as [act'|m|] eqn:CA'; cbn [bind]; [reflexivity|exfalso|reflexivity].
      unfold ct_account in CA'. destruct (find_id i' (details lk')) as [e1|]; cbn [unwrap bind] in CA'; [|discriminate CA'].
      destruct (lookup (d_name e1) _); discriminate CA'.
    + unfold tokenstate_replace, unwrap in TR. destruct (update_first _ _ _); discriminate TR.
  - destruct (find_pair $"code" (query_pairs uri)) as [code|]; [|reflexivity].
    rewrite (ct_tokenstate_in _ _ W H), T. reflexivity.
Qed.

Lemma body_log O w e i body m :
  inv O w -> http_log (http_body O e (w_lk w) i body) = [(LWarn, m)] ->
  m = $"Can't represent expiry" /\ exists n ts v tok exs act,
    In (mkEntry n i ts) (details (w_lk w)) /\ o_json O body = inl v /\ grants v tok exs /\ configured w n act
    /\ no_end (lconfig (w_lk w)) act (env_now e) exs.
Proof.
  intros I. pose proof (inv_wf _ _ I) as W. unfold http_body.
  destruct (o_json O body) as [v|] eqn:J; [|discriminate].
  destruct (is_act_id_valid (w_lk w) i) eqn:V; [|discriminate].
  destruct (valid_has _ _ V) as (e0 & H0 & <-).
  destruct (json_str $"error" v) eqn:JE; [discriminate|].
  destruct (json_str $"token_type" v) as [ty|] eqn:JT; [|discriminate].
  destruct (json_u64 $"expires_in" v) as [exs|] eqn:JX; [|discriminate].
  destruct (json_str $"access_token" v) as [tok|] eqn:JA; [|discriminate].
  destruct (str_eqb ty $"Bearer") eqn:TB; [|discriminate]. apply str_eqb_eq in TB as ->.
  destruct (get_account O w I e0 H0) as (act & AO & NA & CA).
  pose proof (expiry_instant_spec _ _ act (env_now e) exs W H0 AO) as ES.
  destruct (expiry_instant (w_lk w) (d_id e0) (env_now e) exs) as [ex|m'|] eqn:EI; cbn [bind]; [| |discriminate].
  - intros H. exfalso. rewrite CA in H. cbn [bind] in H.
    destruct (tokenstate_replace _ _ _) as [[lk' i']|m'|] eqn:TR in H; cbn [bind] in H; try discriminate H.
    unfold tokenstate_replace, unwrap in TR. destruct (update_first _ _ _); discriminate TR.
  - intros [= <-]. apply no_expiry_text in EI as ->. split; [reflexivity|].
    exists (d_name e0), (d_ts e0), v, tok, exs, act. split; [destruct e0; exact H0|]. split; [reflexivity|]. split; [repeat split; assumption|]. split; [exact AO|exact ES].
Qed.

Lemma warn_sound O w l w' x m :
  reachable O w -> step O w l = SNext w' -> In (LWarn, m) (log_of O w l x) -> warning O w l m.
Proof.
  intros R S IN. pose proof (reach_inv _ _ R) as I.
  unfold log_of in IN. destruct l as [tid e|https bytes]; [|destruct IN].
  destruct (nth_error (w_threads w) tid) as [p|] eqn:N; [|destruct IN].
  assert (forall y, ~ In (LWarn, m) (complain LError y)) as NC.
  { intros [y|]; [intros [X|[]]; discriminate X|intros []]. }
  destruct p; cbn [thread_log] in IN; try (destruct IN; fail).
  - destruct a as [ | | | | |o|]; try (destruct IN; fail). destruct o; try (destruct IN; fail). exfalso. exact (NC _ IN).
  - destruct (e_client e) as [req|] eqn:EC; [|destruct IN]. rewrite (main_tid O w tid R N) in *.
    destruct (docb req) eqn:DB.
    + apply docb_iff in DB. rewrite (known_log O w e req DB) in IN.
      destruct (request O e w req) as [r|m'|] eqn:RQ; try (destruct IN; fail). destruct IN as [X|[]]. injection X as ->.
      exact (wn_no_answer O w e req m EC DB (request_err O w e req m I DB RQ)).
    + assert (~ documented req) as ND by (intros D; apply docb_iff in D; congruence).
      destruct (malformed_log O w e req ND) as (m' & CP & CL). rewrite CL in IN. destruct IN as [X|[]]. injection X as ->.
      exact (wn_complaint O w e req m EC CP).
  - exfalso. unfold got_log in IN. destruct (is_act_id_valid (w_lk w) i); [|destruct IN].
    destruct (expiry_instant (w_lk w) i now expires_in); try (destruct IN; fail). destruct IN as [X|[]]. discriminate X.
  - exfalso. destruct (is_act_id_valid (w_lk w) i); [|destruct IN]. destruct IN as [X|[]]. discriminate X.
  - exfalso. unfold transient_log in IN. destruct (is_act_id_valid (w_lk w) i); [|destruct IN].
    destruct (ct_tokenstate (w_lk w) i) as [[| |a]| |]; try (destruct IN; fail).
    destruct (_ && _); [destruct IN|]. destruct IN as [X|[]]. discriminate X.
  - exfalso. destruct ok; [destruct IN|]. destruct IN as [X|[]]. discriminate X.
  - exfalso. rewrite (http_start_log O w https bytes R) in IN. destruct IN.
  - assert (http_log (http_body O e (w_lk w) i body) = [(LWarn, m)]) as HL.
    { destruct (http_body O e (w_lk w) i body) as [r|m'|]; cbn [http_log] in *; try (destruct IN; fail).
      destruct IN as [X|[]]. injection X as ->. reflexivity. }
    destruct (body_log O w e i body m I HL) as (-> & n & ts & v & tok & exs & act & H1 & H2 & H3 & H4 & H5).
    eapply wn_expiry; eassumption.
  - exfalso. destruct (c_error_notify_cmd (lconfig (w_lk w))); [exact (NC _ IN)|]. destruct IN as [X|[]]. discriminate X.
  - exfalso. exact (NC _ IN).
Qed.

Lemma expiry_logged O w tid e w' n i ts body v tok exs act x :
  reachable O w -> step O w (LTick tid e) = SNext w' ->
  nth_error (w_threads w) tid = Some (PHttpBody i body) -> In (mkEntry n i ts) (details (w_lk w)) ->
  o_json O body = inl v -> grants v tok exs -> configured w n act -> no_end (lconfig (w_lk w)) act (env_now e) exs ->
  log_of O w (LTick tid e) x = [(LWarn, $"Can't represent expiry")].
Proof.
  intros R S N H J (JE & JA & JT & JX) CF NE. pose proof (reach_inv _ _ R) as I. pose proof (inv_wf _ _ I) as W.
  unfold log_of. rewrite N. cbn [thread_log]. unfold http_body. rewrite J.
  pose proof (valid_in (w_lk w) _ H) as VI. cbn [d_id] in VI. rewrite VI, JE, JT, JX, JA, str_eqb_refl.
  pose proof (expiry_instant_spec _ _ act (env_now e) exs W H CF) as ES. cbn [d_id] in ES.
  destruct (expiry_instant (w_lk w) i (env_now e) exs) as [ex|m|] eqn:EI; cbn [bind http_log]; [exfalso| |destruct ES].
  - destruct NE as [N1 N2]. unfold ends_at in ES. lia.
  - apply no_expiry_text in EI as ->. reflexivity.
Qed.

(** * Errors *)

Definition is_error (x : log_line) : bool := match fst x with LError => true | _ => false end.

Lemma notify_says u cmd n x :
  u = $"<stderr not representable as UTF-8" \/ u = $"<stderr not representable as UTF-8>" -> x <> CTimeout ->
  match notify_complaint u n cmd x with Some m => notify_said cmd n x m | None => went_well x end.
Proof.
  intros U NT. destruct x as [m|m|code out| |m]; cbn [notify_complaint]; try constructor; [|congruence].
  assert (code <> Some 0%N ->
    match Some (n ++ $": error when running '" ++ cmd ++ $"': " ++ (if utf8_valid out then out else u)) with
    | Some m => notify_said cmd n (CExit code out) m | None => went_well (CExit code out) end) as K.
  { intros NZ. destruct (utf8_valid out) eqn:UV.
    - apply ns_output; [exact NZ|apply utf8_is_text; exact UV].
    - assert (exists z, (z = $">" \/ z = []) /\ u = $"<stderr not representable as UTF-8" ++ z) as (z & HZ & ->).
      { destruct U as [-> | ->]; [exists []|exists $">"]; split; auto. }
      apply ns_bytes; [exact NZ|apply not_text_false; exact UV|exact HZ]. }
  destruct code as [ [ |c]|]; [eexists; reflexivity|apply K; discriminate|apply K; discriminate].
Qed.

Lemma event_says cmd x :
  match event_complaint cmd x with Some m => event_said cmd x m | None => went_well x end.
Proof.
  destruct x as [m|m|code out| |m]; cbn [event_complaint]; try constructor.
  destruct code as [ [ |c]|]; cbn [code_text]; [eexists; reflexivity| |]; constructor. discriminate.
Qed.

(** What chains of actions say. *)
Lemma reach_chain_emits O w : reachable O w ->
  Forall (fun p => forall a, In a (chain p) ->
    match a with AEmit (OReply _ _) | AEmit (OHttpResp _) | AEmit (OAuthCmd _ _ _) => True | AEmit _ => False | _ => True end)
    (w_threads w).
Proof.
  revert w. apply (reach_ind O (fun w => Forall (fun p => forall a, In a (chain p) -> 
    match a with AEmit (OReply _ _) | AEmit (OHttpResp _) | AEmit (OAuthCmd _ _ _) => True | AEmit _ => False | _ => True end)
    (w_threads w))).
  - intros. repeat constructor; intros a [].
  - intros w l w' _ _ _ _ F _ T.
    apply (tstep_chain_inv (fun a => match a with AEmit (OReply _ _) | AEmit (OHttpResp _) | AEmit (OAuthCmd _ _ _) => True
      | AEmit _ => False | _ => True end) O w l w'); [|exact F|exact T].
    intros e p lk' p' os a C I. pose proof (csr_chain _ _ _ _ _ _ _ _ C I) as X. cbn in X.
    destruct a; try exact Logic.I. destruct o; try contradiction; exact Logic.I.
Qed.

(** Where errors are logged. *)
Definition loud (p : pc) : bool :=
  match p with PHttpNotify _ _ _ | PEvRun _ _ _ | PDo (AEmit (OAuthCmd _ _ _)) _ => true | _ => false end.

Lemma not_loud O w p e x : loud p = false -> filter is_error (thread_log O w p e x) = [].
Proof.
  intros L. destruct p; try reflexivity; try discriminate L; cbn [thread_log].
  - destruct a as [ | | | | |o|]; try reflexivity. destruct o; try reflexivity. discriminate L.
  - destruct (e_client e) as [req|]; [|reflexivity]. unfold client_log.
    destruct (request O e w req); try reflexivity.
    all: destruct (split_first ":"%char req) as [[c r]|]; [|reflexivity]; destruct (unknown_command c r); reflexivity.
  - unfold got_log. destruct (is_act_id_valid _ _); [|reflexivity]. destruct (expiry_instant _ _ _ _); reflexivity.
  - destruct (is_act_id_valid _ _); reflexivity.
  - unfold transient_log. destruct (is_act_id_valid _ _); [|reflexivity].
    destruct (ct_tokenstate _ _) as [[| |a]| |]; try reflexivity. destruct (_ && _); reflexivity.
  - destruct ok; reflexivity.
  - destruct (http_start O w https bytes); reflexivity.
  - destruct (http_body O e (w_lk w) i body); reflexivity.
Qed.

Lemma errors_of O w l w' x :
  reachable O w -> step O w l = SNext w' -> ((forall e, l <> LTick 1 e) -> x_end x <> CTimeout) ->
  exists os, w_trace w' = w_trace w ++ os /\ error_lines (x_end x) os (filter is_error (log_of O w l x)).
Proof.
  intros R S NT. pose proof (reach_inv _ _ R) as I. destruct (step_ok _ _ _ _ I S) as (I' & EV & T & A).
  assert (forall u cmd n o, u = $"<stderr not representable as UTF-8" \/ u = $"<stderr not representable as UTF-8>" ->
    x_end x <> CTimeout -> (exists y, o = OAuthCmd cmd n y) \/ (exists y, o = OErrCmd cmd n y) ->
    error_lines (x_end x) [o] (filter is_error (complain LError (notify_complaint u n cmd (x_end x))))) as KN.
  { intros u cmd n o U NX O1. pose proof (notify_says u cmd n (x_end x) U NX) as NS.
    destruct (notify_complaint u n cmd (x_end x)) as [m|]; cbn [complain filter is_error fst].
    - exact (el_notify _ o cmd n m O1 NS).
    - apply el_well; [exact NS|]. intros n1 m1 [->|[]]. destruct O1 as [[y O1]|[y O1]]; discriminate O1. }
  assert (forall tid e p, l = LTick tid e -> nth_error (w_threads w) tid = Some p ->
            pc_role p <> RoEventer -> x_end x <> CTimeout) as NE.
  { intros tid e p -> N RO. apply NT. intros e1 E. injection E as -> _. apply RO.
    exact (ro_pc _ (reach_roles _ _ R) _ _ N). }
  destruct T as [tid e p lk' p' os N C|tid e p w' N SY|https bytes X].
  - exists os. split; [reflexivity|]. unfold log_of. rewrite N. specialize (NE tid e p eq_refl N).
    destruct (loud p) eqn:L.
    + destruct C; try discriminate L; cbn [thread_log] in *.
      * rewrite H. apply KN; [right; reflexivity|apply NE; discriminate|right; eexists; reflexivity].
      * rewrite H. exact (el_log (x_end x) name msg).
      * pose proof (event_says cmd (x_end x)) as ES.
        destruct (event_complaint cmd (x_end x)) as [m|]; cbn [complain filter is_error fst].
        -- exact (el_event (x_end x) cmd n ev m ES).
        -- apply el_well; [exact ES|]. intros n1 m1 [E|[]]. discriminate E.
    + rewrite (not_loud O w p e x L). apply el_none. intros o J.
      destruct C; try discriminate L; cbn [In] in J; repeat (destruct J as [<-|J]; [exact Logic.I|]); destruct J.
  - unfold log_of. rewrite N. clear NE.
    pose proof (reach_chain_emits O w R) as CE. rewrite Forall_forall in CE. specialize (CE _ (nth_error_In _ _ N)).
    destruct SY as [a k| | | | | | | | | | |];
      try (exists []; split; [symmetry; apply app_nil_r|]; rewrite not_loud by reflexivity; apply el_none; intros o []).
    specialize (CE a (or_introl eq_refl)). exists (action_obs a).
    split; [exact (do_action_trace (set_thread w tid k) a)|].
    destruct (loud (PDo a k)) eqn:L.
    + destruct a as [ | | | | |o|]; try discriminate L. destruct o; try discriminate L. cbn [thread_log action_obs].
      apply KN; [left; reflexivity| |left; eexists; reflexivity].
      apply NT. intros e1 E. injection E as -> _. exact (do_not_eventer O w 1 _ k R N eq_refl).
    + rewrite (not_loud O w _ e x L). apply el_none. intros o J.
      destruct a as [ | | | | |o1|]; cbn [action_obs In] in J; try (destruct J; fail).
      * destruct J as [<-|[]]. exact Logic.I.
      * destruct J as [<-|[]]. destruct o1; try exact Logic.I; try (destruct CE; fail). discriminate L.
      * destruct J as [<-|[]]. exact Logic.I.
  - exists [OHttpIn https bytes]. split; [reflexivity|]. apply el_none. intros o [<-|[]]. exact Logic.I.
Qed.

(** * Nothing secret *)

Lemma sim_log O w1 w2 l1 l2 x :
  cipher_uniform O -> same_but_secrets O w1 w2 -> alike_label O l1 l2 -> log_of O w1 l1 x = log_of O w2 l2 x.
Proof.
  intros CU SB AL. apply sim_w_iff in SB as SW. destruct AL as [tid e1 e2 AE|]; [|reflexivity].
  unfold log_of. pose proof (sw_threads _ _ _ SW) as TH. pose proof (sw_hears _ _ _ SW) as HH.
  assert (forall k, option_map blind_pc (nth_error (w_threads w1) k) = option_map blind_pc (nth_error (w_threads w2) k)) as N1.
  { intros k. rewrite <- !nth_error_map, TH. reflexivity. }
  assert (forall k, option_map (hears O) (nth_error (w_threads w1) k) = option_map (hears O) (nth_error (w_threads w2) k)) as N2.
  { intros k. rewrite <- !nth_error_map, HH. reflexivity. }
  specialize (N1 tid). specialize (N2 tid).
  destruct (nth_error (w_threads w1) tid) as [p|], (nth_error (w_threads w2) tid) as [q|]; try discriminate N1; [|reflexivity].
  cbn [option_map] in N1, N2. injection N1 as BP. injection N2 as HP.
  pose proof (sw_lk _ _ _ SW) as SL. pose proof (sl_conf _ _ SL) as SC.
  assert (forall c1 c2, orel (sim_cs O) c1 c2 -> http_log c1 = http_log c2) as KH.
  { intros [a|m|] [b|n|]; cbn [orel http_log]; try contradiction; try reflexivity. intros ->. reflexivity. }
  destruct p; destruct q; try discriminate BP; cbn [blind_pc] in BP; try reflexivity; cbn [thread_log].
  - injection BP as BA _. destruct a as [ | | | | |o1|]; destruct a0 as [ | | | | |o2|]; try discriminate BA; try reflexivity.
    cbn [blind_action] in BA. injection BA as BO.
    assert (forall o, match blur o with OAuthCmd c n u => o = OAuthCmd c n u
                      | _ => match o with OAuthCmd _ _ _ => False | _ => True end end) as BL.
    { intros o. destruct o; try exact Logic.I; [|reflexivity]. cbn [blur].
      destruct (str_eqb req $"dump:"); [exact Logic.I|]. destruct (_ && _); exact Logic.I. }
    pose proof (BL o1) as B1. pose proof (BL o2) as B2. rewrite <- BO in B2.
    destruct (blur o1); try (destruct o1; try contradiction; destruct o2; try contradiction; reflexivity).
    rewrite B1, B2. reflexivity.
  - rewrite (al_client _ _ _ AE). destruct (e_client e2) as [req|] eqn:EC; [|reflexivity]. unfold client_log.
    pose proof (sim_request O e1 e2 w1 w2 AE SW CU req) as SR.
    destruct (request O e1 w1 req) as [r1|m1|], (request O e2 w2 req) as [r2|m2|]; cbn [orel] in SR; try contradiction; try reflexivity.
    rewrite SR. reflexivity.
  - injection BP as -> -> -> _ ->. unfold got_log. rewrite (sim_valid (w_lk w1) (w_lk w2) SL), (sim_expiry (w_lk w1) (w_lk w2) SL). reflexivity.
  - injection BP as -> -> ->. rewrite (sim_valid (w_lk w1) (w_lk w2) SL). reflexivity.
  - injection BP as -> -> ->. unfold transient_log. rewrite (sim_valid (w_lk w1) (w_lk w2) SL), SC.
    pose proof (sim_ct_tokenstate _ _ SL i0) as ST.
    destruct (ct_tokenstate (w_lk w1) i0) as [t1|m1|], (ct_tokenstate (w_lk w2) i0) as [t2|m2|]; cbn [orel] in ST; try contradiction; try reflexivity.
    apply sim_ts_inv in ST. destruct t1, t2; try contradiction; try reflexivity.
    destruct ST as (_ & _ & _ & -> & _). reflexivity.
  - injection BP as -> -> ->. reflexivity.
  - injection BP as -> ->. apply KH. apply sim_http_start; assumption.
  - injection BP as ->. injection HP as HP. apply KH. apply sim_http_body; assumption.
  - injection BP as -> -> ->. rewrite SC. reflexivity.
  - injection BP as -> -> ->. reflexivity.
Qed.

Lemma sim_run_log O : cipher_uniform O -> forall ls1 ls2 w1 w2,
  same_but_secrets O w1 w2 ->
  Forall2 (fun a b => alike_label O (fst a) (fst b) /\ snd a = snd b) ls1 ls2 ->
  run_log O w1 ls1 = run_log O w2 ls2.
Proof.
  intros CU. induction ls1 as [|[l1 x1] ls1 IH]; intros ls2 w1 w2 SB F; inversion F as [|a b la lb [AL EX] F']; subst; [reflexivity|].
  destruct b as [l2 x2]. cbn [fst snd] in AL, EX. subst x2. cbn [run_log].
  pose proof (sim_step O w1 w2 l1 l2 CU AL (proj2 (sim_w_iff O w1 w2) SB)) as SS.
  destruct (step O w1 l1) as [| |w1'] eqn:S1, (step O w2 l2) as [| |w2'] eqn:S2; cbn in SS; try contradiction; try reflexivity.
  rewrite (sim_log O w1 w2 l1 l2 x1 CU SB AL). f_equal. apply IH; [apply sim_w_iff; exact SS|exact F'].
Qed.

(** * What is shown *)

Lemma shown_errors l : shown_at 0 l = filter is_error l.
Proof.
  unfold shown_at. apply filter_ext. intros [v m]. destruct v; reflexivity.
Qed.

Lemma shown_warnings l : shown_at 1 l = filter (fun y => is_error y || (match fst y with LWarn => true | _ => false end)) l.
Proof.
  unfold shown_at. apply filter_ext. intros [v m]. destruct v; reflexivity.
Qed.

Lemma thread_log_levels O w p e x v m : In (v, m) (thread_log O w p e x) -> v = LError \/ v = LWarn \/ v = LInfo.
Proof.
  assert (forall y, In (v, m) (complain LError y) -> v = LError \/ v = LWarn \/ v = LInfo) as NC.
  { intros [y|]; [intros [X|[]]; injection X as <- _; auto|intros []]. }
  assert (forall c, In (v, m) (http_log c) -> v = LError \/ v = LWarn \/ v = LInfo) as NH.
  { intros [c|y|]; [intros []|intros [X|[]]; injection X as <- _; auto|intros []]. }
  intros IN. destruct p; cbn [thread_log] in IN; try (destruct IN; fail); try (apply (NH _ IN)); try (apply (NC _ IN)).
  - destruct a as [ | | | | |o|]; try (destruct IN; fail). destruct o; try (destruct IN; fail). exact (NC _ IN).
  - destruct (e_client e) as [req|]; [|destruct IN]. unfold client_log in IN.
    destruct (request O e w req); try (destruct IN as [X|[]]; injection X as <- _; auto).
    all: destruct (split_first ":"%char req) as [[c r]|]; [|destruct IN]; destruct (unknown_command c r);
      [destruct IN as [X|[]]; injection X as <- _; auto|destruct IN].
  - unfold got_log in IN. destruct (is_act_id_valid _ _); [|destruct IN]. destruct (expiry_instant _ _ _ _); try (destruct IN; fail).
    destruct IN as [X|[]]. injection X as <- _. auto.
  - destruct (is_act_id_valid _ _); [|destruct IN]. destruct IN as [X|[]]. injection X as <- _. auto.
  - unfold transient_log in IN. destruct (is_act_id_valid _ _); [|destruct IN].
    destruct (ct_tokenstate _ _) as [[| |a]| |]; try (destruct IN; fail). destruct (_ && _); [destruct IN|].
    destruct IN as [X|[]]. injection X as <- _. auto.
  - destruct ok; [destruct IN|]. destruct IN as [X|[]]. injection X as <- _. auto.
  - destruct (c_error_notify_cmd _); [exact (NC _ IN)|]. destruct IN as [X|[]]. injection X as <- _. auto.
Qed.

Lemma shown_all O w l x v : shown_at (S (S v)) (log_of O w l x) = log_of O w l x.
Proof.
  unfold shown_at.
  assert (forall ls : list log_line, (forall y, In y ls -> fst y = LError \/ fst y = LWarn \/ fst y = LInfo) ->
    filter (fun y => Nat.leb (level_no (fst y)) (level_no (log_level (S (S v))))) ls = ls) as K.
  { induction ls as [|y ls IH]; intros H; [reflexivity|]. cbn [filter].
    assert (Nat.leb (level_no (fst y)) (level_no (log_level (S (S v)))) = true) as ->.
    { destruct (H y (or_introl eq_refl)) as [EQ|[EQ|EQ]]; rewrite EQ; destruct v as [|[|v]]; reflexivity. }
    f_equal. apply IH. intros z J. apply H. right. exact J. }
  apply K. intros [u m] IN. cbn [fst]. unfold log_of in IN. destruct l as [tid e|]; [|destruct IN].
  destruct (nth_error (w_threads w) tid) as [p|]; [|destruct IN]. exact (thread_log_levels O w p e x u m IN).
Qed.
