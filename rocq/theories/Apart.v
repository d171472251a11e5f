(** Proofs for C100: what happens to an account does not depend on the others. *)
From Verif Require Import Base BaseLemmas Time Utf8 Base64 Url Json Oracles Config Located Dump State Http
  Timers Server StateLemmas ConfigLemmas Locate Steps SpecStatus Inv Reach SpecServer Trace Basic Decide SpecRestore DumpLemmas
  SpecApart.

(** * Versions *)

Lemma current_id n lk e0 i : wf lk -> has lk e0 -> d_name e0 = n -> current n lk i -> i = d_id e0.
Proof.
  intros W H N [ts I]. assert (mkEntry n i ts = e0) as X by (apply (wf_name_inj lk); auto). rewrite <- X. reflexivity.
Qed.

Lemma outdated_stale lk i : outdated lk i -> is_act_id_valid lk i = false.
Proof.
  intros [_ F]. destruct (is_act_id_valid lk i) eqn:V; [|reflexivity].
  apply valid_iff in V as (e & I & E). exfalso. exact (F e I E).
Qed.

Lemma outdated_evolves lk lk' i : evolves lk lk' -> outdated lk i -> outdated lk' i.
Proof.
  intros [C K] [L F]. split; [lia|]. intros e I E. destruct (K e I ltac:(lia)) as [I' _]. exact (F e I' E).
Qed.

(** An id handed out before is no longer anybody's when the entry got a new one. *)
Lemma current_replaced n lk lk' e0 e' :
  wf lk -> wf lk' -> evolves lk lk' -> has lk e0 -> d_name e0 = n -> has lk' e' -> d_name e' = n ->
  (account_count lk <= d_id e')%N -> outdated lk' (d_id e0).
Proof.
  intros W W' [C K] H N H' N' L. pose proof (wf_entry_count _ _ W H) as B. split; [lia|].
  intros e I E. destruct (K e I ltac:(lia)) as [I2 _].
  assert (e = e0) by (apply (wf_id_inj lk); auto). subst e.
  assert (e0 = e') by (apply (wf_name_inj lk'); auto; congruence). subst e'. lia.
Qed.

(** Two states go on in the same way. *)
Definition carries (n : str) (lk1 lk2 lk1' lk2' : locked) : Prop :=
  forall i1 i2, versions n lk1 lk2 i1 i2 -> versions n lk1' lk2' i1 i2.

Lemma alike_carries n lk1 lk2 lk1' lk2' p1 p2 :
  carries n lk1 lk2 lk1' lk2' -> alike n lk1 lk2 p1 p2 -> alike n lk1' lk2' p1 p2.
Proof. intros C A. induction A; constructor; auto. Qed.

Lemma alike_sym n lk1 lk2 p1 p2 : alike n lk1 lk2 p1 p2 -> alike n lk2 lk1 p2 p1.
Proof.
  assert (forall i1 i2, versions n lk1 lk2 i1 i2 -> versions n lk2 lk1 i2 i1) as V
    by (intros i1 i2 [[A B]|[A B]]; [left|right]; auto).
  intros A. induction A; constructor; auto.
Qed.

(** The entry of [n] is replaced in both states, or in neither. *)
Lemma carries_gen n lk1 lk2 lk1' lk2' e1 e2 e1' e2' :
  wf lk1 -> wf lk2 -> wf lk1' -> wf lk2' -> evolves lk1 lk1' -> evolves lk2 lk2' ->
  has lk1 e1 -> has lk2 e2 -> has lk1' e1' -> has lk2' e2' ->
  d_name e1 = n -> d_name e2 = n -> d_name e1' = n -> d_name e2' = n ->
  (d_id e1' = d_id e1 /\ d_id e2' = d_id e2)
  \/ (account_count lk1 <= d_id e1' /\ account_count lk2 <= d_id e2')%N ->
  carries n lk1 lk2 lk1' lk2'.
Proof.
  intros W1 W2 W1' W2' E1 E2 H1 H2 H1' H2' N1 N2 N1' N2' D i1 i2 [[C1 C2]|[O1 O2]].
  - rewrite (current_id n lk1 e1 i1), (current_id n lk2 e2 i2); auto.
    destruct D as [[D1 D2]|[D1 D2]].
    + left. rewrite <- D1, <- D2. split.
      * exists (d_ts e1'). rewrite <- N1'. destruct e1'. exact H1'.
      * exists (d_ts e2'). rewrite <- N2'. destruct e2'. exact H2'.
    + right. split; [eapply (current_replaced n lk1 lk1')|eapply (current_replaced n lk2 lk2')]; eauto.
  - right. split; eapply outdated_evolves; eassumption.
Qed.

(** * Critical sections *)

Lemma settings_fields c1 c2 : settings c1 = settings c2 ->
  c_auth_notify_cmd c1 = c_auth_notify_cmd c2 /\ c_auth_notify_interval c1 = c_auth_notify_interval c2
  /\ c_error_notify_cmd c1 = c_error_notify_cmd c2 /\ c_transient_error_if_cmd c1 = c_transient_error_if_cmd c2
  /\ c_refresh_at_least c1 = c_refresh_at_least c2 /\ c_refresh_before_expiry c1 = c_refresh_before_expiry c2
  /\ c_refresh_retry c1 = c_refresh_retry c2.
Proof. unfold settings. intros E. injection E. intuition. Qed.

(** What two critical sections lead to. *)
Definition cs_alike (n : str) (lk1 lk2 : locked) (c1 c2 : cs) : Prop :=
  match c1, c2 with
  | Val (lk1', p1, os1), Val (lk2', p2, os2) =>
      os1 = os2 /\ alike n lk1' lk2' p1 p2 /\ agree n lk1' lk2' /\ carries n lk1 lk2 lk1' lk2'
  | Err _, Err _ => True
  | Panic, Panic => True
  | _, _ => False
  end.

Section Two.
Variable O : oracles.
Variable n : str.
Variables w1 w2 : world.
Variable e : env.
Variables x1 x2 : entry.
Hypothesis W1 : wf (w_lk w1).
Hypothesis W2 : wf (w_lk w2).
Hypothesis X1 : has (w_lk w1) x1.
Hypothesis X2 : has (w_lk w2) x2.
Hypothesis N1 : d_name x1 = n.
Hypothesis N2 : d_name x2 = n.
Hypothesis TS : d_ts x2 = d_ts x1.
Hypothesis AC : account_of (w_lk w1) n = account_of (w_lk w2) n.
Hypothesis SE : settings (lconfig (w_lk w1)) = settings (lconfig (w_lk w2)).
Hypothesis HT : w_http w1 = w_http w2.
Hypothesis HTS : w_https w1 = w_https w2.

Local Notation lk1 := (w_lk w1).
Local Notation lk2 := (w_lk w2).

Lemma the_account : exists act, a_name act = n /\ account_of lk1 (d_name x1) = Some act
  /\ account_of lk2 (d_name x2) = Some act
  /\ ct_account lk1 (d_id x1) = Val act /\ ct_account lk2 (d_id x2) = Val act.
Proof.
  destruct (wf_account _ _ W1 X1) as (act & L & NA). exists act.
  assert (account_of lk2 (d_name x2) = Some act) as L2.
  { rewrite N2, <- AC, <- N1. exact L. }
  split; [congruence|]. split; [exact L|]. split; [exact L2|].
  split; [apply (ct_account_in _ x1)|apply (ct_account_in _ x2)]; assumption.
Qed.

Lemma version_cases i1 i2 : versions n lk1 lk2 i1 i2 ->
  (i1 = d_id x1 /\ i2 = d_id x2 /\ is_act_id_valid lk1 i1 = true /\ is_act_id_valid lk2 i2 = true)
  \/ (is_act_id_valid lk1 i1 = false /\ is_act_id_valid lk2 i2 = false).
Proof.
  intros [[C1 C2]|[O1 O2]].
  - left. rewrite (current_id n lk1 x1 i1), (current_id n lk2 x2 i2); auto.
    split; [reflexivity|]. split; [reflexivity|]. split; apply valid_iff; eauto.
  - right. split; apply outdated_stale; assumption.
Qed.

Lemma agree_same : agree n lk1 lk2.
Proof.
  constructor; [|exact AC|exact SE]. exists (d_id x1), (d_id x2), (d_ts x1).
  rewrite <- N1 at 1. rewrite <- N2. rewrite <- TS at 2. destruct x1, x2. split; assumption.
Qed.

Lemma carries_same : carries n lk1 lk2 lk1 lk2.
Proof. intros i1 i2 V. exact V. Qed.

Lemma agree_bump k ts : agree n (bump k lk1 (d_id x1) ts) (bump k lk2 (d_id x2) ts).
Proof.
  constructor; [|exact AC|exact SE]. exists (account_count lk1 + k)%N, (account_count lk2 + k)%N, ts.
  pose proof (bump_in_new k lk1 x1 ts X1) as B1. pose proof (bump_in_new k lk2 x2 ts X2) as B2.
  rewrite N1 in B1. rewrite N2 in B2. auto.
Qed.

Lemma carries_bump k ts : carries n lk1 lk2 (bump k lk1 (d_id x1) ts) (bump k lk2 (d_id x2) ts).
Proof.
  apply (carries_gen n lk1 lk2 _ _ x1 x2 (mkEntry (d_name x1) (account_count lk1 + k)%N ts)
           (mkEntry (d_name x2) (account_count lk2 + k)%N ts)); auto using bump_wf, bump_evolves.
  - apply (bump_in_new k lk1 x1 ts X1).
  - apply (bump_in_new k lk2 x2 ts X2).
  - right. simpl. lia.
Qed.

Lemma new_version k ts : versions n (bump k lk1 (d_id x1) ts) (bump k lk2 (d_id x2) ts)
  (account_count lk1 + k)%N (account_count lk2 + k)%N.
Proof.
  left. split; exists ts.
  - rewrite <- N1. apply (bump_in_new k lk1 x1 ts X1).
  - rewrite <- N2. apply (bump_in_new k lk2 x2 ts X2).
Qed.

Lemma new_version0 ts : versions n (bump 0 lk1 (d_id x1) ts) (bump 0 lk2 (d_id x2) ts)
  (account_count lk1) (account_count lk2).
Proof. pose proof (new_version 0 ts) as V. rewrite !N.add_0_r in V. exact V. Qed.

Lemma old_version : versions n lk1 lk2 (d_id x1) (d_id x2).
Proof.
  left. split; [exists (d_ts x1); rewrite <- N1; destruct x1; exact X1|].
  exists (d_ts x2). rewrite <- N2. destruct x2. exact X2.
Qed.

(** The two ends of a critical section. *)
Lemma same_end p1 p2 os : alike n lk1 lk2 p1 p2 -> cs_alike n lk1 lk2 (Val (lk1, p1, os)) (Val (lk2, p2, os)).
Proof. intros A. split; [reflexivity|]. split; [exact A|]. split; [exact agree_same|exact carries_same]. Qed.

Lemma bump_end k ts p1 p2 os :
  alike n (bump k lk1 (d_id x1) ts) (bump k lk2 (d_id x2) ts) p1 p2 ->
  cs_alike n lk1 lk2 (Val (bump k lk1 (d_id x1) ts, p1, os)) (Val (bump k lk2 (d_id x2) ts, p2, os)).
Proof. intros A. split; [reflexivity|]. split; [exact A|]. split; [apply agree_bump|apply carries_bump]. Qed.

Ltac dull := repeat (apply al_done || apply al_main || (apply al_do; [discriminate|])).

Lemma set_ongoing_new lk e0 a b :
  wf lk -> has lk e0 ->
  tokenstate_set_ongoing_refresh (bump 0 lk (d_id e0) (TSActive a)) (account_count lk) b
  = Val (bump 1 lk (d_id e0) (TSActive (set_ongoing a b)), (account_count lk + 1)%N).
Proof.
  intros WF H. unfold tokenstate_set_ongoing_refresh.
  pose proof (bump_in_new 0 lk e0 (TSActive a) H) as H'.
  apply (find_id_in _ _ (bump_wf 0 lk (d_id e0) (TSActive a) WF)) in H'.
  simpl d_id in H'. rewrite N.add_0_r in H'. rewrite H'. cbn [unwrap bind d_ts].
  exact (replace_new lk e0 (TSActive a) (TSActive (set_ongoing a b)) WF H).
Qed.

Lemma set_ongoing_in lk e0 b :
  wf lk -> has lk e0 ->
  tokenstate_set_ongoing_refresh lk (d_id e0) b
  = match d_ts e0 with
    | TSActive a => Val (bump 0 lk (d_id e0) (TSActive (set_ongoing a b)), account_count lk)
    | _ => Panic
    end.
Proof.
  intros WF H. unfold tokenstate_set_ongoing_refresh. rewrite (find_id_in _ _ WF H). cbn [unwrap bind].
  destruct (d_ts e0); try reflexivity. apply (tokenstate_replace_in _ _ _ WF H).
Qed.

Lemma start_alike i1 i2 : versions n lk1 lk2 i1 i2 ->
  cs_alike n lk1 lk2 (ref_start e lk1 i1) (ref_start e lk2 i2).
Proof.
  intros V. apply version_cases in V as [(-> & -> & V1 & V2)|[V1 V2]]; unfold ref_start; rewrite V1, V2;
    [|apply same_end; dull].
  rewrite (ct_tokenstate_in _ _ W1 X1), (ct_tokenstate_in _ _ W2 X2). cbn [bind]. rewrite TS.
  destruct (d_ts x1) as [|cvr ln st u|a] eqn:T1 in |- *; try (apply same_end; dull).
  destruct (ongoing a) eqn:Og; [apply same_end; dull|].
  rewrite (tokenstate_replace_in _ _ _ W1 X1), (tokenstate_replace_in _ _ _ W2 X2). cbn [bind].
  destruct the_account as (act & NA & L1 & L2 & C1 & C2).
  pose proof (ct_account_new 0 lk1 x1 (TSActive (set_ongoing a true)) act W1 X1 L1) as CN1.
  pose proof (ct_tokenstate_new 0 lk1 x1 (TSActive (set_ongoing a true)) W1 X1) as TN1.
  pose proof (ct_account_new 0 lk2 x2 (TSActive (set_ongoing a true)) act W2 X2 L2) as CN2.
  pose proof (ct_tokenstate_new 0 lk2 x2 (TSActive (set_ongoing a true)) W2 X2) as TN2.
  rewrite N.add_0_r in CN1, TN1, CN2, TN2. rewrite CN1, CN2. cbn [bind]. rewrite TN1, TN2. cbn [bind].
  change (refresh_token (set_ongoing a true)) with (refresh_token a).
  destruct (refresh_token a) as [r|] eqn:R.
  - set (ts := TSActive (set_attempt (set_ongoing a true) (Some (env_now e)) (fails (set_ongoing a true)))).
    pose proof (replace_new lk1 x1 (TSActive (set_ongoing a true)) ts W1 X1) as RN1.
    pose proof (replace_new lk2 x2 (TSActive (set_ongoing a true)) ts W2 X2) as RN2.
    rewrite RN1, RN2. cbn [bind].
    rewrite (ct_account_new 1 _ _ _ act W1 X1 L1), (ct_account_new 1 _ _ _ act W2 X2 L2). cbn [bind].
    apply bump_end. apply al_ref_post. apply new_version.
  - pose proof (replace_new lk1 x1 (TSActive (set_ongoing a true)) TSEmpty W1 X1) as RN1.
    pose proof (replace_new lk2 x2 (TSActive (set_ongoing a true)) TSEmpty W2 X2) as RN2.
    rewrite RN1, RN2. cbn [bind]. apply bump_end. dull.
Qed.

Lemma expiry_same now exs : expiry_instant lk1 (d_id x1) now exs = expiry_instant lk2 (d_id x2) now exs.
Proof.
  unfold expiry_instant. destruct (checked_add now (from_secs exs)); [reflexivity|].
  destruct the_account as (act & NA & L1 & L2 & C1 & C2). rewrite C1, C2. cbn [bind].
  unfold act_refresh_at_least. destruct (settings_fields _ _ SE) as (_ & _ & _ & _ & E & _).
  rewrite E. reflexivity.
Qed.

Lemma got_alike i1 i2 m tok exs rt now : versions n lk1 lk2 i1 i2 ->
  cs_alike n lk1 lk2 (ref_got lk1 i1 m tok exs rt now) (ref_got lk2 i2 m tok exs rt now).
Proof.
  intros V. apply version_cases in V as [(-> & -> & V1 & V2)|[V1 V2]]; unfold ref_got; rewrite V1, V2;
    [|apply same_end; dull].
  rewrite <- expiry_same. destruct (expiry_instant lk1 (d_id x1) now exs) as [ex|x|]; [| |exact Logic.I].
  - rewrite (tokenstate_replace_in _ _ _ W1 X1), (tokenstate_replace_in _ _ _ W2 X2). cbn [bind].
    apply bump_end. unfold push_event. dull.
  - rewrite (tokenstate_replace_in _ _ _ W1 X1), (tokenstate_replace_in _ _ _ W2 X2). cbn [bind].
    apply bump_end. unfold push_event. dull.
Qed.

Lemma new_accounts ts act :
  account_of lk1 (d_name x1) = Some act -> account_of lk2 (d_name x2) = Some act ->
  ct_account (bump 0 lk1 (d_id x1) ts) (account_count lk1) = Val act
  /\ ct_account (bump 0 lk2 (d_id x2) ts) (account_count lk2) = Val act.
Proof.
  intros L1 L2. pose proof (ct_account_new 0 lk1 x1 ts act W1 X1 L1) as A.
  pose proof (ct_account_new 0 lk2 x2 ts act W2 X2 L2) as B. rewrite N.add_0_r in A, B. auto.
Qed.

Lemma perm_alike i1 i2 m : versions n lk1 lk2 i1 i2 ->
  cs_alike n lk1 lk2 (ref_perm lk1 i1 m) (ref_perm lk2 i2 m).
Proof.
  intros V. apply version_cases in V as [(-> & -> & V1 & V2)|[V1 V2]]; unfold ref_perm; rewrite V1, V2;
    [|apply same_end; dull].
  rewrite (tokenstate_replace_in _ _ _ W1 X1), (tokenstate_replace_in _ _ _ W2 X2). cbn [bind].
  destruct the_account as (act & NA & L1 & L2 & C1 & C2). destruct (new_accounts TSEmpty act L1 L2) as [E1 E2].
  rewrite E1, E2. cbn [bind]. apply bump_end. unfold push_event. dull.
Qed.

Lemma transient_alike i1 i2 m : versions n lk1 lk2 i1 i2 ->
  cs_alike n lk1 lk2 (ref_transient e lk1 i1 m) (ref_transient e lk2 i2 m).
Proof.
  intros V. apply version_cases in V as [(-> & -> & V1 & V2)|[V1 V2]]; unfold ref_transient; rewrite V1, V2;
    [|apply same_end; dull].
  rewrite (ct_tokenstate_in _ _ W1 X1), (ct_tokenstate_in _ _ W2 X2). cbn [bind]. rewrite TS.
  destruct (d_ts x1) as [|cvr ln st u|a] eqn:T1 in |- *; try exact Logic.I.
  rewrite (tokenstate_replace_in _ _ _ W1 X1), (tokenstate_replace_in _ _ _ W2 X2). cbn [bind].
  set (a1 := set_attempt a (Some (env_now e)) (N.succ (fails a))).
  pose proof (set_ongoing_new lk1 x1 a1 false W1 X1) as S1.
  pose proof (set_ongoing_new lk2 x2 a1 false W2 X2) as S2.
  change (lconfig (bump 0 lk1 (d_id x1) (TSActive a1))) with (lconfig lk1).
  change (lconfig (bump 0 lk2 (d_id x2) (TSActive a1))) with (lconfig lk2).
  destruct (settings_fields _ _ SE) as (_ & _ & _ & ET & _). rewrite ET.
  destruct ((N.succ (fails a) mod transient_error_retries =? 0)%N).
  - destruct (c_transient_error_if_cmd (lconfig lk2)) as [cmd|].
    + apply bump_end. apply al_ref_cmd. apply new_version0.
    + rewrite S1, S2. cbn [bind]. apply bump_end. dull.
  - rewrite S1, S2. cbn [bind]. apply bump_end. dull.
Qed.

Lemma cmd_done_alike i1 i2 m ok : versions n lk1 lk2 i1 i2 ->
  cs_alike n lk1 lk2 (ref_cmd_done lk1 i1 m ok) (ref_cmd_done lk2 i2 m ok).
Proof.
  intros V. apply version_cases in V as [(-> & -> & V1 & V2)|[V1 V2]]; unfold ref_cmd_done; rewrite V1, V2.
  - destruct ok.
    + pose proof (set_ongoing_in lk1 x1 false W1 X1) as S1. pose proof (set_ongoing_in lk2 x2 false W2 X2) as S2.
      rewrite S1, S2, TS. destruct (d_ts x1) in |- *; cbn [bind]; try exact Logic.I. apply bump_end. dull.
    + rewrite (tokenstate_replace_in _ _ _ W1 X1), (tokenstate_replace_in _ _ _ W2 X2). cbn [bind].
      apply bump_end. unfold push_event. dull.
  - destruct ok; apply same_end; unfold push_event; dull.
Qed.

Lemma body_alike i1 i2 b : versions n lk1 lk2 i1 i2 ->
  cs_alike n lk1 lk2 (http_body O e lk1 i1 b) (http_body O e lk2 i2 b).
Proof.
  intros V. unfold http_body. destruct (o_json O b) as [v|x]; [|apply same_end; apply al_http_fail; exact V].
  pose proof V as V0. apply version_cases in V as [(-> & -> & V1 & V2)|[V1 V2]]; rewrite V1, V2;
    [|apply same_end; dull].
  destruct (json_str $"error" v); [apply same_end; apply al_http_fail; exact V0|].
  destruct (json_str $"token_type" v) as [ty|]; [|apply same_end; apply al_http_fail; exact V0].
  destruct (json_u64 $"expires_in" v) as [exs|]; [|apply same_end; apply al_http_fail; exact V0].
  destruct (json_str $"access_token" v) as [tok|]; [|apply same_end; apply al_http_fail; exact V0].
  destruct (str_eqb ty $"Bearer"); [|apply same_end; apply al_http_fail; exact V0].
  rewrite <- expiry_same. destruct (expiry_instant lk1 (d_id x1) (env_now e) exs) as [ex|x|]; cbn [bind];
    try exact Logic.I.
  destruct the_account as (act & NA & L1 & L2 & C1 & C2). rewrite C1, C2. cbn [bind].
  rewrite (tokenstate_replace_in _ _ _ W1 X1), (tokenstate_replace_in _ _ _ W2 X2). cbn [bind].
  apply bump_end. unfold push_event. dull.
Qed.

Lemma fail_alike i1 i2 x : versions n lk1 lk2 i1 i2 ->
  cs_alike n lk1 lk2 (http_fail lk1 i1 x) (http_fail lk2 i2 x).
Proof.
  intros V. apply version_cases in V as [(-> & -> & V1 & V2)|[V1 V2]]; unfold http_fail; rewrite V1, V2;
    [|apply same_end; dull].
  rewrite (ct_tokenstate_in _ _ W1 X1), (ct_tokenstate_in _ _ W2 X2). cbn [bind]. rewrite TS.
  rewrite (tokenstate_replace_in _ _ _ W1 X1), (tokenstate_replace_in _ _ _ W2 X2). cbn [bind].
  destruct the_account as (act & NA & L1 & L2 & C1 & C2). destruct (new_accounts TSEmpty act L1 L2) as [E1 E2].
  rewrite E1, E2. cbn [bind]. apply bump_end. apply al_http_notify.
Qed.

Lemma notify_alike m x wa :
  cs_alike n lk1 lk2 (http_notify lk1 m x wa) (http_notify lk2 m x wa).
Proof.
  unfold http_notify. destruct (settings_fields _ _ SE) as (_ & _ & EC & _). rewrite EC.
  destruct (c_error_notify_cmd (lconfig lk2)); apply same_end; destruct wa; unfold push_event; dull.
Qed.

(** ** Browsers *)

Lemma match_only lk x st : wf lk -> has lk x ->
  (forall e0 cvr ln u, has lk e0 -> d_ts e0 = TSPending cvr ln st u -> d_name e0 = d_name x) ->
  act_id_matching_token_state lk st
  = match d_ts x with
    | TSPending _ _ s _ => if str_eqb s st then Some (d_id x) else None
    | _ => None
    end.
Proof.
  intros W H U. unfold act_id_matching_token_state.
  match goal with |- context [find ?f ?l] => destruct (find f l) as [e0|] eqn:F end.
  - apply find_some in F as [H0 M]. destruct (d_ts e0) as [|cvr ln s u|a] eqn:T0; try discriminate.
    pose proof M as M'. apply str_eqb_eq in M'. subst s.
    assert (e0 = x) by (apply (wf_name_inj lk); auto; eapply U; eassumption). subst e0.
    rewrite T0. rewrite M. reflexivity.
  - simpl. pose proof (find_none _ _ F x H) as X. cbv beta in X.
    destruct (d_ts x) as [|cvr ln s u|a]; try reflexivity. rewrite X. reflexivity.
Qed.

Lemma browser_alike https bytes : about O n w1 w2 (PHttpStart https bytes) e ->
  cs_alike n lk1 lk2 (http_start O w1 https bytes) (http_start O w2 https bytes).
Proof.
  cbn [about]. intros AB. unfold http_start.
  destruct (parse_get O https bytes) as [uri|] eqn:PG; [|apply same_end; unfold respond; dull].
  unfold find_pair. destruct (lookup $"state" (query_pairs uri)) as [st|] eqn:ST; [|apply same_end; unfold respond; dull].
  rewrite (match_only lk1 x1 st W1 X1), (match_only lk2 x2 st W2 X2).
  2: { intros e0 cvr ln u H0 T0. rewrite N2. apply (AB uri st); auto. right. exists cvr, ln, u, e0. auto. }
  2: { intros e0 cvr ln u H0 T0. rewrite N1. apply (AB uri st); auto. left. exists cvr, ln, u, e0. auto. }
  rewrite TS. destruct (d_ts x1) as [|cvr ln s u|a] eqn:T1 in |- *; try (apply same_end; unfold respond; dull).
  destruct (str_eqb s st); [|apply same_end; unfold respond; dull].
  destruct the_account as (act & NA & L1 & L2 & C1 & C2). rewrite C1, C2. cbn [bind]. rewrite <- HT, <- HTS.
  destruct (account_redirect_uri O act (w_http w1) (w_https w1)) as [ru|x|]; cbn [bind]; try exact Logic.I.
  match goal with |- context [negb ?b] => destruct b end; simpl negb; cbn iota;
    [|apply same_end; unfold respond; dull].
  destruct (lookup $"error" (query_pairs uri)) as [reason|].
  - rewrite (tokenstate_replace_in _ _ _ W1 X1), (tokenstate_replace_in _ _ _ W2 X2). cbn [bind].
    destruct (new_accounts TSEmpty act L1 L2) as [E1 E2]. rewrite E1, E2. cbn [bind].
    apply bump_end. unfold respond. apply al_do; [discriminate|]. apply al_http_notify.
  - destruct (lookup $"code" (query_pairs uri)) as [code|]; [|apply same_end; unfold respond; dull].
    rewrite (ct_tokenstate_in _ _ W1 X1), (ct_tokenstate_in _ _ W2 X2). cbn [bind]. rewrite TS, T1.
    apply same_end. unfold respond. apply al_do; [discriminate|]. apply al_http_post. apply old_version.
Qed.

(** ** Clients *)

Lemma token_alike i1 i2 req wu : i1 = d_id x1 -> i2 = d_id x2 ->
  cs_alike n lk1 lk2 (request_and_reply O e w1 req wu n i1) (request_and_reply O e w2 req wu n i2).
Proof.
  intros -> ->. unfold request_and_reply, request_token.
  rewrite (ct_tokenstate_in _ _ W1 X1), (ct_tokenstate_in _ _ W2 X2). cbn [bind]. rewrite TS.
  destruct the_account as (act & NA & L1 & L2 & C1 & C2). rewrite C1, C2. rewrite <- HT, <- HTS.
  destruct (d_ts x1) as [|cvr ln st u|a] eqn:T1 in |- *; cbn [bind]; try exact Logic.I.
  - destruct (account_redirect_uri O act (w_http w1) (w_https w1)) as [ru|x|]; cbn [bind]; try exact Logic.I.
    destruct (o_url_parse O (a_auth_uri act)) as [base|]; cbn [ok_or bind]; try exact Logic.I.
    rewrite (tokenstate_replace_in _ _ _ W1 X1), (tokenstate_replace_in _ _ _ W2 X2). cbn [bind].
    apply bump_end. unfold reply. dull.
  - destruct (account_redirect_uri O act (w_http w1) (w_https w1)) as [ru|x|]; cbn [bind]; try exact Logic.I.
    destruct (o_url_parse O (a_auth_uri act)) as [base|]; cbn [ok_or bind]; try exact Logic.I.
    rewrite (tokenstate_replace_in _ _ _ W1 X1), (tokenstate_replace_in _ _ _ W2 X2). cbn [bind].
    apply bump_end. unfold reply. dull.
Qed.

Lemma validate_in lk x : wf lk -> has lk x -> validate_act_name lk (d_name x) = Some (d_id x).
Proof. intros W H. unfold validate_act_name. rewrite (find_name_in lk x W H). reflexivity. Qed.

Lemma request_alike req wu : ~ In " "%char wu ->
  (req = $"showtoken:" ++ wu ++ $" " ++ n \/ req = $"refresh:" ++ wu ++ $" " ++ n \/ req = $"revoke:" ++ n) ->
  cs_alike n lk1 lk2 (request O e w1 req) (request O e w2 req).
Proof.
  intros NI K.
  pose proof (validate_in lk1 x1 W1 X1) as V1. pose proof (validate_in lk2 x2 W2 X2) as V2.
  rewrite N1 in V1. rewrite N2 in V2.
  assert (split_first " "%char (wu ++ $" " ++ n) = Some (wu, n)) as SP by (apply (split_wu wu n NI)).
  destruct K as [K|[K|K]].
  - rewrite K, !request_show. unfold req_showtoken, from_utf8.
    destruct (utf8_valid (wu ++ $" " ++ n)); cbn [bind]; [|exact Logic.I].
    rewrite SP. rewrite V1, V2.
    rewrite (ct_tokenstate_in _ _ W1 X1), (ct_tokenstate_in _ _ W2 X2). cbn [bind]. rewrite TS.
    destruct (d_ts x1) as [|cvr ln st u|a] eqn:T1 in |- *.
    + apply token_alike; reflexivity.
    + apply same_end. unfold reply. dull.
    + destruct (env_now e <? expiry a)%Z; [apply same_end; unfold reply; dull|].
      destruct (ongoing a); [apply same_end; unfold reply; dull|].
      apply same_end. apply al_spawn; [exact old_version|]. unfold reply. dull.
  - rewrite K, !request_refresh. unfold req_refresh, from_utf8.
    destruct (utf8_valid (wu ++ $" " ++ n)); cbn [bind]; [|exact Logic.I].
    rewrite SP. rewrite V1, V2.
    rewrite (ct_tokenstate_in _ _ W1 X1), (ct_tokenstate_in _ _ W2 X2). cbn [bind]. rewrite TS.
    destruct (d_ts x1) as [|cvr ln st u|a] eqn:T1 in |- *.
    + apply token_alike; reflexivity.
    + apply token_alike; reflexivity.
    + apply same_end. apply al_spawn; [exact old_version|]. unfold reply. dull.
  - rewrite K, !request_revoke. unfold req_revoke, from_utf8. destruct (utf8_valid n); cbn [bind]; [|exact Logic.I].
    rewrite V1, V2.
    rewrite (tokenstate_replace_in _ _ _ W1 X1), (tokenstate_replace_in _ _ _ W2 X2). cbn [bind].
    apply bump_end. unfold reply. dull.
Qed.

End Two.

(** * Steps *)

(** Threads [t1] and [t2] took a step with the same effect for [n]. *)
Record went (n : str) (w1 w2 : world) (t1 t2 : nat) (w1' w2' : world) (os : list obs) : Prop := mkWent {
  we_trace1 : w_trace w1' = w_trace w1 ++ os;
  we_trace2 : w_trace w2' = w_trace w2 ++ os;
  we_agree : agree n (w_lk w1') (w_lk w2');
  we_carries : carries n (w_lk w1) (w_lk w2) (w_lk w1') (w_lk w2');
  we_ports1 : w_http w1' = w_http w1 /\ w_https w1' = w_https w1;
  we_ports2 : w_http w2' = w_http w2 /\ w_https w2' = w_https w2;
  we_self : exists q1 q2, nth_error (w_threads w1') t1 = Some q1 /\ nth_error (w_threads w2') t2 = Some q2
                          /\ alike n (w_lk w1') (w_lk w2') q1 q2;
  we_rest1 : forall t p, t <> t1 -> nth_error (w_threads w1) t = Some p -> nth_error (w_threads w1') t = Some p;
  we_rest2 : forall t p, t <> t2 -> nth_error (w_threads w2) t = Some p -> nth_error (w_threads w2') t = Some p;
}.

Lemma set_here {A} t (p q : A) l : nth_error l t = Some p -> nth_error (list_set t q l) t = Some q.
Proof. intros N. apply nth_error_list_set_eq. apply nth_error_Some. congruence. Qed.

Lemma set_there {A} t t' (p q : A) l : t' <> t -> nth_error l t' = Some p -> nth_error (list_set t q l) t' = Some p.
Proof. intros NE N. rewrite nth_error_list_set_ne; [exact N|congruence]. Qed.

Lemma run_alike n w1 w2 t1 t2 p1 p2 fb pre c1 c2 w1' :
  agree n (w_lk w1) (w_lk w2) -> nth_error (w_threads w1) t1 = Some p1 -> nth_error (w_threads w2) t2 = Some p2 ->
  alike n (w_lk w1) (w_lk w2) fb fb ->
  cs_alike n (w_lk w1) (w_lk w2) c1 c2 -> run_cs (emit w1 pre) t1 fb c1 = SNext w1' ->
  exists w2' os, run_cs (emit w2 pre) t2 fb c2 = SNext w2' /\ went n w1 w2 t1 t2 w1' w2' os.
Proof.
  intros AG T1 T2 FB CA E.
  destruct c1 as [[[lk1' q1] os1]|m1|], c2 as [[[lk2' q2] os2]|m2|]; simpl in CA; try contradiction; simpl in E;
    try discriminate E; injection E as <-.
  - destruct CA as (<- & A & G & C). eexists. exists (pre ++ os1). split; [reflexivity|].
    constructor; cbn [emit set_thread set_lk w_trace w_lk w_http w_https w_threads]; auto.
    + rewrite app_assoc. reflexivity.
    + rewrite app_assoc. reflexivity.
    + exists q1, q2. split; [eapply set_here; exact T1|]. split; [eapply set_here; exact T2|exact A].
    + intros t p NE N. apply set_there; assumption.
    + intros t p NE N. apply set_there; assumption.
  - eexists. exists pre. split; [reflexivity|].
    constructor; cbn [emit set_thread set_lk w_trace w_lk w_http w_https w_threads]; auto.
    + intros i1 i2 V. exact V.
    + exists fb, fb. split; [eapply set_here; exact T1|]. split; [eapply set_here; exact T2|exact FB].
    + intros t p NE N. apply set_there; assumption.
    + intros t p NE N. apply set_there; assumption.
Qed.

Lemma run_alike0 n w1 w2 t1 t2 p1 p2 fb c1 c2 w1' :
  agree n (w_lk w1) (w_lk w2) -> nth_error (w_threads w1) t1 = Some p1 -> nth_error (w_threads w2) t2 = Some p2 ->
  alike n (w_lk w1) (w_lk w2) fb fb ->
  cs_alike n (w_lk w1) (w_lk w2) c1 c2 -> run_cs w1 t1 fb c1 = SNext w1' ->
  exists w2' os, run_cs w2 t2 fb c2 = SNext w2' /\ went n w1 w2 t1 t2 w1' w2' os.
Proof.
  intros AG T1 T2 FB CA E.
  destruct (run_alike n w1 w2 t1 t2 p1 p2 fb [] c1 c2 w1' AG T1 T2 FB CA) as (w2' & os & E2 & WE);
    [rewrite Inv.emit_nil; exact E|]. rewrite Inv.emit_nil in E2. eauto.
Qed.

(** A step that leaves the shared state alone. *)
Lemma go_alike n w1 w2 t1 t2 p1 p2 q1 q2 os :
  agree n (w_lk w1) (w_lk w2) -> nth_error (w_threads w1) t1 = Some p1 -> nth_error (w_threads w2) t2 = Some p2 ->
  alike n (w_lk w1) (w_lk w2) q1 q2 ->
  went n w1 w2 t1 t2 (emit (set_thread w1 t1 q1) os) (emit (set_thread w2 t2 q2) os) os.
Proof.
  intros AG T1 T2 A. constructor; cbn [emit set_thread w_trace w_lk w_http w_https w_threads]; auto.
  - intros i1 i2 V. exact V.
  - exists q1, q2. split; [eapply set_here; exact T1|]. split; [eapply set_here; exact T2|exact A].
  - intros t p NE N. apply set_there; assumption.
  - intros t p NE N. apply set_there; assumption.
Qed.

Lemma nth_app_some {A} (l l' : list A) t p : nth_error l t = Some p -> nth_error (l ++ l') t = Some p.
Proof. intros N. rewrite nth_error_app1; [exact N|]. apply nth_error_Some. congruence. Qed.

Lemma do_alike n w1 w2 t1 t2 p1 p2 a1 a2 k1 k2 :
  agree n (w_lk w1) (w_lk w2) -> nth_error (w_threads w1) t1 = Some p1 -> nth_error (w_threads w2) t2 = Some p2 ->
  alike n (w_lk w1) (w_lk w2) k1 k2 ->
  a1 = a2 \/ (exists i1 i2, a1 = ASpawnRefresh i1 /\ a2 = ASpawnRefresh i2) ->
  exists os, went n w1 w2 t1 t2 (do_action (set_thread w1 t1 k1) a1) (do_action (set_thread w2 t2 k2) a2) os.
Proof.
  intros AG T1 T2 A K.
  assert (forall i1 i2, versions n (w_lk w1) (w_lk w2) i1 i2 -> versions n (w_lk w1) (w_lk w2) i1 i2) as CS by auto.
  assert (nth_error (list_set t1 k1 (w_threads w1)) t1 = Some k1) as S1 by (eapply set_here; exact T1).
  assert (nth_error (list_set t2 k2 (w_threads w2)) t2 = Some k2) as S2 by (eapply set_here; exact T2).
  assert (forall t p, t <> t1 -> nth_error (w_threads w1) t = Some p -> nth_error (list_set t1 k1 (w_threads w1)) t = Some p) as R1
    by (intros; apply set_there; assumption).
  assert (forall t p, t <> t2 -> nth_error (w_threads w2) t = Some p -> nth_error (list_set t2 k2 (w_threads w2)) t = Some p) as R2
    by (intros; apply set_there; assumption).
  destruct K as [->|(i1 & i2 & -> & ->)].
  - exists (match a2 with APushEvent m ev => [OEvent m ev] | AEmit o => [o] | AHalt => [OShutdown] | _ => [] end).
    destruct a2; constructor;
      cbn [do_action set_nt set_rf set_ev set_evq halt add_thread emit set_thread w_trace w_lk w_http w_https w_threads];
      rewrite ?app_nil_r; auto; try (exists k1, k2; auto; fail).
    + exists k1, k2. auto using nth_app_some.
    + auto using nth_app_some.
    + auto using nth_app_some.
  - exists []. constructor; cbn [do_action add_thread set_thread w_trace w_lk w_http w_https w_threads];
      rewrite ?app_nil_r; auto using nth_app_some.
    exists k1, k2. auto using nth_app_some.
Qed.

Lemma agree_entries n lk1 lk2 : agree n lk1 lk2 -> exists x1 x2,
  has lk1 x1 /\ has lk2 x2 /\ d_name x1 = n /\ d_name x2 = n /\ d_ts x2 = d_ts x1.
Proof.
  intros [(i1 & i2 & ts & H1 & H2) _ _]. exists (mkEntry n i1 ts), (mkEntry n i2 ts). auto.
Qed.

Lemma body_next_alike O e n lk1 lk2 i1 i2 m r b :
  versions n lk1 lk2 i1 i2 -> alike n lk1 lk2 (ref_body_next O e i1 m r b) (ref_body_next O e i2 m r b).
Proof.
  intros V. unfold ref_body_next. destruct (o_json O b) as [v|x]; [|apply al_ref_perm; exact V].
  destruct (json_str $"error" v); [apply al_ref_perm; exact V|].
  destruct (json_str $"access_token" v); [|apply al_ref_perm; exact V].
  destruct (json_u64 $"expires_in" v); [|apply al_ref_perm; exact V].
  destruct (json_str $"token_type" v) as [ty|]; [|apply al_ref_perm; exact V].
  destruct (str_eqb ty $"Bearer"); [|apply al_ref_perm; exact V].
  apply al_ref_got. exact V.
Qed.

Lemma post_next_alike n lk1 lk2 i1 i2 m r x :
  versions n lk1 lk2 i1 i2 -> alike n lk1 lk2 (ref_post_next i1 m r x) (ref_post_next i2 m r x).
Proof.
  intros V. destruct x as [b|b|c b|k b]; cbn [ref_post_next]; try (constructor; exact V).
  destruct (is_transient k); constructor; exact V.
Qed.

Lemma http_post_next_alike n lk1 lk2 i1 i2 u q t x :
  versions n lk1 lk2 i1 i2 -> alike n lk1 lk2 (http_post_next i1 u q t x) (http_post_next i2 u q t x).
Proof.
  intros V. destruct x as [b|b|c b|k b]; cbn [http_post_next]; try (constructor; exact V).
  destruct t as [|[|t]]; constructor; exact V.
Qed.

Lemma paired_step O n w1 w2 t1 t2 p1 p2 e w1' :
  wf (w_lk w1) -> wf (w_lk w2) -> agree n (w_lk w1) (w_lk w2) -> w_http w1 = w_http w2 -> w_https w1 = w_https w2 ->
  nth_error (w_threads w1) t1 = Some p1 -> nth_error (w_threads w2) t2 = Some p2 ->
  alike n (w_lk w1) (w_lk w2) p1 p2 -> about O n w1 w2 p1 e ->
  step_thread O w1 t1 p1 e = SNext w1' ->
  exists w2' os, step_thread O w2 t2 p2 e = SNext w2' /\ went n w1 w2 t1 t2 w1' w2' os.
Proof.
  intros W1 W2 AG HT HTS T1 T2 AL AB E.
  destruct (agree_entries _ _ _ AG) as (x1 & x2 & X1 & X2 & N1 & N2 & TS).
  pose proof (ag_account _ _ _ AG) as AC. pose proof (ag_settings _ _ _ AG) as SE.
  destruct AL; cbn [step_thread] in *.
  - discriminate E.
  - destruct AB as (wu & req & EC & NI & K). rewrite EC in E |- *.
    eapply run_alike; try eassumption; [apply al_main|]. eapply request_alike; eassumption.
  - injection E as <-. destruct (do_alike n w1 w2 t1 t2 _ _ (ASpawnRefresh i1) (ASpawnRefresh i2) k1 k2 AG T1 T2 AL)
      as [os WE]; [right; eauto|]. eauto.
  - injection E as <-. destruct (do_alike n w1 w2 t1 t2 _ _ a a k1 k2 AG T1 T2 AL) as [os WE]; [left; reflexivity|]. eauto.
  - eapply run_alike0; try eassumption; [apply al_done|]. eapply start_alike; eassumption.
  - injection E as <-. eexists _, _. split; [reflexivity|]. eapply go_alike; eauto using post_next_alike.
  - injection E as <-. eexists _, []. split; [reflexivity|].
    rewrite <- (Inv.emit_nil (set_thread w1 t1 _)), <- (Inv.emit_nil (set_thread w2 t2 _)).
    eapply go_alike; eauto using body_next_alike.
  - eapply run_alike0; try eassumption; [apply al_done|]. eapply got_alike; eassumption.
  - eapply run_alike0; try eassumption; [apply al_done|]. eapply perm_alike; eassumption.
  - eapply run_alike0; try eassumption; [apply al_done|]. eapply transient_alike; eassumption.
  - injection E as <-. eexists _, _. split; [reflexivity|]. eapply go_alike; eauto using al_ref_cmd_done.
  - eapply run_alike0; try eassumption; [apply al_done|]. eapply cmd_done_alike; eassumption.
  - eapply run_alike0; try eassumption; [apply al_done|]. eapply browser_alike; eassumption.
  - injection E as <-. eexists _, _. split; [reflexivity|]. eapply go_alike; eauto using http_post_next_alike.
  - eapply run_alike0; try eassumption; [apply al_done|]. eapply body_alike; eassumption.
  - eapply run_alike0; try eassumption; [apply al_done|]. eapply fail_alike; eassumption.
  - eapply run_alike0; try eassumption; [apply al_done|]. eapply notify_alike; eassumption.
Qed.

(** * Servers *)

Lemma twins_sym O n w1 w2 ps : twins O n w1 w2 ps -> twins O n w2 w1 (map (fun q => (snd q, fst q)) ps).
Proof.
  intros T. constructor.
  - exact (tw_reach2 _ _ _ _ _ T).
  - exact (tw_reach1 _ _ _ _ _ T).
  - destruct (tw_agree _ _ _ _ _ T) as [(i1 & i2 & ts & A & B) C D]. constructor; [|congruence|congruence].
    exists i2, i1, ts. auto.
  - symmetry. exact (tw_http _ _ _ _ _ T).
  - symmetry. exact (tw_https _ _ _ _ _ T).
  - rewrite map_map. exact (tw_snd _ _ _ _ _ T).
  - rewrite map_map. exact (tw_fst _ _ _ _ _ T).
  - intros t1 t2 I. apply in_map_iff in I as ([a b] & E & I). injection E as <- <-.
    destruct (tw_pairs _ _ _ _ _ T a b I) as (p1 & p2 & A & B & C). exists p2, p1. auto using alike_sym.
Qed.

Lemma pairs_fst {A B} (ps : list (A * B)) a b b' : NoDup (map fst ps) -> In (a, b) ps -> In (a, b') ps -> b = b'.
Proof.
  intros ND I I'. assert ((a, b) = (a, b')) as E by (apply (nodup_map_inj fst ps); auto). congruence.
Qed.

Lemma pairs_snd {A B} (ps : list (A * B)) a a' b : NoDup (map snd ps) -> In (a, b) ps -> In (a', b) ps -> a = a'.
Proof.
  intros ND I I'. assert ((a, b) = (a', b)) as E by (apply (nodup_map_inj snd ps); auto). congruence.
Qed.

Lemma lockstep O n w1 w2 ps t1 t2 p e w1' :
  twins O n w1 w2 ps -> w_alive w2 = true -> In (t1, t2) ps -> nth_error (w_threads w1) t1 = Some p ->
  about O n w1 w2 p e -> step O w1 (LTick t1 e) = SNext w1' ->
  exists w2' os, step O w2 (LTick t2 e) = SNext w2'
    /\ w_trace w1' = w_trace w1 ++ os /\ w_trace w2' = w_trace w2 ++ os /\ twins O n w1' w2' ps.
Proof.
  intros T A2 I NT AB E. destruct (tw_pairs _ _ _ _ _ T _ _ I) as (p1 & p2 & T1 & T2 & AL).
  rewrite NT in T1. injection T1 as <-.
  pose proof (inv_wf _ _ (reach_inv _ _ (tw_reach1 _ _ _ _ _ T))) as W1.
  pose proof (inv_wf _ _ (reach_inv _ _ (tw_reach2 _ _ _ _ _ T))) as W2.
  assert (step_thread O w1 t1 p e = SNext w1') as E1.
  { unfold step in E. destruct (w_alive w1); simpl in E; [|discriminate]. rewrite NT in E. exact E. }
  destruct (paired_step O n w1 w2 t1 t2 p p2 e w1' W1 W2 (tw_agree _ _ _ _ _ T) (tw_http _ _ _ _ _ T)
              (tw_https _ _ _ _ _ T) NT T2 AL AB E1) as (w2' & os & E2 & WE).
  assert (step O w2 (LTick t2 e) = SNext w2') as S2.
  { unfold step. rewrite A2. simpl. rewrite T2. exact E2. }
  exists w2', os. split; [exact S2|]. split; [exact (we_trace1 _ _ _ _ _ _ _ _ WE)|].
  split; [exact (we_trace2 _ _ _ _ _ _ _ _ WE)|].
  destruct (we_ports1 _ _ _ _ _ _ _ _ WE) as [P1 P1']. destruct (we_ports2 _ _ _ _ _ _ _ _ WE) as [P2 P2'].
  constructor.
  - eapply reach_step; [exact (tw_reach1 _ _ _ _ _ T)|exact E].
  - eapply reach_step; [exact (tw_reach2 _ _ _ _ _ T)|exact S2].
  - exact (we_agree _ _ _ _ _ _ _ _ WE).
  - rewrite P1, P2. exact (tw_http _ _ _ _ _ T).
  - rewrite P1', P2'. exact (tw_https _ _ _ _ _ T).
  - exact (tw_fst _ _ _ _ _ T).
  - exact (tw_snd _ _ _ _ _ T).
  - intros s1 s2 J. destruct (Nat.eq_dec s1 t1) as [->|NE1].
    + assert (s2 = t2) by (eapply pairs_fst; eauto using tw_fst). subst s2. exact (we_self _ _ _ _ _ _ _ _ WE).
    + assert (s2 <> t2) as NE2 by (intros ->; apply NE1; eapply pairs_snd; eauto using tw_snd).
      destruct (tw_pairs _ _ _ _ _ T _ _ J) as (q1 & q2 & Q1 & Q2 & QA). exists q1, q2.
      split; [eapply we_rest1; eauto|]. split; [eapply we_rest2; eauto|].
      eapply alike_carries; [exact (we_carries _ _ _ _ _ _ _ _ WE)|exact QA].
Qed.

(** Threads not stepped stay where they are; ports stay. *)
Lemma step_rest O w l w' t p :
  reachable O w -> step O w l = SNext w' -> not_by [t] l ->
  nth_error (w_threads w) t = Some p -> nth_error (w_threads w') t = Some p.
Proof.
  intros R S NB N. destruct (step_ok _ _ _ _ (reach_inv _ _ R) S) as (_ & _ & T & _).
  assert (forall tid e q, l = LTick tid e -> nth_error (list_set tid q (w_threads w)) t = Some p) as K.
  { intros tid e q ->. apply set_there; [|exact N]. intros ->. apply (NB tid e); simpl; auto. }
  destruct T as [tid e p0 lk' p' os N0 C|tid e p0 w' N0 SY|https bytes X].
  - cbn. eapply K. reflexivity.
  - destruct SY; try (cbn; eapply K; reflexivity). destruct a; cbn; try (eapply K; reflexivity).
    apply nth_app_some. eapply K. reflexivity.
  - cbn. apply nth_app_some. exact N.
Qed.

Lemma step_ports O w l w' : reachable O w -> step O w l = SNext w' -> w_http w' = w_http w /\ w_https w' = w_https w.
Proof.
  intros R S. destruct (step_ok _ _ _ _ (reach_inv _ _ R) S) as (_ & _ & T & _).
  destruct T as [tid e p0 lk' p' os N0 C|tid e p0 w' N0 SY|https bytes X]; try (cbn; auto; fail).
  destruct SY; try (cbn; auto; fail). destruct a; cbn; auto.
Qed.

Lemma config_stays O w l w' : reachable O w -> step O w l = SNext w' -> ~ global_step w l -> lconfig (w_lk w') = lconfig (w_lk w).
Proof.
  intros R S NG. destruct (step_ok _ _ _ _ (reach_inv _ _ R) S) as (_ & _ & T & _).
  destruct T as [tid e p0 lk' p' os N0 C|tid e p0 w' N0 SY|https bytes X]; [|destruct SY; try reflexivity; destruct a; reflexivity|reflexivity].
  cbn. pose proof (ro_pc _ (reach_roles _ _ R) _ _ N0) as RO. destruct C; try reflexivity; try assumption.
  exfalso. simpl in RO. destruct tid as [|[|[|[|tid]]]]; try discriminate. apply NG. apply gl_reload; congruence.
Qed.

Lemma other_step O n w1 w2 ps l w1' :
  twins O n w1 w2 ps -> not_by (map fst ps) l -> elsewhere O n w1 l -> step O w1 l = SNext w1' ->
  twins O n w1' w2 ps.
Proof.
  intros T NB [NC NG] E. pose proof (tw_reach1 _ _ _ _ _ T) as R.
  pose proof (reach_inv _ _ R) as I. destruct (step_ok _ _ _ _ I E) as (I' & EV & _ & _).
  destruct (step_ports _ _ _ _ R E) as [P P']. pose proof (config_stays _ _ _ _ R E NG) as CS.
  pose proof (reach_inv _ _ (tw_reach2 _ _ _ _ _ T)) as I2.
  destruct (tw_agree _ _ _ _ _ T) as [(i1 & i2 & ts & H1 & H2) AC SE].
  assert (In (mkEntry n i1 ts) (details (w_lk w1'))) as H1' by (apply (frame O w1 l w1' (mkEntry n i1 ts) R E NC NG); exact H1).
  constructor.
  - eapply reach_step; eassumption.
  - exact (tw_reach2 _ _ _ _ _ T).
  - constructor; [exists i1, i2, ts; auto| |]; rewrite CS; assumption.
  - rewrite P. exact (tw_http _ _ _ _ _ T).
  - rewrite P'. exact (tw_https _ _ _ _ _ T).
  - exact (tw_fst _ _ _ _ _ T).
  - exact (tw_snd _ _ _ _ _ T).
  - intros t1 t2 J. destruct (tw_pairs _ _ _ _ _ T _ _ J) as (p1 & p2 & T1 & T2 & AL). exists p1, p2.
    split; [|split; [exact T2|]].
    + eapply step_rest; try eassumption. intros tid e -> [<-|[]]. apply (NB t1 e eq_refl).
      apply (in_map fst) in J. exact J.
    + eapply alike_carries; [|exact AL].
      apply (carries_gen n _ _ _ _ (mkEntry n i1 ts) (mkEntry n i2 ts) (mkEntry n i1 ts) (mkEntry n i2 ts));
        try apply inv_wf with O; auto. apply evolves_refl. apply inv_wf with O. exact I2.
Qed.

Lemma other_step2 O n w1 w2 ps l w2' :
  twins O n w1 w2 ps -> not_by (map snd ps) l -> elsewhere O n w2 l -> step O w2 l = SNext w2' ->
  twins O n w1 w2' ps.
Proof.
  intros T NB EL E. apply twins_sym in T. apply (other_step O n w2 w1 _ l w2') in T; try assumption.
  - apply twins_sym in T. rewrite map_map in T. erewrite map_ext, map_id in T; [exact T|]. intros []; reflexivity.
  - rewrite map_map. exact NB.
Qed.

(** ** Both servers deal with all accounts *)

(** The shared states change, no paired thread takes a step. *)
Lemma both_move O n w1 w2 ps tid e1 e2 w1' w2' x1 x2 x1' x2' :
  twins O n w1 w2 ps -> not_by (map fst ps) (LTick tid e1) -> not_by (map snd ps) (LTick tid e2) ->
  step O w1 (LTick tid e1) = SNext w1' -> step O w2 (LTick tid e2) = SNext w2' ->
  has (w_lk w1) x1 -> has (w_lk w2) x2 -> has (w_lk w1') x1' -> has (w_lk w2') x2' ->
  d_name x1 = n -> d_name x2 = n -> d_name x1' = n -> d_name x2' = n -> d_ts x1' = d_ts x2' ->
  account_of (w_lk w1') n = account_of (w_lk w2') n ->
  settings (lconfig (w_lk w1')) = settings (lconfig (w_lk w2')) ->
  (d_id x1' = d_id x1 /\ d_id x2' = d_id x2)
  \/ (account_count (w_lk w1) <= d_id x1' /\ account_count (w_lk w2) <= d_id x2')%N ->
  twins O n w1' w2' ps.
Proof.
  intros T NB1 NB2 E1 E2 H1 H2 H1' H2' N1 N2 N1' N2' TS AC SE D.
  pose proof (tw_reach1 _ _ _ _ _ T) as R1. pose proof (tw_reach2 _ _ _ _ _ T) as R2.
  pose proof (reach_inv _ _ R1) as I1. pose proof (reach_inv _ _ R2) as I2.
  destruct (step_ok _ _ _ _ I1 E1) as (I1' & EV1 & _ & _). destruct (step_ok _ _ _ _ I2 E2) as (I2' & EV2 & _ & _).
  destruct (step_ports _ _ _ _ R1 E1) as [P1 P1']. destruct (step_ports _ _ _ _ R2 E2) as [P2 P2'].
  constructor.
  - exact (reach_step _ _ _ _ R1 E1).
  - exact (reach_step _ _ _ _ R2 E2).
  - constructor; [|exact AC|exact SE]. exists (d_id x1'), (d_id x2'), (d_ts x1').
    split; [rewrite <- N1'; destruct x1'; exact H1'|]. rewrite <- N2', TS. destruct x2'. exact H2'.
  - rewrite P1, P2. exact (tw_http _ _ _ _ _ T).
  - rewrite P1', P2'. exact (tw_https _ _ _ _ _ T).
  - exact (tw_fst _ _ _ _ _ T).
  - exact (tw_snd _ _ _ _ _ T).
  - intros t1 t2 J. destruct (tw_pairs _ _ _ _ _ T _ _ J) as (p1 & p2 & T1 & T2 & AL). exists p1, p2.
    split; [|split].
    + apply (step_rest _ _ _ _ _ _ R1 E1); [|exact T1]. intros t e E [<-|[]]. apply (NB1 t1 e E). apply (in_map fst) in J. exact J.
    + apply (step_rest _ _ _ _ _ _ R2 E2); [|exact T2]. intros t e E [<-|[]]. apply (NB2 t2 e E). apply (in_map snd) in J. exact J.
    + eapply alike_carries; [|exact AL].
      apply (carries_gen n _ _ _ _ x1 x2 x1' x2'); try apply inv_wf with O; auto.
Qed.

Lemma scan_entry O w e w' x :
  reachable O w -> nth_error (w_threads w) 2 = Some PNtScan -> step O w (LTick 2 e) = SNext w' -> has (w_lk w) x ->
  lconfig (w_lk w') = lconfig (w_lk w)
  /\ nth_error (w_threads w') 2
     = Some (emit_cmds (flat_map (notify_cmds (w_lk w) (env_now e)) (details (w_lk w))) PNtTop)
  /\ exists x', has (w_lk w') x' /\ d_name x' = d_name x
     /\ if notify_due (w_lk w) (env_now e) x
        then (account_count (w_lk w) <= d_id x')%N /\ d_ts x' = renotified (env_now e) (d_ts x)
        else x' = x.
Proof.
  intros R N S H. pose proof (reach_inv _ _ R) as I. destruct (step_ok _ _ _ _ I S) as (_ & _ & T & _). clear S.
  inversion T as [tid e' p lk' p' os N' C|tid e' p w2 N' SY|]; subst.
  - rewrite N in N'. injection N' as <-. inversion C; subst.
    unfold after_cs. cbn [emit set_thread set_lk w_lk w_threads]. split; [assumption|].
    split; [eapply set_here; exact N|].
    match goal with F : Forall2 _ _ _ |- _ => destruct (Forall2_in_l _ _ _ _ F H) as (x' & I' & X) end.
    cbv beta in X. exists x'. split; [exact I'|].
    destruct (notify_due (w_lk w) (env_now e) x); [destruct X as (A & B & D); auto|].
    subst x'. auto.
  - rewrite N in N'. injection N' as <-. inversion SY.
Qed.

Lemma due_same lk1 lk2 now x1 x2 :
  settings (lconfig lk1) = settings (lconfig lk2) -> d_ts x2 = d_ts x1 -> notify_due lk1 now x1 = notify_due lk2 now x2.
Proof.
  intros SE TS. unfold notify_due. rewrite TS. destruct (settings_fields _ _ SE) as (_ & E & _). rewrite E. reflexivity.
Qed.

Lemma scan_not_paired_l O n w1 w2 ps e : twins O n w1 w2 ps -> nth_error (w_threads w1) 2 = Some PNtScan ->
  not_by (map fst ps) (LTick 2 e).
Proof.
  intros T N tid e' [= <- <-] J. apply in_map_iff in J as ([a b] & E & J). simpl in E. subst a.
  destruct (tw_pairs _ _ _ _ _ T _ _ J) as (p1 & p2 & T1 & _ & AL). rewrite N in T1. injection T1 as <-. inversion AL.
Qed.

Lemma scan_not_paired_r O n w1 w2 ps e : twins O n w1 w2 ps -> nth_error (w_threads w2) 2 = Some PNtScan ->
  not_by (map snd ps) (LTick 2 e).
Proof.
  intros T N tid e' [= <- <-] J. apply in_map_iff in J as ([a b] & E & J). simpl in E. subst b.
  destruct (tw_pairs _ _ _ _ _ T _ _ J) as (p1 & p2 & _ & T2 & AL). rewrite N in T2. injection T2 as <-. inversion AL.
Qed.

Lemma remind_both O n w1 w2 ps e1 e2 w1' w2' :
  twins O n w1 w2 ps -> env_now e1 = env_now e2 ->
  nth_error (w_threads w1) 2 = Some PNtScan -> nth_error (w_threads w2) 2 = Some PNtScan ->
  step O w1 (LTick 2 e1) = SNext w1' -> step O w2 (LTick 2 e2) = SNext w2' ->
  twins O n w1' w2' ps.
Proof.
  intros T EN T1 T2 E1 E2.
  destruct (agree_entries _ _ _ (tw_agree _ _ _ _ _ T)) as (x1 & x2 & X1 & X2 & N1 & N2 & TS).
  pose proof (ag_account _ _ _ (tw_agree _ _ _ _ _ T)) as AC. pose proof (ag_settings _ _ _ (tw_agree _ _ _ _ _ T)) as SE.
  destruct (scan_entry O w1 e1 w1' x1 (tw_reach1 _ _ _ _ _ T) T1 E1 X1) as (C1 & _ & x1' & H1' & N1' & D1).
  destruct (scan_entry O w2 e2 w2' x2 (tw_reach2 _ _ _ _ _ T) T2 E2 X2) as (C2 & _ & x2' & H2' & N2' & D2).
  rewrite (due_same _ (w_lk w2) (env_now e1) x1 x2 SE TS), EN in D1.
  apply (both_move O n w1 w2 ps 2 e1 e2 w1' w2' x1 x2 x1' x2' T);
    eauto using scan_not_paired_l, scan_not_paired_r; try congruence.
  - destruct (notify_due (w_lk w2) (env_now e2) x2).
    + destruct D1 as [_ ->], D2 as [_ ->]. congruence.
    + subst. congruence.
  - unfold account_of in *. rewrite C1, C2. exact AC.
  - destruct (notify_due (w_lk w2) (env_now e2) x2).
    + right. tauto.
    + left. subst. auto.
Qed.

Lemma reload_entry O w e c w' x act :
  reachable O w -> w_alive w = true -> nth_error (w_threads w) 0 = Some PMain -> e_client e = Some $"reload:" ->
  config_from_path O e = Val c -> lookup (d_name x) (c_accounts c) = Some act -> has (w_lk w) x ->
  step O w (LTick 0 e) = SNext w' ->
  lconfig (w_lk w') = c
  /\ exists x' old, has (w_lk w') x' /\ d_name x' = d_name x /\ account_of (w_lk w) (d_name x) = Some old
     /\ if secure_eq act old then x' = x else (account_count (w_lk w) <= d_id x')%N /\ d_ts x' = TSEmpty.
Proof.
  intros R AL N EC CF LK H S. pose proof (reach_inv _ _ R) as I. pose proof (inv_wf _ _ I) as W.
  destruct (update_conf_total (w_lk w) c W) as [lk' U].
  assert (request O e w $"reload:" = Val (lk', PDo ASigNotifier (PDo ASigRefresher (reply $"reload:" $"ok:")), [OConfig c])) as Q.
  { change (request O e w $"reload:") with (req_reload O e w $"reload:"). unfold req_reload. rewrite CF, U. reflexivity. }
  rewrite (main_val _ _ _ _ _ _ _ R AL N EC Q) in S. injection S as <-. cbn.
  destruct (update_conf_spec _ _ _ W (co_wf _ _ (config_from_path_ok _ _ _ CF)) U) as (W' & _ & CE & F).
  split; [exact CE|].
  assert (exists x', has lk' x' /\ d_name x' = d_name x) as (x' & H' & N').
  { assert (In (d_name x) (names lk')) as K.
    { rewrite (wf_names _ W'), CE. apply lookup_some_iff_keys. eauto. }
    apply in_map_iff in K as (x' & E & K). exists x'. auto. }
  destruct (wf_account _ _ W H) as (old & LO & _). exists x', old. split; [exact H'|]. split; [exact N'|]. split; [exact LO|].
  destruct (F x' H') as (a' & A' & X). rewrite N' in A', X. unfold account_of in A'. rewrite CE, LK in A'. injection A' as <-.
  unfold account_of in X. rewrite LO in X. destruct (secure_eq act old); [|exact X].
  apply (wf_name_inj (w_lk w)); auto.
Qed.

Lemma reload_both O n w1 w2 ps e1 e2 c1 c2 act w1' w2' :
  twins O n w1 w2 ps -> not_by (map fst ps) (LTick 0 e1) -> not_by (map snd ps) (LTick 0 e2) ->
  nth_error (w_threads w1) 0 = Some PMain -> nth_error (w_threads w2) 0 = Some PMain ->
  e_client e1 = Some $"reload:" -> e_client e2 = Some $"reload:" ->
  config_from_path O e1 = Val c1 -> config_from_path O e2 = Val c2 ->
  lookup n (c_accounts c1) = Some act -> lookup n (c_accounts c2) = Some act -> settings c1 = settings c2 ->
  step O w1 (LTick 0 e1) = SNext w1' -> step O w2 (LTick 0 e2) = SNext w2' ->
  twins O n w1' w2' ps.
Proof.
  intros T NB1 NB2 T1 T2 EC1 EC2 CF1 CF2 L1 L2 SC E1 E2.
  destruct (agree_entries _ _ _ (tw_agree _ _ _ _ _ T)) as (x1 & x2 & X1 & X2 & N1 & N2 & TS).
  pose proof (ag_account _ _ _ (tw_agree _ _ _ _ _ T)) as AC.
  pose proof (tw_reach1 _ _ _ _ _ T) as R1. pose proof (tw_reach2 _ _ _ _ _ T) as R2.
  destruct (step_ok _ _ _ _ (reach_inv _ _ R1) E1) as (_ & _ & _ & A1).
  destruct (step_ok _ _ _ _ (reach_inv _ _ R2) E2) as (_ & _ & _ & A2).
  destruct (reload_entry O w1 e1 c1 w1' x1 act R1 A1 T1 EC1 CF1 ltac:(rewrite N1; exact L1) X1 E1)
    as (C1 & x1' & old1 & H1' & N1' & O1 & D1).
  destruct (reload_entry O w2 e2 c2 w2' x2 act R2 A2 T2 EC2 CF2 ltac:(rewrite N2; exact L2) X2 E2)
    as (C2 & x2' & old2 & H2' & N2' & O2 & D2).
  rewrite N1 in O1. rewrite N2 in O2. unfold account_of in O1, O2. rewrite <- AC, O1 in O2. injection O2 as <-.
  apply (both_move O n w1 w2 ps 0 e1 e2 w1' w2' x1 x2 x1' x2' T); auto; try congruence.
  - destruct (secure_eq act old1); [subst; congruence|]. destruct D1 as [_ ->], D2 as [_ ->]. reflexivity.
  - unfold account_of. rewrite C1, C2. congruence.
  - destruct (secure_eq act old1); [left; subst; auto|right; tauto].
Qed.

Lemma restore_entry O w e bytes d w' x r :
  reachable O w -> w_alive w = true -> nth_error (w_threads w) 0 = Some PMain ->
  e_client e = Some ($"restore:" ++ bytes) -> SpecRestore.carries O bytes d -> (forall j, e_clk e j = r) -> has (w_lk w) x ->
  step O w (LTick 0 e) = SNext w' ->
  lconfig (w_lk w') = lconfig (w_lk w)
  /\ exists x', has (w_lk w') x' /\ d_name x' = d_name x
     /\ match brought (lconfig (w_lk w)) d r r x with
        | Some ts => (account_count (w_lk w) <= d_id x')%N /\ d_ts x' = ts
        | None => x' = x
        end.
Proof.
  intros R AL N EC (LN & p & DC & DS & V) CL H E. pose proof (inv_wf _ _ (reach_inv _ _ R)) as W.
  destruct (step_ok _ _ _ _ (reach_inv _ _ R) E) as (_ & EV & _ & _).
  destruct (restore_exact (w_lk w) p (e_clk e) (e_hash e) d W DS V) as (lk' & EX & W' & CF & NM & K).
  assert (auth_restore O (w_lk w) bytes (e_clk e) (e_hash e) = Val lk') as AR.
  { unfold auth_restore. change nonce_len with 12%nat.
    destruct (Nat.ltb_spec (List.length bytes) 12) as [X|X]; [lia|]. rewrite DC, EX. reflexivity. }
  assert (asked w e ($"restore:" ++ bytes)) as AS by (split; [exact AL|split; [exact N|exact EC]]).
  destruct (asked_restore O w e bytes R AS) as [(m & X & _)|(lk2 & X & RT)]; [congruence|].
  assert (lk2 = lk') by congruence. subst lk2. unfold restores_to in RT. rewrite RT in E. injection E as <-.
  cbn [emit set_thread set_lk w_lk] in *. split; [exact CF|].
  destruct (In_nth_error _ _ H) as [k NK]. destruct (K k x NK) as (x' & NK' & NE & Q). rewrite !CL in Q.
  exists x'. apply nth_error_In in NK'. split; [exact NK'|]. split; [exact NE|].
  destruct (brought (lconfig (w_lk w)) d r r x) as [ts|] eqn:B; [|exact Q]. split; [|exact Q].
  destruct (N.le_gt_cases (account_count (w_lk w)) (d_id x')) as [L|L]; [exact L|exfalso].
  destruct EV as [_ EV]. destruct (EV x' NK' L) as [HX _].
  assert (x' = x) by (apply (wf_name_inj (w_lk w)); auto). subst x'.
  unfold brought in B. rewrite Q in B.
  destruct (lookup (d_name x) (c_accounts (lconfig (w_lk w)))) as [a|]; [|discriminate B].
  destruct (lookup (d_name x) (d_accounts d)) as [[ad [|tok ob ex rt]]|]; try discriminate B.
  destruct (secure_restorable a ad && negb (is_active ts)) eqn:C; [|discriminate B].
  injection B as <-. rewrite andb_comm in C. discriminate C.
Qed.

Lemma restore_both O n w1 w2 ps e1 e2 bytes1 bytes2 d1 d2 r w1' w2' :
  twins O n w1 w2 ps -> not_by (map fst ps) (LTick 0 e1) -> not_by (map snd ps) (LTick 0 e2) ->
  nth_error (w_threads w1) 0 = Some PMain -> nth_error (w_threads w2) 0 = Some PMain ->
  e_client e1 = Some ($"restore:" ++ bytes1) -> e_client e2 = Some ($"restore:" ++ bytes2) ->
  SpecRestore.carries O bytes1 d1 -> SpecRestore.carries O bytes2 d2 -> lookup n (d_accounts d1) = lookup n (d_accounts d2) ->
  (forall j, e_clk e1 j = r) -> (forall j, e_clk e2 j = r) ->
  step O w1 (LTick 0 e1) = SNext w1' -> step O w2 (LTick 0 e2) = SNext w2' ->
  twins O n w1' w2' ps.
Proof.
  intros T NB1 NB2 T1 T2 EC1 EC2 CA1 CA2 LD K1 K2 E1 E2.
  destruct (agree_entries _ _ _ (tw_agree _ _ _ _ _ T)) as (x1 & x2 & X1 & X2 & N1 & N2 & TS).
  pose proof (ag_account _ _ _ (tw_agree _ _ _ _ _ T)) as AC.
  pose proof (ag_settings _ _ _ (tw_agree _ _ _ _ _ T)) as SE.
  pose proof (tw_reach1 _ _ _ _ _ T) as R1. pose proof (tw_reach2 _ _ _ _ _ T) as R2.
  destruct (step_ok _ _ _ _ (reach_inv _ _ R1) E1) as (_ & _ & _ & A1).
  destruct (step_ok _ _ _ _ (reach_inv _ _ R2) E2) as (_ & _ & _ & A2).
  destruct (restore_entry O w1 e1 bytes1 d1 w1' x1 r R1 A1 T1 EC1 CA1 K1 X1 E1) as (C1 & x1' & H1' & N1' & D1).
  destruct (restore_entry O w2 e2 bytes2 d2 w2' x2 r R2 A2 T2 EC2 CA2 K2 X2 E2) as (C2 & x2' & H2' & N2' & D2).
  assert (brought (lconfig (w_lk w2)) d2 r r x2 = brought (lconfig (w_lk w1)) d1 r r x1) as B.
  { unfold brought. rewrite N1, N2, <- AC, <- LD, TS. reflexivity. }
  rewrite B in D2.
  apply (both_move O n w1 w2 ps 0 e1 e2 w1' w2' x1 x2 x1' x2' T); auto; try congruence.
  - destruct (brought (lconfig (w_lk w1)) d1 r r x1); [destruct D1 as [_ ->], D2 as [_ ->]; reflexivity|subst; congruence].
  - unfold account_of. rewrite C1, C2. exact AC.
  - destruct (brought (lconfig (w_lk w1)) d1 r r x1); [right; tauto|left; subst; auto].
Qed.

(** ** Runs *)

Lemma pair_more O n w1 w2 ps t1 t2 p1 p2 :
  twins O n w1 w2 ps -> ~ In t1 (map fst ps) -> ~ In t2 (map snd ps) ->
  nth_error (w_threads w1) t1 = Some p1 -> nth_error (w_threads w2) t2 = Some p2 ->
  alike n (w_lk w1) (w_lk w2) p1 p2 -> twins O n w1 w2 ((t1, t2) :: ps).
Proof.
  intros [R1 R2 AG HT HTS F S P] NF NS T1 T2 AL. constructor; auto.
  - cbn. constructor; assumption.
  - cbn. constructor; assumption.
  - intros s1 s2 [E|J]; [|auto]. injection E as <- <-. eauto.
Qed.

Lemma pair_less O n w1 w2 qs rs t1 t2 : twins O n w1 w2 (qs ++ (t1, t2) :: rs) -> twins O n w1 w2 (qs ++ rs).
Proof.
  intros [R1 R2 AG HT HTS F S P]. constructor; auto.
  - rewrite map_app in *. apply NoDup_remove in F. apply F.
  - rewrite map_app in *. apply NoDup_remove in S. apply S.
  - intros s1 s2 J. apply P. apply in_or_app. apply in_app_or in J. cbn. tauto.
Qed.

Lemma together_twins O n w1 w2 ps os1 os2 v1 v2 qs :
  twins O n w1 w2 ps -> together O n w1 w2 ps os1 os2 v1 v2 qs -> os1 = os2 /\ twins O n v1 v2 qs.
Proof.
  intros T0 R. induction R.
  - auto.
  - destruct IHR as [-> T].
    assert (w_alive v2 = true) as A2.
    { match goal with E : step O v2 _ = _ |- _ =>
        destruct (step_ok _ _ _ _ (reach_inv _ _ (tw_reach2 _ _ _ _ _ T)) E) as (_ & _ & _ & A); exact A end. }
    match goal with I : In _ _, N : nth_error _ _ = _, AB : about _ _ _ _ _ _, E : step O v1 _ = _ |- _ =>
      destruct (lockstep O n v1 v2 qs t1 t2 p e v1' T A2 I N AB E) as (v2'' & os & E2 & X1 & X2 & T') end.
    assert (v2'' = v2') by congruence. subst v2''.
    split; [|exact T']. f_equal.
    assert (new1 = os) by (apply (app_inv_head (w_trace v1)); congruence).
    assert (new2 = os) by (apply (app_inv_head (w_trace v2)); congruence). congruence.
  - destruct IHR as [-> T]. split; [reflexivity|]. eapply other_step; eassumption.
  - destruct IHR as [-> T]. split; [reflexivity|]. eapply other_step2; eassumption.
  - destruct IHR as [-> T]. split; [reflexivity|]. eapply (remind_both O n v1 v2 qs e1 e2); eassumption.
  - destruct IHR as [-> T]. split; [reflexivity|]. eapply (reload_both O n v1 v2 qs e1 e2 c1 c2 act); eassumption.
  - destruct IHR as [-> T]. split; [reflexivity|]. eapply (restore_both O n v1 v2 qs e1 e2 bytes1 bytes2 d1 d2 r); eassumption.
  - destruct IHR as [-> T]. split; [reflexivity|]. eapply pair_more; eassumption.
  - destruct IHR as [-> T]. split; [reflexivity|]. eapply pair_less; eassumption.
Qed.

(** ** Reminders and refreshes *)

Lemma will_do_emit cmds k : will_do (emit_cmds cmds k)
  = map (fun q => AEmit (OAuthCmd (snd (fst q)) (fst (fst q)) (url_to_str (snd q)))) cmds ++ will_do k.
Proof. induction cmds as [|[[m c] u] l IH]; [reflexivity|]. cbn. rewrite IH. reflexivity. Qed.

Lemma reminders_entries lk now : forall ds n x, NoDup (map d_name ds) -> In x ds -> d_name x = n ->
  reminders_of n (will_do (emit_cmds (flat_map (notify_cmds lk now) ds) PNtTop))
  = map (fun q => AEmit (OAuthCmd (snd (fst q)) (fst (fst q)) (url_to_str (snd q)))) (notify_cmds lk now x).
Proof.
  intros ds n x ND I N. rewrite will_do_emit. cbn [will_do]. rewrite app_nil_r. unfold reminders_of.
  set (f := fun q => AEmit (OAuthCmd (snd (fst q)) (fst (fst q)) (url_to_str (snd q)))).
  set (g := fun a => match a with AEmit (OAuthCmd _ m _) => str_eqb m n | _ => false end).
  assert (forall y, d_name y = n -> filter g (map f (notify_cmds lk now y)) = map f (notify_cmds lk now y)) as Y.
  { intros y E. unfold notify_cmds. destruct (notify_due lk now y); [|reflexivity].
    destruct (c_auth_notify_cmd (lconfig lk)); [|reflexivity]. destruct (pending_url (d_ts y)); [|reflexivity].
    cbn. rewrite E. rewrite (proj2 (str_eqb_eq n n) eq_refl). reflexivity. }
  assert (forall y, d_name y <> n -> filter g (map f (notify_cmds lk now y)) = []) as Z.
  { intros y E. unfold notify_cmds. destruct (notify_due lk now y); [|reflexivity].
    destruct (c_auth_notify_cmd (lconfig lk)); [|reflexivity]. destruct (pending_url (d_ts y)); [|reflexivity].
    cbn. destruct (str_eqb (d_name y) n) eqn:Q; [|reflexivity]. apply str_eqb_eq in Q. contradiction. }
  assert (forall l, (forall y, In y l -> d_name y <> n) -> filter g (map f (flat_map (notify_cmds lk now) l)) = []) as ZL.
  { induction l as [|y l IH]; intros K; [reflexivity|]. cbn. rewrite map_app, filter_app, Z, IH; auto.
    - intros y' I'. apply K. right. exact I'.
    - apply K. left. reflexivity. }
  induction ds as [|y ds IH]; [destruct I|]. cbn [map] in ND. inversion ND as [|? ? NI ND']; subst.
  cbn [flat_map]. rewrite map_app, filter_app. destruct I as [->|I].
  - rewrite Y by reflexivity. rewrite ZL, app_nil_r; [reflexivity|].
    intros y' I' E. apply NI. rewrite <- E. apply in_map. exact I'.
  - rewrite Z, IH; auto. intros E. apply NI. rewrite E. apply in_map. exact I.
Qed.

Lemma reminders_both O n w1 w2 ps e1 e2 w1' w2' q1 q2 :
  twins O n w1 w2 ps -> env_now e1 = env_now e2 ->
  nth_error (w_threads w1) 2 = Some PNtScan -> nth_error (w_threads w2) 2 = Some PNtScan ->
  step O w1 (LTick 2 e1) = SNext w1' -> step O w2 (LTick 2 e2) = SNext w2' ->
  nth_error (w_threads w1') 2 = Some q1 -> nth_error (w_threads w2') 2 = Some q2 ->
  reminders_of n (will_do q1) = reminders_of n (will_do q2).
Proof.
  intros T EN T1 T2 E1 E2 Q1 Q2.
  destruct (agree_entries _ _ _ (tw_agree _ _ _ _ _ T)) as (x1 & x2 & X1 & X2 & N1 & N2 & TS).
  pose proof (ag_settings _ _ _ (tw_agree _ _ _ _ _ T)) as SE.
  destruct (scan_entry O w1 e1 w1' x1 (tw_reach1 _ _ _ _ _ T) T1 E1 X1) as (_ & P1 & _).
  destruct (scan_entry O w2 e2 w2' x2 (tw_reach2 _ _ _ _ _ T) T2 E2 X2) as (_ & P2 & _).
  assert (q1 = emit_cmds (flat_map (notify_cmds (w_lk w1) (env_now e1)) (details (w_lk w1))) PNtTop) as -> by congruence.
  assert (q2 = emit_cmds (flat_map (notify_cmds (w_lk w2) (env_now e2)) (details (w_lk w2))) PNtTop) as -> by congruence.
  pose proof (wf_names_nodup _ (inv_wf _ _ (reach_inv _ _ (tw_reach1 _ _ _ _ _ T)))) as D1.
  pose proof (wf_names_nodup _ (inv_wf _ _ (reach_inv _ _ (tw_reach2 _ _ _ _ _ T)))) as D2.
  rewrite (reminders_entries _ _ _ n x1 D1 X1 N1), (reminders_entries _ _ _ n x2 D2 X2 N2). f_equal.
  unfold notify_cmds. rewrite EN, (due_same _ (w_lk w2) (env_now e2) x1 x2 SE TS).
  destruct (settings_fields _ _ SE) as (EC & _). rewrite EC, N1, N2, TS. reflexivity.
Qed.

Lemma will_do_spawn ids k : will_do (spawn_all ids k) = map ASpawnRefresh ids ++ will_do k.
Proof. induction ids as [|i l IH]; [reflexivity|]. cbn. rewrite IH. reflexivity. Qed.

Lemma refresh_scan O w e w' q x :
  reachable O w -> nth_error (w_threads w) 3 = Some PRfScan -> step O w (LTick 3 e) = SNext w' ->
  nth_error (w_threads w') 3 = Some q -> has (w_lk w) x -> steady_now e ->
  In (ASpawnRefresh (d_id x)) (will_do q) <->
  exists a act t, d_ts x = TSActive a /\ account_of (w_lk w) (d_name x) = Some act
    /\ refresh_due act (lconfig (w_lk w)) (env_now e) a = Some t /\ (t <= env_now e)%Z.
Proof.
  intros R N S Q H ST. pose proof (reach_inv _ _ R) as I. destruct (step_ok _ _ _ _ I S) as (_ & _ & T & _). clear S.
  inversion T as [tid e' p lk' p' os N' C|tid e' p w2 N' SY|]; subst.
  2: { rewrite N in N'. injection N' as <-. inversion SY. }
  rewrite N in N'. injection N' as <-. inversion C; subst.
  match goal with K : forall _, _ <-> _ |- _ => rename K into F end.
  unfold after_cs in Q. cbn [emit set_thread set_lk w_lk w_threads] in Q. rewrite (set_here _ _ _ _ N) in Q. injection Q as <-.
  rewrite will_do_spawn. cbn [will_do]. rewrite app_nil_r.
  assert (In (ASpawnRefresh (d_id x)) (map ASpawnRefresh ids) <-> In (d_id x) ids) as ->.
  { rewrite in_map_iff. split; [intros (i & [= ->] & J); exact J|eauto]. }
  rewrite F. split.
  - intros (e0 & a & act & j & HE & E0 & T0 & A0 & _ & t & D & L).
    assert (e0 = x) by (apply (wf_id_inj (w_lk w)); auto; apply inv_wf with O; exact I). subst e0.
    rewrite ST in D. eauto 10.
  - intros (a & act & t & T0 & A0 & D & L). apply In_nth_error in H as [j J].
    exists x, a, act, j. split; [eapply nth_error_In; exact J|]. split; [reflexivity|]. split; [exact T0|].
    split; [exact A0|]. split; [exact J|]. exists t. rewrite ST. auto.
Qed.

Lemma refreshes_both O n w1 w2 ps e1 e2 w1' w2' q1 q2 i1 i2 :
  twins O n w1 w2 ps -> env_now e1 = env_now e2 -> steady_now e1 -> steady_now e2 ->
  nth_error (w_threads w1) 3 = Some PRfScan -> nth_error (w_threads w2) 3 = Some PRfScan ->
  step O w1 (LTick 3 e1) = SNext w1' -> step O w2 (LTick 3 e2) = SNext w2' ->
  nth_error (w_threads w1') 3 = Some q1 -> nth_error (w_threads w2') 3 = Some q2 ->
  current n (w_lk w1) i1 -> current n (w_lk w2) i2 ->
  In (ASpawnRefresh i1) (will_do q1) <-> In (ASpawnRefresh i2) (will_do q2).
Proof.
  intros T EN S1 S2 T1 T2 E1 E2 Q1 Q2 V1 V2.
  destruct (agree_entries _ _ _ (tw_agree _ _ _ _ _ T)) as (x1 & x2 & X1 & X2 & N1 & N2 & TS).
  pose proof (ag_account _ _ _ (tw_agree _ _ _ _ _ T)) as AC. pose proof (ag_settings _ _ _ (tw_agree _ _ _ _ _ T)) as SE.
  rewrite (current_id n (w_lk w1) x1 i1), (current_id n (w_lk w2) x2 i2); auto;
    try (eapply inv_wf; eapply reach_inv; first [exact (tw_reach1 _ _ _ _ _ T)|exact (tw_reach2 _ _ _ _ _ T)]).
  rewrite (refresh_scan O w1 e1 w1' q1 x1 (tw_reach1 _ _ _ _ _ T) T1 E1 Q1 X1 S1).
  rewrite (refresh_scan O w2 e2 w2' q2 x2 (tw_reach2 _ _ _ _ _ T) T2 E2 Q2 X2 S2).
  unfold account_of. rewrite N1, N2, TS, AC, EN.
  assert (forall act a now, refresh_due act (lconfig (w_lk w1)) now a = refresh_due act (lconfig (w_lk w2)) now a) as RD.
  { intros act a now. unfold refresh_due, act_refresh_retry, act_refresh_before_expiry, act_refresh_at_least.
    destruct (settings_fields _ _ SE) as (_ & _ & _ & _ & A & B & C). rewrite A, B, C. reflexivity. }
  split; intros (a & act & t & A & B & C & D); exists a, act, t; rewrite RD in *; auto.
Qed.
