(** How single requests and callbacks are answered (C09, C11, C12, C14, C15, C41). *)
From Verif Require Import Base BaseLemmas Time Utf8 Base64 Url UrlLemmas Json Oracles Config Dump State Http
  Timers Server StateLemmas ConfigLemmas SpecServer Steps Inv Reach Own Trace Origin Basic Pend.

Lemma set_lk_same w : set_lk w (w_lk w) = w.
Proof. destruct w. reflexivity. Qed.

Lemma emit_emit w a b : emit (emit w a) b = emit w (a ++ b).
Proof. unfold emit. cbn. rewrite app_assoc. reflexivity. Qed.

Lemma emit_nil w : emit w [] = w.
Proof. destruct w. unfold emit. cbn. rewrite app_nil_r. reflexivity. Qed.

(** The answer of a request handler as a step. *)
Lemma main_val O w e req lk' p os :
  reachable O w -> w_alive w = true -> nth_error (w_threads w) 0 = Some PMain -> e_client e = Some req ->
  request O e w req = Val (lk', p, os) ->
  step O w (LTick 0 e) = SNext (emit (set_thread (set_lk w lk') 0 p) (OClient req :: os)).
Proof.
  intros R A N EC E. rewrite (main_step _ _ _ _ R A N EC), E. unfold run_cs. f_equal.
  change (set_thread (set_lk (emit w [OClient req]) lk') 0 p)
    with (emit (set_thread (set_lk w lk') 0 p) [OClient req]).
  rewrite emit_emit. reflexivity.
Qed.

Lemma main_err O w e req m :
  reachable O w -> w_alive w = true -> nth_error (w_threads w) 0 = Some PMain -> e_client e = Some req ->
  request O e w req = Err m ->
  step O w (LTick 0 e) = SNext (emit w [OClient req]).
Proof.
  intros R A N EC E. rewrite (main_step _ _ _ _ R A N EC), E. unfold run_cs. f_equal.
  unfold set_thread, emit. cbn. f_equal. clear -N. destruct (w_threads w) as [|p l]; [reflexivity|].
  simpl in *. congruence.
Qed.

Lemma request_show O e w rest : request O e w ($"showtoken:" ++ rest) = req_showtoken O e w ($"showtoken:" ++ rest) rest.
Proof. reflexivity. Qed.

Lemma request_refresh O e w rest : request O e w ($"refresh:" ++ rest) = req_refresh O e w ($"refresh:" ++ rest) rest.
Proof. reflexivity. Qed.

Lemma request_revoke O e w rest : request O e w ($"revoke:" ++ rest) = req_revoke w ($"revoke:" ++ rest) rest.
Proof. reflexivity. Qed.

Lemma request_restore O e w rest : request O e w ($"restore:" ++ rest) = req_restore O e w ($"restore:" ++ rest) rest.
Proof. reflexivity. Qed.

Lemma holds_entry O w n ts : reachable O w -> holds w n ts ->
  exists e0, has (w_lk w) e0 /\ d_name e0 = n /\ d_ts e0 = ts /\ validate_act_name (w_lk w) n = Some (d_id e0).
Proof.
  intros R (e0 & H & E & T). exists e0. repeat split; try assumption.
  unfold validate_act_name. rewrite <- E, (find_name_in _ _ (inv_wf _ _ (reach_inv _ _ R)) H). reflexivity.
Qed.

Lemma unknown_name O w n : reachable O w -> (forall ts, ~ holds w n ts) -> validate_act_name (w_lk w) n = None.
Proof.
  intros R NH. destruct (validate_act_name (w_lk w) n) as [i|] eqn:V; [|reflexivity].
  apply validate_some in V as (e0 & H & X & Y). exfalso. apply (NH (d_ts e0)). exists e0. split; [exact H|]. split; [congruence|reflexivity].
Qed.

Lemma redirect_defined O w act :
  url_laws O -> account_ok O act -> inv O w ->
  exists ru, account_redirect_uri O act (w_http w) (w_https w) = Val ru.
Proof.
  intros UL AO I.
  assert (exists u c h, o_url_parse O (a_redirect_uri act) = Some u /\ u_host u = Some (c :: h)) as (u & c & h & P & HH).
  { destruct (ao_redirect _ _ AO) as [(u & P & S)|E].
    - destruct (ul_host _ UL _ _ P) as (c & h & HH); [|eauto 10].
      destruct S; auto.
    - destruct (ul_default _ UL) as (u & P & _ & HH). rewrite E. exists u, "l"%char, $"ocalhost". auto. }
  unfold account_redirect_uri.
  assert (is_some (w_http w) || is_some (w_https w) = true) as ->.
  { destruct (inv_ports O w I) as [X|X].
    - destruct (w_http w); [reflexivity|congruence].
    - destruct (w_https w); [apply orb_true_r|congruence]. }
  cbn [negb]. rewrite P. cbn [ok_or bind]. unfold set_port. rewrite HH. cbn [ok_or].
  match goal with |- exists ru, (if ?b then _ else _) = _ => destruct b end; eauto.
Qed.

Lemma bump_becomes w k e0 ts :
  wf (w_lk w) -> has (w_lk w) e0 -> becomes w (bump k (w_lk w) (d_id e0) ts) (d_name e0) ts.
Proof.
  intros W H. split; [|split; [reflexivity|]].
  - eexists. split; [apply bump_in_new; exact H|]. split; reflexivity.
  - intros e NE. split.
    + intros I. apply bump_in in I as [(e2 & I2 & E2 & ->)|[I _]]; [|exact I].
      exfalso. apply NE. assert (e2 = e0) as -> by (apply (wf_id_inj (w_lk w)); auto). reflexivity.
    + intros I. apply bump_in_other; [exact I|]. intros E. apply NE. f_equal. apply (wf_id_inj (w_lk w)); auto.
Qed.

Lemma auth_request O w e n ts act :
  url_laws O -> reachable O w -> holds w n ts -> is_active ts = false -> configured w n act ->
  exists u lk' i,
    validate_act_name (w_lk w) n = Some i /\ ct_tokenstate (w_lk w) i = Val ts
    /\ request_token O e (w_http w) (w_https w) (w_lk w) i = Val (lk', u)
    /\ auth_url O (w_http w) (w_https w) act (b64_encode (e_verifier_bytes e)) (b64_encode (e_state_bytes e)) u
    /\ becomes w lk' n (TSPending (b64_encode (e_verifier_bytes e)) None (b64_encode (e_state_bytes e)) u).
Proof.
  intros UL R H NA C. pose proof (reach_inv _ _ R) as I. pose proof (inv_wf _ _ I) as W.
  destruct (holds_entry _ _ _ _ R H) as (e0 & H0 & EN & ET & V).
  assert (account_ok O act) as AO.
  { apply lookup_in in C. pose proof (co_accounts _ _ (inv_conf _ _ I)) as F.
    rewrite Forall_forall in F. apply (F (n, act)). exact C. }
  destruct (redirect_defined O w act UL AO I) as [ru RU].
  destruct (ao_auth _ _ AO) as (base & B & _).
  assert (ct_account (w_lk w) (d_id e0) = Val act) as CA
    by (apply (ct_account_in _ e0); [exact W|exact H0|rewrite EN; exact C]).
  assert (ct_tokenstate (w_lk w) (d_id e0) = Val ts) as CT by (rewrite (ct_tokenstate_in _ _ W H0), ET; reflexivity).
  set (u := extend_pairs base (auth_params act (b64_encode (o_sha256 O (b64_encode (e_verifier_bytes e))))
                                 (url_to_str ru) (b64_encode (e_state_bytes e)))).
  exists u, (bump 0 (w_lk w) (d_id e0)
               (TSPending (b64_encode (e_verifier_bytes e)) None (b64_encode (e_state_bytes e)) u)), (d_id e0).
  split; [exact V|]. split; [exact CT|]. split; [|split].
  - unfold request_token. rewrite CT. cbn [bind]. rewrite CA.
    destruct ts as [|cvr ln st u0|a]; [| |discriminate]; cbn [bind]; rewrite RU; cbn [bind]; rewrite B; cbn [ok_or bind];
      rewrite (tokenstate_replace_in _ _ _ W H0); reflexivity.
  - exists ru, base. auto.
  - rewrite <- EN. apply bump_becomes; assumption.
Qed.

Lemma pending_answer wu u : pending_reply wu u = url_answer wu u.
Proof. unfold pending_reply, url_answer. destruct (str_eqb wu $"withurl"); [reflexivity|]. reflexivity. Qed.

Section Requests.
Variable O : oracles.
Variable w : world.
Variable e : env.
Variables (wu n : str).
Hypothesis R : reachable O w.
Hypothesis A : w_alive w = true.
Hypothesis N : nth_error (w_threads w) 0 = Some PMain.
Hypothesis NS : ~ In " "%char wu.
Hypothesis U : utf8_valid (wu ++ $" " ++ n) = true.

Lemma split_wu : split_first " "%char (wu ++ $" " ++ n) = Some (wu, n).
Proof. apply (split_first_app " "%char wu n NS). Qed.

Let show := $"showtoken:" ++ wu ++ $" " ++ n.
Let refresh := $"refresh:" ++ wu ++ $" " ++ n.

Lemma show_unknown :
  e_client e = Some show -> (forall ts, ~ holds w n ts) ->
  step O w (LTick 0 e)
    = SNext (emit (set_thread w 0 (do_all [AEmit (OReply show ($"error:No account '" ++ n ++ $"'"))] PMain))
               [OClient show]).
Proof.
  intros EC NH. erewrite main_val; try eassumption; [rewrite set_lk_same; reflexivity|].
  unfold show. rewrite request_show. unfold req_showtoken, from_utf8. rewrite U. cbn [bind].
  rewrite split_wu, (unknown_name _ _ _ R NH). reflexivity.
Qed.

Lemma show_empty act :
  url_laws O -> e_client e = Some show -> holds w n TSEmpty -> configured w n act ->
  exists u lk',
    let cvr := b64_encode (e_verifier_bytes e) in
    let st := b64_encode (e_state_bytes e) in
    auth_url O (w_http w) (w_https w) act cvr st u
    /\ becomes w lk' n (TSPending cvr None st u)
    /\ step O w (LTick 0 e)
       = SNext (emit (set_thread (set_lk w lk') 0
                        (do_all [ASigNotifier; AEmit (OReply show (url_answer wu u))] PMain))
                  [OClient show; OAuthUrl n u]).
Proof.
  intros UL EC H C. destruct (auth_request O w e n TSEmpty act UL R H eq_refl C) as (u & lk' & i & V & CT & RT & AU & HH).
  exists u, lk'. split; [exact AU|]. split; [exact HH|].
  eapply main_val; try eassumption.
  unfold show. rewrite request_show. unfold req_showtoken, from_utf8. rewrite U. cbn [bind].
  rewrite split_wu, V. rewrite CT. cbn [bind]. unfold request_and_reply. rewrite RT. cbn [bind].
  rewrite pending_answer. reflexivity.
Qed.

Lemma show_pending cvr ln st u :
  e_client e = Some show -> holds w n (TSPending cvr ln st u) ->
  step O w (LTick 0 e)
    = SNext (emit (set_thread w 0 (do_all [AEmit (OReply show (url_answer wu u))] PMain)) [OClient show]).
Proof.
  intros EC H. destruct (holds_entry _ _ _ _ R H) as (e0 & H0 & _ & ET & V).
  erewrite main_val; try eassumption; [rewrite set_lk_same; reflexivity|].
  unfold show. rewrite request_show. unfold req_showtoken, from_utf8. rewrite U. cbn [bind].
  rewrite split_wu, V, (ct_tokenstate_in _ _ (inv_wf _ _ (reach_inv _ _ R)) H0), ET. cbn [bind].
  rewrite pending_answer. reflexivity.
Qed.

Lemma show_active i a :
  e_client e = Some show -> In (mkEntry n i (TSActive a)) (details (w_lk w)) ->
  step O w (LTick 0 e)
    = SNext (emit (set_thread w 0
        (do_all (if (env_now e <? expiry a)%Z then [AEmit (OReply show ($"access_token:" ++ access_token a))]
                 else if ongoing a then
                   [AEmit (OReply show $"error:Access token has expired. Refreshing is in progress but has not yet succeeded")]
                 else [ASpawnRefresh i;
                       AEmit (OReply show $"error:Access token has expired. Refreshing initiated")]) PMain))
        [OClient show]).
Proof.
  intros EC H.
  assert (holds w n (TSActive a)) as HO by (exists (mkEntry n i (TSActive a)); auto).
  destruct (holds_entry _ _ _ _ R HO) as (e0 & H0 & EN & ET & V).
  assert (e0 = mkEntry n i (TSActive a)) as EE.
  { apply (wf_name_inj (w_lk w)); auto. apply (inv_wf _ _ (reach_inv _ _ R)). }
  subst e0.
  erewrite main_val; try eassumption; [rewrite set_lk_same; reflexivity|].
  unfold show. rewrite request_show. unfold req_showtoken, from_utf8. rewrite U. cbn [bind].
  rewrite split_wu, V, (ct_tokenstate_in _ _ (inv_wf _ _ (reach_inv _ _ R)) H0). cbn [bind d_ts d_id].
  destruct (env_now e <? expiry a)%Z; [reflexivity|]. destruct (ongoing a); reflexivity.
Qed.

Lemma refresh_unknown :
  e_client e = Some refresh -> (forall ts, ~ holds w n ts) ->
  step O w (LTick 0 e)
    = SNext (emit (set_thread w 0 (do_all [AEmit (OReply refresh ($"error:No account '" ++ n ++ $"'"))] PMain))
               [OClient refresh]).
Proof.
  intros EC NH. erewrite main_val; try eassumption; [rewrite set_lk_same; reflexivity|].
  unfold refresh. rewrite request_refresh. unfold req_refresh, from_utf8. rewrite U. cbn [bind].
  rewrite split_wu, (unknown_name _ _ _ R NH). reflexivity.
Qed.

Lemma refresh_inactive ts act :
  url_laws O -> e_client e = Some refresh -> holds w n ts -> (forall a, ts <> TSActive a) -> configured w n act ->
  exists u lk',
    let cvr := b64_encode (e_verifier_bytes e) in
    let st := b64_encode (e_state_bytes e) in
    auth_url O (w_http w) (w_https w) act cvr st u
    /\ becomes w lk' n (TSPending cvr None st u)
    /\ step O w (LTick 0 e)
       = SNext (emit (set_thread (set_lk w lk') 0
                        (do_all [ASigNotifier; AEmit (OReply refresh (url_answer wu u))] PMain))
                  [OClient refresh; OAuthUrl n u]).
Proof.
  intros UL EC H NA C.
  assert (is_active ts = false) as NA' by (destruct ts; [reflexivity..|exfalso; eapply NA; reflexivity]).
  destruct (auth_request O w e n ts act UL R H NA' C) as (u & lk' & i & V & CT & RT & AU & HH).
  exists u, lk'. split; [exact AU|]. split; [exact HH|].
  eapply main_val; try eassumption.
  unfold refresh. rewrite request_refresh. unfold req_refresh, from_utf8. rewrite U. cbn [bind].
  rewrite split_wu, V. rewrite CT. cbn [bind]. unfold request_and_reply. rewrite RT.
  destruct ts; [| |discriminate]; cbn [bind]; rewrite pending_answer; reflexivity.
Qed.

Lemma refresh_active i a :
  e_client e = Some refresh -> In (mkEntry n i (TSActive a)) (details (w_lk w)) ->
  step O w (LTick 0 e)
    = SNext (emit (set_thread w 0 (do_all [ASpawnRefresh i; AEmit (OReply refresh $"scheduled:")] PMain))
               [OClient refresh]).
Proof.
  intros EC H.
  assert (holds w n (TSActive a)) as HO by (exists (mkEntry n i (TSActive a)); auto).
  destruct (holds_entry _ _ _ _ R HO) as (e0 & H0 & EN & ET & V).
  assert (e0 = mkEntry n i (TSActive a)) as EE.
  { apply (wf_name_inj (w_lk w)); auto. apply (inv_wf _ _ (reach_inv _ _ R)). }
  subst e0.
  erewrite main_val; try eassumption; [rewrite set_lk_same; reflexivity|].
  unfold refresh. rewrite request_refresh. unfold req_refresh, from_utf8. rewrite U. cbn [bind].
  rewrite split_wu, V, (ct_tokenstate_in _ _ (inv_wf _ _ (reach_inv _ _ R)) H0). reflexivity.
Qed.
End Requests.

(** * A second refresh does nothing (C09) *)

Lemma second_refresh O w tid e n i a :
  reachable O w -> w_alive w = true -> nth_error (w_threads w) tid = Some (PRefStart i) ->
  In (mkEntry n i (TSActive a)) (details (w_lk w)) -> ongoing a = true ->
  step O w (LTick tid e) = SNext (set_thread w tid PDone).
Proof.
  intros R A N H OG. unfold step. rewrite A, N. cbn [negb step_thread].
  pose proof (inv_wf _ _ (reach_inv _ _ R)) as W. unfold ref_start.
  change i with (d_id (mkEntry n i (TSActive a))).
  replace (is_act_id_valid (w_lk w) (d_id (mkEntry n i (TSActive a)))) with true
    by (symmetry; apply valid_iff; eexists; split; [exact H|reflexivity]).
  rewrite (ct_tokenstate_in _ _ W H). cbn [bind d_ts]. rewrite OG. cbn [run_cs].
  rewrite set_lk_same, emit_nil. reflexivity.
Qed.

(** A thread that is refreshing version [i] keeps all others from doing so. *)
Lemma asking_again O w t1 p tid i e :
  reachable O w -> w_alive w = true ->
  nth_error (w_threads w) t1 = Some p -> ref_id p = Some i ->
  nth_error (w_threads w) tid = Some (PRefStart i) ->
  step O w (LTick tid e) = SNext (set_thread w tid PDone).
Proof.
  intros R A N1 RI N. pose proof (reach_inv _ _ R) as I. pose proof (inv_wf _ _ I) as W.
  destruct (is_act_id_valid (w_lk w) i) eqn:V.
  - apply valid_iff in V as (e0 & H & EI).
    assert (pc_ok (w_lk w) p) as PO.
    { pose proof (inv_threads _ _ I) as TH. rewrite Forall_forall in TH. apply TH. eapply nth_error_In. exact N1. }
    assert (exists act, owns (w_lk w) i act refreshing) as [act OW].
    { destruct p; simpl in RI; try discriminate RI; injection RI as ->; simpl in PO.
      - destruct PO as (act & _ & _ & _ & OW). exists act. eapply owns_weaken; [|exact OW]. apply refreshing_with_weaken.
      - destruct PO as (act & _ & OW). exists act. eapply owns_weaken; [|exact OW]. apply refreshing_with_weaken.
      - destruct PO as (act & _ & OW). eauto.
      - destruct PO as (act & _ & OW). eauto.
      - destruct PO as (act & _ & OW). eauto.
      - destruct PO as (act & _ & OW). eauto.
      - destruct PO as (act & _ & OW). eauto. }
    destruct OW as [_ OW]. destruct (OW e0 H EI) as [_ (a & T & OG)].
    apply (second_refresh O w tid e (d_name e0) i a R A N); [|exact OG].
    rewrite <- T, <- EI. destruct e0; exact H.
  - unfold step. rewrite A, N. cbn [negb step_thread]. unfold ref_start. rewrite V. cbn [run_cs].
    rewrite set_lk_same, emit_nil. reflexivity.
Qed.

(** * Revoking (C04) *)

Lemma revoke_known O w e n ts :
  reachable O w -> w_alive w = true -> nth_error (w_threads w) 0 = Some PMain ->
  utf8_valid n = true -> e_client e = Some ($"revoke:" ++ n) -> holds w n ts ->
  exists lk',
    step O w (LTick 0 e)
      = SNext (emit (set_thread (set_lk w lk') 0
                 (do_all [APushEvent n EvRevoked; ASigEventer; AEmit (OReply ($"revoke:" ++ n) $"ok:")] PMain))
                 [OClient ($"revoke:" ++ n)])
    /\ becomes w lk' n TSEmpty.
Proof.
  intros R A N U EC H. pose proof (reach_inv _ _ R) as I. pose proof (inv_wf _ _ I) as W.
  destruct (holds_entry _ _ _ _ R H) as (e0 & H0 & EN & ET & V).
  exists (bump 0 (w_lk w) (d_id e0) TSEmpty). split.
  - eapply main_val; try eassumption. rewrite request_revoke. unfold req_revoke, from_utf8. rewrite U. cbn [bind].
    rewrite V, (tokenstate_replace_in _ _ _ W H0). reflexivity.
  - rewrite <- EN. apply bump_becomes; assumption.
Qed.

Lemma revoke_unknown O w e n :
  reachable O w -> w_alive w = true -> nth_error (w_threads w) 0 = Some PMain ->
  utf8_valid n = true -> e_client e = Some ($"revoke:" ++ n) -> (forall ts, ~ holds w n ts) ->
  step O w (LTick 0 e)
    = SNext (emit (set_thread w 0
               (do_all [AEmit (OReply ($"revoke:" ++ n) ($"error:No account '" ++ n ++ $"'"))] PMain))
               [OClient ($"revoke:" ++ n)]).
Proof.
  intros R A N U EC NH. erewrite main_val; try eassumption; [rewrite set_lk_same; reflexivity|].
  rewrite request_revoke. unfold req_revoke, from_utf8. rewrite U. cbn [bind].
  rewrite (unknown_name _ _ _ R NH). reflexivity.
Qed.

(** * Callbacks (C14, C15) *)

Lemma http_val O w tid e https bytes lk' p os :
  w_alive w = true -> nth_error (w_threads w) tid = Some (PHttpStart https bytes) ->
  http_start O w https bytes = Val (lk', p, os) ->
  step O w (LTick tid e) = SNext (emit (set_thread (set_lk w lk') tid p) os).
Proof. intros A N E. unfold step. rewrite A, N. cbn [negb step_thread]. rewrite E. reflexivity. Qed.

Lemma state_none lk st :
  (forall e0 cvr ln u, has lk e0 -> d_ts e0 <> TSPending cvr ln st u) -> act_id_matching_token_state lk st = None.
Proof.
  intros NP. unfold act_id_matching_token_state.
  destruct (find _ (details lk)) as [e0|] eqn:F; [|reflexivity]. exfalso.
  apply find_some in F as [I F]. destruct (d_ts e0) as [|cvr ln s u|] eqn:T; try discriminate.
  apply str_eqb_eq in F as ->. eapply NP; eassumption.
Qed.

Lemma callback_unmatched O w tid e https bytes :
  reachable O w -> w_alive w = true -> nth_error (w_threads w) tid = Some (PHttpStart https bytes) ->
  (forall uri st n cvr ln u, parse_get O https bytes = Some uri -> lookup $"state" (query_pairs uri) = Some st ->
     ~ holds w n (TSPending cvr ln st u)) ->
  exists resp, step O w (LTick tid e) = SNext (set_thread w tid (do_all [AEmit (OHttpResp resp)] PDone)).
Proof.
  intros R A N NM.
  assert (exists resp, http_start O w https bytes = Val (w_lk w, do_all [AEmit (OHttpResp resp)] PDone, [])) as [resp E].
  { unfold http_start. destruct (parse_get O https bytes) as [uri|] eqn:P; [|eexists; reflexivity].
    unfold find_pair. destruct (lookup $"state" (query_pairs uri)) as [st|] eqn:L; [|eexists; reflexivity].
    rewrite state_none; [eexists; reflexivity|]. intros e0 cvr ln u H T.
    apply (NM uri st (d_name e0) cvr ln u eq_refl L). exists e0. repeat split; solve [assumption | reflexivity | congruence]. }
  exists resp. erewrite http_val; try eassumption. rewrite set_lk_same, emit_nil. reflexivity.
Qed.

Lemma same_origin_dec a b :
  str_eqb (u_scheme a) (u_scheme b) && opt_str_eqb (u_host a) (u_host b) && opt_N_eqb (u_port a) (u_port b) = true
  <-> same_origin a b.
Proof.
  rewrite !andb_true_iff, str_eqb_eq. unfold same_origin.
  rewrite (opt_eqb_eq str_eqb str_eqb_eq), (opt_eqb_eq N.eqb N.eqb_eq). tauto.
Qed.

Lemma state_some lk st i :
  act_id_matching_token_state lk st = Some i ->
  exists e0 cvr ln u, has lk e0 /\ d_id e0 = i /\ d_ts e0 = TSPending cvr ln st u.
Proof.
  unfold act_id_matching_token_state. destruct (find _ (details lk)) as [e0|] eqn:F; [|discriminate].
  intros [= <-]. apply find_some in F as [I F]. destruct (d_ts e0) as [|cvr ln s u|] eqn:T; try discriminate.
  apply str_eqb_eq in F as ->. exists e0, cvr, ln, u. auto.
Qed.

Lemma callback_wrong_origin O w tid e https bytes uri st :
  reachable O w -> w_alive w = true ->
  nth_error (w_threads w) tid = Some (PHttpStart https bytes) ->
  parse_get O https bytes = Some uri -> lookup $"state" (query_pairs uri) = Some st ->
  (exists n cvr ln u, holds w n (TSPending cvr ln st u)) ->
  (forall n cvr ln u act ru, holds w n (TSPending cvr ln st u) -> configured w n act ->
     account_redirect_uri O act (w_http w) (w_https w) = Val ru -> ~ same_origin ru uri) ->
  step O w (LTick tid e)
  = SNext (set_thread w tid (do_all [AEmit (OHttpResp ($"HTTP/1.1 404" ++ [cr; nl; cr; nl]))] PDone)).
Proof.
  intros R A N P L (n & cvr & ln & u & e1 & H1 & _ & T1) NO.
  pose proof (reach_inv _ _ R) as I. pose proof (inv_wf _ _ I) as W.
  destruct (act_id_matching_token_state (w_lk w) st) as [i|] eqn:M.
  - apply state_some in M as E. destruct E as (e0 & cvr0 & ln0 & u0 & H0 & <- & T0).
    destruct (get_account O w I e0 H0) as (act & AC & NA & CA).
    destruct (account_redirect_uri O act (w_http w) (w_https w)) as [ru|m|] eqn:RU.
    2:{ exfalso. exact (redirect_known O w e0 cvr0 ln0 st u0 act m R H0 T0 AC RU). }
    2:{ exfalso. exact (redirect_uri_no_panic O w I act RU). }
    erewrite http_val; try eassumption; [rewrite set_lk_same, emit_nil; reflexivity|].
    unfold http_start. rewrite P. unfold find_pair. rewrite L, M, CA. cbn [bind]. rewrite RU. cbn [bind].
    match goal with |- (if negb ?b then _ else _) = _ => destruct b eqn:B end; [|reflexivity].
    exfalso. apply same_origin_dec in B.
    apply (NO (d_name e0) cvr0 ln0 u0 act ru); auto. exists e0. repeat split; assumption.
  - exfalso. unfold act_id_matching_token_state in M.
    destruct (find _ (details (w_lk w))) as [e0|] eqn:F; [discriminate|].
    apply (find_none _ _ F) in H1. rewrite T1, str_eqb_refl in H1. discriminate.
Qed.

(** * Malformed requests (C41) *)

Lemma undocumented O w e req :
  reachable O w -> w_alive w = true -> nth_error (w_threads w) 0 = Some PMain -> e_client e = Some req ->
  ~ documented req ->
  step O w (LTick 0 e) = SNext (emit w [OClient req])
  \/ exists txt, step O w (LTick 0 e)
       = SNext (emit (set_thread w 0 (do_all [AEmit (OReply req txt)] PMain)) [OClient req]).
Proof.
  intros R A N EC ND.
  assert (match request O e w req with
          | Val r => exists txt, r = (w_lk w, do_all [AEmit (OReply req txt)] PMain, [])
          | Err _ => True
          | Panic => False
          end) as K.
  { unfold request. destruct (split_first ":"%char req) as [[cmd rest]|] eqn:SP; [|exact Logic.I].
    apply split_first_some in SP as [-> _].
    unfold from_utf8 at 1. destruct (utf8_valid cmd); [|exact Logic.I]. cbn [bind].
    unfold dispatch.
    destruct (str_eqb_spec cmd $"dump") as [->|N1].
    { destruct rest as [|c r]; [exfalso; apply ND; constructor|]. eexists. reflexivity. }
    destruct (str_eqb_spec cmd $"info") as [->|N2].
    { destruct rest as [|c r]; [exfalso; apply ND; constructor|]. eexists. reflexivity. }
    destruct (str_eqb_spec cmd $"reload") as [->|N3].
    { destruct rest as [|c r]; [exfalso; apply ND; constructor|]. eexists. reflexivity. }
    cbn [andb].
    destruct (str_eqb_spec cmd $"refresh") as [->|N4].
    { unfold req_refresh, from_utf8. destruct (utf8_valid rest) eqn:UV; [|exact Logic.I]. cbn [bind].
      destruct (split_first " "%char rest) as [[wu n]|] eqn:S2; [|exact Logic.I].
      exfalso. apply split_first_some in S2 as [-> NI]. apply ND. apply (doc_refresh wu n NI UV). }
    destruct (str_eqb_spec cmd $"restore") as [->|N5].
    { exfalso. apply ND. apply (doc_restore rest). }
    destruct (str_eqb_spec cmd $"revoke") as [->|N6].
    { unfold req_revoke, from_utf8. destruct (utf8_valid rest) eqn:UV; [|exact Logic.I].
      exfalso. apply ND. apply (doc_revoke rest UV). }
    destruct (str_eqb_spec cmd $"showtoken") as [->|N7].
    { unfold req_showtoken, from_utf8. destruct (utf8_valid rest) eqn:UV; [|exact Logic.I]. cbn [bind].
      destruct (split_first " "%char rest) as [[wu n]|] eqn:S2; [|exact Logic.I].
      exfalso. apply split_first_some in S2 as [-> NI]. apply ND. apply (doc_show wu n NI UV). }
    destruct (str_eqb_spec cmd $"shutdown") as [->|N8].
    { destruct rest as [|c r]; [exfalso; apply ND; constructor|]. eexists. reflexivity. }
    destruct (str_eqb_spec cmd $"status") as [->|N9].
    { destruct rest as [|c r]; [exfalso; apply ND; constructor|]. eexists. reflexivity. }
    cbn [andb]. eexists. reflexivity. }
  destruct (request O e w req) as [r|m|] eqn:E; [|left; eapply main_err; eassumption|contradiction].
  destruct K as [txt ->]. right. exists txt. erewrite main_val; try eassumption. rewrite set_lk_same. reflexivity.
Qed.

(** Requests that only ask. *)
Lemma query_request O w e req :
  reachable O w -> w_alive w = true -> nth_error (w_threads w) 0 = Some PMain -> e_client e = Some req ->
  req = $"dump:" \/ req = $"info:" \/ req = $"status:" -> ~ breaks_down O w (LTick 0 e) ->
  step O w (LTick 0 e) = SNext (emit w [OClient req])
  \/ exists txt, step O w (LTick 0 e)
       = SNext (emit (set_thread w 0 (do_all [AEmit (OReply req txt)] PMain)) [OClient req]).
Proof.
  intros R A N EC D NB.
  assert (match request O e w req with
          | Val r => exists txt, r = (w_lk w, do_all [AEmit (OReply req txt)] PMain, [])
          | Err _ => True
          | Panic => False
          end) as K.
  { destruct D as [ -> |[ -> | -> ]].
    - change (request O e w $"dump:") with
        ((d <- auth_dump O (w_lk w) (e_clk e) (e_hash e) (e_nonce e) ;; Val (w_lk w, reply $"dump:" d, [])) : cs).
      destruct (auth_dump O (w_lk w) (e_clk e) (e_hash e) (e_nonce e)) as [d|m|] eqn:D.
      + eexists. reflexivity.
      + exact Logic.I.
      + exfalso. revert D. apply (auth_dump_no_panic O w (reach_inv _ _ R)).
    - eexists. reflexivity.
    - rewrite status_request. unfold req_status.
      destruct (status_lines O (w_lk w) (e_clk e) 0 (act_ids (w_lk w))) as [l|m|] eqn:SL.
      + eexists. reflexivity.
      + exact Logic.I.
      + exfalso. destruct (status_lines_ok O w (reach_inv _ _ R) (e_clk e) (details (w_lk w)) 0 (incl_refl _))
          as [[l SL']|(_ & k & e0 & N0 & F0)]; [change (map d_id (details (w_lk w))) with (act_ids (w_lk w)) in SL'; congruence|].
        apply NB. eapply bd_status; eassumption. }
  destruct (request O e w req) as [r|m|] eqn:E; [|left; eapply main_err; eassumption|contradiction].
  destruct K as [txt ->]. right. exists txt. erewrite main_val; try eassumption. rewrite set_lk_same. reflexivity.
Qed.
