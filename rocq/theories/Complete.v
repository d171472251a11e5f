(** What a browser request with a known state does, and authorisations from the
    first request to the token, started in any state of the server. *)
From Verif Require Import Base BaseLemmas Time Utf8 Base64 Url Json Oracles Config Dump State Http Timers Server
  StateLemmas SpecServer Steps Inv Reach Own Trace Basic Decide Refresh Exchange SpecRestore Client ClientLemmas.

(** ** Matching callbacks *)

Section Callback.
Variables (O : oracles) (w : world) (tid : nat) (e : env) (https : bool) (bytes : str)
  (uri : url) (n cvr st : str) (i : account_id) (ln : option Z) (u : url) (act : account) (ru : url).
Hypothesis R : reachable O w.
Hypothesis A : w_alive w = true.
Hypothesis N : nth_error (w_threads w) tid = Some (PHttpStart https bytes).
Hypothesis P : parse_get O https bytes = Some uri.
Hypothesis L : lookup $"state" (query_pairs uri) = Some st.
Hypothesis H : In (mkEntry n i (TSPending cvr ln st u)) (details (w_lk w)).
Hypothesis U : forall m, awaits w m st -> m = n.
Hypothesis CF : configured w n act.
Hypothesis RU : account_redirect_uri O act (w_http w) (w_https w) = Val ru.
Hypothesis SO : same_origin ru uri.

Lemma callback_id : act_id_matching_token_state (w_lk w) st = Some i.
Proof.
  pose proof (reach_inv _ _ R) as I. pose proof (inv_wf _ _ I) as W.
  destruct (act_id_matching_token_state (w_lk w) st) as [j|] eqn:M.
  - apply state_some in M. destruct M as (e0 & cvr0 & ln0 & u0 & H0 & <- & T0).
    assert (d_name e0 = n) as E.
    { apply U. exists cvr0, ln0, u0. exists e0. repeat split; assumption. }
    f_equal. change i with (d_id (mkEntry n i (TSPending cvr ln st u))). f_equal.
    apply (wf_name_inj _ _ _ W H0 H). exact E.
  - exfalso. unfold act_id_matching_token_state in M.
    destruct (find _ (details (w_lk w))) as [e0|] eqn:F; [discriminate|].
    apply (find_none _ _ F) in H. cbn [d_ts] in H. rewrite str_eqb_refl in H. discriminate.
Qed.

Lemma callback_account : ct_account (w_lk w) i = Val act.
Proof.
  pose proof (reach_inv _ _ R) as I. pose proof (inv_wf _ _ I) as W.
  exact (ct_account_in _ _ act W H CF).
Qed.

Lemma callback_code code :
  lookup $"error" (query_pairs uri) = None -> lookup $"code" (query_pairs uri) = Some code ->
  exists resp,
    step O w (LTick tid e)
    = SNext (set_thread w tid
        (do_all [AEmit (OHttpResp (http_200 resp))]
           (PHttpPost i (a_token_uri act)
              ([($"code", code); ($"client_id", a_client_id act); ($"code_verifier", cvr);
                ($"redirect_uri", url_to_str ru); ($"grant_type", $"authorization_code")]
               ++ match a_client_secret act with Some x => [($"client_secret", x)] | None => [] end) 10))).
Proof.
  intros LE LC. pose proof (reach_inv _ _ R) as I. pose proof (inv_wf _ _ I) as W. eexists.
  erewrite http_val; try eassumption; [rewrite set_lk_same, emit_nil; reflexivity|].
  unfold http_start. rewrite P. unfold find_pair. rewrite L, callback_id, callback_account. cbn [bind].
  rewrite RU. cbn [bind]. rewrite (proj2 (same_origin_dec _ _) SO). cbn [negb].
  rewrite LE, LC. pose proof (ct_tokenstate_in _ _ W H) as CT. cbn [d_id d_ts] in CT. rewrite CT. reflexivity.
Qed.

Lemma callback_refused reason :
  lookup $"error" (query_pairs uri) = Some reason ->
  exists lk', becomes w lk' n TSEmpty
    /\ step O w (LTick tid e)
       = SNext (set_thread (set_lk w lk') tid
           (do_all [AEmit (OHttpResp ($"HTTP/1.1 400" ++ [cr; nl; cr; nl]))]
              (PHttpNotify n ($"Authentication for " ++ n ++ $" failed: " ++ reason) false))).
Proof.
  intros LE. pose proof (reach_inv _ _ R) as I. pose proof (inv_wf _ _ I) as W.
  exists (bump 0 (w_lk w) i TSEmpty). split; [apply (bump_becomes w 0 _ TSEmpty W H)|].
  erewrite http_val; try eassumption; [rewrite emit_nil; reflexivity|].
  unfold http_start. rewrite P. unfold find_pair. rewrite L, callback_id, callback_account. cbn [bind].
  rewrite RU. cbn [bind]. rewrite (proj2 (same_origin_dec _ _) SO). cbn [negb].
  rewrite LE. pose proof (tokenstate_replace_in _ _ TSEmpty W H) as TR. cbn [d_id] in TR. rewrite TR. cbn [bind].
  destruct (wf_account _ _ W H) as (act' & L' & NM). cbn [d_name] in L', NM.
  pose proof (bump_in_new 0 (w_lk w) _ TSEmpty H) as H'. cbn [d_name d_id] in H'.
  pose proof (ct_account_in _ _ act' (bump_wf 0 _ i TSEmpty W) H' L') as CA. cbn [d_id] in CA.
  rewrite N.add_0_r in CA. rewrite CA. cbn [bind]. rewrite NM. reflexivity.
Qed.

Lemma callback_useless :
  lookup $"error" (query_pairs uri) = None -> lookup $"code" (query_pairs uri) = None ->
  step O w (LTick tid e)
  = SNext (set_thread w tid (do_all [AEmit (OHttpResp ($"HTTP/1.1 400" ++ [cr; nl; cr; nl]))] PDone)).
Proof.
  intros LE LC.
  erewrite http_val; try eassumption; [rewrite set_lk_same, emit_nil; reflexivity|].
  unfold http_start. rewrite P. unfold find_pair. rewrite L, callback_id, callback_account. cbn [bind].
  rewrite RU. cbn [bind]. rewrite (proj2 (same_origin_dec _ _) SO). cbn [negb].
  rewrite LE, LC. reflexivity.
Qed.

End Callback.

(** ** Uninterrupted runs *)

Lemma run_cat O l1 : forall w w1 l2, run O w l1 = Some (SNext w1) -> run O w (l1 ++ l2) = run O w1 l2.
Proof.
  induction l1 as [|l l1 IH]; cbn [run app]; intros w w1 l2 H.
  - injection H as <-. reflexivity.
  - destruct (step O w l) as [| |w']; try discriminate H. apply IH. exact H.
Qed.

Lemma run_one O w l w' : step O w l = SNext w' -> run O w [l] = Some (SNext w').
Proof. intros H. cbn [run]. rewrite H. reflexivity. Qed.

Lemma run_reach O w ls w' : reachable O w -> run O w ls = Some (SNext w') -> reachable O w'.
Proof. intros R H. eapply steps_reachable; [exact R|]. apply (run_steps _ _ _ _ H). Qed.

Definition quiet (a : action) : bool :=
  match a with ASpawnRefresh _ | AHalt => false | _ => true end.

(** [w'] is [w] but for thread [tid], which is at [k], the observations [os]
    and who is to be woken. *)
Record gone_on (w w' : world) (tid : nat) (k : pc) (os : list obs) : Prop := mkGone {
  go_lk : w_lk w' = w_lk w;
  go_http : w_http w' = w_http w;
  go_https : w_https w' = w_https w;
  go_alive : w_alive w' = w_alive w;
  go_threads : w_threads w' = list_set tid k (w_threads w);
  go_trace : w_trace w' = w_trace w ++ os;
}.

Lemma list_set_again {A} (x y : A) l : forall j, list_set j x (list_set j y l) = list_set j x l.
Proof.
  induction l as [|z l IH]; intros [|j]; cbn [list_set]; try reflexivity. f_equal. apply IH.
Qed.

Lemma list_set_here {A} (x : A) l : forall j, nth_error l j = Some x -> list_set j x l = l.
Proof.
  induction l as [|z l IH]; intros [|j] H; cbn [list_set nth_error] in *; try discriminate H.
  - injection H as ->. reflexivity.
  - f_equal. apply IH. exact H.
Qed.

Lemma acts_run O tid k acts : forall w es,
  w_alive w = true -> nth_error (w_threads w) tid = Some (do_all acts k) ->
  forallb quiet acts = true -> List.length es = List.length acts ->
  exists w', run O w (map (LTick tid) es) = Some (SNext w')
    /\ gone_on w w' tid k (flat_map action_obs acts).
Proof.
  induction acts as [|a acts IH]; intros w es A N Q LN; destruct es as [|e es]; try discriminate LN.
  - exists w. split; [reflexivity|]. constructor; try reflexivity.
    + rewrite list_set_here; [reflexivity|exact N].
    + rewrite app_nil_r. reflexivity.
  - cbn [forallb] in Q. apply andb_true_iff in Q as [Q1 Q2]. cbn [List.length] in LN. injection LN as LN.
    cbn [do_all fold_right] in N. fold (do_all acts k) in N.
    pose proof (step_at O w tid _ e A N) as S. cbn [step_thread] in S.
    set (w1 := do_action (set_thread w tid (do_all acts k)) a) in *.
    assert (gone_on w w1 tid (do_all acts k) (action_obs a)) as G.
    { destruct a; try discriminate Q1; constructor; cbn; try reflexivity; rewrite app_nil_r; reflexivity. }
    destruct (IH w1 es) as (w' & RN & G').
    { rewrite (go_alive _ _ _ _ _ G). exact A. }
    { rewrite (go_threads _ _ _ _ _ G). eapply nth_list_set_same. exact N. }
    { exact Q2. }
    { exact LN. }
    exists w'. split; [cbn [map run]; rewrite S; exact RN|].
    destruct G as [g1 g2 g3 g4 g5 g6]. destruct G' as [h1 h2 h3 h4 h5 h6]. constructor; try congruence.
    + rewrite h5, g5, list_set_again. reflexivity.
    + rewrite h6, g6, <- app_assoc. reflexivity.
Qed.

(** ** A complete authorisation *)

Lemma authorisation_works O w n act nu nu' (hs : bool) bytes uri ru code body v tok exs
    (e1 f1 f2 e3 f3 e4 e5 g1 g2 g3 e6 f6 : env) :
  url_laws O -> reachable O w -> asked w e1 (client_request (CShow nu n)) -> utf8_valid n = true ->
  holds w n TSEmpty -> configured w n act ->
  (forall m, ~ awaits w m (b64_encode (e_state_bytes e1))) ->
  (if hs then w_https w else w_http w) <> None ->
  account_redirect_uri O act (w_http w) (w_https w) = Val ru ->
  parse_get O hs bytes = Some uri -> same_origin ru uri ->
  lookup $"state" (query_pairs uri) = Some (b64_encode (e_state_bytes e1)) ->
  lookup $"error" (query_pairs uri) = None -> lookup $"code" (query_pairs uri) = Some code ->
  e_post e4 = PRBody body -> o_json O body = inl v -> grants v tok exs ->
  (env_now e5 + exs * 1000000000 <= time_max)%Z ->
  e_client e6 = Some (client_request (CShow nu' n)) -> (env_now e6 < env_now e5 + exs * 1000000000)%Z ->
  let tid := List.length (w_threads w) in
  exists u resp w',
    auth_url O (w_http w) (w_https w) act (b64_encode (e_verifier_bytes e1)) (b64_encode (e_state_bytes e1)) u
    /\ run O w (map (LTick 0) [e1; f1; f2] ++ [LHttpConn hs bytes]
                ++ map (LTick tid) [e3; f3; e4; e5; g1; g2; g3] ++ map (LTick 0) [e6; f6]) = Some (SNext w')
    /\ w_trace w' = w_trace w ++
         [OClient (client_request (CShow nu n)); OAuthUrl n u;
          OReply (client_request (CShow nu n)) ($"pending:" ++ if nu then [] else url_to_str u);
          OHttpIn hs bytes; OHttpResp (http_200 resp);
          OPost (a_token_uri act)
            ([($"code", code); ($"client_id", a_client_id act);
              ($"code_verifier", b64_encode (e_verifier_bytes e1));
              ($"redirect_uri", url_to_str ru); ($"grant_type", $"authorization_code")]
             ++ match a_client_secret act with Some x => [($"client_secret", x)] | None => [] end) (PRBody body);
          OEvent n EvNew;
          OClient (client_request (CShow nu' n));
          OReply (client_request (CShow nu' n)) ($"access_token:" ++ tok)]
    /\ becomes w (w_lk w') n
         (TSActive (mkActive tok (env_now e5) (env_now e5 + exs * 1000000000) (json_str $"refresh_token" v) false 0 None))
    /\ w_alive w' = true /\ nth_error (w_threads w') 0 = Some PMain.
Proof.
  intros UL R AK U8 HE CF FR LI RU PG SO LS LE LC EP JS GR TM EC LT tid.
  pose proof AK as (A & N0 & _).
  assert (0 < tid) as TP by (unfold tid; apply nth_error_Some; congruence).
  (* the client asks *)
  destruct (show_served_empty O w e1 nu n act R AK U8 UL HE CF) as (u & lk1 & AU & BE & ST1).
  set (cvr := b64_encode (e_verifier_bytes e1)) in *. set (st := b64_encode (e_state_bytes e1)) in *.
  match type of ST1 with _ = SNext ?x => set (w1 := x) in * end.
  assert (reachable O w1) as R1 by (eapply reach_step; [exact R|exact ST1]).
  assert (nth_error (w_threads w1) 0 = Some (do_all [ASigNotifier; AEmit (OReply (client_request (CShow nu n))
     ($"pending:" ++ if nu then [] else url_to_str u))] PMain)) as N1
    by (unfold w1; cbn [w_threads emit set_thread set_lk]; eapply nth_list_set_same; exact N0).
  destruct (acts_run O 0 PMain _ w1 [f1; f2] A N1 eq_refl eq_refl) as (w2 & RN2 & G2).
  assert (reachable O w2) as R2 by (eapply run_reach; [exact R1|exact RN2]).
  destruct G2 as [l2 p2 s2 a2 t2 o2].
  (* the browser connects *)
  set (w3 := emit (add_thread w2 (PHttpStart hs bytes)) [OHttpIn hs bytes]).
  assert (w_alive w2 = true) as A2 by (rewrite a2; exact A).
  assert (step O w2 (LHttpConn hs bytes) = SNext w3) as ST3.
  { unfold step. rewrite A2. cbn [negb].
    replace (is_some (if hs then w_https w2 else w_http w2)) with true; [reflexivity|].
    destruct hs; [rewrite s2|rewrite p2]; unfold w1; cbn [w_https w_http emit set_thread set_lk].
    - destruct (w_https w); [reflexivity|]. exfalso; apply LI; reflexivity.
    - destruct (w_http w); [reflexivity|]. exfalso; apply LI; reflexivity. }
  assert (reachable O w3) as R3 by (eapply reach_step; [exact R2|exact ST3]).
  assert (List.length (w_threads w2) = tid) as LN2.
  { rewrite t2, list_set_length. unfold w1. cbn [w_threads emit set_thread set_lk]. rewrite list_set_length. reflexivity. }
  assert (nth_error (w_threads w3) tid = Some (PHttpStart hs bytes)) as N3.
  { unfold w3. cbn [w_threads emit add_thread]. rewrite nth_error_app2, LN2, Nat.sub_diag; [reflexivity|lia]. }
  assert (w_lk w3 = lk1) as L3 by (unfold w3; cbn [w_lk emit add_thread]; rewrite l2; reflexivity).
  destruct BE as ((e0 & H0 & NM0 & TS0) & CN1 & OT1). cbn [w_lk set_lk] in H0.
  set (i := d_id e0).
  assert (In (mkEntry n i (TSPending cvr None st u)) (details (w_lk w3))) as H3.
  { rewrite L3. rewrite <- NM0, <- TS0. destruct e0. exact H0. }
  assert (configured w3 n act) as CF3.
  { unfold configured in *. rewrite L3, CN1. exact CF. }
  assert (forall m, awaits w3 m st -> m = n) as UN.
  { intros m (c0 & ln0 & u0 & x & HX & NX & TX). destruct (list_eq_dec Ascii.ascii_dec m n) as [E|NE]; [exact E|].
    exfalso. apply (FR m). exists c0, ln0, u0, x. repeat split; try assumption.
    rewrite L3 in HX. apply OT1; [rewrite NX; exact NE|exact HX]. }
  assert (account_redirect_uri O act (w_http w3) (w_https w3) = Val ru) as RU3.
  { unfold w3. cbn [w_http w_https emit add_thread]. rewrite p2, s2. exact RU. }
  assert (w_alive w3 = true) as A3 by exact A2.
  destruct (callback_code O w3 tid e3 hs bytes uri n cvr st i None u act ru R3 A3 N3 PG LS H3 UN CF3 RU3 SO code LE LC)
    as (resp & ST4).
  match type of ST4 with context [do_all ?l ?k] => set (acts4 := l) in *; set (k4 := k) in * end.
  match type of ST4 with _ = SNext ?x => set (w4 := x) in * end.
  assert (reachable O w4) as R4 by (eapply reach_step; [exact R3|exact ST4]).
  assert (nth_error (w_threads w4) tid = Some (do_all acts4 k4)) as N4
    by (unfold w4; cbn [w_threads set_thread]; eapply nth_list_set_same; exact N3).
  destruct (acts_run O tid k4 acts4 w4 [f3] A3 N4 eq_refl eq_refl) as (w5 & RN5 & G5).
  assert (reachable O w5) as R5 by (eapply run_reach; [exact R4|exact RN5]).
  destruct G5 as [l5 p5 s5 a5 t5 o5].
  assert (nth_error (w_threads w5) tid = Some k4) as N5
    by (rewrite t5; eapply nth_list_set_same; exact N4).
  assert (w_alive w5 = true) as A5 by (rewrite a5; exact A3).
  (* the exchange *)
  pose proof (step_at O w5 tid k4 e4 A5 N5) as ST6. unfold k4 in ST6. cbn [step_thread] in ST6. rewrite EP in ST6.
  cbn [http_post_next] in ST6.
  match type of ST6 with _ = SNext ?x => set (w6 := x) in * end.
  assert (reachable O w6) as R6 by (eapply reach_step; [exact R5|exact ST6]).
  assert (w_lk w6 = lk1) as L6 by (unfold w6; cbn [w_lk emit set_thread]; rewrite l5; exact L3).
  assert (In (mkEntry n i (TSPending cvr None st u)) (details (w_lk w6))) as H6 by (rewrite L6, <- L3; exact H3).
  assert (configured w6 n act) as CF6 by (unfold configured in *; rewrite L6, <- L3; exact CF3).
  assert (run O w5 [LTick tid e4] = Some (SNext w6)) as RN6 by (cbn [run]; rewrite ST6; reflexivity).
  assert (map e_post (own_envs tid [LTick tid e4]) = [PRBody body]) as OE.
  { unfold own_envs. cbn [flat_map]. rewrite Nat.eqb_refl. cbn [map app]. rewrite EP. reflexivity. }
  destruct (exchange_ok O w5 tid i _ _ 10 [PRBody body] body [LTick tid e4] w6 e5 v tok exs n _ act
              R5 N5 RN6 A5 OE ltac:(apply at_last; discriminate) JS GR H6 CF6) as (lk7 & ST7).
  cbn zeta in ST7. rewrite (proj2 (Z.leb_le _ _) TM) in ST7. destruct ST7 as [BE7 ST7].
  match type of ST7 with _ = SNext ?x => set (w7 := x) in * end.
  assert (reachable O w7) as R7 by (eapply reach_step; [exact R6|exact ST7]).
  assert (nth_error (w_threads w6) tid = Some (PHttpBody i body)) as N6
    by (unfold w6; cbn [w_threads emit set_thread]; eapply nth_list_set_same; exact N5).
  assert (nth_error (w_threads w7) tid = Some (do_all [ASigRefresher; APushEvent n EvNew; ASigEventer] PDone)) as N7
    by (unfold w7; cbn [w_threads set_thread set_lk]; eapply nth_list_set_same; exact N6).
  destruct (acts_run O tid PDone _ w7 [g1; g2; g3] A5 N7 eq_refl eq_refl) as (w8 & RN8 & G8).
  assert (reachable O w8) as R8 by (eapply run_reach; [exact R7|exact RN8]).
  destruct G8 as [l8 p8 s8 a8 t8 o8].
  assert (w_alive w8 = true) as A8 by (rewrite a8; exact A5).
  assert (nth_error (w_threads w8) 0 = Some PMain) as N8.
  { rewrite t8. unfold w7, w6. cbn [w_threads set_thread set_lk emit]. rewrite t5. unfold w4, w3.
    cbn [w_threads set_thread emit add_thread]. rewrite !nth_error_list_set_ne by lia.
    rewrite nth_error_app1 by (rewrite LN2; exact TP). rewrite t2. eapply nth_list_set_same. exact N1. }
  (* the client asks again *)
  set (nw := TSActive (mkActive tok (env_now e5) (env_now e5 + exs * 1000000000) (json_str $"refresh_token" v) false 0 None)) in *.
  assert (holds w8 n nw) as H8.
  { destruct BE7 as ((x & HX & NX & TX) & _). exists x. repeat split; try assumption. rewrite l8. exact HX. }
  assert (asked w8 e6 (client_request (CShow nu' n))) as AK8 by (repeat split; assumption).
  pose proof (proj2 (proj2 (show_served O w8 e6 nu' n R8 AK8 U8)) _ H8 LT) as ST9. unfold just_answers in ST9.
  cbn [access_token] in ST9.
  match type of ST9 with _ = SNext ?x => set (w9 := x) in * end.
  assert (nth_error (w_threads w9) 0 = Some (do_all [AEmit (OReply (client_request (CShow nu' n)) ($"access_token:" ++ tok))] PMain)) as N9
    by (unfold w9; cbn [w_threads emit set_thread]; eapply nth_list_set_same; exact N8).
  destruct (acts_run O 0 PMain _ w9 [f6] A8 N9 eq_refl eq_refl) as (w10 & RN10 & G10).
  destruct G10 as [l10 p10 s10 a10 t10 o10].
  exists u, resp, w10. split; [exact AU|]. split; [|split; [|split; [|split]]].
  - change (run O w ([LTick 0 e1] ++ map (LTick 0) [f1; f2] ++ [LHttpConn hs bytes] ++ [LTick tid e3]
      ++ map (LTick tid) [f3] ++ [LTick tid e4] ++ [LTick tid e5] ++ map (LTick tid) [g1; g2; g3]
      ++ [LTick 0 e6] ++ map (LTick 0) [f6]) = Some (SNext w10)).
    rewrite (run_cat _ _ _ _ _ (run_one _ _ _ _ ST1)), (run_cat _ _ _ _ _ RN2),
      (run_cat _ _ _ _ _ (run_one _ _ _ _ ST3)), (run_cat _ _ _ _ _ (run_one _ _ _ _ ST4)),
      (run_cat _ _ _ _ _ RN5), (run_cat _ _ _ _ _ RN6), (run_cat _ _ _ _ _ (run_one _ _ _ _ ST7)),
      (run_cat _ _ _ _ _ RN8), (run_cat _ _ _ _ _ (run_one _ _ _ _ ST9)). exact RN10.
  - rewrite o10. unfold w9. cbn [w_trace emit set_thread]. rewrite o8. unfold w7, w6. cbn [w_trace set_thread set_lk emit].
    rewrite o5. unfold w4, w3. cbn [w_trace set_thread emit add_thread]. rewrite o2. unfold w1. cbn [w_trace emit set_thread set_lk].
    unfold acts4. cbn [flat_map action_obs app]. rewrite <- !app_assoc. reflexivity.
  - rewrite l10. unfold w9. cbn [w_lk emit set_thread]. rewrite l8. unfold w7. cbn [w_lk set_thread set_lk].
    destruct BE7 as (HX & CN7 & OT7). split; [exact HX|]. split.
    + rewrite CN7, L6. exact CN1.
    + intros x NX. rewrite (OT7 x NX), L6. apply OT1. exact NX.
  - rewrite a10. exact A8.
  - rewrite t10. eapply nth_list_set_same. exact N9.
Qed.

(** ** A complete refresh *)

Lemma refresh_begins O w tid e n i a r act :
  reachable O w -> w_alive w = true -> nth_error (w_threads w) tid = Some (PRefStart i) ->
  In (mkEntry n i (TSActive a)) (details (w_lk w)) -> configured w n act ->
  ongoing a = false -> refresh_token a = Some r ->
  let a' := mkActive (access_token a) (obtained a) (expiry a) (Some r) true (fails a) (Some (env_now e)) in
  exists lk' i',
    becomes w lk' n (TSActive a') /\ In (mkEntry n i' (TSActive a')) (details lk')
    /\ step O w (LTick tid e)
       = SNext (set_thread (set_lk w lk') tid
           (PRefPost i' n r (a_token_uri act)
              ([($"client_id", a_client_id act); ($"refresh_token", r); ($"grant_type", $"refresh_token")]
               ++ match a_client_secret act with Some x => [($"client_secret", x)] | None => [] end))).
Proof.
  intros R A N H CF OG RT a'. pose proof (inv_wf _ _ (reach_inv _ _ R)) as W.
  set (e0 := mkEntry n i (TSActive a)) in *.
  set (t1 := TSActive (set_ongoing a true)).
  exists (bump 1 (w_lk w) i (TSActive a')), (account_count (w_lk w) + 1)%N.
  split; [apply (bump_becomes w 1 e0 (TSActive a') W H)|].
  split; [apply (bump_in_new 1 (w_lk w) e0 (TSActive a') H)|].
  rewrite (step_at O w tid _ e A N). cbn [step_thread]. unfold ref_start.
  change i with (d_id e0). rewrite (is_valid w e0 H), (ct_tokenstate_in _ _ W H). cbn [bind d_ts e0]. fold e0. rewrite OG.
  rewrite (tokenstate_replace_in _ _ _ W H). cbn [bind].
  destruct (wf_account _ _ W H) as (act' & L' & NM). change (d_name e0) with n in L', NM.
  assert (act' = act) as -> by (unfold configured, account_of in *; congruence).
  pose proof (ct_account_new 0 (w_lk w) e0 (TSActive (set_ongoing a true)) act W H L') as CN.
  pose proof (ct_tokenstate_new 0 (w_lk w) e0 (TSActive (set_ongoing a true)) W H) as TN.
  rewrite N.add_0_r in CN, TN. rewrite CN. cbn [bind]. rewrite TN. cbn [bind].
  change (refresh_token (set_ongoing a true)) with (refresh_token a). rewrite RT.
  pose proof (replace_new (w_lk w) e0 (TSActive (set_ongoing a true))
    (TSActive (set_attempt (set_ongoing a true) (Some (env_now e)) (fails (set_ongoing a true)))) W H) as RN.
  rewrite RN. cbn [bind]. rewrite (ct_account_new 1 _ _ _ act W H L'). cbn [bind run_cs]. rewrite emit_nil, NM.
  assert (set_attempt (set_ongoing a true) (Some (env_now e)) (fails (set_ongoing a true)) = a') as ->.
  { unfold a'. rewrite <- RT. reflexivity. }
  reflexivity.
Qed.

Lemma refresh_works O w n act nu nu' a i r body v tok exs (e1 f1 f2 e3 e4 e5 e6 g1 g2 g3 e7 f7 : env) :
  reachable O w -> asked w e1 (client_request (CRefresh nu n)) -> utf8_valid n = true ->
  In (mkEntry n i (TSActive a)) (details (w_lk w)) -> configured w n act ->
  ongoing a = false -> refresh_token a = Some r ->
  e_post e4 = PRBody body -> o_json O body = inl v -> grants v tok exs ->
  (env_now e5 + exs * 1000000000 <= time_max)%Z ->
  e_client e7 = Some (client_request (CShow nu' n)) -> (env_now e7 < env_now e5 + exs * 1000000000)%Z ->
  let tid := List.length (w_threads w) in
  exists w',
    run O w (map (LTick 0) [e1; f1; f2] ++ map (LTick tid) [e3; e4; e5; e6; g1; g2; g3]
             ++ map (LTick 0) [e7; f7]) = Some (SNext w')
    /\ w_trace w' = w_trace w ++
         [OClient (client_request (CRefresh nu n)); OReply (client_request (CRefresh nu n)) $"scheduled:";
          OPost (a_token_uri act)
            ([($"client_id", a_client_id act); ($"refresh_token", r); ($"grant_type", $"refresh_token")]
             ++ match a_client_secret act with Some x => [($"client_secret", x)] | None => [] end) (PRBody body);
          OEvent n EvRefresh;
          OClient (client_request (CShow nu' n));
          OReply (client_request (CShow nu' n)) ($"access_token:" ++ tok)]
    /\ becomes w (w_lk w') n
         (TSActive (mkActive tok (env_now e5) (env_now e5 + exs * 1000000000)
            (match json_get $"refresh_token" v with
             | None => Some r | Some (JStr x) => Some x | Some _ => None end) false 0 None))
    /\ w_alive w' = true /\ nth_error (w_threads w') 0 = Some PMain.
Proof.
  intros R AK U8 H CF OG RT EP JS GR TM EC LT tid.
  pose proof AK as (A & N0 & _).
  assert (0 < tid) as TP by (unfold tid; apply nth_error_Some; congruence).
  (* the client asks *)
  pose proof (proj2 (refresh_served O w e1 nu n R AK U8) i a H) as ST1.
  match type of ST1 with _ = SNext ?x => set (w1 := x) in * end.
  assert (reachable O w1) as R1 by (eapply reach_step; [exact R|exact ST1]).
  assert (nth_error (w_threads w1) 0
          = Some (do_all [ASpawnRefresh i; AEmit (OReply (client_request (CRefresh nu n)) $"scheduled:")] PMain)) as N1
    by (unfold w1; cbn [w_threads emit set_thread]; eapply nth_list_set_same; exact N0).
  pose proof (step_at O w1 0 _ f1 A N1) as ST2. cbn [step_thread do_all fold_right do_action] in ST2.
  match type of ST2 with _ = SNext ?x => set (w2 := x) in * end.
  assert (reachable O w2) as R2 by (eapply reach_step; [exact R1|exact ST2]).
  assert (nth_error (w_threads w2) 0
          = Some (do_all [AEmit (OReply (client_request (CRefresh nu n)) $"scheduled:")] PMain)) as N2.
  { unfold w2. cbn [w_threads add_thread set_thread]. rewrite nth_error_app1.
    - eapply nth_list_set_same. exact N1.
    - rewrite list_set_length. unfold w1. cbn [w_threads emit set_thread]. rewrite list_set_length. exact TP. }
  destruct (acts_run O 0 PMain _ w2 [f2] A N2 eq_refl eq_refl) as (w3 & RN3 & G3).
  assert (reachable O w3) as R3 by (eapply run_reach; [exact R2|exact RN3]).
  destruct G3 as [l3 p3 s3 a3 t3 o3].
  assert (w_alive w3 = true) as A3 by (rewrite a3; exact A).
  assert (nth_error (w_threads w3) tid = Some (PRefStart i)) as N3.
  { rewrite t3. rewrite nth_error_list_set_ne by lia. unfold w2. cbn [w_threads add_thread set_thread].
    rewrite nth_error_app2; rewrite list_set_length; unfold w1; cbn [w_threads emit set_thread];
      rewrite list_set_length; fold tid; [rewrite Nat.sub_diag; reflexivity|lia]. }
  assert (w_lk w3 = w_lk w) as L3 by (rewrite l3; reflexivity).
  (* the refresh *)
  assert (In (mkEntry n i (TSActive a)) (details (w_lk w3))) as H3 by (rewrite L3; exact H).
  assert (configured w3 n act) as CF3 by (unfold configured in *; rewrite L3; exact CF).
  destruct (refresh_begins O w3 tid e3 n i a r act R3 A3 N3 H3 CF3 OG RT) as (lk4 & i4 & BE4 & H4 & ST4).
  cbn zeta in *.
  match type of H4 with In (mkEntry _ _ (TSActive ?x)) _ => set (a4 := x) in * end.
  match type of ST4 with context [PRefPost ?j ?m ?t ?u ?p] => set (pairs := p) in *; set (k4 := PRefPost j m t u p) in * end.
  match type of ST4 with _ = SNext ?x => set (w4 := x) in * end.
  assert (reachable O w4) as R4 by (eapply reach_step; [exact R3|exact ST4]).
  assert (nth_error (w_threads w4) tid = Some k4) as N4
    by (unfold w4; cbn [w_threads set_thread set_lk]; eapply nth_list_set_same; exact N3).
  pose proof (step_at O w4 tid k4 e4 A3 N4) as ST5. unfold k4 in ST5. cbn [step_thread] in ST5. rewrite EP in ST5.
  cbn [ref_post_next] in ST5.
  match type of ST5 with _ = SNext ?x => set (w5 := x) in * end.
  assert (nth_error (w_threads w5) tid = Some (PRefBody i4 n r body)) as N5
    by (unfold w5; cbn [w_threads emit set_thread]; eapply nth_list_set_same; exact N4).
  pose proof (step_at O w5 tid _ e5 A3 N5) as ST6. cbn [step_thread] in ST6.
  match type of ST6 with _ = SNext ?x => set (w6 := x) in * end.
  assert (run O w4 (LTick tid e4 :: [] ++ LTick tid e5 :: []) = Some (SNext w6)) as RN6
    by (cbn [run app]; rewrite ST5, ST6; reflexivity).
  assert (reachable O w6) as R6 by (eapply run_reach; [exact R4|exact RN6]).
  assert (w_alive w6 = true) as A6 by exact A3.
  destruct (refresh_granted O w4 tid i4 n r _ _ e4 body v tok exs [] e5 [] w6 e6 R4 N4 EP JS GR RN6 A6 eq_refl eq_refl)
    as [GR7 _].
  assert (In (mkEntry n i4 (TSActive a4)) (details (w_lk w6))) as H6 by exact H4.
  destruct (GR7 n (TSActive a4) H6) as (a7 & act7 & lk7 & E7 & CF7 & ST7). injection E7 as <-. cbn zeta in ST7.
  rewrite (proj2 (Z.leb_le _ _) TM) in ST7. destruct ST7 as [BE7 ST7].
  change (refresh_token a4) with (Some r) in BE7.
  match type of ST7 with _ = SNext ?x => set (w7 := x) in * end.
  assert (reachable O w7) as R7 by (eapply reach_step; [exact R6|exact ST7]).
  assert (exists q, nth_error (w_threads w6) tid = Some q) as [q6 N6].
  { unfold w6. cbn [w_threads set_thread]. eexists. eapply nth_list_set_same. exact N5. }
  assert (nth_error (w_threads w7) tid = Some (do_all [ASigRefresher; APushEvent n EvRefresh; ASigEventer] PDone)) as N7
    by (unfold w7; cbn [w_threads set_thread set_lk]; eapply nth_list_set_same; exact N6).
  destruct (acts_run O tid PDone _ w7 [g1; g2; g3] A6 N7 eq_refl eq_refl) as (w8 & RN8 & G8).
  assert (reachable O w8) as R8 by (eapply run_reach; [exact R7|exact RN8]).
  destruct G8 as [l8 p8 s8 a8 t8 o8].
  assert (w_alive w8 = true) as A8 by (rewrite a8; exact A6).
  assert (nth_error (w_threads w8) 0 = Some PMain) as N8.
  { rewrite t8. unfold w7, w6, w5, w4. cbn [w_threads set_thread set_lk emit].
    rewrite !nth_error_list_set_ne by lia. rewrite t3. eapply nth_list_set_same. exact N2. }
  (* the client asks for the token *)
  match type of BE7 with becomes _ _ _ ?t => set (nw := t) in * end.
  assert (holds w8 n nw) as H8.
  { destruct BE7 as ((x & HX & NX & TX) & _). exists x. repeat split; try assumption. rewrite l8. exact HX. }
  assert (asked w8 e7 (client_request (CShow nu' n))) as AK8 by (repeat split; assumption).
  pose proof (proj2 (proj2 (show_served O w8 e7 nu' n R8 AK8 U8)) _ H8 LT) as ST9. unfold just_answers in ST9.
  cbn [access_token] in ST9.
  match type of ST9 with _ = SNext ?x => set (w9 := x) in * end.
  assert (nth_error (w_threads w9) 0 = Some (do_all [AEmit (OReply (client_request (CShow nu' n)) ($"access_token:" ++ tok))] PMain)) as N9
    by (unfold w9; cbn [w_threads emit set_thread]; eapply nth_list_set_same; exact N8).
  destruct (acts_run O 0 PMain _ w9 [f7] A8 N9 eq_refl eq_refl) as (w10 & RN10 & G10).
  destruct G10 as [l10 p10 s10 a10 t10 o10].
  exists w10. split; [|split; [|split; [|split]]].
  - change (run O w ([LTick 0 e1] ++ [LTick 0 f1] ++ map (LTick 0) [f2] ++ [LTick tid e3]
      ++ (LTick tid e4 :: [] ++ LTick tid e5 :: []) ++ [LTick tid e6] ++ map (LTick tid) [g1; g2; g3]
      ++ [LTick 0 e7] ++ map (LTick 0) [f7]) = Some (SNext w10)).
    rewrite (run_cat _ _ _ _ _ (run_one _ _ _ _ ST1)), (run_cat _ _ _ _ _ (run_one _ _ _ _ ST2)),
      (run_cat _ _ _ _ _ RN3), (run_cat _ _ _ _ _ (run_one _ _ _ _ ST4)),
      (run_cat _ _ _ _ _ RN6), (run_cat _ _ _ _ _ (run_one _ _ _ _ ST7)),
      (run_cat _ _ _ _ _ RN8), (run_cat _ _ _ _ _ (run_one _ _ _ _ ST9)). exact RN10.
  - rewrite o10. unfold w9. cbn [w_trace emit set_thread]. rewrite o8. unfold w7, w6, w5, w4. cbn [w_trace set_thread set_lk emit].
    rewrite o3. unfold w2, w1. cbn [w_trace add_thread emit set_thread set_lk].
    cbn [flat_map action_obs app]. rewrite <- !app_assoc. reflexivity.
  - rewrite l10. unfold w9. cbn [w_lk emit set_thread]. rewrite l8. unfold w7. cbn [w_lk set_thread set_lk].
    destruct BE7 as (HX & CN7 & OT7). destruct BE4 as (_ & CN4 & OT4). split; [exact HX|]. split.
    + rewrite CN7. change (w_lk w6) with lk4. rewrite CN4, L3. reflexivity.
    + intros x NX. rewrite (OT7 x NX). change (w_lk w6) with lk4. rewrite (OT4 x NX), L3. reflexivity.
  - rewrite a10. exact A8.
  - rewrite t10. eapply nth_list_set_same. exact N9.
Qed.
