(** Pending authorisations and code exchanges (C16). *)
From Verif Require Import Base BaseLemmas Time Utf8 Base64 Url UrlLemmas Json Oracles Config Dump State Http
  Timers Server StateLemmas ConfigLemmas SpecServer Steps Inv Reach Own Trace Origin.

Definition issued (O : oracles) (hp hsp : option N) (cvr st : str) (u : url)
    (n : str) (act : account) (o : obs) : Prop :=
  o = OAuthUrl n u /\ auth_url O hp hsp act cvr st u.

Lemma same_redirect O a b hp hsp :
  same_security a b -> account_redirect_uri O a hp hsp = account_redirect_uri O b hp hsp.
Proof.
  intros (_ & _ & _ & _ & _ & E & _ & _). unfold account_redirect_uri. rewrite E. reflexivity.
Qed.

Lemma same_auth_params a b x y z : same_security a b -> auth_params a x y z = auth_params b x y z.
Proof.
  intros (_ & _ & E1 & E2 & _ & _ & E3 & _). unfold auth_params. rewrite E1, E2, E3. reflexivity.
Qed.

Lemma same_code_pairs a b x y z : same_security a b -> code_pairs a x y z = code_pairs b x y z.
Proof. intros (_ & _ & _ & E1 & E2 & _). unfold code_pairs. rewrite E1, E2. reflexivity. Qed.

Lemma same_auth_url O hp hsp a b cvr st u :
  same_security a b -> auth_url O hp hsp a cvr st u -> auth_url O hp hsp b cvr st u.
Proof.
  intros S (ru & base & RU & B & ->). exists ru, base.
  rewrite <- (same_redirect O a b hp hsp S). split; [exact RU|].
  pose proof S as (_ & E & _). rewrite <- E. split; [exact B|]. rewrite (same_auth_params a b _ _ _ S). reflexivity.
Qed.

Lemma respects_issued O hp hsp cvr st u : respects (issued O hp hsp cvr st u).
Proof. intros n a b o S [E A]. split; [exact E|]. eapply same_auth_url; eassumption. Qed.

(** The exchange a browser connection is working on. *)
Definition exch (O : oracles) (hp hsp : option N) (lk : locked) (t : list obs)
    (i : account_id) (uri : str) (pairs : list (str * str)) : Prop :=
  exists n act cvr st u code ru https bytes req_uri,
    a_name act = n /\ uri = a_token_uri act /\ pairs = code_pairs act code cvr (url_to_str ru)
    /\ account_redirect_uri O act hp hsp = Val ru
    /\ (exists ta tb c a, t = ta ++ OAuthUrl n u :: tb /\ config_at ta = Some c
          /\ lookup n (c_accounts c) = Some a /\ same_security a act)
    /\ auth_url O hp hsp act cvr st u
    /\ In (OHttpIn https bytes) t /\ parse_get O https bytes = Some req_uri
    /\ lookup $"state" (query_pairs req_uri) = Some st
    /\ lookup $"code" (query_pairs req_uri) = Some code
    /\ lookup $"error" (query_pairs req_uri) = None
    /\ owns lk i act (pending_with cvr st u).

Fixpoint pc_pend (O : oracles) (hp hsp : option N) (lk : locked) (t : list obs) (p : pc) : Prop :=
  match p with
  | PDo _ k => pc_pend O hp hsp lk t k
  | PHttpStart https bytes => In (OHttpIn https bytes) t
  | PHttpPost i uri pairs _ => exch O hp hsp lk t i uri pairs
  | _ => True
  end.

Record pend (O : oracles) (w : world) : Prop := mkPend {
  pend_entries : forall e cvr ln st u, has (w_lk w) e -> d_ts e = TSPending cvr ln st u ->
    exists act, account_of (w_lk w) (d_name e) = Some act
                /\ since (issued O (w_http w) (w_https w) cvr st u) (w_trace w) (d_name e) act;
  pend_threads : Forall (pc_pend O (w_http w) (w_https w) (w_lk w) (w_trace w)) (w_threads w);
}.

Lemma exch_step O hp hsp lk lk' t os i uri pairs :
  evolves lk lk' -> exch O hp hsp lk t i uri pairs -> exch O hp hsp lk' (t ++ os) i uri pairs.
Proof.
  intros EV (n & act & cvr & st & u & code & ru & https & bytes & req_uri & X1 & X2 & X3 & X4 & X5 & X6 & X7 & X8 & X9 & X10 & X11 & X12).
  exists n, act, cvr, st, u, code, ru, https, bytes, req_uri. repeat (split; [assumption|]).
  split; [|repeat (split; [assumption|])].
  - destruct X5 as (ta & tb & c & a & -> & C & L & S). exists ta, (tb ++ os), c, a.
    rewrite <- app_assoc. auto.
  - split; [apply in_or_app; left; exact X7|]. repeat (split; [assumption|]). eapply owns_evolves; eassumption.
Qed.

Lemma pc_pend_step O hp hsp lk lk' t os p :
  evolves lk lk' -> pc_pend O hp hsp lk t p -> pc_pend O hp hsp lk' (t ++ os) p.
Proof.
  intros EV. induction p; simpl; auto.
  - intros I. apply in_or_app. left. exact I.
  - apply exch_step. exact EV.
Qed.

Lemma pc_pend_emit_cmds O hp hsp lk t l k : pc_pend O hp hsp lk t (emit_cmds l k) = pc_pend O hp hsp lk t k.
Proof. induction l as [|[[n c] u] l IH]; simpl; auto. Qed.

Lemma pc_pend_spawn_all O hp hsp lk t l k : pc_pend O hp hsp lk t (spawn_all l k) = pc_pend O hp hsp lk t k.
Proof. induction l as [|i l IH]; simpl; auto. Qed.

(** Where a pending state comes from. *)
Inductive pending_from (O : oracles) (w : world) (e : env) (p : pc) (os : list obs)
    (e' : entry) (cvr : str) (ln : option Z) (st : str) (u : url) : Prop :=
| pf_kept : has (w_lk w) e' -> pending_from O w e p os e' cvr ln st u
| pf_notified e0 ln0 :
    p = PNtScan -> has (w_lk w) e0 -> d_name e' = d_name e0 -> d_ts e0 = TSPending cvr ln0 st u ->
    ln = Some (env_now e) -> notify_due (w_lk w) (env_now e) e0 = true ->
    pending_from O w e p os e' cvr ln st u
| pf_new e0 req act :
    p = PMain -> has (w_lk w) e0 -> d_name e' = d_name e0 -> is_active (d_ts e0) = false ->
    os = [OClient req; OAuthUrl (d_name e0) u] -> account_of (w_lk w) (d_name e0) = Some act ->
    auth_url O (w_http w) (w_https w) act cvr st u -> ln = None ->
    cvr = b64_encode (e_verifier_bytes e) -> st = b64_encode (e_state_bytes e) ->
    pending_from O w e p os e' cvr ln st u.

Lemma csr_pending O w e p lk' p' os e' cvr ln st u :
  wf (w_lk w) -> csr O w e p lk' p' os -> has lk' e' -> d_ts e' = TSPending cvr ln st u ->
  pending_from O w e p os e' cvr ln st u.
Proof.
  intros W C H T.
  destruct C; try (apply pf_kept; exact H);
    try (unfold has in H; apply bump_in in H as [(e1 & I1 & E1 & ->)|[I1 _]]; [|apply pf_kept; exact I1];
         simpl in T; try discriminate;
         match goal with H0 : has (w_lk w) ?e0, E : d_id e1 = d_id ?e0 |- _ =>
           assert (e1 = e0) by (apply (wf_id_inj (w_lk w)); auto); subst e1 end).
  - assert (cvr = cvr0 /\ ln = None /\ st = st0 /\ u = u0) as (-> & -> & -> & ->)
      by (injection T as <- <- <- <-; auto).
    eapply pf_new; try eassumption; try reflexivity.
    exists ru, base. auto.
  - assert (wf_conf c) as WC by (match goal with CO : conf_ok O c |- _ => apply CO end).
    match goal with U : update_conf _ _ = _ |- _ =>
      destruct (update_conf_spec _ _ _ W WC U) as (_ & _ & _ & K) end.
    destruct (K e' H) as (a1 & _ & M). destruct (account_of (w_lk w) (d_name e')) as [a2|].
    + destruct (secure_eq a1 a2); [apply pf_kept; exact M|destruct M; congruence].
    + destruct M; congruence.
  - match goal with F : Forall2 _ _ _ |- _ => destruct (Forall2_in_r _ _ _ _ F H) as (e0 & I0 & NE & X) end.
    destruct X as [->|[_ (NA & act & ad & td & i & L & LD & SR & TE & _)]]; [apply pf_kept; exact I0|].
    rewrite T in TE. destruct td as [|tok ob ex rt]; simpl in TE; discriminate.
  - match goal with F : Forall2 _ _ _ |- _ => destruct (Forall2_in_r _ _ _ _ F H) as (e0 & I0 & X) end.
    cbv beta in X. destruct (notify_due (w_lk w) (env_now e) e0) eqn:ND; [|subst; apply pf_kept; exact I0].
    destruct X as (NE & _ & X). rewrite T in X. unfold renotified in X.
    destruct (d_ts e0) as [|cvr0 ln0 st0 u0|a0] eqn:T0; try discriminate.
    injection X as -> -> -> ->. eapply pf_notified; try eassumption; reflexivity.
Qed.

Lemma tstep_ports O w l w' : tstep O w l w' -> w_http w' = w_http w /\ w_https w' = w_https w.
Proof.
  intros T. destruct T as [tid e p lk' p' os N C|tid e p w' N SY|https bytes P]; try (split; reflexivity).
  destruct SY; try (split; reflexivity). destruct a; split; reflexivity.
Qed.

Lemma csr_pc_pend O w e p lk' p' os :
  reachable O w -> inv O w -> pend O w -> pc_pend O (w_http w) (w_https w) (w_lk w) (w_trace w) p ->
  evolves (w_lk w) lk' ->
  csr O w e p lk' p' os -> pc_pend O (w_http w) (w_https w) lk' (w_trace w ++ os) p'.
Proof.
  intros R I PE PP EV C.
  destruct C; simpl in *; auto; rewrite ?app_nil_r;
    rewrite ?pc_pend_emit_cmds, ?pc_pend_spawn_all; try exact Logic.I; try (destruct wa; exact Logic.I).
  - destruct (e_post e) as [body|m|code body|k m]; simpl; try exact Logic.I.
    destruct (is_transient k); exact Logic.I.
  - unfold ref_body_next. destruct (o_json O body) as [v|m] eqn:J; [|exact Logic.I].
    destruct (json_str $"error" v) eqn:JE; [exact Logic.I|].
    destruct (json_str $"access_token" v) as [tok|] eqn:JA; [|exact Logic.I].
    destruct (json_u64 $"expires_in" v); [|exact Logic.I].
    destruct (json_str $"token_type" v) as [ty|] eqn:JT; [|exact Logic.I].
    destruct (str_eqb ty $"Bearer") eqn:TB; exact Logic.I.
  - (* the browser came back with a code *)
    match goal with H0 : has (w_lk w) e0, T : d_ts e0 = _ |- _ =>
      destruct (pend_entries _ _ PE e0 cvr ln st u H0 T) as (act' & A' & SI); pose proof H0 as HE; pose proof T as HT end.
    assert (act' = act) as -> by congruence.
    destruct SI as (ta & o & tb & EQ & [-> AU] & UN).
    exists (d_name e0), act, cvr, st, u, code, ru, https, bytes, uri.
    repeat (split; [assumption || reflexivity|]). split; [|repeat (split; [assumption|])].
    + destruct (UN [] _ eq_refl) as (c & a & C1 & C2 & C3). rewrite app_nil_r in C1.
      exists ta, tb, c, a. auto.
    + apply owns_has; try assumption; [apply I|]. exists ln. exact HT.
  - destruct (e_post e) as [body|m|code' body|k m]; simpl; try exact Logic.I.
    destruct tries as [|[|n]]; try exact Logic.I. simpl.
    apply (exch_step O _ _ (w_lk w)); assumption.
Qed.

Lemma reach_pend O w : reachable O w -> pend O w.
Proof.
  revert w. apply (reach_ind O (pend O)).
  - intros e c hp hsp pk _ CO. constructor.
    + intros e0 cvr ln st u H T. apply locked_new_empty in H. congruence.
    + repeat constructor.
  - intros w l w' R I I' A PE S T. pose proof PE as [PA PT].
    pose proof (inv_wf _ _ I) as W. pose proof (inv_wf _ _ I') as W'.
    destruct (tstep_ok _ _ _ _ I T) as [_ EV].
    destruct (tstep_grows _ _ _ _ R T) as [gs GR].
    destruct (tstep_ports _ _ _ _ T) as [HP HSP].
    assert (forall n a a' cvr st u, account_of (w_lk w) n = Some a -> account_of (w_lk w') n = Some a' ->
              same_security a a' ->
              since (issued O (w_http w) (w_https w) cvr st u) (w_trace w) n a ->
              exists act, account_of (w_lk w') n = Some act
                /\ since (issued O (w_http w') (w_https w') cvr st u) (w_trace w') n act) as KEEP.
    { intros n a a' cvr st u A0 A1 SS SI. exists a'. split; [exact A1|]. rewrite HP, HSP.
      eapply since_step; try eassumption. apply respects_issued. }
    assert (forall q, In q (w_threads w) -> pc_pend O (w_http w') (w_https w') (w_lk w') (w_trace w') q) as KT.
    { intros q Iq. rewrite Forall_forall in PT. rewrite HP, HSP, (proj1 GR). eapply pc_pend_step; eauto. }
    destruct T as [tid e p lk' p' os N C|tid e p w' N SY|https bytes P].
    + simpl in *. assert (In p (w_threads w)) as IP by (eapply nth_error_In; exact N).
      assert (pc_pend O (w_http w) (w_https w) (w_lk w) (w_trace w) p) as OP by (rewrite Forall_forall in PT; auto).
      constructor; simpl.
      * intros e' cvr ln st u H TA.
        destruct (csr_pending _ _ _ _ _ _ _ e' cvr ln st u W C H TA)
          as [H0|e0 ln0 -> H0 NE T0 _ _|e0 req act -> H0 NE NA -> AC AU _ _ _].
        -- assert (d_id e' < account_count (w_lk w))%N as LT by (apply wf_entry_count; assumption).
           destruct (proj2 EV e' H LT) as [_ (a & a2 & A0 & A1 & SS)].
           destruct (PA _ _ _ _ _ H0 TA) as (a3 & A3 & SI). rewrite A0 in A3. injection A3 as <-.
           eapply KEEP; try eassumption. apply same_security_sym, secure_eq_same, SS.
        -- destruct (PA _ _ _ _ _ H0 T0) as (a3 & A3 & SI). rewrite NE.
           eapply KEEP; [exact A3| |apply same_security_refl|exact SI].
           assert (lconfig lk' = lconfig (w_lk w)) as LC.
           { destruct (csr_config _ _ _ _ _ _ _ C) as [[LC _]|(rq & c & X & _)]; [exact LC|discriminate X]. }
           unfold account_of in *. rewrite LC. exact A3.
        -- exists act. assert (lconfig lk' = lconfig (w_lk w)) as LC.
           { destruct (csr_config _ _ _ _ _ _ _ C) as [[LC _]|(rq & c & X & Y & _)]; [exact LC|discriminate Y]. }
           split; [rewrite NE; unfold account_of in *; rewrite LC; exact AC|].
           rewrite NE. change [OClient req; OAuthUrl (d_name e0) u] with ([OClient req] ++ [OAuthUrl (d_name e0) u]).
           rewrite app_assoc. eapply since_here.
           ++ rewrite config_at_app. simpl. apply (reach_config_at _ _ R).
           ++ reflexivity.
           ++ exact AC.
           ++ split; [reflexivity|exact AU].
      * apply forall_list_set.
        -- rewrite Forall_forall. exact KT.
        -- eapply csr_pc_pend; eassumption.
    + assert (w_lk w' = w_lk w) as LK.
      { destruct SY; try reflexivity. destruct a; reflexivity. }
      constructor.
      * intros e' cvr ln st u H TA. rewrite LK in H. destruct (PA _ _ _ _ _ H TA) as (a & A0 & SI).
        eapply KEEP; [exact A0|rewrite LK; exact A0|apply same_security_refl|exact SI].
      * assert (forall k, In k (w_threads w) \/ (exists b, In (PDo b k) (w_threads w)) \/ (forall hp hsp lk t, pc_pend O hp hsp lk t k) ->
                  pc_pend O (w_http w') (w_https w') (w_lk w') (w_trace w') k) as KK.
        { intros k [X|[(b & X)|X]]; [apply KT; exact X|exact (KT _ X)|apply X]. }
        assert (forall k, In k (w_threads w) \/ (exists b, In (PDo b k) (w_threads w)) \/ (forall hp hsp lk t, pc_pend O hp hsp lk t k) ->
                  Forall (pc_pend O (w_http w') (w_https w') (w_lk w') (w_trace w')) (list_set tid k (w_threads w))) as KL.
        { intros k X. apply forall_list_set; [rewrite Forall_forall; exact KT|apply KK; exact X]. }
        destruct SY; try (apply KL; right; right; intros; exact Logic.I).
        match type of N with _ = Some (PDo ?a ?k) =>
          assert (Forall (pc_pend O (w_http (do_action (set_thread w tid k) a)) (w_https (do_action (set_thread w tid k) a)) (w_lk (do_action (set_thread w tid k) a)) (w_trace (do_action (set_thread w tid k) a)))
                 (list_set tid k (w_threads w))) as F end.
        { apply KL. right. left. exists a. eapply nth_error_In. exact N. }
        destruct a; try exact F. simpl in *. apply Forall_app. split; [exact F|].
        constructor; [exact Logic.I|constructor].
    + constructor; simpl.
      * intros e' cvr ln st u H TA. destruct (PA _ _ _ _ _ H TA) as (a & A0 & SI).
        eapply (KEEP _ a a); [exact A0|exact A0|apply same_security_refl|exact SI].
      * apply Forall_app. split; [rewrite Forall_forall; exact KT|]. constructor; [|constructor].
        simpl. apply in_or_app. right. left. reflexivity.
Qed.

(** * C16 *)

Lemma in_auth_params O hp hsp act cvr st u ru :
  auth_url O hp hsp act cvr st u -> account_redirect_uri O act hp hsp = Val ru ->
  In ($"state", st) (raw_pairs u)
  /\ forall code, redeems O u (code_pairs act code cvr (url_to_str ru)).
Proof.
  intros (ru' & base & RU & B & ->) RU'. assert (ru' = ru) as -> by congruence.
  rewrite raw_pairs_extend.
  assert (forall x, In x (auth_params act (b64_encode (o_sha256 O cvr)) (url_to_str ru) st) ->
            In x (raw_pairs base ++ auth_params act (b64_encode (o_sha256 O cvr)) (url_to_str ru) st)) as IN
    by (intros x X; apply in_or_app; right; exact X).
  split.
  - apply IN. unfold auth_params. simpl. tauto.
  - intros code. exists cvr, (a_client_id act), (url_to_str ru). rewrite raw_pairs_extend.
    repeat split; try (apply IN; unfold auth_params; simpl; tauto).
Qed.

Lemma exchange_redeems O w t1 uri pairs r t2 :
  reachable O w -> w_trace w = t1 ++ OPost uri pairs r :: t2 ->
  lookup $"grant_type" pairs = Some $"authorization_code" ->
  exists n u st act c ta tb https bytes req_uri code,
    t1 = ta ++ OAuthUrl n u :: tb /\ config_at ta = Some c /\ lookup n (c_accounts c) = Some act
    /\ uri = a_token_uri act /\ authenticates act pairs
    /\ redeems O u pairs /\ In ($"state", st) (raw_pairs u)
    /\ In (OHttpIn https bytes) t1 /\ parse_get O https bytes = Some req_uri
    /\ lookup $"state" (query_pairs req_uri) = Some st
    /\ lookup $"code" (query_pairs req_uri) = Some code
    /\ lookup $"code" pairs = Some code.
Proof.
  intros R. revert w R t1 uri pairs r t2.
  cut (forall w, reachable O w -> trace_all (fun t1 o => match o with
    | OPost uri pairs r => lookup $"grant_type" pairs = Some $"authorization_code" ->
       exists n u st act c ta tb https bytes req_uri code,
    t1 = ta ++ OAuthUrl n u :: tb /\ config_at ta = Some c /\ lookup n (c_accounts c) = Some act
    /\ uri = a_token_uri act /\ authenticates act pairs
    /\ redeems O u pairs /\ In ($"state", st) (raw_pairs u)
    /\ In (OHttpIn https bytes) t1 /\ parse_get O https bytes = Some req_uri
    /\ lookup $"state" (query_pairs req_uri) = Some st
    /\ lookup $"code" (query_pairs req_uri) = Some code
    /\ lookup $"code" pairs = Some code
    | _ => True end) (w_trace w)).
  { intros H w R t1 uri pairs r t2 E. exact (H w R t1 _ t2 E). }
  apply (reach_ind O).
  - intros e c hp hsp pk _ _. change (w_trace (init_world c hp hsp pk)) with ([] ++ [OConfig c]).
    apply trace_all_snoc; [apply trace_all_nil|exact Logic.I].
  - intros w l w' R I I' A IH S T.
    pose proof (reach_pend _ _ R) as [_ PT].
    destruct T as [tid e p lk' p' os N C|tid e p w' N SY|https bytes P].
    + simpl. apply trace_all_app; [exact IH|]. intros a x b E. destruct x; try exact Logic.I. intros G.
      assert (In (OPost uri pairs r) os) as IO by (rewrite E; apply in_or_app; right; left; reflexivity).
      assert (pc_pend O (w_http w) (w_https w) (w_lk w) (w_trace w) p) as PP
        by (rewrite Forall_forall in PT; apply PT; eapply nth_error_In; exact N).
      assert (pc_ok (w_lk w) p) as PO
        by (pose proof (inv_threads _ _ I) as TH; rewrite Forall_forall in TH; apply TH; eapply nth_error_In; exact N).
      destruct C; simpl in IO; try (destruct IO; fail);
        repeat match goal with X : _ \/ _ |- _ => destruct X as [X|X]; try discriminate X end; try contradiction.
      * injection IO as -> -> _. simpl in PO. destruct PO as (act & _ & _ & -> & _). discriminate G.
      * injection IO as -> -> _. simpl in PP.
        destruct PP as (n & act & cvr & st & u & code & ru & https & bytes & req_uri & X1 & X2 & X3 & X4 & X5 & X6 & X7 & X8 & X9 & X10 & X11 & X12).
        destruct X5 as (ta & tb & c & a0 & E1 & C1 & L1 & SS).
        destruct (in_auth_params _ _ _ _ _ _ _ _ X6 X4) as [INS RED].
        assert (a = []) as -> by (destruct a as [|? [|? ?]]; try discriminate E; reflexivity).
        rewrite app_nil_r.
        exists n, u, st, a0, c, ta, tb, https, bytes, req_uri, code.
        repeat (split; [assumption|]).
        split; [rewrite X2; symmetry; apply SS|].
        split; [rewrite X3, <- (same_code_pairs a0 act _ _ _ SS); apply lookup_code_pairs|].
        split; [rewrite X3; apply RED|]. repeat (split; [assumption|]).
        rewrite X3. reflexivity.
    + destruct SY; try (simpl; exact IH).
      rewrite do_action_trace. change (w_trace (set_thread w tid k)) with (w_trace w).
      apply trace_all_app; [exact IH|]. intros b x c E. destruct x; try exact Logic.I. exfalso.
      assert (In (OPost uri pairs r) (action_obs a)) as IO by (rewrite E; apply in_or_app; right; left; reflexivity).
      assert (Forall (fun p => forall a, In a (chain p) -> match a with AEmit (OPost _ _ _) => False | _ => True end) (w_threads w)) as F.
      { clear - R. revert w R. apply (reach_ind O).
        - intros. repeat constructor; intros a [].
        - intros w l w' R I I' A F S T. eapply tstep_chain_inv; try eassumption.
          intros e p lk' p' os a C Ia. pose proof (csr_chain _ _ _ _ _ _ _ a C Ia) as X.
          destruct a; try exact Logic.I. destruct o; try exact Logic.I. exact X. }
      rewrite Forall_forall in F. specialize (F _ (nth_error_In _ _ N) a (or_introl eq_refl)).
      destruct a; simpl in IO; try destruct IO as [IO|[]]; try discriminate; try contradiction.
      subst o. exact F.
    + simpl. apply trace_all_snoc; [exact IH|exact Logic.I].
Qed.

(** Whoever waits for an authorisation has an address to come back to. *)
Lemma redirect_known O w e0 cvr ln st u act m :
  reachable O w -> has (w_lk w) e0 -> d_ts e0 = TSPending cvr ln st u -> account_of (w_lk w) (d_name e0) = Some act ->
  account_redirect_uri O act (w_http w) (w_https w) <> Err m.
Proof.
  intros R H T A E.
  destruct (pend_entries _ _ (reach_pend O w R) e0 cvr ln st u H T) as (act' & A' & ta & o & tb & _ & (_ & ru & base & RU & _) & _).
  assert (act' = act) as -> by congruence. congruence.
Qed.
