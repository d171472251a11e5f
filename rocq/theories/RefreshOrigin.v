(** Where refresh tokens come from and where they are sent (C52). *)
From Verif Require Import Base BaseLemmas Time Utf8 Base64 Url Json Oracles Config Dump State Http
  Timers Server StateLemmas ConfigLemmas SpecServer Steps Inv Reach Own Trace Origin.

(** * Every POST comes from a thread about to make it *)

Lemma post_principle O (P : list obs -> str -> list (str * str) -> Prop) :
  (forall w tid i n r uri pairs, reachable O w ->
     nth_error (w_threads w) tid = Some (PRefPost i n r uri pairs) -> P (w_trace w) uri pairs) ->
  (forall w tid i uri pairs k, reachable O w ->
     nth_error (w_threads w) tid = Some (PHttpPost i uri pairs k) -> P (w_trace w) uri pairs) ->
  forall w t1 uri pairs r t2, reachable O w -> w_trace w = t1 ++ OPost uri pairs r :: t2 -> P t1 uri pairs.
Proof.
  intros H1 H2.
  cut (forall w, reachable O w -> trace_all (fun t1 o => match o with
    | OPost uri pairs r => P t1 uri pairs | _ => True end) (w_trace w)).
  { intros H w t1 uri pairs r t2 R E. exact (H w R t1 _ t2 E). }
  apply (reach_ind O).
  - intros e c hp hsp pk _ _. change (w_trace (init_world c hp hsp pk)) with ([] ++ [OConfig c]).
    apply trace_all_snoc; [apply trace_all_nil|exact Logic.I].
  - intros w l w' R I I' A IH S T.
    destruct T as [tid e p lk' p' os N C|tid e p w' N SY|https bytes X].
    + simpl. apply trace_all_app; [exact IH|]. intros a x b E. destruct x; try exact Logic.I.
      assert (In (OPost uri pairs r) os) as IO by (rewrite E; apply in_or_app; right; left; reflexivity).
      destruct C; simpl in IO; try (destruct IO; fail);
        repeat match goal with X : _ \/ _ |- _ => destruct X as [X|X]; try discriminate X end; try contradiction.
      * injection IO as -> -> _.
        assert (a = []) as -> by (destruct a as [|? [|? ?]]; try discriminate E; reflexivity).
        rewrite app_nil_r. eapply H1; eassumption.
      * injection IO as -> -> _.
        assert (a = []) as -> by (destruct a as [|? [|? ?]]; try discriminate E; reflexivity).
        rewrite app_nil_r. eapply H2; eassumption.
    + destruct SY; try (simpl; exact IH).
      rewrite do_action_trace. change (w_trace (set_thread w tid k)) with (w_trace w).
      apply trace_all_app; [exact IH|]. intros b x c E. destruct x; try exact Logic.I. exfalso.
      assert (In (OPost uri pairs r) (action_obs a)) as IO by (rewrite E; apply in_or_app; right; left; reflexivity).
      assert (Forall (fun p => forall a, In a (chain p) -> match a with AEmit (OPost _ _ _) => False | _ => True end) (w_threads w)) as F.
      { clear - R. revert w R. apply (reach_ind O).
        - intros. repeat constructor; intros a [].
        - intros w l w' R I I' A F S T. eapply tstep_chain_inv; try eassumption.
          intros e p lk' p' os a C Ia. pose proof (csr_chain _ _ _ _ _ _ _ a C Ia) as X.
          destruct a; try exact Logic.I. destruct o; try exact Logic.I. exact X. }
      rewrite Forall_forall in F. specialize (F _ (nth_error_In _ _ N) a (or_introl eq_refl)).
      destruct a; simpl in IO; try destruct IO as [IO|[]]; try discriminate; try contradiction.
      subst o. exact F.
    + simpl. apply trace_all_snoc; [exact IH|exact Logic.I].
Qed.

(** * Refresh tokens *)

(** The refresh that is about to POST [pairs] to [uri] was started when account
    [n] was configured accordingly and held the refresh token. *)
Definition started (O : oracles) (t : list obs) (n rt uri : str) (pairs : list (str * str)) : Prop :=
  exists ta tb c act,
    t = ta ++ tb /\ config_at ta = Some c /\ lookup n (c_accounts c) = Some act
    /\ uri = a_token_uri act /\ pairs = refresh_pairs act rt
    /\ since (gives_refresh O rt) ta n act.

Fixpoint pc_rorg (O : oracles) (lk : locked) (t : list obs) (p : pc) : Prop :=
  match p with
  | PDo _ k => pc_rorg O lk t k
  | PRefPost i n rt uri pairs => started O t n rt uri pairs /\ for_id lk t i (gives_refresh O rt)
  | PRefBody i _ rt body => for_id lk t i (gives_refresh O rt) /\ for_id lk t i (posted O body)
  | PRefGot i _ _ _ (Some rt) _ => for_id lk t i (gives_refresh O rt)
  | PHttpBody i body => for_id lk t i (posted O body)
  | _ => True
  end.

Record rorg (O : oracles) (w : world) : Prop := mkRorg {
  ro_active : forall e a rt, has (w_lk w) e -> d_ts e = TSActive a -> refresh_token a = Some rt ->
    exists act, account_of (w_lk w) (d_name e) = Some act
                /\ since (gives_refresh O rt) (w_trace w) (d_name e) act;
  ro_threads : Forall (pc_rorg O (w_lk w) (w_trace w)) (w_threads w);
}.

Lemma respects_gives O rt : respects (gives_refresh O rt).
Proof.
  intros n a b o S D. pose proof S as (_ & S4 & S5 & S1 & S2 & S6 & S7 & S3).
  destruct o; try exact D; simpl in *.
  - destruct D as (bytes & plain & d & ad & tok & ob & ex & D1 & D2 & D3 & D4 & D5).
    exists bytes, plain, d, ad, tok, ob, ex. repeat (split; [assumption|]).
    unfold agrees in *. intuition congruence.
  - destruct r; try exact D. destruct D as (-> & [D1 D2] & D3). split; [exact S3|].
    split; [split; congruence|exact D3].
Qed.

Lemma started_grow O t os n rt uri pairs : started O t n rt uri pairs -> started O (t ++ os) n rt uri pairs.
Proof.
  intros (ta & tb & c & act & -> & H). exists ta, (tb ++ os), c, act. rewrite app_assoc. auto.
Qed.

Lemma pc_rorg_step O w w' os p :
  grows w w' os -> evolves (w_lk w) (w_lk w') ->
  pc_rorg O (w_lk w) (w_trace w) p -> pc_rorg O (w_lk w') (w_trace w') p.
Proof.
  intros GR EV. induction p; simpl; auto.
  - intros [S F]. split; [rewrite (proj1 GR); apply started_grow; exact S|].
    eapply for_id_step; try eassumption. apply respects_gives.
  - intros [F1 F2]. split; eapply for_id_step; try eassumption; [apply respects_gives|apply respects_posted].
  - destruct rtok; auto. apply for_id_step with (os := os); auto using respects_gives.
  - apply for_id_step with (os := os); auto using respects_posted.
Qed.

Lemma pc_rorg_emit_cmds O lk t l k : pc_rorg O lk t (emit_cmds l k) = pc_rorg O lk t k.
Proof. induction l as [|[[n c] u] l IH]; simpl; auto. Qed.

Lemma pc_rorg_spawn_all O lk t l k : pc_rorg O lk t (spawn_all l k) = pc_rorg O lk t k.
Proof. induction l as [|i l IH]; simpl; auto. Qed.

Lemma csr_pc_rorg O w e p lk' p' os :
  reachable O w -> inv O w -> rorg O w -> pc_ok (w_lk w) p -> pc_rorg O (w_lk w) (w_trace w) p ->
  csr O w e p lk' p' os -> evolves (w_lk w) lk' ->
  grows w (after_cs w 0 lk' p' os) os -> pc_rorg O lk' (w_trace w ++ os) p'.
Proof.
  intros R I RG PO OR C EV GR.
  assert (forall i G, respects G -> for_id (w_lk w) (w_trace w) i G -> for_id lk' (w_trace w ++ os) i G) as KF.
  { intros i G RS F. exact (for_id_step G w (after_cs w 0 lk' p' os) os i RS GR EV F). }
  pose proof (inv_wf _ _ I) as W.
  destruct C; simpl in *; auto; 
    rewrite ?pc_rorg_emit_cmds, ?pc_rorg_spawn_all; try exact Logic.I; try (destruct wa; exact Logic.I).
  - (* a refresh starts *)
    match goal with H0 : has (w_lk w) e0, T : d_ts e0 = TSActive a, RT : refresh_token a = Some r |- _ =>
      destruct (ro_active _ _ RG e0 a r H0 T RT) as (act' & A' & SI); pose proof H0 as HE end.
    assert (act' = act) as -> by congruence.
    split.
    + exists (w_trace w), [], (lconfig (w_lk w)), act. rewrite app_nil_r.
      split; [reflexivity|]. split; [apply (reach_config_at _ _ R)|]. auto.
    + split; [simpl; lia|]. intros e1 HB1 EB1.
      unfold has in HB1. apply bump_in in HB1 as [(e2 & I2 & E2 & ->)|[I1 _]].
      * assert (e2 = e0) as -> by (apply (wf_id_inj (w_lk w)); auto).
        exists act. split; [simpl; assumption|]. rewrite app_nil_r. exact SI.
      * exfalso. pose proof (wf_entry_count _ _ W I1). lia.
  - destruct PO as (act & _ & EU & -> & OW). destruct OR as [_ OR].
    destruct (e_post e) as [body|m|code body|k m]; simpl; try exact Logic.I.
    + split; [apply KF; [apply respects_gives|exact OR]|].
      eapply for_id_posted; try eassumption. apply lookup_refresh_pairs.
    + destruct (is_transient k); exact Logic.I.
  - destruct OR as [OR1 OR2]. unfold ref_body_next. destruct (o_json O body) as [v|m] eqn:J; [|exact Logic.I].
    destruct (json_str $"error" v) eqn:JE; [exact Logic.I|].
    destruct (json_str $"access_token" v) as [tok|] eqn:JA; [|exact Logic.I].
    destruct (json_u64 $"expires_in" v); [|exact Logic.I].
    destruct (json_str $"token_type" v) as [ty|] eqn:JT; [|exact Logic.I].
    destruct (str_eqb ty $"Bearer") eqn:TB; [|exact Logic.I].
    destruct (json_get $"refresh_token" v) as [j|] eqn:JR.
    + destruct j; try exact Logic.I. simpl. apply KF; [apply respects_gives|].
      eapply for_id_weaken; [|exact OR2]. intros n act o (pairs & -> & AU). simpl.
      split; [reflexivity|]. split; [exact AU|]. exists v. unfold json_str at 2. rewrite JR. auto.
    + simpl. apply KF; [apply respects_gives|exact OR1].
  - destruct PO as (act & code & cvr & ru & st & u & EU & -> & OW).
    destruct (e_post e) as [body|m|code' body|k m]; simpl; try exact Logic.I.
    + eapply for_id_posted; try eassumption. apply lookup_code_pairs.
    + destruct tries as [|[|n]]; exact Logic.I.
Qed.

Lemma reach_rorg O w : reachable O w -> rorg O w.
Proof.
  revert w. apply (reach_ind O (rorg O)).
  - intros e c hp hsp pk _ CO. constructor.
    + intros e0 a rt H T. apply locked_new_empty in H. congruence.
    + repeat constructor.
  - intros w l w' R I I' A RG S T. pose proof RG as [OA OT].
    pose proof (inv_wf _ _ I) as W. pose proof (inv_wf _ _ I') as W'.
    destruct (tstep_ok _ _ _ _ I T) as [_ EV].
    destruct (tstep_grows _ _ _ _ R T) as [gs GR].
    assert (forall n rt a a', account_of (w_lk w) n = Some a -> account_of (w_lk w') n = Some a' ->
              same_security a a' -> since (gives_refresh O rt) (w_trace w) n a ->
              exists act, account_of (w_lk w') n = Some act /\ since (gives_refresh O rt) (w_trace w') n act) as KEEP.
    { intros n rt a a' A0 A1 SS SI.
      exists a'. split; [exact A1|]. eapply since_step; try eassumption. apply respects_gives. }
    assert (forall q, In q (w_threads w) -> pc_rorg O (w_lk w') (w_trace w') q) as KT.
    { intros q Iq. rewrite Forall_forall in OT. eapply pc_rorg_step; try eassumption. auto. }
    destruct T as [tid e p lk' p' os N C|tid e p w' N SY|https bytes P].
    + assert (In p (w_threads w)) as IP by (eapply nth_error_In; exact N).
      assert (pc_ok (w_lk w) p) as PO
        by (pose proof (inv_threads _ _ I) as TH; rewrite Forall_forall in TH; auto).
      assert (pc_rorg O (w_lk w) (w_trace w) p) as OP by (rewrite Forall_forall in OT; auto).
      assert (gs = os) as -> by (destruct GR as [E _]; simpl in E; apply app_inv_head in E; auto).
      simpl in *.
      constructor; simpl.
      * intros e' a' rt H TA RT.
        assert (exists a, account_of lk' (d_name e') = Some a) as [ac' AC'].
        { destruct (wf_account _ _ W' H) as (a & L & _). eauto. }
        destruct (csr_active _ _ _ _ _ _ _ e' a' W C H TA)
          as [H0|e0 a0 H0 NE T0 _ RE _ _ WH|e0 name tok exs rt0 now ex -> H0 NE ->
             |e0 body v tok exs ex -> H0 NE J JE JT JA -> _
             |e0 req bytes plain d ad tok ob ex rt0 r1 r2 act -> EC ER DE DS _ H0 NA NE AC LD SR ->].
        -- assert (d_id e' < account_count (w_lk w))%N as LT by (apply wf_entry_count; assumption).
           destruct (proj2 EV e' H LT) as [_ (a & a2 & A0 & A1 & SS)].
           destruct (OA _ _ _ H0 TA RT) as (a3 & A3 & SI). rewrite A0 in A3. injection A3 as <-.
           eapply KEEP; try eassumption. apply same_security_sym, secure_eq_same, SS.
        -- rewrite NE. rewrite RE in RT. destruct (OA _ _ _ H0 T0 RT) as (a & A0 & SI).
           destruct (csr_config _ _ _ _ _ _ _ C) as [[LC _]|(req & c & -> & _)].
           2:{ exfalso. destruct WH as [(i & X & _)|X]; discriminate X. }
           eapply KEEP; [exact A0| |apply same_security_refl|exact SI].
           unfold account_of in *. rewrite LC. exact A0.
        -- simpl in RT. subst rt0. simpl in OP. destruct OP as [_ OP].
           destruct (OP e0 H0 eq_refl) as (a & A0 & SI).
           rewrite NE. eapply KEEP; [exact A0| |apply same_security_refl|exact SI].
           assert (lconfig lk' = lconfig (w_lk w)) as LC.
           { destruct (csr_config _ _ _ _ _ _ _ C) as [[LC _]|(req & c & X & _)]; [exact LC|discriminate X]. }
           unfold account_of in *. rewrite LC. exact A0.
        -- simpl in RT, OP. destruct OP as [_ OP]. destruct (OP e0 H0 eq_refl) as (a & A0 & SI).
           rewrite NE. eapply KEEP; [exact A0| |apply same_security_refl|].
           ++ assert (lconfig lk' = lconfig (w_lk w)) as LC.
              { destruct (csr_config _ _ _ _ _ _ _ C) as [[LC _]|(req & c & X & _)]; [exact LC|discriminate X]. }
              unfold account_of in *. rewrite LC. exact A0.
           ++ eapply since_weaken; [|exact SI]. intros o (pairs & -> & AU). simpl.
              split; [reflexivity|]. split; [exact AU|]. exists v. auto.
        -- simpl in RT. subst rt0. assert (os = [OClient req] /\ lconfig lk' = lconfig (w_lk w)) as [-> LC].
           { rewrite ER in EC |- *. eapply csr_restore_obs; eassumption. }
           exists act. split; [rewrite NE; unfold account_of in *; rewrite LC; exact AC|].
           rewrite NE. eapply since_here; [apply (reach_config_at _ _ R)|reflexivity|exact AC|].
           simpl. exists bytes, plain, d, ad, tok, ob, ex. repeat (split; [assumption|]).
           apply restorable_agrees. exact SR.
      * apply forall_list_set.
        -- rewrite Forall_forall. exact KT.
        -- eapply csr_pc_rorg; eassumption.
    + assert (w_lk w' = w_lk w) as LK.
      { destruct SY; try reflexivity. destruct a; reflexivity. }
      constructor.
      * intros e' a' rt H TA RT. rewrite LK in H. destruct (OA _ _ _ H TA RT) as (a & A0 & SI).
        eapply KEEP; [exact A0|rewrite LK; exact A0|apply same_security_refl|exact SI].
      * assert (forall k, In k (w_threads w) \/ (exists b, In (PDo b k) (w_threads w)) \/ (forall lk t, pc_rorg O lk t k) ->
                  pc_rorg O (w_lk w') (w_trace w') k) as KK.
        { intros k [X|[(b & X)|X]]; [apply KT; exact X|exact (KT _ X)|apply X]. }
        assert (forall k, In k (w_threads w) \/ (exists b, In (PDo b k) (w_threads w)) \/ (forall lk t, pc_rorg O lk t k) ->
                  Forall (pc_rorg O (w_lk w') (w_trace w')) (list_set tid k (w_threads w))) as KL.
        { intros k X. apply forall_list_set; [rewrite Forall_forall; exact KT|apply KK; exact X]. }
        destruct SY; try (apply KL; right; right; intros; exact Logic.I).
        assert (Forall (pc_rorg O (w_lk (do_action (set_thread w tid k) a)) (w_trace (do_action (set_thread w tid k) a)))
                 (list_set tid k (w_threads w))) as F.
        { apply KL. right. left. exists a. eapply nth_error_In. exact N. }
        destruct a; try exact F. simpl in *. apply Forall_app. split; [exact F|].
        constructor; [exact Logic.I|constructor].
    + constructor; simpl.
      * intros e' a' rt H TA RT. destruct (OA _ _ _ H TA RT) as (a & A0 & SI).
        eapply (KEEP _ _ a a A0); [exact A0|apply same_security_refl|exact SI].
      * apply Forall_app. split; [rewrite Forall_forall; exact KT|]. constructor; [exact Logic.I|constructor].
Qed.

(** * C52 *)

Lemma refresh_post O w t1 uri pairs r t2 :
  reachable O w -> w_trace w = t1 ++ OPost uri pairs r :: t2 ->
  (lookup $"grant_type" pairs = Some $"refresh_token"
   /\ exists n rt ta tb c act,
        t1 = ta ++ tb /\ config_at ta = Some c /\ lookup n (c_accounts c) = Some act
        /\ uri = a_token_uri act
        /\ pairs = [($"client_id", a_client_id act); ($"refresh_token", rt); ($"grant_type", $"refresh_token")]
                   ++ match a_client_secret act with Some x => [($"client_secret", x)] | None => [] end
        /\ since (gives_refresh O rt) ta n act)
  \/ (lookup $"grant_type" pairs = Some $"authorization_code" /\ lookup $"refresh_token" pairs = None).
Proof.
  intros R E. revert w t1 uri pairs r t2 R E.
  apply (post_principle O (fun t1 uri pairs =>
  (lookup $"grant_type" pairs = Some $"refresh_token"
   /\ exists n rt ta tb c act,
        t1 = ta ++ tb /\ config_at ta = Some c /\ lookup n (c_accounts c) = Some act
        /\ uri = a_token_uri act
        /\ pairs = [($"client_id", a_client_id act); ($"refresh_token", rt); ($"grant_type", $"refresh_token")]
                   ++ match a_client_secret act with Some x => [($"client_secret", x)] | None => [] end
        /\ since (gives_refresh O rt) ta n act)
  \/ (lookup $"grant_type" pairs = Some $"authorization_code" /\ lookup $"refresh_token" pairs = None))).
  - intros w tid i n r uri pairs R N. left.
    pose proof (ro_threads _ _ (reach_rorg _ _ R)) as F. rewrite Forall_forall in F.
    destruct (F _ (nth_error_In _ _ N)) as [(ta & tb & c & act & H1 & H2 & H3 & H4 & -> & H6) _].
    split; [reflexivity|]. exists n, r, ta, tb, c, act. repeat (split; [assumption || reflexivity|]). exact H6.
  - intros w tid i uri pairs k R N. right.
    pose proof (inv_threads _ _ (reach_inv _ _ R)) as F. rewrite Forall_forall in F.
    destruct (F _ (nth_error_In _ _ N)) as (act & code & cvr & ru & st & u & _ & -> & _).
    split; [reflexivity|]. unfold code_pairs. destruct (a_client_secret act); reflexivity.
Qed.
