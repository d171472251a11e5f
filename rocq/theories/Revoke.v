(** C04: after a revoke only a new authorisation or a restore brings a token
    back. *)
From Verif Require Import Base BaseLemmas Time Utf8 Base64 Url UrlLemmas Json Oracles Config Dump State Http
  Timers Server StateLemmas ConfigLemmas SpecServer Steps Inv Reach Own Trace Origin Reply Shown Pend.

Definition emptied (lk : locked) (n : str) : Prop :=
  forall e, has lk e -> d_name e = n -> d_ts e = TSEmpty.

(** A bumped entry of [n] was not empty unless the bump is by the main thread. *)
Lemma emptied_bump k lk e0 ts n :
  wf lk -> has lk e0 -> d_ts e0 <> TSEmpty -> emptied lk n -> emptied (bump k lk (d_id e0) ts) n.
Proof.
  intros W H NE EM e' I' EN. unfold has in I'. apply bump_in in I' as [(e1 & I1 & E1 & ->)|[I1 _]].
  - exfalso. assert (e1 = e0) by (apply (wf_id_inj lk); auto). subst e1. apply NE. apply EM; assumption.
  - apply EM; assumption.
Qed.

Lemma emptied_bump_empty k lk e0 n : emptied lk n -> emptied (bump k lk (d_id e0) TSEmpty) n.
Proof.
  intros EM e' I' EN. unfold has in I'. apply bump_in in I' as [(e1 & I1 & E1 & ->)|[I1 _]]; [reflexivity|].
  apply EM; assumption.
Qed.

Lemma csr_emptied O w e p lk' p' os n :
  inv O w -> pc_ok (w_lk w) p -> csr O w e p lk' p' os -> p <> PMain ->
  emptied (w_lk w) n -> emptied lk' n.
Proof.
  intros I PO C NM EM. pose proof (inv_wf _ _ I) as W.
  destruct C; try congruence; try exact EM;
    try (apply emptied_bump_empty; exact EM);
    try (apply emptied_bump; try assumption;
         match goal with T : d_ts _ = _ |- _ => rewrite T; discriminate end).
  - (* r_got *)
    apply emptied_bump; try assumption. simpl in PO. destruct PO as (act & _ & OW).
    destruct (owns_same _ _ _ _ _ W OW ltac:(eassumption) eq_refl) as (a1 & _ & _ & _ & (a2 & T & _)).
    rewrite T. discriminate.
  - (* h_body_ok *)
    apply emptied_bump; try assumption. simpl in PO. destruct PO as (act & OW).
    destruct (owns_same _ _ _ _ _ W OW ltac:(eassumption) eq_refl) as (a1 & _ & _ & _ & (x1 & x2 & x3 & x4 & T)).
    rewrite T. discriminate.
  - (* n_scan *)
    intros e' I' EN.
    match goal with F : Forall2 _ _ _ |- _ => destruct (Forall2_in_r _ _ _ _ F I') as (e0 & I0 & X) end.
    cbv beta in X. destruct (notify_due (w_lk w) (env_now e) e0) eqn:ND.
    + destruct X as (NE & _ & X). exfalso. unfold notify_due in ND.
      rewrite (EM e0 I0) in ND by congruence. discriminate.
    + subst e'. apply EM; assumption.
Qed.

Lemma tstep_emptied O w l w' n :
  reachable O w -> tstep O w l w' -> main_busy w l -> emptied (w_lk w) n -> emptied (w_lk w') n.
Proof.
  intros R T MB EM. pose proof (reach_inv _ _ R) as I.
  destruct T as [tid e p lk' p' os N C|tid e p w' N SY|https bytes P].
  - simpl. eapply csr_emptied; try eassumption.
    + pose proof (inv_threads _ _ I) as TH. rewrite Forall_forall in TH. apply TH. eapply nth_error_In. exact N.
    + intros ->. pose proof (ro_pc _ (reach_roles _ _ R) _ _ N) as RO. simpl in RO.
      destruct tid as [|[|[|[|tid]]]]; try discriminate. exact (MB e eq_refl N).
  - destruct SY; try exact EM. destruct a; exact EM.
  - exact EM.
Qed.

Lemma csr_revoke_reply O w e lk' p' os n :
  wf (w_lk w) ->
  csr O w e PMain lk' p' os -> In (AEmit (OReply ($"revoke:" ++ n) $"ok:")) (chain p') -> emptied lk' n.
Proof.
  intros W C I.
  inversion C; subst p' os; simpl in I;
    repeat match goal with X : _ \/ _ |- _ => destruct X as [X|X]; try discriminate X end; try contradiction;
    match type of I with AEmit (OReply _ _) = _ =>
      let A := fresh "RQ" in let B := fresh "TX" in apply emit_reply_inj in I as [A B] end;
    try (exfalso; match goal with X : forall rest, _ = $"revoke:" ++ rest -> _ |- _ => exact (X n RQ TX) end);
    try (exfalso; match goal with X : forall rest, _ <> $"revoke:" ++ rest |- _ => exact (X n RQ) end).
  - exfalso. unfold pending_reply in TX. destruct (str_eqb wu $"withurl"); discriminate TX.
  - exfalso. unfold pending_reply in TX. destruct (str_eqb wu $"withurl"); discriminate TX.
  - intros e' H' EN.
    match goal with X : _ = $"revoke:" ++ d_name e0 |- _ => rewrite X in RQ end.
    apply (app_inv_head $"revoke:" (d_name e0) n) in RQ. subst n.
    unfold has in H'. apply bump_in in H' as [(e1 & I1 & E1 & ->)|[I1 NI]]; [reflexivity|].
    exfalso. apply NI. f_equal. apply (wf_name_inj (w_lk w)); auto.
  - exfalso. match goal with X : _ = $"reload:" |- _ => rewrite X in RQ; discriminate RQ end.
  - exfalso. match goal with X : _ = $"restore:" ++ _ |- _ => rewrite X in RQ; discriminate RQ end.
  - exfalso. match goal with X : _ = $"restore:" ++ _ |- _ => rewrite X in RQ; discriminate RQ end.
Qed.

(** * What can happen after an acknowledged revoke *)

Lemma reauthorised_grow O n t t' : reauthorised O n t -> reauthorised O n (t ++ t').
Proof.
  intros [[b I]|(ta & u & tb & uri & pairs & body & tc & -> & RD)].
  - left. exists b. apply in_or_app. left. exact I.
  - right. exists ta, u, tb, uri, pairs, body, (tc ++ t'). split; [|exact RD].
    rewrite <- app_assoc. simpl. rewrite <- app_assoc. reflexivity.
Qed.

Record revoked (O : oracles) (n : str) (w : world) (x : list obs) : Prop := mkRevoked {
  rv_pending : forall e cvr ln st u, has (w_lk w) e -> d_name e = n -> d_ts e = TSPending cvr ln st u ->
     In (OAuthUrl n u) x;
  rv_active : forall e, has (w_lk w) e -> d_name e = n -> is_active (d_ts e) = false;
  rv_body : forall e i body, In (PHttpBody i body) (w_threads w) -> has (w_lk w) e -> d_id e = i -> d_name e <> n;
}.

Definition no_show (n : str) (p : pc) : Prop :=
  forall wu tok, ~ In " "%char wu ->
    ~ In (AEmit (OReply ($"showtoken:" ++ wu ++ $" " ++ n) ($"access_token:" ++ tok))) (chain p).

Lemma name_split a b c d : ~ In " "%char a -> ~ In " "%char c -> a ++ $" " ++ b = c ++ $" " ++ d -> a = c /\ b = d.
Proof.
  intros NA NC E. pose proof (split_first_app " "%char a b NA) as S1. pose proof (split_first_app " "%char c d NC) as S2.
  change (a ++ " "%char :: b = c ++ " "%char :: d) in E. rewrite E in S1. rewrite S1 in S2. injection S2 as -> ->. auto.
Qed.

Lemma csr_no_show O w e p lk' p' os n :
  csr O w e p lk' p' os -> (forall e0, has (w_lk w) e0 -> d_name e0 = n -> is_active (d_ts e0) = false) ->
  no_show n p'.
Proof.
  intros C NA wu tok NS I. assert (p = PMain) as -> by (eapply csr_not_main; eassumption).
  destruct (csr_show_reply _ _ _ _ _ _ _ _ _ C I eq_refl) as (_ & _ & _ & wu' & e0 & a & E & NS' & H & T & _).
  apply app_inv_head in E. apply name_split in E as [_ ->]; try assumption.
  specialize (NA e0 H eq_refl). rewrite T in NA. discriminate.
Qed.

(** The world has a successor in which the account is still not active, or the
    account was authorised again. *)
Definition rv_inv (O : oracles) (n : str) (w : world) (x : list obs) : Prop :=
  reauthorised O n x \/ (revoked O n w x /\ Forall (no_show n) (w_threads w)).

Lemma csr_body O w e p lk' p' os i body :
  csr O w e p lk' p' os -> p' = PHttpBody i body ->
  exists uri pairs tries, p = PHttpPost i uri pairs tries /\ os = [OPost uri pairs (PRBody body)] /\ lk' = w_lk w.
Proof.
  intros C E. destruct C; try discriminate.
  - destruct (e_post e) as [b|m|c b|k m]; simpl in E; try discriminate. destruct (is_transient k); discriminate.
  - unfold ref_body_next in E. destruct (o_json O body0) as [v|m]; [|discriminate].
    destruct (json_str $"error" v); [discriminate|].
    destruct (json_str $"access_token" v); [|discriminate].
    destruct (json_u64 $"expires_in" v); [|discriminate].
    destruct (json_str $"token_type" v) as [ty|]; [|discriminate].
    destruct (str_eqb ty $"Bearer"); discriminate.
  - destruct (e_post e) as [b|m|c b|k m] eqn:EP; simpl in E; try discriminate.
    + injection E as <- <-. eexists _, _, _. auto.
    + destruct tries as [|[|t]]; discriminate.
  - destruct wa; discriminate.
  - destruct wa; discriminate.
  - destruct (flat_map (notify_cmds (w_lk w) (env_now e)) (details (w_lk w))) as [|[[? ?] ?] ?]; discriminate.
  - destruct ids; discriminate.
Qed.

Lemma classic_active lk n :
  (exists e a, has lk e /\ d_name e = n /\ d_ts e = TSActive a)
  \/ (forall e, has lk e -> d_name e = n -> is_active (d_ts e) = false).
Proof.
  unfold has. induction (details lk) as [|e l IH]; [right; intros e []|].
  destruct (str_eq_dec (d_name e) n) as [E|E].
  - destruct (d_ts e) as [|cvr ln st u|a] eqn:T.
    + destruct IH as [(e1 & a1 & H1 & X)|IH]; [left; exists e1, a1; split; [right; exact H1|exact X]|right].
      intros e1 [<-|H1] N1; [rewrite T; reflexivity|apply IH; assumption].
    + destruct IH as [(e1 & a1 & H1 & X)|IH]; [left; exists e1, a1; split; [right; exact H1|exact X]|right].
      intros e1 [<-|H1] N1; [rewrite T; reflexivity|apply IH; assumption].
    + left. exists e, a. split; [left; reflexivity|auto].
  - destruct IH as [(e1 & a1 & H1 & X)|IH]; [left; exists e1, a1; split; [right; exact H1|exact X]|right].
    intros e1 [<-|H1] N1; [congruence|apply IH; assumption].
Qed.

Lemma classic_named lk i n :
  (exists e, has lk e /\ d_id e = i /\ d_name e = n)
  \/ (forall e, has lk e -> d_id e = i -> d_name e <> n).
Proof.
  unfold has. induction (details lk) as [|e l IH]; [right; intros e []|].
  destruct IH as [(e1 & H1 & X)|IH]; [left; exists e1; split; [right; exact H1|exact X]|].
  destruct (N.eq_dec (d_id e) i) as [Ei|Ei].
  - destruct (str_eq_dec (d_name e) n) as [En|En].
    + left. exists e. split; [left; reflexivity|auto].
    + right. intros e1 [<-|H1] X; [exact En|apply IH; assumption].
  - right. intros e1 [<-|H1] X; [congruence|apply IH; assumption].
Qed.

Lemma body_dec p : (exists i body, p = PHttpBody i body) \/ (forall i body, p <> PHttpBody i body).
Proof. destruct p; try (right; intros; discriminate). left. eauto. Qed.

(** No action is waiting in front of the processing of a code exchange's answer. *)
Fixpoint http_seq (p : pc) : Prop :=
  match p with
  | PDo _ (PHttpBody _ _) => False
  | PDo _ k => http_seq k
  | _ => True
  end.

Lemma http_seq_do a k : http_seq (PDo a k) -> (forall i body, k <> PHttpBody i body) /\ http_seq k.
Proof. simpl. destruct k; intros H; split; try exact H; try exact Logic.I; try discriminate; destruct H. Qed.

Lemma http_seq_do_intro a k : (forall i body, k <> PHttpBody i body) -> http_seq k -> http_seq (PDo a k).
Proof. intros NB H. simpl. destruct k; try exact H. destruct (NB i body eq_refl). Qed.

Lemma http_seq_emit_cmds l : http_seq (emit_cmds l PNtTop).
Proof.
  induction l as [|[[n c] u] l IH]; [exact Logic.I|]. cbn [emit_cmds]. apply http_seq_do_intro; [|exact IH].
  destruct l as [|[[? ?] ?] ?]; discriminate.
Qed.

Lemma http_seq_spawn_all l : http_seq (spawn_all l PRfTop).
Proof.
  induction l as [|i l IH]; [exact Logic.I|]. cbn [spawn_all]. apply http_seq_do_intro; [|exact IH].
  destruct l; discriminate.
Qed.

Lemma csr_http_seq O w e p lk' p' os : csr O w e p lk' p' os -> http_seq p'.
Proof.
  intros C. destruct C; try exact Logic.I.
  - destruct (e_post e) as [b|m|c b|k m]; simpl; try exact Logic.I. destruct (is_transient k); exact Logic.I.
  - unfold ref_body_next. destruct (o_json O body) as [v|m]; [|exact Logic.I].
    destruct (json_str $"error" v); [exact Logic.I|].
    destruct (json_str $"access_token" v); [|exact Logic.I].
    destruct (json_u64 $"expires_in" v); [|exact Logic.I].
    destruct (json_str $"token_type" v) as [ty|]; [|exact Logic.I].
    destruct (str_eqb ty $"Bearer"); exact Logic.I.
  - destruct (e_post e) as [b|m|c b|k m]; simpl; try exact Logic.I. destruct tries as [|[|t]]; exact Logic.I.
  - destruct wa; exact Logic.I.
  - destruct wa; exact Logic.I.
  - apply http_seq_emit_cmds.
  - apply http_seq_spawn_all.
Qed.

Lemma reach_http_seq O w : reachable O w -> Forall http_seq (w_threads w).
Proof.
  revert w. apply (reach_ind O (fun w => Forall http_seq (w_threads w))).
  - intros. repeat constructor.
  - intros w l w' R I I' A F S T.
    destruct T as [tid e p lk' p' os N C|tid e p w' N SY|https bytes P]; simpl.
    + apply forall_list_set; [exact F|]. eapply csr_http_seq. exact C.
    + destruct SY; simpl; try (apply forall_list_set; [exact F|exact Logic.I]).
      assert (Forall http_seq (list_set tid k (w_threads w))) as F'.
      { apply forall_list_set; [exact F|]. rewrite Forall_forall in F.
        specialize (F _ (nth_error_In _ _ N)). apply http_seq_do in F. apply F. }
      destruct a; simpl; try exact F'. apply Forall_app. split; [exact F'|]. constructor; [exact Logic.I|constructor].
    + apply Forall_app. split; [exact F|]. constructor; [exact Logic.I|constructor].
Qed.

Lemma rv_step O n w l w' x os :
  reachable O w -> step O w l = SNext w' -> tstep O w l w' -> w_trace w' = w_trace w ++ os ->
  rv_inv O n w x -> rv_inv O n w' (x ++ os).
Proof.
  intros R S T TR [D|[[RP RA RB] NSH]]; [left; apply reauthorised_grow; exact D|].
  pose proof (reach_inv _ _ R) as I. pose proof (inv_wf _ _ I) as W.
  pose proof (reach_pend _ _ R) as PE.
  assert (reachable O w') as R' by (eapply reach_step; eassumption).
  pose proof (tstep_ok _ _ _ _ I T) as [I' EV].
  destruct T as [tid e p lk' p' os' N C|tid e p w' N SY|https bytes P].
  - simpl in TR. apply app_inv_head in TR. subst os'.
    assert (In p (w_threads w)) as IP by (eapply nth_error_In; exact N).
    assert (pc_ok (w_lk w) p) as PO
      by (pose proof (inv_threads _ _ I) as TH; rewrite Forall_forall in TH; auto).
    assert (reauthorised O n (x ++ os) \/
            (forall e1, has lk' e1 -> d_name e1 = n -> is_active (d_ts e1) = false)) as [D|RA'].
    { (* no token without re-authorisation *)
      destruct (classic_active lk' n) as [(e1 & a1 & H1 & E1 & T1)|NO]; [|right; exact NO].
      destruct (csr_active _ _ _ _ _ _ _ e1 a1 W C H1 T1)
        as [H0|e0 a0 H0 NE T0 _ _ _ _ _|e0 name tok exs rt now ex -> H0 NE _
           |e0 body v tok exs ex -> H0 NE _ _ _ _ _ _
           |e0 req bytes plain d ad tok ob ex rt r1 r2 act -> EC RQ _ _ _ _ _ _ _ _ _ _].
      - exfalso. specialize (RA e1 H0 E1). rewrite T1 in RA. discriminate.
      - exfalso. specialize (RA e0 H0 ltac:(congruence)). rewrite T0 in RA. discriminate.
      - exfalso. simpl in PO. destruct PO as (act & _ & OW).
        destruct (owns_same _ _ _ _ _ W OW H0 eq_refl) as (b1 & _ & _ & _ & (b2 & T2 & _)).
        specialize (RA e0 H0 ltac:(congruence)). rewrite T2 in RA. discriminate.
      - exfalso. apply (RB e0 (d_id e0) body IP H0 eq_refl). congruence.
      - left. left. exists bytes. apply in_or_app. right.
        assert (In (OClient req) os) as IO.
        { clear - C EC. inversion C; subst; simpl;
            match goal with X : e_client e = Some _ |- _ => rewrite EC in X; injection X as <- end; auto. }
        rewrite RQ in IO. exact IO. }
    { left. exact D. }
    assert (reauthorised O n (x ++ os) \/ forall e1 i body, p' = PHttpBody i body -> has lk' e1 -> d_id e1 = i -> d_name e1 <> n)
      as [D|RB'].
    { destruct (body_dec p') as [(i & body & EB)|NB]; [|right; intros e1 i body EB; exfalso; exact (NB i body EB)].
      destruct (csr_body _ _ _ _ _ _ _ i body C EB) as (uri & pairs & tries & -> & -> & ->).
      destruct (classic_named (w_lk w) i n) as [(e1 & H1 & E1 & N1)|NO];
        [|right; intros e1 i' body' EB' H1 E1 N1; rewrite EB in EB'; injection EB' as <- _; exact (NO e1 H1 E1 N1)].
      left. right.
      pose proof (pend_threads _ _ PE) as PT. rewrite Forall_forall in PT. specialize (PT _ IP). simpl in PT.
      destruct PT as (n' & act & cvr & st & u & code & ru & https & bytes & req_uri & X1 & X2 & X3 & X4 & X5 & X6 & X7 & X8 & X9 & X10 & X11 & X12).
      destruct (owns_same _ _ _ _ _ W X12 H1 E1) as (b1 & _ & _ & NN & (ln & T1)).
      specialize (RP e1 cvr ln st u H1 N1 T1). apply in_split in RP as (xa & xb & ->).
      exists xa, u, xb, uri, pairs, body, []. split; [rewrite <- app_assoc; reflexivity|].
      rewrite X3. eapply in_auth_params; eassumption. }
    { left. exact D. }
    right. split.
    + constructor; simpl.
      * intros e1 cvr ln st u H1 E1 T1. apply in_or_app.
        destruct (csr_pending _ _ _ _ _ _ _ e1 cvr ln st u W C H1 T1)
          as [H0|e0 ln0 -> H0 NE T0 _ _|e0 req act -> H0 NE NA -> AC AU _ _ _].
        -- left. eapply RP; eassumption.
        -- left. eapply (RP e0); try eassumption. congruence.
        -- right. simpl. right. left. congruence.
      * exact RA'.
      * intros e1 i body IT H1 E1. apply in_list_set in IT as [EB|IT].
        -- eapply RB'; [symmetry; exact EB|exact H1|exact E1].
        -- assert (pc_ok (w_lk w) (PHttpBody i body)) as PB
             by (pose proof (inv_threads _ _ I) as TH; rewrite Forall_forall in TH; auto).
           destruct PB as (act & LT & _).
           destruct (proj2 EV e1 H1) as [H0 _]; [simpl in *; lia|]. eapply RB; eassumption.
    + simpl. apply forall_list_set; [exact NSH|]. eapply csr_no_show; eassumption.
  - assert (w_lk w' = w_lk w) as LK by (destruct SY; try reflexivity; destruct a; reflexivity).
    right. split.
    + constructor; rewrite LK.
      * intros e1 cvr ln st u H1 E1 T1. apply in_or_app. left. eapply RP; eassumption.
      * exact RA.
      * intros e1 i body IT. apply RB with (body := body).
        destruct SY; simpl in IT;
          try (apply in_list_set in IT as [EB|IT]; [discriminate EB|exact IT]).
        pose proof (reach_http_seq _ _ R) as HS. rewrite Forall_forall in HS.
        specialize (HS _ (nth_error_In _ _ N)).
        assert (In (PHttpBody i body) (list_set tid k (w_threads w)) \/ PHttpBody i body = PRefStart (match a with ASpawnRefresh j => j | _ => 0%N end)) as [IT'|X];
          [|apply in_list_set in IT' as [EB|IT']; [|exact IT']|discriminate X].
        { destruct a; simpl in IT; try (left; exact IT). apply in_app_iff in IT as [IT|[IT|[]]]; auto. }
        exfalso. apply http_seq_do in HS as [HS _]. exact (HS i body (eq_sym EB)).
    + assert (forall k, (forall a, In a (chain k) -> In a (chain p)) -> no_show n k) as SUB.
      { rewrite Forall_forall in NSH. specialize (NSH _ (nth_error_In _ _ N)).
        intros k SU wu tok NS X. exact (NSH wu tok NS (SU _ X)). }
      destruct SY; simpl; try (apply forall_list_set; [exact NSH|apply SUB; intros ? []]).
      assert (Forall (no_show n) (list_set tid k (w_threads w))) as F
        by (apply forall_list_set; [exact NSH|apply SUB; intros b Hb; right; exact Hb]).
      destruct a; simpl; try exact F. apply Forall_app. split; [exact F|].
      constructor; [intros wu tok NS []|constructor].
  - right. split.
    + constructor; simpl.
      * intros e1 cvr ln st u H1 E1 T1. apply in_or_app. left. eapply RP; eassumption.
      * exact RA.
      * intros e1 i body IT. apply in_app_iff in IT as [IT|[X|[]]]; [|discriminate X]. eapply RB; eassumption.
    + simpl. apply Forall_app. split; [exact NSH|]. constructor; [intros wu tok NS []|constructor].
Qed.

Lemma reauthorised_skip O n req txt t :
  reauthorised O n (OReply req txt :: t) -> reauthorised O n t.
Proof.
  intros [[b [X|I]]|(ta & u & tb & uri & pairs & body & tc & E & RD)]; [discriminate X|left; exists b; exact I|].
  right. destruct ta as [|y ta]; [discriminate E|]. injection E as _ ET.
  exists ta, u, tb, uri, pairs, body, tc. auto.
Qed.

Lemma revoke_final O w t1 n tm wu tok t2 :
  reachable O w ->
  w_trace w = t1 ++ OReply ($"revoke:" ++ n) $"ok:" :: tm
                 ++ OReply ($"showtoken:" ++ wu ++ $" " ++ n) ($"access_token:" ++ tok) :: t2 ->
  ~ In " "%char wu ->
  reauthorised O n tm.
Proof.
  intros R E NS.
  destruct (reply_principle O (fun w req txt => forall n, req = $"revoke:" ++ n -> txt = $"ok:" ->
              emptied (w_lk w) n)) with (4 := E) as (w1 & R1 & ST & E1 & Q1 & N1).
  - intros w0 e lk' p' os req txt R0 R0' N C I n0 -> ->. simpl.
    eapply csr_revoke_reply; try eassumption. apply (inv_wf O), reach_inv. exact R0.
  - intros w0 l w' req txt R0 S T MB Q n0 E0 T0. eapply tstep_emptied; try eassumption. apply Q; assumption.
  - exact R.
  - specialize (Q1 n eq_refl eq_refl).
    assert (forall w', steps O w1 w' -> forall x, w_trace w' = t1 ++ x ->
              rv_inv O n w' x /\ trace_all (fun x1 o => forall wu tok, ~ In " "%char wu ->
                o = OReply ($"showtoken:" ++ wu ++ $" " ++ n) ($"access_token:" ++ tok) -> reauthorised O n x1) x) as K.
    { intros w' S'. induction S' as [w1|w1 l w2 w3 S' IH SS].
      - intros x Ex. rewrite E1 in Ex. rewrite <- (app_nil_r t1) in Ex at 1. apply app_inv_head in Ex. subst x.
        split; [|apply trace_all_nil]. right. pose proof (reach_inv _ _ R1) as I. split.
        + constructor.
          * intros e cvr ln st u H EN T. rewrite (Q1 e H EN) in T. discriminate.
          * intros e H EN. rewrite (Q1 e H EN). reflexivity.
          * intros e i body IT H Ei EN.
            pose proof (inv_threads _ _ I) as TH. rewrite Forall_forall in TH. specialize (TH _ IT).
            destruct TH as (act & OW).
            destruct (owns_same _ _ _ _ _ (inv_wf _ _ I) OW H Ei) as (b1 & _ & _ & _ & (x1 & x2 & x3 & x4 & T)).
            rewrite (Q1 e H EN) in T. discriminate.
        + rewrite Forall_forall. intros p Ip. apply In_nth_error in Ip as [tid Np].
          intros wu' tok' NS' X.
          assert (tid = 0) as -> by (eapply chain_role_main; eassumption).
          rewrite N1 in Np. injection Np as <-. destruct X as [X|[]]. apply emit_reply_inj in X as [X _]. discriminate X.
      - assert (reachable O w2) as R2 by (eapply steps_reachable; eassumption).
        destruct (step_ok _ _ _ _ (reach_inv _ _ R2) SS) as (_ & _ & T & _).
        destruct (steps_trace _ _ _ R1 S') as [y Ey]. rewrite E1 in Ey.
        destruct (tstep_trace _ _ _ _ T) as [os Eo].
        intros x Ex. assert (x = y ++ os) as ->.
        { rewrite Eo, Ey, <- app_assoc in Ex. apply app_inv_head in Ex. symmetry. exact Ex. }
        destruct (IH R1 ST E1 Q1 N1 y Ey) as [RV TA]. split.
        + eapply rv_step; eassumption.
        + apply trace_all_app; [exact TA|]. intros a o b EO wu' tok' NS' ->.
          destruct RV as [D|[_ NSH]]; [apply reauthorised_grow; exact D|]. exfalso.
          assert (In (OReply ($"showtoken:" ++ wu' ++ $" " ++ n) ($"access_token:" ++ tok')) os) as IO
            by (rewrite EO; apply in_or_app; right; left; reflexivity).
          destruct T as [tid e p lk' p' os' N C|tid e p w' N SY|https bytes P].
          * simpl in Eo. apply app_inv_head in Eo. subst os'.
            clear - C IO. destruct C; simpl in IO;
              repeat match goal with X : _ \/ _ |- _ => destruct X as [X|X]; try discriminate X end;
              try contradiction; try (destruct IO; fail).
          * destruct SY; simpl in Eo; try (rewrite <- (app_nil_r (w_trace w2)) in Eo at 1; apply app_inv_head in Eo; subst os; destruct IO; fail).
            rewrite do_action_trace in Eo. apply app_inv_head in Eo. subst os.
            rewrite Forall_forall in NSH. specialize (NSH _ (nth_error_In _ _ N) wu' tok' NS').
            apply NSH. destruct a0; simpl in IO; try destruct IO as [IO|[]]; try discriminate IO; try contradiction.
            subst o. left. reflexivity.
          * simpl in Eo. apply app_inv_head in Eo. subst os. destruct IO as [X|[]]; discriminate X. }
    destruct (K w ST _ E) as [_ TA].
    specialize (TA (OReply ($"revoke:" ++ n) $"ok:" :: tm) _ t2 eq_refl wu tok NS eq_refl).
    eapply reauthorised_skip. exact TA.
Qed.
