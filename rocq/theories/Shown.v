(** C01: what [show] prints was delivered for the account as configured now.
    C04: after a revoke, only a new authorisation or a restore. *)
From Verif Require Import Base BaseLemmas Time Utf8 Base64 Url Json Oracles Config Dump State Http
  Timers Server StateLemmas ConfigLemmas SpecServer Steps Inv Reach Own Trace Origin Reply.

Lemma emit_reply_inj a b c d : AEmit (OReply a b) = AEmit (OReply c d) -> a = c /\ b = d.
Proof. intros [= -> ->]. auto. Qed.

Lemma csr_show_reply O w e lk' p' os req rest tok :
  csr O w e PMain lk' p' os -> In (AEmit (OReply req ($"access_token:" ++ tok))) (chain p') ->
  req = $"showtoken:" ++ rest ->
  lk' = w_lk w /\ os = [OClient req] /\ e_client e = Some req
  /\ exists wu e0 a, req = $"showtoken:" ++ wu ++ $" " ++ d_name e0 /\ ~ In " "%char wu
       /\ has (w_lk w) e0 /\ d_ts e0 = TSActive a /\ (env_now e < expiry a)%Z /\ tok = access_token a.
Proof.
  intros C I E.
  inversion C; subst p' os; simpl in I;
    repeat match goal with X : _ \/ _ |- _ => destruct X as [X|X]; try discriminate X end; try contradiction.
  - apply emit_reply_inj in I as [<- TX]. exfalso. match goal with X : forall rest tok, _ |- _ => apply (X rest tok E TX) end.
  - apply emit_reply_inj in I as [<- X].
    injection X as X. repeat (split; [assumption || reflexivity|]).
    eexists _, _, _. repeat (split; [eassumption|]). symmetry. exact X.
  - apply emit_reply_inj in I as [<- X].
    exfalso. unfold pending_reply in X. destruct (str_eqb wu $"withurl"); discriminate X.
  - apply emit_reply_inj in I as [<- X].
    exfalso. unfold pending_reply in X. destruct (str_eqb wu $"withurl"); discriminate X.
  - apply emit_reply_inj in I as [<- TX]. exfalso. match goal with X : forall tok, _ <> _ |- _ => apply (X tok TX) end.
Qed.

(** Only requests change the configuration. *)
Lemma busy_config O w l w' :
  reachable O w -> tstep O w l w' -> main_busy w l -> lconfig (w_lk w') = lconfig (w_lk w).
Proof.
  intros R T MB. destruct T as [tid e p lk' p' os N C|tid e p w' N SY|https bytes P].
  - simpl. destruct (csr_config _ _ _ _ _ _ _ C) as [[LC _]|(req & c & -> & _)]; [exact LC|].
    exfalso. pose proof (ro_pc _ (reach_roles _ _ R) _ _ N) as RO. simpl in RO.
    destruct tid as [|[|[|[|tid]]]]; try discriminate. exact (MB e eq_refl N).
  - destruct SY; try reflexivity. destruct a; reflexivity.
  - reflexivity.
Qed.

Lemma delivered_busy O w l w' n tok :
  reachable O w -> tstep O w l w' -> main_busy w l ->
  delivered O (w_lk w) (w_trace w) n tok -> delivered O (w_lk w') (w_trace w') n tok.
Proof.
  intros R T MB (act & A & SI). destruct (tstep_grows _ _ _ _ R T) as [os GR].
  assert (account_of (w_lk w') n = Some act) as A'.
  { unfold account_of in *. rewrite (busy_config _ _ _ _ R T MB). exact A. }
  exists act. split; [exact A'|]. eapply since_step; try eassumption;
    [apply respects_delivers|apply same_security_refl].
Qed.

Lemma shown_delivered O w t1 rest tok t2 :
  reachable O w ->
  w_trace w = t1 ++ OReply ($"showtoken:" ++ rest) ($"access_token:" ++ tok) :: t2 ->
  exists wu n c act,
    rest = wu ++ $" " ++ n /\ ~ In " "%char wu
    /\ config_at t1 = Some c /\ lookup n (c_accounts c) = Some act
    /\ since (delivers O tok) t1 n act.
Proof.
  intros R E.
  destruct (reply_principle O (fun w req txt => forall rest tok,
      req = $"showtoken:" ++ rest -> txt = $"access_token:" ++ tok ->
      exists wu n, rest = wu ++ $" " ++ n /\ ~ In " "%char wu
                   /\ delivered O (w_lk w) (w_trace w) n tok)) with (4 := E)
    as (w1 & R1 & _ & <- & Q1 & _).
  - intros w0 e lk' p' os req txt R0 R0' N C I rest' tok' EQ ET. subst txt.
    destruct (csr_show_reply _ _ _ _ _ _ _ _ _ C I EQ) as (-> & -> & EC & wu & e0 & a & E1 & NS & H & T & _ & ->).
    exists wu, (d_name e0). split; [|split; [exact NS|]].
    + rewrite EQ in E1. apply app_inv_head in E1. exact E1.
    + apply (org_active _ _ (reach_org _ _ R0') e0 a); [exact H|exact T].
  - intros w0 l w' req txt R0 S T MB Q rest' tok' EQ ET.
    destruct (Q rest' tok' EQ ET) as (wu & n & E1 & NS & D). exists wu, n.
    split; [exact E1|]. split; [exact NS|]. eapply delivered_busy; eassumption.
  - exact R.
  - destruct (Q1 rest tok eq_refl eq_refl) as (wu & n & E1 & NS & act & A & SI).
    exists wu, n, (lconfig (w_lk w1)), act. repeat (split; [assumption|]).
    split; [apply (reach_config_at _ _ R1)|]. split; [exact A|exact SI].
Qed.
