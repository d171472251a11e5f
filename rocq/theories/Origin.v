(** Where held tokens come from. *)
From Verif Require Import Base BaseLemmas Time Utf8 Base64 Url Json Oracles Config Dump State Http
  Timers Server StateLemmas ConfigLemmas SpecServer Steps Inv Reach Own Trace.

Lemma secure_eq_same a b : secure_eq a b = true <-> same_security a b.
Proof. apply secure_eq_fields. Qed.

Lemma same_security_refl a : same_security a a.
Proof. unfold same_security. tauto. Qed.

Lemma same_security_trans a b c : same_security a b -> same_security b c -> same_security a c.
Proof. rewrite <- !secure_eq_same. apply secure_eq_trans. Qed.

Lemma same_security_sym a b : same_security a b -> same_security b a.
Proof. rewrite <- !secure_eq_same. apply secure_eq_sym. Qed.

Lemma restorable_agrees a d : secure_restorable a d = true <-> agrees d a.
Proof. rewrite secure_restorable_fields. unfold agrees. split; intuition congruence. Qed.

(** * The history grows *)

Lemma unchanged_app n act t x y :
  unchanged n act t x -> unchanged n act (t ++ x) y -> unchanged n act t (x ++ y).
Proof.
  intros X Y pre suf E.
  destruct (Nat.le_gt_cases (List.length pre) (List.length x)) as [LE|GT].
  - assert (exists r, x = pre ++ r) as [r ->].
    { exists (skipn (List.length pre) x).
      assert (pre = firstn (List.length pre) x) as P.
      { pose proof (f_equal (firstn (List.length pre)) E) as F.
        rewrite firstn_app, firstn_app, firstn_all, Nat.sub_diag in F.
        replace (List.length pre - List.length x) with 0 in F by lia.
        simpl in F. rewrite !app_nil_r in F. symmetry. exact F. }
      rewrite P at 1. symmetry. apply firstn_skipn. }
    apply (X pre r eq_refl).
  - assert (exists r, pre = x ++ r) as [r ->].
    { exists (skipn (List.length x) pre).
      assert (x = firstn (List.length x) pre) as P.
      { pose proof (f_equal (firstn (List.length x)) E) as F.
        rewrite firstn_app, firstn_app, firstn_all, Nat.sub_diag in F.
        replace (List.length x - List.length pre) with 0 in F by lia.
        simpl in F. rewrite !app_nil_r in F. exact F. }
      rewrite P at 1. symmetry. apply firstn_skipn. }
    rewrite <- app_assoc in E. apply app_inv_head in E.
    destruct (Y r suf E) as (c & a & H). exists c, a. rewrite app_assoc. exact H.
Qed.

Lemma unchanged_same n act act' t x :
  same_security act act' -> unchanged n act t x -> unchanged n act' t x.
Proof.
  intros S U pre suf E. destruct (U pre suf E) as (c & a & C & L & SS). exists c, a.
  repeat split; try assumption. all: apply (same_security_trans _ _ _ SS S).
Qed.

(** Predicates on observations that only look at security-relevant fields. *)
Definition respects (G : str -> account -> obs -> Prop) : Prop :=
  forall n a b o, same_security a b -> G n a o -> G n b o.

Lemma since_grow G t n act act' os :
  respects G -> same_security act act' ->
  since G t n act -> unchanged n act' t os -> since G (t ++ os) n act'.
Proof.
  intros RS S (ta & o & tb & -> & H & U) Y. exists ta, o, (tb ++ os).
  split; [rewrite <- app_assoc; reflexivity|]. split; [eapply RS; eassumption|].
  change (o :: tb ++ os) with ((o :: tb) ++ os). apply unchanged_app; [|exact Y].
  eapply unchanged_same; eassumption.
Qed.

Lemma since_weaken (G H : str -> account -> obs -> Prop) t n act :
  (forall o, G n act o -> H n act o) -> since G t n act -> since H t n act.
Proof. intros W (ta & o & tb & E & X & U). exists ta, o, tb. auto. Qed.

Lemma since_here (G : str -> account -> obs -> Prop) t n act o c :
  config_at t = Some c -> is_config o = false -> lookup n (c_accounts c) = Some act ->
  G n act o -> since G (t ++ [o]) n act.
Proof.
  intros C NC L H. exists t, o, []. split; [reflexivity|]. split; [exact H|].
  intros pre suf E. exists c, act. split; [|split; [exact L|apply same_security_refl]].
  rewrite config_at_app. destruct pre as [|x pre]; [exact C|].
  destruct pre as [|y pre]; [|destruct pre; discriminate].
  injection E as <- <-. simpl. destruct o; try exact C. discriminate.
Qed.

(** What one step does to the trace. *)
Lemma unchanged_quiet n act t os c :
  config_at t = Some c -> lookup n (c_accounts c) = Some act ->
  (forall o, In o os -> is_config o = false) -> unchanged n act t os.
Proof.
  intros C L NC pre suf E. exists c, act. split; [|split; [exact L|apply same_security_refl]].
  rewrite config_at_app, config_at_none; [exact C|]. intros o I. apply NC. rewrite E.
  apply in_or_app. left. exact I.
Qed.

Definition grows (w w' : world) (os : list obs) : Prop :=
  w_trace w' = w_trace w ++ os
  /\ forall n a a', account_of (w_lk w) n = Some a -> account_of (w_lk w') n = Some a' ->
       same_security a a' -> unchanged n a' (w_trace w) os.

Lemma tstep_grows O w l w' : reachable O w -> tstep O w l w' -> exists os, grows w w' os.
Proof.
  intros R T. pose proof (reach_config_at _ _ R) as CA.
  destruct T as [tid e p lk' p' os N C|tid e p w' N SY|https bytes P].
  - exists os. split; [reflexivity|]. simpl. intros n a a' A A' S.
    destruct (csr_config _ _ _ _ _ _ _ C) as [[LC NO]|(req & c & _ & -> & LC & _)].
    + eapply unchanged_quiet; try eassumption. unfold account_of in A'. rewrite LC in A'. exact A'.
    + change [OClient req; OConfig c] with ([OClient req] ++ [OConfig c]).
      apply unchanged_app.
      * eapply unchanged_same; [exact S|]. eapply unchanged_quiet; try eassumption.
        simpl. intros o [<-|[]]. reflexivity.
      * intros pre suf E. destruct pre as [|x pre].
        -- exists (lconfig (w_lk w)), a. rewrite app_nil_r, config_at_app. simpl. auto.
        -- injection E as <- E. destruct pre; [|discriminate]. exists c, a'.
           rewrite config_at_app. simpl. split; [reflexivity|].
           unfold account_of in A'. rewrite LC in A'. split; [exact A'|apply same_security_refl].
  - assert (forall n a a', account_of (w_lk w) n = Some a -> account_of (w_lk w) n = Some a' ->
       forall os, (forall o, In o os -> is_config o = false) -> unchanged n a' (w_trace w) os) as K.
    { intros n a a' A A' os NO. eapply unchanged_quiet; eassumption. }
    destruct SY; try (exists []; split; [simpl; rewrite app_nil_r; reflexivity|];
                      simpl; intros n0 a0 a0' A A' _; apply (K n0 a0 a0' A A'); intros o []).
    exists (action_obs a). split; [rewrite do_action_trace; reflexivity|].
    assert (w_lk (do_action (set_thread w tid k) a) = w_lk w) as E by (destruct a; reflexivity).
    rewrite E. intros n0 a0 a0' A A' _. apply (K n0 a0 a0' A A'). intros o Io.
    pose proof (reach_no_config_chain _ _ R) as NC. rewrite Forall_forall in NC.
    specialize (NC _ (nth_error_In _ _ N) a (or_introl eq_refl)).
    destruct a; simpl in *; try destruct Io as [<-|[]]; try reflexivity; try contradiction.
    destruct o0; try reflexivity. discriminate.
  - exists [OHttpIn https bytes]. split; [reflexivity|]. simpl. intros n a a' A A' _.
    eapply unchanged_quiet; try eassumption. intros o [<-|[]]. reflexivity.
Qed.

(** * Where an active token state comes from *)

Inductive active_from (O : oracles) (w : world) (e : env) (p : pc) (e' : entry) (a' : active) : Prop :=
| af_kept : has (w_lk w) e' -> active_from O w e p e' a'
| af_same e0 a0 :
    has (w_lk w) e0 -> d_name e' = d_name e0 -> d_ts e0 = TSActive a0 ->
    access_token a' = access_token a0 -> refresh_token a' = refresh_token a0 ->
    expiry a' = expiry a0 -> obtained a' = obtained a0 ->
    (exists i, ref_id p = Some i /\ i = d_id e0) \/ p = PRefStart (d_id e0) ->
    active_from O w e p e' a'
| af_refreshed e0 name tok exs rt now ex :
    p = PRefGot (d_id e0) name tok exs rt now -> has (w_lk w) e0 -> d_name e' = d_name e0 ->
    a' = mkActive tok now ex rt false 0 None -> active_from O w e p e' a'
| af_exchanged e0 body v tok exs ex :
    p = PHttpBody (d_id e0) body -> has (w_lk w) e0 -> d_name e' = d_name e0 ->
    o_json O body = inl v -> json_str $"error" v = None ->
    json_str $"token_type" v = Some $"Bearer" -> json_str $"access_token" v = Some tok ->
    a' = mkActive tok (env_now e) ex (json_str $"refresh_token" v) false 0 None ->
    json_u64 $"expires_in" v = Some exs ->
    active_from O w e p e' a'
| af_restored e0 req bytes plain d ad tok ob ex rt r1 r2 act :
    p = PMain -> e_client e = Some req -> req = $"restore:" ++ bytes ->
    o_decrypt O (firstn nonce_len bytes) (skipn nonce_len bytes) = Some plain ->
    deserialize plain = Some d -> d_version d = dump_version ->
    has (w_lk w) e0 -> is_active (d_ts e0) = false -> d_name e' = d_name e0 ->
    account_of (w_lk w) (d_name e0) = Some act ->
    lookup (d_name e0) (d_accounts d) = Some (ad, DActive tok ob ex rt) ->
    secure_restorable act ad = true ->
    a' = mkActive tok (restore_instant r1 ob) (restore_instant r2 ex) rt false 0 None ->
    active_from O w e p e' a'.

Lemma Forall2_in_r {A B} (R : A -> B -> Prop) l l' y :
  Forall2 R l l' -> In y l' -> exists x, In x l /\ R x y.
Proof.
  induction 1 as [|x y' l l' H F IH]; simpl; [tauto|].
  intros [->|I]; [eauto|]. destruct (IH I) as (z & Hz & Rz). eauto.
Qed.

Lemma csr_active O w e p lk' p' os e' a' :
  wf (w_lk w) -> csr O w e p lk' p' os -> has lk' e' -> d_ts e' = TSActive a' ->
  active_from O w e p e' a'.
Proof.
  intros W C H T.
  destruct C; try (apply af_kept; exact H);
    try (unfold has in H; apply bump_in in H as [(e1 & I1 & E1 & ->)|[I1 _]]; [|apply af_kept; exact I1];
         simpl in T; try discriminate;
         match goal with H0 : has (w_lk w) ?e0, E : d_id e1 = d_id ?e0 |- _ =>
           assert (e1 = e0) by (apply (wf_id_inj (w_lk w)); auto); subst e1 end;
         injection T as <-).
  - (* reload *)
    assert (wf_conf c) as WC by (match goal with CO : conf_ok O c |- _ => apply CO end).
    match goal with U : update_conf _ _ = _ |- _ =>
      destruct (update_conf_spec _ _ _ W WC U) as (_ & _ & _ & K) end.
    destruct (K e' H) as (a1 & _ & M). destruct (account_of (w_lk w) (d_name e')) as [a2|].
    + destruct (secure_eq a1 a2); [apply af_kept; exact M|destruct M; congruence].
    + destruct M; congruence.
  - (* restore *)
    match goal with F : Forall2 _ _ _ |- _ => destruct (Forall2_in_r _ _ _ _ F H) as (e0 & I0 & NE & X) end.
    destruct X as [->|[_ (NA & act & ad & td & i & L & LD & SR & TE & _)]]; [apply af_kept; exact I0|].
    rewrite T in TE. destruct td as [|tok ob ex rt]; simpl in TE; [discriminate|].
    injection TE as ->. eapply af_restored; try eassumption; reflexivity.
  - eapply af_same; try eassumption; try reflexivity. right. reflexivity.
  - eapply af_refreshed; try eassumption; reflexivity.
  - eapply af_same; try eassumption; try reflexivity. left. eexists. split; reflexivity.
  - eapply af_same; try eassumption; try reflexivity. left. eexists. split; reflexivity.
  - eapply af_same; try eassumption; try reflexivity. left. eexists. split; reflexivity.
  - eapply af_exchanged; try eassumption; reflexivity.
  - (* notifier *)
    match goal with F : Forall2 _ _ _ |- _ => destruct (Forall2_in_r _ _ _ _ F H) as (e0 & I0 & X) end.
    cbv beta in X. destruct (notify_due (w_lk w) (env_now e) e0) eqn:ND; [|subst; apply af_kept; exact I0].
    destruct X as (_ & _ & X). rewrite T in X.
    unfold notify_due in ND. destruct (d_ts e0); try discriminate.
Qed.

(** * The invariant *)

Definition delivered (O : oracles) (lk : locked) (t : list obs) (n tok : str) : Prop :=
  exists act, account_of lk n = Some act /\ since (delivers O tok) t n act.

Definition posted (O : oracles) (body n : str) (act : account) (o : obs) : Prop :=
  exists pairs, o = OPost (a_token_uri act) pairs (PRBody body) /\ authenticates act pairs.

(** For the current entry with id [i], if there is one. *)
Definition for_id (lk : locked) (t : list obs) (i : account_id) (G : str -> account -> obs -> Prop) : Prop :=
  (i < account_count lk)%N
  /\ forall e, has lk e -> d_id e = i ->
     exists act, account_of lk (d_name e) = Some act /\ since G t (d_name e) act.

Fixpoint pc_org (O : oracles) (lk : locked) (t : list obs) (p : pc) : Prop :=
  match p with
  | PDo _ k => pc_org O lk t k
  | PRefBody i _ _ body | PHttpBody i body => for_id lk t i (posted O body)
  | PRefGot i _ tok _ _ _ => for_id lk t i (delivers O tok)
  | _ => True
  end.

Record org (O : oracles) (w : world) : Prop := mkOrg {
  org_active : forall e a, has (w_lk w) e -> d_ts e = TSActive a ->
    delivered O (w_lk w) (w_trace w) (d_name e) (access_token a);
  org_threads : Forall (pc_org O (w_lk w) (w_trace w)) (w_threads w);
}.

Lemma respects_posted O body : respects (posted O body).
Proof.
  intros n a b o S (pairs & -> & A1 & A2). destruct S as (_ & _ & _ & S1 & S2 & _ & _ & S3).
  exists pairs. rewrite <- S3. split; [reflexivity|]. split; congruence.
Qed.

Lemma respects_delivers O tok : respects (delivers O tok).
Proof.
  intros n a b o S D. pose proof S as (_ & S4 & S5 & S1 & S2 & S6 & S7 & S3).
  destruct o; try exact D; simpl in *.
  - destruct D as (bytes & plain & d & ad & ob & ex & rt & D1 & D2 & D3 & D4 & D5).
    exists bytes, plain, d, ad, ob, ex, rt. repeat (split; [assumption|]).
    unfold agrees in *. intuition congruence.
  - destruct r; try exact D. destruct D as (-> & [D1 D2] & D3). split; [exact S3|].
    split; [split; congruence|exact D3].
Qed.

Lemma since_step G w w' os n a a' :
  respects G -> grows w w' os ->
  account_of (w_lk w) n = Some a -> account_of (w_lk w') n = Some a' -> same_security a a' ->
  since G (w_trace w) n a -> since G (w_trace w') n a'.
Proof.
  intros RS [E U] A A' S H. rewrite E. eapply since_grow; try eassumption. eapply U; eassumption.
Qed.

Lemma for_id_step G w w' os i :
  respects G -> grows w w' os -> evolves (w_lk w) (w_lk w') ->
  for_id (w_lk w) (w_trace w) i G -> for_id (w_lk w') (w_trace w') i G.
Proof.
  intros RS GR [C K] [L F]. split; [lia|]. intros e H E.
  destruct (K e H ltac:(lia)) as [I (a & a' & A & A' & S)].
  destruct (F e I E) as (a0 & A0 & SI). rewrite A in A0. injection A0 as <-.
  exists a'. split; [exact A'|]. eapply since_step; try eassumption.
  apply secure_eq_same. apply secure_eq_sym. exact S.
Qed.

Lemma pc_org_step O w w' os p :
  grows w w' os -> evolves (w_lk w) (w_lk w') ->
  pc_org O (w_lk w) (w_trace w) p -> pc_org O (w_lk w') (w_trace w') p.
Proof.
  intros GR EV. induction p; simpl; auto; apply for_id_step with (os := os); auto;
    auto using respects_posted, respects_delivers.
Qed.

Lemma lookup_refresh_pairs act r :
  authenticates act (refresh_pairs act r).
Proof.
  unfold authenticates, refresh_pairs. split; [reflexivity|].
  destruct (a_client_secret act); reflexivity.
Qed.

Lemma lookup_code_pairs act c v r : authenticates act (code_pairs act c v r).
Proof.
  unfold authenticates, code_pairs. split; [reflexivity|].
  destruct (a_client_secret act); reflexivity.
Qed.

(** A POST made by the owner of [i]: if [i] is still current, it was made in the
    name of the account as it is configured now. *)
Lemma for_id_posted O w i act P uri pairs body :
  reachable O w -> wf (w_lk w) -> owns (w_lk w) i act P ->
  uri = a_token_uri act -> authenticates act pairs ->
  for_id (w_lk w) (w_trace w ++ [OPost uri pairs (PRBody body)]) i (posted O body).
Proof.
  intros R W OW -> AU. split; [apply OW|]. intros e H E.
  destruct (owns_same _ _ _ _ _ W OW H E) as (a & A & S & _).
  exists a. split; [exact A|]. apply secure_eq_same in S.
  eapply since_here; [apply (reach_config_at _ _ R)|reflexivity|exact A|].
  apply (respects_posted O body (d_name e) act a); [apply same_security_sym; exact S|].
  exists pairs. auto.
Qed.

Lemma for_id_weaken lk t i (G H : str -> account -> obs -> Prop) :
  (forall n act o, G n act o -> H n act o) -> for_id lk t i G -> for_id lk t i H.
Proof.
  intros I [L F]. split; [exact L|]. intros e X E. destruct (F e X E) as (act & A & SI).
  exists act. split; [exact A|]. eapply since_weaken; [|exact SI]. auto.
Qed.

Lemma pc_org_emit_cmds O lk t l k : pc_org O lk t (emit_cmds l k) = pc_org O lk t k.
Proof. induction l as [|[[n c] u] l IH]; simpl; auto. Qed.

Lemma pc_org_spawn_all O lk t l k : pc_org O lk t (spawn_all l k) = pc_org O lk t k.
Proof. induction l as [|i l IH]; simpl; auto. Qed.

Lemma csr_pc_org O w e p lk' p' os :
  reachable O w -> inv O w -> pc_ok (w_lk w) p -> pc_org O (w_lk w) (w_trace w) p ->
  csr O w e p lk' p' os -> pc_org O lk' (w_trace w ++ os) p'.
Proof.
  intros R I PO OR C.
  destruct C; simpl in *; auto; rewrite ?app_nil_r;
    rewrite ?pc_org_emit_cmds, ?pc_org_spawn_all; try exact Logic.I; try (destruct wa; exact Logic.I).
  - destruct PO as (act & _ & EU & -> & OW).
    destruct (e_post e) as [body|m|code body|k m]; simpl; try exact Logic.I.
    + eapply for_id_posted; try eassumption; [apply I|apply lookup_refresh_pairs].
    + destruct (is_transient k); exact Logic.I.
  - unfold ref_body_next. destruct (o_json O body) as [v|m] eqn:J; [|exact Logic.I].
    destruct (json_str $"error" v) eqn:JE; [exact Logic.I|].
    destruct (json_str $"access_token" v) as [tok|] eqn:JA; [|exact Logic.I].
    destruct (json_u64 $"expires_in" v); [|exact Logic.I].
    destruct (json_str $"token_type" v) as [ty|] eqn:JT; [|exact Logic.I].
    destruct (str_eqb ty $"Bearer") eqn:TB; [|exact Logic.I]. apply str_eqb_eq in TB. subst ty. simpl.
    eapply for_id_weaken; [|exact OR]. intros n act o (pairs & -> & AU). simpl.
    split; [reflexivity|]. split; [exact AU|]. exists v. auto.
  - destruct PO as (act & code & cvr & ru & st & u & EU & -> & OW).
    destruct (e_post e) as [body|m|code' body|k m]; simpl; try exact Logic.I.
    + eapply for_id_posted; try eassumption; [apply I|apply lookup_code_pairs].
    + destruct tries as [|[|n]]; exact Logic.I.
Qed.

Lemma csr_restore_obs O w e lk' p' os bytes :
  csr O w e PMain lk' p' os -> e_client e = Some ($"restore:" ++ bytes) ->
  os = [OClient ($"restore:" ++ bytes)] /\ lconfig lk' = lconfig (w_lk w).
Proof.
  intros C EC.
  inversion C; match goal with X : e_client e = Some ?r |- _ =>
    assert (r = $"restore:" ++ bytes) as RE by congruence; clear X end;
    try (split; [rewrite RE; reflexivity|]; try assumption; reflexivity); exfalso.
  - match goal with Y : _ \/ _ |- _ => destruct Y as [Y|[Y _]]; rewrite Y in RE; discriminate RE end.
  - match goal with Y : _ = $"reload:" |- _ => rewrite Y in RE; discriminate RE end.
Qed.

Lemma reach_org O w : reachable O w -> org O w.
Proof.
  revert w. apply (reach_ind O (org O)).
  - intros e c hp hsp pk _ CO. constructor.
    + intros e0 a H T. apply locked_new_empty in H. congruence.
    + repeat constructor.
  - intros w l w' R I I' A [OA OT] S T.
    pose proof (inv_wf _ _ I) as W. pose proof (inv_wf _ _ I') as W'.
    destruct (tstep_ok _ _ _ _ I T) as [_ EV].
    destruct (tstep_grows _ _ _ _ R T) as [gs GR].
    (* held tokens that did not change hands *)
    assert (forall n tok a a', account_of (w_lk w) n = Some a -> account_of (w_lk w') n = Some a' ->
              same_security a a' -> delivered O (w_lk w) (w_trace w) n tok ->
              delivered O (w_lk w') (w_trace w') n tok) as KEEP.
    { intros n tok a a' A0 A1 SS (a0 & A2 & SI). rewrite A0 in A2. injection A2 as <-.
      exists a'. split; [exact A1|]. eapply since_step; try eassumption. apply respects_delivers. }
    assert (forall q, In q (w_threads w) -> pc_org O (w_lk w') (w_trace w') q) as KT.
    { intros q Iq. rewrite Forall_forall in OT. eapply pc_org_step; try eassumption. auto. }
    destruct T as [tid e p lk' p' os N C|tid e p w' N SY|https bytes P].
    + simpl in *. assert (In p (w_threads w)) as IP by (eapply nth_error_In; exact N).
      assert (pc_ok (w_lk w) p) as PO
        by (pose proof (inv_threads _ _ I) as TH; rewrite Forall_forall in TH; auto).
      assert (pc_org O (w_lk w) (w_trace w) p) as OP by (rewrite Forall_forall in OT; auto).
      constructor; simpl.
      * intros e' a' H TA.
        assert (exists a, account_of lk' (d_name e') = Some a) as [ac' AC'].
        { destruct (wf_account _ _ W' H) as (a & L & _). eauto. }
        destruct (csr_active _ _ _ _ _ _ _ e' a' W C H TA)
          as [H0|e0 a0 H0 NE T0 AT _ _ _ WH|e0 name tok exs rt now ex -> H0 NE ->
             |e0 body v tok exs ex -> H0 NE J JE JT JA -> _
             |e0 req bytes plain d ad tok ob ex rt r1 r2 act -> EC ER DE DS _ H0 NA NE AC LD SR ->].
        -- (* the same entry *)
           assert (d_id e' < account_count (w_lk w))%N as LT by (apply wf_entry_count; assumption).
           destruct (proj2 EV e' H LT) as [_ (a & a2 & A0 & A1 & SS)].
           eapply KEEP; try eassumption; [|eapply OA; eassumption].
           apply same_security_sym, secure_eq_same, SS.
        -- rewrite AT, NE. specialize (OA _ _ H0 T0).
           destruct (csr_config _ _ _ _ _ _ _ C) as [[LC _]|(req & c & -> & _)].
           2:{ exfalso. destruct WH as [(i & X & _)|X]; discriminate X. }
           destruct OA as (a & A0 & SI). eapply KEEP; [exact A0| |apply same_security_refl|exists a; auto].
           unfold account_of in *. rewrite LC. exact A0.
        -- simpl in OP |- *. destruct OP as [_ OP]. destruct (OP e0 H0 eq_refl) as (a & A0 & SI).
           rewrite NE. eapply KEEP; [exact A0| |apply same_security_refl|exists a; auto].
           assert (lconfig lk' = lconfig (w_lk w)) as LC.
           { destruct (csr_config _ _ _ _ _ _ _ C) as [[LC _]|(req & c & X & _)]; [exact LC|discriminate X]. }
           unfold account_of in *. rewrite LC. exact A0.
        -- simpl in OP |- *. destruct OP as [_ OP]. destruct (OP e0 H0 eq_refl) as (a & A0 & SI).
           rewrite NE. eapply KEEP; [exact A0| |apply same_security_refl|exists a; split; [exact A0|]].
           ++ assert (lconfig lk' = lconfig (w_lk w)) as LC.
              { destruct (csr_config _ _ _ _ _ _ _ C) as [[LC _]|(req & c & X & _)]; [exact LC|discriminate X]. }
              unfold account_of in *. rewrite LC. exact A0.
           ++ eapply since_weaken; [|exact SI]. intros o (pairs & -> & AU). simpl.
              split; [reflexivity|]. split; [exact AU|]. exists v. auto.
        -- simpl. assert (os = [OClient req] /\ lconfig lk' = lconfig (w_lk w)) as [-> LC].
           { rewrite ER in EC |- *. eapply csr_restore_obs; eassumption. }
           exists act. split; [rewrite NE; unfold account_of in *; rewrite LC; exact AC|].
           rewrite NE. eapply since_here; [apply (reach_config_at _ _ R)|reflexivity|exact AC|].
           simpl. exists bytes, plain, d, ad, ob, ex, rt. repeat (split; [assumption|]).
           apply restorable_agrees. exact SR.
      * apply forall_list_set.
        -- rewrite Forall_forall. exact KT.
        -- eapply csr_pc_org; eassumption.
    + assert (w_lk w' = w_lk w) as LK.
      { destruct SY; try reflexivity. destruct a; reflexivity. }
      constructor.
      * intros e' a' H TA. rewrite LK in H. destruct (OA _ _ H TA) as (a & A0 & SI).
        eapply KEEP; [exact A0|rewrite LK; exact A0|apply same_security_refl|exists a; auto].
      * assert (forall k, In k (w_threads w) \/ (exists b, In (PDo b k) (w_threads w)) \/ (forall lk t, pc_org O lk t k) ->
                  pc_org O (w_lk w') (w_trace w') k) as KK.
        { intros k [X|[(b & X)|X]]; [apply KT; exact X|exact (KT _ X)|apply X]. }
        assert (forall k, In k (w_threads w) \/ (exists b, In (PDo b k) (w_threads w)) \/ (forall lk t, pc_org O lk t k) ->
                  Forall (pc_org O (w_lk w') (w_trace w')) (list_set tid k (w_threads w))) as KL.
        { intros k X. apply forall_list_set; [rewrite Forall_forall; exact KT|apply KK; exact X]. }
        destruct SY; simpl in *; try (apply KL; right; right; intros; exact Logic.I).
        assert (Forall (pc_org O (w_lk (do_action (set_thread w tid k) a)) (w_trace (do_action (set_thread w tid k) a)))
                 (list_set tid k (w_threads w))) as F.
        { apply KL. right. left. exists a. eapply nth_error_In. exact N. }
        destruct a; simpl in *; try exact F. apply Forall_app. split; [exact F|].
        constructor; [exact Logic.I|constructor].
    + constructor; simpl.
      * intros e' a' H TA. destruct (OA _ _ H TA) as (a & A0 & SI).
        eapply (KEEP _ _ a a A0); [exact A0|apply same_security_refl|exists a; auto].
      * apply Forall_app. split; [rewrite Forall_forall; exact KT|]. constructor; [exact Logic.I|constructor].
Qed.
