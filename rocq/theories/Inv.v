(** The basic invariant of the running server, and the proof that the critical
    sections of Server.v do what Steps.v says. *)
From Verif Require Import Base BaseLemmas Time Utf8 Base64 Url Json Oracles Config Located Dump State Http
  Timers Server StateLemmas ConfigLemmas Locate Steps SpecStatus.

(** * Invariant *)

(** [owns lk i act P]: if version [i] is still current then it belongs to an
    account that agrees with [act] on everything security-relevant, and its
    token state satisfies [P]. *)
Definition owns (lk : locked) (i : account_id) (act : account) (P : tokenstate -> Prop) : Prop :=
  (i < account_count lk)%N
  /\ forall e, has lk e -> d_id e = i ->
     (exists a, account_of lk (d_name e) = Some a /\ secure_eq a act = true) /\ P (d_ts e).

Definition refreshing (ts : tokenstate) : Prop :=
  exists a, ts = TSActive a /\ ongoing a = true.

Definition refreshing_with (rtok : str) (ts : tokenstate) : Prop :=
  exists a, ts = TSActive a /\ ongoing a = true /\ refresh_token a = Some rtok.

Definition pending_with (cvr st : str) (u : url) (ts : tokenstate) : Prop :=
  exists ln, ts = TSPending cvr ln st u.

Definition pending (ts : tokenstate) : Prop :=
  exists cvr ln st u, ts = TSPending cvr ln st u.

Definition action_ok (lk : locked) (a : action) : Prop :=
  match a with
  | ASpawnRefresh i => (i < account_count lk)%N
  | _ => True
  end.

Fixpoint pc_ok (lk : locked) (p : pc) : Prop :=
  match p with
  | PDo a k => action_ok lk a /\ pc_ok lk k
  | PRefStart i => (i < account_count lk)%N
  | PRefPost i name rtok uri pairs =>
      exists act, a_name act = name /\ uri = a_token_uri act /\ pairs = refresh_pairs act rtok
                  /\ owns lk i act (refreshing_with rtok)
  | PRefBody i name rtok _ =>
      exists act, a_name act = name /\ owns lk i act (refreshing_with rtok)
  | PRefGot i name _ _ _ _ | PRefPerm i name _ | PRefTransient i name _ | PRefCmd i name _
  | PRefCmdDone i name _ =>
      exists act, a_name act = name /\ owns lk i act refreshing
  | PHttpPost i uri pairs _ =>
      exists act code cvr ru st u,
        uri = a_token_uri act /\ pairs = code_pairs act code cvr ru
        /\ owns lk i act (pending_with cvr st u)
  | PHttpBody i _ | PHttpFail i _ => exists act, owns lk i act pending
  | _ => True
  end.

Record inv (O : oracles) (w : world) : Prop := mkInv {
  inv_wf : wf (w_lk w);
  inv_conf : conf_ok O (lconfig (w_lk w));
  inv_ports : w_http w <> None \/ w_https w <> None;
  inv_threads : Forall (pc_ok (w_lk w)) (w_threads w);
}.

Lemma owns_evolves lk lk' i act P : evolves lk lk' -> owns lk i act P -> owns lk' i act P.
Proof.
  intros [C K] [L F]. split; [lia|]. intros e I E.
  destruct (K e I ltac:(lia)) as [I' (a & a' & A & A' & S)].
  destruct (F e I' E) as [(a1 & A1 & S1) HP]. split; [|exact HP].
  exists a'. split; [exact A'|]. rewrite A in A1. injection A1 as <-. eapply secure_eq_trans; eauto.
Qed.

Lemma owns_weaken lk i act (P Q : tokenstate -> Prop) :
  (forall ts, P ts -> Q ts) -> owns lk i act P -> owns lk i act Q.
Proof. intros PQ [L F]. split; [exact L|]. intros e I E. destruct (F e I E). auto. Qed.

Lemma refreshing_with_weaken r ts : refreshing_with r ts -> refreshing ts.
Proof. intros (a & E & Og & _). exists a. auto. Qed.

Lemma pending_with_weaken c s u ts : pending_with c s u ts -> pending ts.
Proof. intros [ln E]. exists c, ln, s, u. exact E. Qed.

Lemma pc_ok_evolves lk lk' p : evolves lk lk' -> pc_ok lk p -> pc_ok lk' p.
Proof.
  intros Ev. destruct Ev as [C K] eqn:EE. clear EE.
  assert (forall i act P, owns lk i act P -> owns lk' i act P) as OE
    by (intros; eapply owns_evolves; [split; [exact C|exact K]|eassumption]).
  induction p; simpl; try tauto.
  - intros [A B]. split; [|auto]. destruct a; simpl in *; auto. lia.
  - lia.
  - intros (act & H). exists act. intuition.
  - intros (act & H). exists act. intuition.
  - intros (act & H). exists act. intuition.
  - intros (act & H). exists act. intuition.
  - intros (act & H). exists act. intuition.
  - intros (act & H). exists act. intuition.
  - intros (act & H). exists act. intuition.
  - intros (act & code & cvr & ru & st & u & H). exists act, code, cvr, ru, st, u. intuition.
  - intros (act & H). exists act. intuition.
  - intros (act & H). exists act. intuition.
Qed.

(** * The critical sections *)

Definition cs_ok (O : oracles) (w : world) (e : env) (p fb : pc) (pre : list obs) (c : cs) : Prop :=
  match c with
  | Val (lk', p', os) => csr O w e p lk' p' (pre ++ os)
  | Err _ => csr O w e p (w_lk w) fb pre
  | Panic => False
  end.

Section CsOk.
Variable O : oracles.
Variable w : world.
Variable e : env.
Hypothesis I : inv O w.

Let WF : wf (w_lk w) := inv_wf O w I.

Lemma get_account e0 :
  has (w_lk w) e0 ->
  exists act, account_of (w_lk w) (d_name e0) = Some act /\ a_name act = d_name e0
              /\ ct_account (w_lk w) (d_id e0) = Val act.
Proof.
  intros H. destruct (wf_account _ _ WF H) as (act & L & N). exists act.
  split; [exact L|]. split; [exact N|]. apply (ct_account_in _ e0); assumption.
Qed.

Lemma account_ok_of lk0 n act :
  conf_ok O (lconfig lk0) -> account_of lk0 n = Some act -> account_ok O act.
Proof.
  intros C L. apply lookup_in in L. pose proof (co_accounts _ _ C) as F.
  rewrite Forall_forall in F. apply (F (n, act)). exact L.
Qed.

Lemma redirect_uri_no_panic act : account_redirect_uri O act (w_http w) (w_https w) <> Panic.
Proof.
  unfold account_redirect_uri.
  assert (is_some (w_http w) || is_some (w_https w) = true) as E.
  { destruct (inv_ports O w I) as [P|P].
    - destruct (w_http w); [reflexivity|congruence].
    - destruct (w_https w); [apply orb_true_r|congruence]. }
  rewrite E. simpl negb. cbn iota.
  apply bind_no_panic; [destruct (o_url_parse O (a_redirect_uri act)); discriminate|].
  intros u _. match goal with |- (if ?b then _ else _) <> _ => destruct b end;
    [destruct (set_port u (w_https w))|destruct (set_port u (w_http w))]; discriminate.
Qed.

Lemma request_token_ok e0 :
  has (w_lk w) e0 -> is_active (d_ts e0) = false ->
  match request_token O e (w_http w) (w_https w) (w_lk w) (d_id e0) with
  | Val (lk', u) =>
      exists act ru base,
        account_of (w_lk w) (d_name e0) = Some act
        /\ account_redirect_uri O act (w_http w) (w_https w) = Val ru
        /\ o_url_parse O (a_auth_uri act) = Some base
        /\ u = extend_pairs base
                 (auth_params act (b64_encode (o_sha256 O (b64_encode (e_verifier_bytes e))))
                    (url_to_str ru) (b64_encode (e_state_bytes e)))
        /\ lk' = bump 0 (w_lk w) (d_id e0)
                   (TSPending (b64_encode (e_verifier_bytes e)) None (b64_encode (e_state_bytes e)) u)
  | Err _ => True
  | Panic => False
  end.
Proof.
  intros H NA. unfold request_token. rewrite (ct_tokenstate_in _ _ WF H). simpl bind.
  destruct (get_account e0 H) as (act & L & N & CA). rewrite CA.
  assert (forall X : outcome (locked * url),
    match d_ts e0 with TSActive _ => Panic | _ => X end = X) as DX.
  { intros X. destruct (d_ts e0); try reflexivity. discriminate. }
  rewrite DX. clear DX. simpl bind.
  destruct (account_redirect_uri O act (w_http w) (w_https w)) as [ru|m|] eqn:RU; simpl.
  - destruct (o_url_parse O (a_auth_uri act)) as [base|] eqn:B; simpl; [|exact Logic.I].
    rewrite (tokenstate_replace_in _ _ _ WF H). simpl.
    exists act, ru, base. auto.
  - exact Logic.I.
  - apply (redirect_uri_no_panic act RU).
Qed.

(** Which command a request is. *)
Lemma cmd_of req cmd rest k rest' :
  split_first ":"%char req = Some (cmd, rest) ->
  req = k ++ rest' ->
  split_first ":"%char (k ++ rest') = Some (removelast k, rest') ->
  cmd = removelast k /\ rest = rest'.
Proof. intros S -> S2. rewrite S in S2. injection S2 as -> ->. auto. Qed.

Lemma req_refresh_ok req rest :
  e_client e = Some req -> req = $"refresh:" ++ rest ->
  cs_ok O w e PMain PMain [OClient req] (req_refresh O e w req rest).
Proof.
  intros EC RQ. unfold req_refresh, from_utf8. destruct (utf8_valid rest); simpl; [|apply m_err; exact EC].
  destruct (split_first " "%char rest) as [[wu n]|] eqn:SP; simpl; [|apply m_err; exact EC].
  assert (forall r, req <> $"showtoken:" ++ r) as NS by (intros r ->; discriminate RQ).
  assert (forall r, req <> $"revoke:" ++ r) as NR by (intros r ->; discriminate RQ).
  assert (forall r, req <> $"reload:" ++ r) as NL by (intros r ->; discriminate RQ).
  destruct (validate_act_name (w_lk w) n) as [i|] eqn:V.
  - apply validate_some in V as (e0 & H & <- & <-).
    rewrite (ct_tokenstate_in _ _ WF H). simpl bind.
    assert (is_active (d_ts e0) = false ->
            cs_ok O w e PMain PMain [OClient req]
              (request_and_reply O e w req wu (d_name e0) (d_id e0))) as K.
    { intros NA. unfold request_and_reply. pose proof (request_token_ok e0 H NA) as RT.
      destruct (request_token O e (w_http w) (w_https w) (w_lk w) (d_id e0)) as [[lk' u]|m|]; simpl.
      - destruct RT as (act & ru & base & L & RU & B & -> & ->).
        apply split_first_some in SP as [SP NI]. eapply m_auth; try eassumption; auto.
        left. rewrite RQ, SP. reflexivity.
      - apply m_err. exact EC.
      - exact RT. }
    destruct (d_ts e0) as [|cvr ln st u|a] eqn:T; [apply K; reflexivity|apply K; reflexivity|].
    simpl. eapply m_spawn; try eassumption. intros tok. discriminate.
  - simpl. apply m_plain; try exact EC; intros; try discriminate; try (exfalso; eapply NR; eassumption);
      try (exfalso; eapply NS; eassumption); try (exfalso; eapply NL; eassumption).
Qed.

Lemma req_showtoken_ok req rest :
  e_client e = Some req -> req = $"showtoken:" ++ rest ->
  cs_ok O w e PMain PMain [OClient req] (req_showtoken O e w req rest).
Proof.
  intros EC RQ. unfold req_showtoken, from_utf8. destruct (utf8_valid rest); simpl; [|apply m_err; exact EC].
  destruct (split_first " "%char rest) as [[wu n]|] eqn:SP; simpl; [|apply m_err; exact EC].
  apply split_first_some in SP as [SP NI].
  assert (forall r, req <> $"revoke:" ++ r) as NR by (intros r ->; discriminate RQ).
  assert (forall r, req <> $"reload:" ++ r) as NL by (intros r ->; discriminate RQ).
  destruct (validate_act_name (w_lk w) n) as [i|] eqn:V.
  - apply validate_some in V as (e0 & H & <- & <-).
    rewrite (ct_tokenstate_in _ _ WF H). simpl bind.
    destruct (d_ts e0) as [|cvr ln st u|a] eqn:T.
    + unfold request_and_reply. pose proof (request_token_ok e0 H ltac:(rewrite T; reflexivity)) as RT.
      destruct (request_token O e (w_http w) (w_https w) (w_lk w) (d_id e0)) as [[lk' u]|m|]; simpl.
      * destruct RT as (act & ru & base & L & RU & B & -> & ->).
        eapply m_auth; try eassumption; auto; [rewrite T; reflexivity|].
        right. split; [|exact T]. rewrite RQ, SP. reflexivity.
      * apply m_err. exact EC.
      * exact RT.
    + simpl. apply m_plain; try exact EC; intros.
      * unfold pending_reply. destruct (str_eqb wu $"withurl"); discriminate.
      * exfalso. eapply NR; eassumption.
      * exfalso. eapply NL; eassumption.
    + destruct (Z.ltb_spec (env_now e) (expiry a)).
      * simpl. apply (m_show O w e req wu e0); auto. rewrite RQ, SP. reflexivity.
      * destruct (ongoing a) eqn:Og; simpl.
        -- apply m_plain; try exact EC; intros; [discriminate| |].
           ++ exfalso. eapply NR; eassumption.
           ++ exfalso. eapply NL; eassumption.
        -- eapply m_spawn; try eassumption. intros tok. discriminate.
  - simpl. apply m_plain; try exact EC; intros; try discriminate.
Qed.

Lemma req_revoke_ok req rest :
  e_client e = Some req -> req = $"revoke:" ++ rest ->
  cs_ok O w e PMain PMain [OClient req] (req_revoke w req rest).
Proof.
  intros EC RQ. unfold req_revoke, from_utf8. destruct (utf8_valid rest); simpl; [|apply m_err; exact EC].
  destruct (validate_act_name (w_lk w) rest) as [i|] eqn:V.
  - apply validate_some in V as (e0 & H & <- & <-).
    rewrite (tokenstate_replace_in _ _ _ WF H). simpl. apply m_revoke; assumption.
  - simpl. apply m_plain; try exact EC; intros; discriminate.
Qed.

Lemma req_reload_ok req :
  e_client e = Some req -> req = $"reload:" ->
  cs_ok O w e PMain PMain [OClient req] (req_reload O e w req).
Proof.
  intros EC RQ. unfold req_reload.
  destruct (config_from_path O e) as [c|m|] eqn:C.
  - destruct (update_conf_total (w_lk w) c WF) as [lk' U]. rewrite U. simpl.
    apply m_reload; try assumption.
    unfold config_from_path in C. destruct (e_file e) as [s|]; [|discriminate].
    destruct (utf8_valid s); [|discriminate]. apply from_str_val in C. eapply config_from_str_ok. exact C.
  - simpl. apply m_plain; try exact EC; intros; discriminate.
  - unfold config_from_path in C. destruct (e_file e) as [s|]; [|discriminate].
    destruct (utf8_valid s); [|discriminate]. apply from_str_no_panic in C. exact C.
Qed.

Lemma req_restore_ok req rest :
  e_client e = Some req -> req = $"restore:" ++ rest ->
  cs_ok O w e PMain PMain [OClient req] (req_restore O e w req rest).
Proof.
  intros EC RQ. unfold req_restore, auth_restore.
  destruct (List.length rest <? nonce_len).
  - simpl. apply m_plain; try exact EC; intros; discriminate.
  - destruct (o_decrypt O (firstn nonce_len rest) (skipn nonce_len rest)) as [plain|] eqn:D.
    + destruct (locked_restore_spec (w_lk w) plain (e_clk e) (e_hash e) WF)
        as [[m E]|(d & lk' & E & DS & V & WF' & EV & LC & F2)]; rewrite E; simpl.
      * eapply m_restore_noop; eassumption.
      * eapply m_restore; eassumption.
    + simpl. apply m_plain; try exact EC; intros; discriminate.
Qed.

Lemma instant_fmt_spec r i :
  (exists t, instant_fmt O r i = Val t /\ date_shown O r i t) \/ (instant_fmt O r i = Panic /\ no_date O r i).
Proof.
  unfold instant_fmt, date_shown, no_date, beyond, wall, duration_since. cbv zeta. destruct (Z.ltb_spec i (ri1 r)) as [L|L].
  - destruct (Z.leb_spec i (ri1 r)); [|lia]. unfold checked_sub.
    destruct (Z.leb_spec time_min (rs1 r - (ri1 r - i))) as [M|M].
    + replace (rs1 r + (i - ri1 r))%Z with (rs1 r - (ri1 r - i))%Z by lia.
      destruct (o_fmt_time O (rs1 r - (ri1 r - i))) as [t|] eqn:F; cbn [unwrap].
      * left. exists t. split; [reflexivity|]. right. split; [lia|reflexivity].
      * right. split; [reflexivity|]. split; [lia|reflexivity].
    + left. exists $"<unknown time>". split; [reflexivity|]. left. split; [lia|reflexivity].
  - destruct (Z.leb_spec (ri1 r) i); [|lia]. unfold checked_add.
    destruct (Z.leb_spec (rs1 r + (i - ri1 r)) time_max) as [M|M].
    + destruct (o_fmt_time O (rs1 r + (i - ri1 r))) as [t|] eqn:F; cbn [unwrap].
      * left. exists t. split; [reflexivity|]. right. split; [lia|reflexivity].
      * right. split; [reflexivity|]. split; [lia|reflexivity].
    + left. exists $"<unknown time>". split; [reflexivity|]. left. split; [lia|reflexivity].
Qed.

Lemma status_text_spec r1 r2 r3 ts :
  (exists t, status_text O r1 r2 r3 ts = Val t /\ status_ok O r1 r2 r3 ts t)
  \/ (status_text O r1 r2 r3 ts = Panic /\ status_fails O r1 r2 r3 ts).
Proof.
  destruct ts as [|cv [i|] st u|a]; cbn [status_text].
  - left. eexists. split; [reflexivity|constructor].
  - destruct (instant_fmt_spec r1 i) as [(t & E & D)|[E D]]; rewrite E; cbn [bind].
    + left. eexists. split; [reflexivity|]. constructor. exact D.
    + right. split; [reflexivity|]. constructor. exact D.
  - left. eexists. split; [reflexivity|constructor].
  - destruct (Z.ltb_spec (ri1 r1) (expiry a)) as [L|L].
    + destruct (instant_fmt_spec r2 (obtained a)) as [(t & E & D)|[E D]]; rewrite E; cbn [bind].
      2: { right. split; [reflexivity|]. apply sf_obtained; assumption. }
      destruct (instant_fmt_spec r3 (expiry a)) as [(t2 & E2 & D2)|[E2 D2]]; rewrite E2; cbn [bind].
      * left. eexists. split; [reflexivity|]. constructor; assumption.
      * right. split; [reflexivity|]. apply sf_expiry; assumption.
    + destruct (last_attempt a) as [i|] eqn:LA.
      * destruct (instant_fmt_spec r2 i) as [(t & E & D)|[E D]]; rewrite E; cbn [bind].
        -- left. eexists. split; [reflexivity|]. eapply so_attempted; eassumption.
        -- right. split; [reflexivity|]. eapply sf_attempted; eassumption.
      * left. eexists. split; [reflexivity|]. apply so_expired; assumption.
Qed.

Lemma status_lines_ok clk : forall ds j,
  incl ds (details (w_lk w)) ->
  (exists l, status_lines O (w_lk w) clk j (map d_id ds) = Val l)
  \/ (status_lines O (w_lk w) clk j (map d_id ds) = Panic
      /\ exists k e0, nth_error ds k = Some e0
         /\ status_fails O (clk (3 * (j + k))) (clk (3 * (j + k) + 1)) (clk (3 * (j + k) + 2)) (d_ts e0)).
Proof.
  induction ds as [|e0 ds IH]; intros j INC; [left; simpl; eauto|].
  cbn [status_lines map].
  assert (has (w_lk w) e0) as H by (apply INC; left; reflexivity).
  destruct (get_account e0 H) as (act & L & N & CA). rewrite CA. cbn [bind].
  rewrite (ct_tokenstate_in _ _ WF H). cbn [bind].
  destruct (status_text_spec (clk (3 * j)) (clk (3 * j + 1)) (clk (3 * j + 2)) (d_ts e0)) as [(t & E & _)|[E F]]; rewrite E; cbn [bind].
  2: { right. split; [reflexivity|]. exists 0, e0. split; [reflexivity|]. rewrite Nat.add_0_r. exact F. }
  destruct (IH (S j)) as [(l & E1)|(E1 & k & e1 & N1 & F1)]; [intros x Hx; apply INC; right; exact Hx|..]; rewrite E1; cbn [bind].
  - left. eauto.
  - right. split; [reflexivity|]. exists (S k), e1. split; [exact N1|]. replace (j + S k) with (S j + k) by lia. exact F1.
Qed.

(** The one way to fail. *)
Definition fails_here (req : str) : Prop :=
  req = $"status:" /\ exists k e0, nth_error (details (w_lk w)) k = Some e0
    /\ status_fails O (e_clk e (3 * k)) (e_clk e (3 * k + 1)) (e_clk e (3 * k + 2)) (d_ts e0).

Lemma dump_entries_ok c clk : forall ds i,
  (forall e0, In e0 ds -> exists a, lookup (d_name e0) (c_accounts c) = Some a) ->
  exists l, dump_entries c clk i ds = Val l.
Proof.
  induction ds as [|e0 ds IH]; intros i L; [simpl; eauto|].
  cbn [dump_entries]. destruct (L e0 (or_introl eq_refl)) as [a La]. rewrite La. cbn [unwrap bind].
  destruct (IH (S i) (fun e' H => L e' (or_intror H))) as [l E]. rewrite E. cbn [bind]. eauto.
Qed.

Lemma enc_entries_no_panic l : enc_entries l <> Panic.
Proof.
  induction l as [|[n [ad ts]] l IH]; simpl; [discriminate|].
  apply bind_no_panic.
  - destruct ts as [|tok ob ex rt]; simpl; [discriminate|].
    apply bind_no_panic; [unfold enc_time; destruct (ob <? 0)%Z; discriminate|intros o _].
    apply bind_no_panic; [unfold enc_time; destruct (ex <? 0)%Z; discriminate|intros o' _; discriminate].
  - intros t _. apply bind_no_panic; [exact IH|discriminate].
Qed.

Lemma auth_dump_no_panic clk h nonce : auth_dump O (w_lk w) clk h nonce <> Panic.
Proof.
  unfold auth_dump. apply bind_no_panic.
  - unfold locked_dump. destruct (dump_entries_ok (lconfig (w_lk w)) clk (details (w_lk w)) 0) as [l E].
    { intros e0 H. destruct (wf_account _ _ WF H) as (a & L & _). eauto. }
    rewrite E. cbn [bind]. unfold serialize. apply bind_no_panic; [apply enc_entries_no_panic|discriminate].
  - intros d _. destruct (o_encrypt O nonce d); discriminate.
Qed.

Lemma dispatch_ok req cmd rest :
  e_client e = Some req -> split_first ":"%char req = Some (cmd, rest) ->
  cs_ok O w e PMain PMain [OClient req] (dispatch O e w req cmd rest)
  \/ (dispatch O e w req cmd rest = Panic /\ fails_here req).
Proof.
  intros EC SP. unfold dispatch.
  assert (req = cmd ++ ":"%char :: rest) as RQ by (apply split_first_some in SP; tauto).
  assert (forall txt,
    (str_eqb cmd $"showtoken" = true -> forall tok, txt <> $"access_token:" ++ tok) ->
    (str_eqb cmd $"revoke" = true -> txt <> $"ok:") ->
    (str_eqb cmd $"reload" = true -> txt <> $"ok:") ->
    csr O w e PMain (w_lk w) (reply req txt) ([OClient req] ++ [])) as PL.
  { intros txt H1 H2 H3. apply m_plain; [exact EC| | |].
    - intros r tok Er. apply H1. apply str_eqb_eq.
      apply (cmd_of req cmd rest $"showtoken:" r); [exact SP|exact Er|reflexivity].
    - intros r Er. apply H2. apply str_eqb_eq.
      apply (cmd_of req cmd rest $"revoke:" r); [exact SP|exact Er|reflexivity].
    - intros r Er. apply H3. apply str_eqb_eq.
      apply (cmd_of req cmd rest $"reload:" r); [exact SP|exact Er|reflexivity]. }
  assert (forall k, str_eqb cmd k = true -> forall k', k <> k' -> str_eqb cmd k' = true -> False) as XX.
  { intros k E1 k' N E2. apply str_eqb_eq in E1. apply str_eqb_eq in E2. congruence. }
  destruct (str_eqb cmd $"dump" && match rest with [] => true | _ => false end) eqn:C1.
  { left. apply andb_true_iff in C1 as [C1 _].
    destruct (auth_dump O (w_lk w) (e_clk e) (e_hash e) (e_nonce e)) as [d|m|] eqn:D; simpl.
    - apply PL; intros X; exfalso; eapply XX; [exact C1| |exact X| exact C1| |exact X| exact C1| |exact X]; discriminate.
    - apply m_err. exact EC.
    - apply auth_dump_no_panic in D. exact D. }
  destruct (str_eqb cmd $"info" && match rest with [] => true | _ => false end) eqn:C2.
  { left. apply andb_true_iff in C2 as [C2 _]. simpl.
    apply PL; intros X; exfalso; eapply XX; [exact C2| |exact X| exact C2| |exact X| exact C2| |exact X]; discriminate. }
  destruct (str_eqb cmd $"reload" && match rest with [] => true | _ => false end) eqn:C3.
  { left. apply andb_true_iff in C3 as [C3 C3']. apply req_reload_ok; [exact EC|].
    apply str_eqb_eq in C3. destruct rest; [|discriminate]. rewrite RQ, C3. reflexivity. }
  destruct (str_eqb cmd $"refresh") eqn:C4.
  { left. apply req_refresh_ok; [exact EC|]. apply str_eqb_eq in C4. rewrite RQ, C4. reflexivity. }
  destruct (str_eqb cmd $"restore") eqn:C5.
  { left. apply req_restore_ok; [exact EC|]. apply str_eqb_eq in C5. rewrite RQ, C5. reflexivity. }
  destruct (str_eqb cmd $"revoke") eqn:C6.
  { left. apply req_revoke_ok; [exact EC|]. apply str_eqb_eq in C6. rewrite RQ, C6. reflexivity. }
  destruct (str_eqb cmd $"showtoken") eqn:C7.
  { left. apply req_showtoken_ok; [exact EC|]. apply str_eqb_eq in C7. rewrite RQ, C7. reflexivity. }
  destruct (str_eqb cmd $"shutdown" && match rest with [] => true | _ => false end) eqn:C8.
  { left. simpl. apply m_halt. exact EC. }
  destruct (str_eqb cmd $"status" && match rest with [] => true | _ => false end) eqn:C9.
  { apply andb_true_iff in C9 as [C9 C9']. unfold req_status. change (act_ids (w_lk w)) with (map d_id (details (w_lk w))).
    destruct (status_lines_ok (e_clk e) (details (w_lk w)) 0 (incl_refl _)) as [[l E]|(E & k & e0 & N0 & F0)]; rewrite E; cbn [bind].
    2: { right. split; [reflexivity|]. split; [|exists k, e0; split; [exact N0|exact F0]].
         apply str_eqb_eq in C9. destruct rest; [|discriminate C9']. rewrite RQ, C9. reflexivity. }
    left. simpl. apply PL; intros X; try discriminate X.
    exfalso; eapply XX; [exact C9| |exact X]; discriminate. }
  left. simpl. apply PL; intros X; try discriminate X. discriminate.
Qed.

Lemma request_ok req :
  e_client e = Some req ->
  cs_ok O w e PMain PMain [OClient req] (request O e w req) \/ (request O e w req = Panic /\ fails_here req).
Proof.
  intros EC. unfold request. destruct (split_first ":"%char req) as [[cmd rest]|] eqn:SP.
  - unfold from_utf8. destruct (utf8_valid cmd); simpl; [apply dispatch_ok; assumption|left; apply m_err; exact EC].
  - left. simpl. apply m_err. exact EC.
Qed.

(** ** Refreshes *)

Lemma ct_tokenstate_new k lk0 e0 ts :
  wf lk0 -> has lk0 e0 ->
  ct_tokenstate (bump k lk0 (d_id e0) ts) (account_count lk0 + k)%N = Val ts.
Proof.
  intros W H. pose proof (bump_in_new k lk0 e0 ts H) as H'.
  apply (ct_tokenstate_in _ _ (bump_wf k lk0 (d_id e0) ts W) H').
Qed.

Lemma ct_account_new k lk0 e0 ts act :
  wf lk0 -> has lk0 e0 -> account_of lk0 (d_name e0) = Some act ->
  ct_account (bump k lk0 (d_id e0) ts) (account_count lk0 + k)%N = Val act.
Proof.
  intros W H L. pose proof (bump_in_new k lk0 e0 ts H) as H'.
  apply (ct_account_in _ _ act (bump_wf k lk0 (d_id e0) ts W) H'). exact L.
Qed.

Lemma replace_new lk0 e0 ts ts' :
  wf lk0 -> has lk0 e0 ->
  tokenstate_replace (bump 0 lk0 (d_id e0) ts) (account_count lk0) ts'
  = Val (bump 1 lk0 (d_id e0) ts', (account_count lk0 + 1)%N).
Proof.
  intros W H. pose proof (bump_in_new 0 lk0 e0 ts H) as H'.
  rewrite N.add_0_r in H'.
  rewrite <- (bump_twice lk0 (d_id e0) ts ts' W).
  apply (tokenstate_replace_in _ _ ts' (bump_wf 0 lk0 (d_id e0) ts W)) in H'. simpl d_id in H'.
  rewrite H'. f_equal. f_equal. simpl. lia.
Qed.

Lemma ref_start_ok i : cs_ok O w e (PRefStart i) PDone [] (ref_start e (w_lk w) i).
Proof.
  unfold ref_start. destruct (is_act_id_valid (w_lk w) i) eqn:V.
  - apply valid_iff in V as (e0 & H & <-).
    rewrite (ct_tokenstate_in _ _ WF H). cbn [bind].
    assert ((forall a, d_ts e0 = TSActive a -> ongoing a = true) ->
            csr O w e (PRefStart (d_id e0)) (w_lk w) PDone []) as SK.
    { intros K. apply r_start_skip. intros e1 a1 H1 E1 T1.
      assert (e1 = e0) by (apply (wf_id_inj (w_lk w)); auto). subst e1. auto. }
    destruct (d_ts e0) as [|cvr ln st u|a] eqn:T; try (simpl; apply SK; discriminate).
    destruct (ongoing a) eqn:Og; [simpl; apply SK; intros a1 [= <-]; exact Og|].
    rewrite (tokenstate_replace_in _ _ _ WF H). cbn [bind].
    destruct (get_account e0 H) as (act & L & N & CA).
    pose proof (ct_account_new 0 (w_lk w) e0 (TSActive (set_ongoing a true)) act WF H L) as CN.
    pose proof (ct_tokenstate_new 0 (w_lk w) e0 (TSActive (set_ongoing a true)) WF H) as TN.
    rewrite N.add_0_r in CN, TN. rewrite CN. cbn [bind]. rewrite TN. cbn [bind].
    change (refresh_token (set_ongoing a true)) with (refresh_token a).
    destruct (refresh_token a) as [r|] eqn:R.
    + pose proof (replace_new (w_lk w) e0 (TSActive (set_ongoing a true))
        (TSActive (set_attempt (set_ongoing a true) (Some (env_now e)) (fails (set_ongoing a true)))) WF H) as RN. rewrite RN. cbn [bind].
      rewrite (ct_account_new 1 _ _ _ act WF H L). cbn [bind]. simpl.
      rewrite N. apply r_start; assumption.
    + pose proof (replace_new (w_lk w) e0 (TSActive (set_ongoing a true)) TSEmpty WF H) as RN. rewrite RN. cbn [bind]. simpl. eapply r_start_none; eassumption.
  - simpl. apply r_start_skip. intros e1 a1 H1 E1. exfalso. exact (valid_false _ _ V _ H1 E1).
Qed.

Lemma expiry_instant_no_panic e0 now exs :
  has (w_lk w) e0 -> expiry_instant (w_lk w) (d_id e0) now exs <> Panic.
Proof.
  intros H. unfold expiry_instant. destruct (checked_add now (from_secs exs)); [discriminate|].
  destruct (get_account e0 H) as (act & L & N & CA). rewrite CA. cbn [bind].
  destruct (checked_add now _); discriminate.
Qed.

Lemma ref_got_ok i name tok exs rt now :
  cs_ok O w e (PRefGot i name tok exs rt now) PDone [] (ref_got (w_lk w) i name tok exs rt now).
Proof.
  unfold ref_got. destruct (is_act_id_valid (w_lk w) i) eqn:V.
  - apply valid_iff in V as (e0 & H & <-).
    destruct (expiry_instant (w_lk w) (d_id e0) now exs) as [ex|m|] eqn:X.
    + rewrite (tokenstate_replace_in _ _ _ WF H). simpl. apply r_got; assumption.
    + rewrite (tokenstate_replace_in _ _ _ WF H). simpl. eapply r_got_bad; eassumption.
    + apply expiry_instant_no_panic in X; assumption.
  - simpl. apply r_got_stale. exact V.
Qed.

Lemma ref_perm_ok i name msg : cs_ok O w e (PRefPerm i name msg) PDone [] (ref_perm (w_lk w) i name).
Proof.
  unfold ref_perm. destruct (is_act_id_valid (w_lk w) i) eqn:V.
  - apply valid_iff in V as (e0 & H & <-).
    rewrite (tokenstate_replace_in _ _ _ WF H). cbn [bind].
    destruct (get_account e0 H) as (act & L & N & CA).
    pose proof (ct_account_new 0 (w_lk w) e0 TSEmpty act WF H L) as CN. rewrite N.add_0_r in CN.
    rewrite CN. simpl. apply r_perm. exact H.
  - simpl. apply r_perm_stale. exact V.
Qed.

Lemma ref_transient_ok i name msg :
  pc_ok (w_lk w) (PRefTransient i name msg) ->
  cs_ok O w e (PRefTransient i name msg) PDone [] (ref_transient e (w_lk w) i name).
Proof.
  intros PO. unfold ref_transient. destruct (is_act_id_valid (w_lk w) i) eqn:V.
  - apply valid_iff in V as (e0 & H & <-).
    destruct PO as (act0 & _ & OW). destruct (proj2 OW e0 H eq_refl) as [_ (a & T & Og)].
    rewrite (ct_tokenstate_in _ _ WF H). cbn [bind]. rewrite T.
    rewrite (tokenstate_replace_in _ _ _ WF H). cbn [bind].
    set (a1 := set_attempt a (Some (env_now e)) (N.succ (fails a))).
    assert (tokenstate_set_ongoing_refresh (bump 0 (w_lk w) (d_id e0) (TSActive a1)) (account_count (w_lk w)) false
            = Val (bump 1 (w_lk w) (d_id e0) (TSActive (set_ongoing a1 false)), (account_count (w_lk w) + 1)%N)) as SO.
    { unfold tokenstate_set_ongoing_refresh.
      pose proof (bump_in_new 0 (w_lk w) e0 (TSActive a1) H) as H'.
      apply (find_id_in _ _ (bump_wf 0 (w_lk w) (d_id e0) (TSActive a1) WF)) in H'.
      simpl d_id in H'. rewrite N.add_0_r in H'. rewrite H'. cbn [unwrap bind d_ts].
      pose proof (replace_new (w_lk w) e0 (TSActive a1) (TSActive (set_ongoing a1 false)) WF H) as RN.
      exact RN. }
    change (lconfig (bump 0 (w_lk w) (d_id e0) (TSActive a1))) with (lconfig (w_lk w)).
    destruct (N.eqb_spec (N.succ (fails a) mod transient_error_retries) 0) as [M|M].
    + destruct (c_transient_error_if_cmd (lconfig (w_lk w))) as [cmd|] eqn:TC.
      * simpl. apply r_trans_cmd; assumption.
      * rewrite SO. simpl. eapply r_trans; try eassumption. intros (cmd & X & _). congruence.
    + rewrite SO. simpl. eapply r_trans; try eassumption. intros (cmd & _ & X). contradiction.
  - simpl. apply r_trans_stale. exact V.
Qed.

Lemma ref_cmd_done_ok i name ok :
  pc_ok (w_lk w) (PRefCmdDone i name ok) ->
  cs_ok O w e (PRefCmdDone i name ok) PDone [] (ref_cmd_done (w_lk w) i name ok).
Proof.
  intros PO. unfold ref_cmd_done. destruct ok; destruct (is_act_id_valid (w_lk w) i) eqn:V.
  - apply valid_iff in V as (e0 & H & <-).
    destruct PO as (act0 & _ & OW). destruct (proj2 OW e0 H eq_refl) as [_ (a & T & Og)].
    unfold tokenstate_set_ongoing_refresh. rewrite (find_id_in _ _ WF H). cbn [unwrap bind].
    rewrite T. rewrite (tokenstate_replace_in _ _ _ WF H). simpl. apply (r_cmd_ok O w e e0 a); assumption.
  - simpl. apply r_cmd_ok_stale. exact V.
  - apply valid_iff in V as (e0 & H & <-).
    rewrite (tokenstate_replace_in _ _ _ WF H). simpl. apply r_cmd_fail. exact H.
  - simpl. apply r_cmd_fail_stale. exact V.
Qed.

(** ** Browser connections *)

Lemma matching_state st i :
  act_id_matching_token_state (w_lk w) st = Some i ->
  exists e0 cvr ln u, has (w_lk w) e0 /\ d_id e0 = i /\ d_ts e0 = TSPending cvr ln st u.
Proof.
  unfold act_id_matching_token_state.
  match goal with |- context [find ?f ?l] => destruct (find f l) as [e0|] eqn:F end; [|discriminate].
  intros [= <-]. apply find_some in F as [H M].
  destruct (d_ts e0) as [|cvr ln st' u|a] eqn:T; try discriminate.
  apply str_eqb_eq in M. subst st'. exists e0, cvr, ln, u. auto.
Qed.

Lemma opt_str_eqb_eq a b : opt_str_eqb a b = true <-> a = b.
Proof. apply opt_eqb_eq. apply str_eqb_eq. Qed.

Lemma opt_N_eqb_eq a b : opt_N_eqb a b = true <-> a = b.
Proof. apply opt_eqb_eq. apply N.eqb_eq. Qed.

Lemma http_start_ok https bytes :
  cs_ok O w e (PHttpStart https bytes) PDone [] (http_start O w https bytes).
Proof.
  unfold http_start. destruct (parse_get O https bytes) as [uri|] eqn:PG; [|simpl; apply h_plain; simpl; tauto].
  unfold find_pair. destruct (lookup $"state" (query_pairs uri)) as [st|] eqn:ST; [|simpl; apply h_plain; simpl; tauto].
  destruct (act_id_matching_token_state (w_lk w) st) as [i|] eqn:MS; [|simpl; apply h_plain; simpl; tauto].
  apply matching_state in MS as (e0 & cvr & ln & u & H & <- & T).
  destruct (get_account e0 H) as (act & L & N & CA). rewrite CA. cbn [bind].
  destruct (account_redirect_uri O act (w_http w) (w_https w)) as [ru|m|] eqn:RU; cbn [bind];
    [|simpl; eapply h_end; eassumption|apply (redirect_uri_no_panic act RU)].
  destruct (str_eqb (u_scheme ru) (u_scheme uri) && opt_str_eqb (u_host ru) (u_host uri)
            && opt_N_eqb (u_port ru) (u_port uri)) eqn:EQ; simpl negb; cbn iota; [|simpl; apply h_plain; simpl; tauto].
  rewrite !andb_true_iff in EQ. destruct EQ as [[E1 E2] E3].
  apply str_eqb_eq in E1. apply opt_str_eqb_eq in E2. apply opt_N_eqb_eq in E3.
  destruct (lookup $"error" (query_pairs uri)) as [reason|] eqn:ER.
  - rewrite (tokenstate_replace_in _ _ _ WF H). cbn [bind].
    pose proof (ct_account_new 0 (w_lk w) e0 TSEmpty act WF H L) as CN. rewrite N.add_0_r in CN.
    rewrite CN. simpl. rewrite N. eapply h_error; eauto.
  - destruct (lookup $"code" (query_pairs uri)) as [code|] eqn:CO; [|simpl; apply h_plain; simpl; tauto].
    rewrite (ct_tokenstate_in _ _ WF H). cbn [bind]. rewrite T. simpl. eapply h_code; eauto.
Qed.

Lemma http_body_ok i body :
  cs_ok O w e (PHttpBody i body) PDone [] (http_body O e (w_lk w) i body).
Proof.
  unfold http_body. destruct (o_json O body) as [v|m] eqn:J; [|simpl; apply h_body_fail].
  destruct (is_act_id_valid (w_lk w) i) eqn:V; [|simpl; apply h_body_stale; exact V].
  apply valid_iff in V as (e0 & H & <-).
  destruct (json_str $"error" v) as [m|] eqn:JE; [simpl; apply h_body_fail|].
  destruct (json_str $"token_type" v) as [ty|] eqn:JT; [|simpl; apply h_body_fail].
  destruct (json_u64 $"expires_in" v) as [exs|] eqn:JX; [|simpl; apply h_body_fail].
  destruct (json_str $"access_token" v) as [tok|] eqn:JA; [|simpl; apply h_body_fail].
  destruct (str_eqb_spec ty $"Bearer") as [->|NB]; [|simpl; apply h_body_fail].
  destruct (expiry_instant (w_lk w) (d_id e0) (env_now e) exs) as [ex|m|] eqn:X; cbn [bind].
  - destruct (get_account e0 H) as (act & L & N & CA). rewrite CA. cbn [bind].
    rewrite (tokenstate_replace_in _ _ _ WF H). simpl. rewrite N. eapply h_body_ok; eassumption.
  - simpl. eapply h_body_expiry; eassumption.
  - apply expiry_instant_no_panic in X; assumption.
Qed.

Lemma http_fail_ok i msg : cs_ok O w e (PHttpFail i msg) PDone [] (http_fail (w_lk w) i msg).
Proof.
  unfold http_fail. destruct (is_act_id_valid (w_lk w) i) eqn:V; [|simpl; apply h_fail_stale; exact V].
  apply valid_iff in V as (e0 & H & <-).
  rewrite (ct_tokenstate_in _ _ WF H). cbn [bind].
  rewrite (tokenstate_replace_in _ _ _ WF H). cbn [bind].
  destruct (get_account e0 H) as (act & L & N & CA).
  pose proof (ct_account_new 0 (w_lk w) e0 TSEmpty act WF H L) as CN. rewrite N.add_0_r in CN.
  rewrite CN. simpl. rewrite N.
  change (match d_ts e0 with TSActive _ => true | _ => false end) with (is_active (d_ts e0)).
  apply h_fail. exact H.
Qed.

Lemma http_notify_ok name msg wa :
  cs_ok O w e (PHttpNotify name msg wa) PDone [] (http_notify (w_lk w) name msg wa).
Proof.
  unfold http_notify. destruct (c_error_notify_cmd (lconfig (w_lk w))) as [cmd|] eqn:C; simpl.
  - apply h_notify_cmd. exact C.
  - apply h_notify_log. exact C.
Qed.

(** ** Notifier *)

(** The scan over a suffix of the entries: [pre] has been dealt with. *)
Lemma notify_scan_spec now : forall ds pre lk,
  wf lk -> details lk = pre ++ ds ->
  exists lk' cmds ds',
    notify_scan lk now (map d_id ds) = Val (lk', cmds)
    /\ wf lk' /\ evolves lk lk' /\ lconfig lk' = lconfig lk
    /\ details lk' = pre ++ ds'
    /\ Forall2 (fun e0 e' =>
         if notify_due lk now e0
         then d_name e' = d_name e0 /\ (account_count lk <= d_id e')%N
              /\ d_ts e' = renotified now (d_ts e0)
         else e' = e0) ds ds'
    /\ cmds = flat_map (notify_cmds lk now) ds.
Proof.
  induction ds as [|e0 ds IH]; intros pre lk W D; cbn [map notify_scan].
  - exists lk, [], []. split; [reflexivity|]. split; [exact W|]. split; [apply evolves_refl; exact W|].
    split; [reflexivity|]. split; [exact D|]. split; [constructor|reflexivity].
  - assert (has lk e0) as H by (unfold has; rewrite D; apply in_or_app; right; left; reflexivity).
    rewrite (ct_tokenstate_in _ _ W H). cbn [bind].
    assert (notify_due lk now e0 = false ->
      exists lk' cmds ds',
        notify_scan lk now (map d_id ds) = Val (lk', cmds)
        /\ wf lk' /\ evolves lk lk' /\ lconfig lk' = lconfig lk
        /\ details lk' = pre ++ ds'
        /\ Forall2 (fun e0 e' =>
             if notify_due lk now e0
             then d_name e' = d_name e0 /\ (account_count lk <= d_id e')%N
                  /\ d_ts e' = renotified now (d_ts e0)
             else e' = e0) (e0 :: ds) ds'
        /\ cmds = flat_map (notify_cmds lk now) (e0 :: ds)) as SKIP.
    { intros ND. destruct (IH (pre ++ [e0]) lk W ltac:(rewrite <- app_assoc; exact D))
        as (lk' & cmds & ds' & E & W' & EV & LC & D' & F2 & C).
      exists lk', cmds, (e0 :: ds'). split; [exact E|]. split; [exact W'|]. split; [exact EV|].
      split; [exact LC|]. split; [rewrite D', <- app_assoc; reflexivity|]. split.
      - constructor; [|exact F2]. rewrite ND. reflexivity.
      - simpl. unfold notify_cmds at 1. rewrite ND. exact C. }
    destruct (d_ts e0) as [|cvr ln st u|a] eqn:T;
      try (apply SKIP; unfold notify_due; rewrite T; reflexivity).
    set (wait := match ln with
                 | Some t => match checked_add t (c_auth_notify_interval (lconfig lk)) with
                             | Some t' => (now <? t')%Z
                             | None => false
                             end
                 | None => false
                 end).
    assert (wait = negb (notify_due lk now e0)) as WD.
    { unfold wait, notify_due. rewrite T. destruct ln as [t|]; [|reflexivity].
      destruct (checked_add t (c_auth_notify_interval (lconfig lk))) as [t'|]; [|reflexivity].
      rewrite Z.leb_antisym, negb_involutive. reflexivity. }
    destruct (notify_due lk now e0) eqn:ND; simpl in WD; rewrite WD; [|apply SKIP; reflexivity].
    clear SKIP. cbn iota.
    destruct (wf_account _ _ W H) as (act & L & N).
    rewrite (ct_account_in _ _ act W H L). cbn [bind].
    rewrite (tokenstate_replace_in _ _ _ W H). cbn [bind].
    set (lk1 := bump 0 lk (d_id e0) (TSPending cvr (Some now) st u)).
    assert (wf lk1) as W1 by (apply bump_wf; exact W).
    assert (forall x, In x pre \/ In x ds -> d_id x <> d_id e0) as NE.
    { pose proof (wf_ids _ W) as NI. unfold act_ids in NI. rewrite D, map_app in NI. simpl in NI.
      apply NoDup_remove_2 in NI. intros x Hx Ex. apply NI. apply in_or_app.
      destruct Hx; [left|right]; rewrite <- Ex; apply in_map; assumption. }
    assert (details lk1 = pre ++ mkEntry (d_name e0) (account_count lk) (TSPending cvr (Some now) st u) :: ds) as D1.
    { unfold lk1, bump. simpl. rewrite D, map_app. simpl. rewrite N.add_0_r. f_equal; [|f_equal].
      - rewrite <- (map_id pre) at 2. apply map_ext_in. intros x Hx. unfold bump_entry.
        destruct (N.eqb_spec (d_id x) (d_id e0)) as [Ex|Ex]; [|reflexivity]. exfalso. exact (NE x (or_introl Hx) Ex).
      - unfold bump_entry. rewrite N.eqb_refl. reflexivity.
      - rewrite <- (map_id ds) at 2. apply map_ext_in. intros x Hx. unfold bump_entry.
        destruct (N.eqb_spec (d_id x) (d_id e0)) as [Ex|Ex]; [|reflexivity]. exfalso. exact (NE x (or_intror Hx) Ex). }
    destruct (IH (pre ++ [mkEntry (d_name e0) (account_count lk) (TSPending cvr (Some now) st u)]) lk1 W1
                ltac:(rewrite <- app_assoc; exact D1))
      as (lk' & cmds & ds' & E & W' & EV & LC & D' & F2 & C).
    rewrite E. cbn [bind].
    eexists lk', _, (mkEntry (d_name e0) (account_count lk) (TSPending cvr (Some now) st u) :: ds').
    split; [reflexivity|]. split; [exact W'|].
    split; [eapply evolves_trans; [apply bump_evolves; exact W|exact EV]|].
    split; [exact LC|]. split; [rewrite D', <- app_assoc; reflexivity|]. split.
    + constructor.
      * rewrite ND. simpl. split; [reflexivity|]. split; [lia|]. rewrite T. reflexivity.
      * eapply Forall2_impl; [|exact F2]. intros x y P. cbv beta in P.
        change (notify_due lk1 now x) with (notify_due lk now x) in P.
        destruct (notify_due lk now x); [|exact P]. destruct P as (P1 & P2 & P3).
        split; [exact P1|]. split; [|exact P3]. unfold lk1 in P2. simpl in P2. lia.
    + simpl. unfold notify_cmds at 1. rewrite ND, T. simpl. rewrite N, C.
      change (flat_map (notify_cmds lk1 now) ds) with (flat_map (notify_cmds lk now) ds).
      destruct (c_auth_notify_cmd (lconfig lk)); reflexivity.
Qed.

Lemma nt_scan_ok : cs_ok O w e PNtScan PDone [] (nt_scan e (w_lk w)).
Proof.
  unfold nt_scan, act_ids.
  destruct (notify_scan_spec (env_now e) (details (w_lk w)) [] (w_lk w) WF eq_refl)
    as (lk' & cmds & ds' & E & W' & EV & LC & D' & F2 & C).
  rewrite E. simpl. simpl in D'. subst ds' cmds. apply n_scan; assumption.
Qed.

(** ** Refresher *)

Lemma refresh_at_in now e0 act :
  has (w_lk w) e0 -> account_of (w_lk w) (d_name e0) = Some act ->
  refresh_at (w_lk w) now (d_id e0)
  = Val (match d_ts e0 with
         | TSActive a => refresh_due act (lconfig (w_lk w)) now a
         | _ => None
         end).
Proof.
  intros H L. unfold refresh_at. rewrite (ct_tokenstate_in _ _ WF H). cbn [bind].
  destruct (d_ts e0) as [|cvr ln st u|a]; try reflexivity.
  destruct (ongoing a) eqn:Og.
  - unfold refresh_due. rewrite Og. reflexivity.
  - rewrite (ct_account_in _ _ act WF H L). reflexivity.
Qed.

Lemma notify_at_in now e0 :
  has (w_lk w) e0 ->
  notify_at (w_lk w) now (d_id e0)
  = Val (match d_ts e0 with
         | TSPending _ None _ _ => Some now
         | TSPending _ (Some t) _ _ => checked_add t (c_auth_notify_interval (lconfig (w_lk w)))
         | _ => None
         end).
Proof.
  intros H. unfold notify_at. rewrite (ct_tokenstate_in _ _ WF H). cbn [bind].
  destruct (d_ts e0) as [|cvr [t|] st u|a]; reflexivity.
Qed.

Lemma due_ids_spec clk : forall ds j,
  incl ds (details (w_lk w)) -> NoDup (map d_id ds) ->
  exists ids, due_ids (w_lk w) clk j (map d_id ds) = Val ids
    /\ NoDup ids
    /\ forall i, In i ids <->
        exists k e0 a act t,
          nth_error ds k = Some e0 /\ d_id e0 = i /\ d_ts e0 = TSActive a
          /\ account_of (w_lk w) (d_name e0) = Some act
          /\ refresh_due act (lconfig (w_lk w)) (ri1 (clk (j + k))) a = Some t
          /\ (t <= ri1 (clk 0%nat))%Z.
Proof.
  induction ds as [|e0 ds IH]; intros j INC ND; cbn [map due_ids].
  - exists []. split; [reflexivity|]. split; [constructor|]. intros i. split; [intros []|].
    intros ([|k] & e0 & _ & _ & _ & X & _); discriminate X.
  - assert (has (w_lk w) e0) as H by (apply INC; left; reflexivity).
    destruct (get_account e0 H) as (act & L & N & CA).
    rewrite (refresh_at_in _ e0 act H L). cbn [bind].
    simpl in ND. inversion ND as [|? ? N1 N2]; subst.
    destruct (IH (S j)) as (ids & E & NI & SP); [intros x Hx; apply INC; right; exact Hx|exact N2|].
    rewrite E. cbn [bind].
    set (t := match d_ts e0 with
              | TSActive a => refresh_due act (lconfig (w_lk w)) (ri1 (clk j)) a
              | _ => None end).
    set (b := match t with Some t' => (t' <=? ri1 (clk 0%nat))%Z | None => false end).
    exists (if b then d_id e0 :: ids else ids). split; [|split].
    + unfold b. destruct t as [t'|]; [|reflexivity]. destruct (t' <=? ri1 (clk 0%nat))%Z; reflexivity.
    + destruct b; [|exact NI]. constructor; [|exact NI]. intros X. apply SP in X as (k & e1 & _ & _ & _ & K & E1 & _).
      apply N1. rewrite <- E1. apply in_map. eapply nth_error_In. exact K.
    + intros i. transitivity ((b = true /\ i = d_id e0) \/ In i ids).
      { destruct b; simpl; intuition congruence. }
      rewrite SP. split.
      * intros [[B ->]|(k & e1 & a & act1 & t1 & K & R)].
        -- unfold b, t in B. destruct (d_ts e0) as [| |a] eqn:T; try discriminate.
           destruct (refresh_due act (lconfig (w_lk w)) (ri1 (clk j)) a) as [t'|] eqn:RD; [|discriminate].
           exists 0, e0, a, act, t'. simpl. rewrite Nat.add_0_r. rewrite Z.leb_le in B. auto 10.
        -- exists (S k), e1, a, act1, t1. simpl. rewrite <- plus_n_Sm. simpl in R. auto.
      * intros ([|k] & e1 & a & act1 & t1 & K & E1 & T & A & RD & LE).
        -- simpl in K. injection K as ->. left. split; [|congruence].
           rewrite Nat.add_0_r in RD. rewrite L in A. injection A as <-.
           unfold b, t. rewrite T, RD. apply Z.leb_le. exact LE.
        -- right. exists k, e1, a, act1, t1. simpl. rewrite <- plus_n_Sm in RD. auto 10.
Qed.

Lemma rf_scan_ok : cs_ok O w e PRfScan PDone [] (rf_scan e (w_lk w)).
Proof.
  unfold rf_scan, act_ids.
  destruct (due_ids_spec (e_clk e) (details (w_lk w)) 1 (incl_refl _) (wf_ids _ WF)) as (ids & E & NI & SP).
  rewrite E. simpl. apply f_scan.
  - eapply Permutation_NoDup; [|exact NI]. symmetry. apply hsort_perm.
  - intros i. rewrite hsort_in, SP. split.
    + intros (k & e0 & a & act & t & K & E1 & T & A & RD & LE).
      exists e0, a, act, k. split; [eapply nth_error_In; exact K|]. split; [exact E1|].
      split; [exact T|]. split; [exact A|]. split; [exact K|]. exists t. auto.
    + intros (e0 & a & act & k & H & E1 & T & A & K & t & RD & LE).
      exists k, e0, a, act, t. auto 10.
Qed.

Lemma collect_refresh_ok clk : forall ids j,
  incl ids (act_ids (w_lk w)) -> exists l, collect_at refresh_at (w_lk w) clk j ids = Val l.
Proof.
  induction ids as [|i ids IH]; intros j INC; cbn [collect_at]; [eauto|].
  assert (In i (act_ids (w_lk w))) as Ii by (apply INC; left; reflexivity).
  apply in_map_iff in Ii as (e0 & <- & H).
  destruct (get_account e0 H) as (act & L & N & CA). rewrite (refresh_at_in _ e0 act H L). cbn [bind].
  destruct (IH (S j)) as [l E]; [intros x Hx; apply INC; right; exact Hx|]. rewrite E. simpl. eauto.
Qed.

Lemma collect_notify_ok clk : forall ids j,
  incl ids (act_ids (w_lk w)) -> exists l, collect_at notify_at (w_lk w) clk j ids = Val l.
Proof.
  induction ids as [|i ids IH]; intros j INC; cbn [collect_at]; [eauto|].
  assert (In i (act_ids (w_lk w))) as Ii by (apply INC; left; reflexivity).
  apply in_map_iff in Ii as (e0 & <- & H).
  rewrite (notify_at_in _ e0 H). cbn [bind].
  destruct (IH (S j)) as [l E]; [intros x Hx; apply INC; right; exact Hx|]. rewrite E. simpl. eauto.
Qed.

Lemma next_wakeup_ok f :
  (exists l, collect_at f (w_lk w) (e_clk e) 1 (act_ids (w_lk w)) = Val l) ->
  exists nw, next_wakeup f (w_lk w) (e_clk e) = Val nw.
Proof. intros [l E]. unfold next_wakeup. rewrite E. simpl. eauto. Qed.

End CsOk.

(** * Every step is described by [tstep], and none panics but for want of a date *)

Lemma run_cs_inv O w e tid p fb pre c w' :
  cs_ok O w e p fb pre c ->
  run_cs (emit w pre) tid fb c = SNext w' ->
  exists lk' p' os, csr O w e p lk' p' os /\ w' = after_cs w tid lk' p' os.
Proof.
  intros C E. unfold run_cs in E. destruct c as [[[lk' p'] os]|m|]; simpl in C.
  - injection E as <-. exists lk', p', (pre ++ os). split; [exact C|].
    unfold after_cs, emit, set_thread, set_lk. simpl. rewrite app_assoc. reflexivity.
  - injection E as <-. exists (w_lk w), fb, pre. split; [exact C|]. reflexivity.
  - destruct C.
Qed.

Lemma run_cs_nopanic O w e tid p fb pre c w0 :
  cs_ok O w e p fb pre c -> run_cs w0 tid fb c <> SPanic.
Proof. intros C E. unfold run_cs in E. destruct c as [[[lk' p'] os]|m|]; simpl in C; try discriminate. exact C. Qed.

Lemma emit_nil w : emit w [] = w.
Proof. destruct w. unfold emit. simpl. rewrite app_nil_r. reflexivity. Qed.

Lemma set_lk_id w : set_lk w (w_lk w) = w.
Proof. destruct w. reflexivity. Qed.

Lemma step_thread_spec O w tid p e :
  inv O w -> pc_ok (w_lk w) p ->
  match step_thread O w tid p e with
  | SNext w' =>
      (exists lk' p' os, csr O w e p lk' p' os /\ w' = after_cs w tid lk' p' os)
      \/ syn w tid e p w'
  | SPanic => p = PMain /\ exists req, e_client e = Some req /\ fails_here O w e req
  | SStuck => True
  end.
Proof.
  intros I PO.
  assert (forall fb c, cs_ok O w e p fb [] c ->
    match run_cs w tid fb c with
    | SNext w' =>
      (exists lk' p' os, csr O w e p lk' p' os /\ w' = after_cs w tid lk' p' os)
      \/ syn w tid e p w'
    | SPanic => p = PMain /\ exists req, e_client e = Some req /\ fails_here O w e req
    | SStuck => True
    end) as K.
  { intros fb c C. destruct (run_cs w tid fb c) as [| |w'] eqn:R; [exact Logic.I| |].
    - exfalso. eapply run_cs_nopanic; eassumption.
    - left. rewrite <- (emit_nil w) in R. eapply run_cs_inv; eassumption. }
  assert (forall p' os, csr O w e p (w_lk w) p' os ->
    exists lk' p'' os', csr O w e p lk' p'' os'
      /\ emit (set_thread w tid p') os = after_cs w tid lk' p'' os') as D.
  { intros p' os C. exists (w_lk w), p', os. split; [exact C|]. unfold after_cs. rewrite set_lk_id. reflexivity. }
  assert (forall p', csr O w e p (w_lk w) p' [] ->
    exists lk' p'' os', csr O w e p lk' p'' os'
      /\ set_thread w tid p' = after_cs w tid lk' p'' os') as D0.
  { intros p' C. destruct (D p' [] C) as (a & b & c & X & Y). exists a, b, c. split; [exact X|].
    rewrite emit_nil in Y. exact Y. }
  destruct p; cbn [step_thread].
  - exact Logic.I.
  - right. apply s_do.
  - destruct (e_client e) as [req|] eqn:EC; [|exact Logic.I].
    destruct (request_ok O w e I req EC) as [C|[C F]].
    2: { rewrite C. cbn [run_cs]. split; [reflexivity|]. exists req. split; [reflexivity|exact F]. }
    destruct (run_cs (emit w [OClient req]) tid PMain (request O e w req)) as [| |w'] eqn:R; [exact Logic.I| |].
    + exfalso. eapply run_cs_nopanic; eassumption.
    + left. eapply run_cs_inv; eassumption.
  - apply K. apply ref_start_ok. exact I.
  - left. apply D. apply r_post.
  - left. apply D0. apply r_body.
  - apply K. apply ref_got_ok. exact I.
  - apply K. apply ref_perm_ok. exact I.
  - apply K. apply ref_transient_ok; assumption.
  - left. apply D. apply r_cmd.
  - apply K. apply ref_cmd_done_ok; assumption.
  - apply K. apply http_start_ok. exact I.
  - left. apply D. apply h_post.
  - apply K. apply http_body_ok. exact I.
  - apply K. apply http_fail_ok. exact I.
  - apply K. apply http_notify_ok.
  - destruct (cv_pred (w_ev w)) eqn:P; right; [apply s_ev_go|apply s_ev_block]; exact P.
  - destruct (negb (cv_waiting (w_ev w)) || e_wake e) eqn:P; [|exact Logic.I].
    right. apply s_ev_wake. rewrite orb_true_iff, negb_true_iff in P. exact P.
  - destruct (w_evq w) as [|[n ev] q] eqn:Q; right; [apply s_ev_empty|apply s_ev_pop]; exact Q.
  - destruct (c_token_event_cmd (lconfig (w_lk w))) as [cmd|] eqn:C; left; apply D0;
      [apply v_pop_cmd|apply v_pop_nocmd]; exact C.
  - left. apply D. apply v_run.
  - left. apply D. apply v_end.
  - destruct (next_wakeup_ok w e notify_at) as [nw N].
    { eapply collect_notify_ok; [exact I|apply incl_refl]. }
    rewrite N. left. apply D0. apply n_top. exact N.
  - destruct (wait_or_go e (w_nt w) nw) eqn:G; right; [apply s_nt_go|apply s_nt_block]; exact G.
  - destruct (negb (cv_waiting (w_nt w)) || e_wake e) eqn:P; [|exact Logic.I].
    right. apply s_nt_wake. rewrite orb_true_iff, negb_true_iff in P. exact P.
  - apply K. apply nt_scan_ok. exact I.
  - destruct (next_wakeup_ok w e refresh_at) as [nw N].
    { eapply collect_refresh_ok; [exact I|apply incl_refl]. }
    rewrite N. left. apply D0. apply f_top. exact N.
  - destruct (wait_or_go e (w_rf w) nw) eqn:G; right; [apply s_rf_go|apply s_rf_block]; exact G.
  - destruct (negb (cv_waiting (w_rf w)) || e_wake e) eqn:P; [|exact Logic.I].
    right. apply s_rf_wake. rewrite orb_true_iff, negb_true_iff in P. exact P.
  - apply K. apply rf_scan_ok. exact I.
Qed.

Lemma step_spec O w l :
  inv O w ->
  match step O w l with
  | SNext w' => w_alive w = true /\ tstep O w l w'
  | SPanic => breaks_down O w l
  | SStuck => True
  end.
Proof.
  intros I. unfold step. destruct (w_alive w) eqn:AL; simpl negb; cbn iota; [|exact Logic.I].
  destruct l as [tid e|https bytes].
  - destruct (nth_error (w_threads w) tid) as [p|] eqn:T; [|exact Logic.I].
    assert (pc_ok (w_lk w) p) as PO.
    { pose proof (inv_threads _ _ I) as F. rewrite Forall_forall in F. apply F. eapply nth_error_In. exact T. }
    pose proof (step_thread_spec O w tid p e I PO) as S.
    destruct (step_thread O w tid p e) as [| |w']; try exact S.
    { destruct S as (-> & req & EC & -> & k & e0 & N0 & F0). eapply bd_status; eassumption. }
    split; [reflexivity|]. destruct S as [(lk' & p' & os & C & ->)|S].
    + eapply t_cs; eassumption.
    + eapply t_syn; eassumption.
  - match goal with |- context [is_some ?x] => destruct (is_some x) eqn:P end; [|exact Logic.I].
    split; [reflexivity|]. apply t_conn. exact P.
Qed.
