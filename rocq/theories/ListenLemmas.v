(** The server listens where it was told and sends browsers back there (C95). *)
From Verif Require Import Base BaseLemmas Utf8 Url UrlLemmas Oracles Config Located State Http Timers Server SpecServer SpecConfig SpecLinks
  ConfigLemmas Locate Reads Inv Steps Reach Trace Pend Counters Links Listen SpecListen.
Local Open Scope N_scope.

(** * Binding *)

Lemma bind_first_ok sys held l last b :
  net_laws sys -> bind_first sys held l last = Val b ->
  exists a, In a l /\ ad_ip b = ad_ip a /\ ad_port b <> 0 /\ (ad_port a <> 0 -> ad_port b = ad_port a) /\ ~ In b held.
Proof.
  intros L. revert last. induction l as [|a l IH]; intros last E; cbn in E; [discriminate E|].
  destruct (n_bind sys held a) as [p|m] eqn:B.
  - injection E as <-. destruct (L _ _ _ B) as (P0 & P1 & P2). exists a. cbn.
    split; [left; reflexivity|]. auto.
  - destruct (IH _ E) as (a' & I & R). exists a'. split; [right; exact I|exact R].
Qed.

Lemma bind_first_some sys held l last a p :
  In a l -> n_bind sys held a = inl p -> exists b, bind_first sys held l last = Val b.
Proof.
  intros I B. revert last. induction l as [|a' l IH]; intros last; [destruct I|]. cbn.
  destruct (n_bind sys held a') as [p'|m] eqn:B'; [eauto|].
  destruct I as [->|I]; [congruence|]. exact (IH I m).
Qed.

Lemma tcp_bind_ok sys held s b :
  net_laws sys -> tcp_bind sys held s = Val b ->
  exists all a, n_resolve sys s = inl all /\ In a all
    /\ ad_ip b = ad_ip a /\ ad_port b <> 0 /\ (ad_port a <> 0 -> ad_port b = ad_port a) /\ ~ In b held.
Proof.
  intros L E. unfold tcp_bind in E. destruct (n_resolve sys s) as [l|m] eqn:R; [|discriminate E].
  destruct (bind_first_ok _ _ _ _ _ L E) as (a & I & X). exists l, a. auto.
Qed.

Lemma http_setup_ok sys held c h :
  net_laws sys -> incl (n_held sys) held -> http_server_setup sys held c = Val h ->
  as_told sys (c_http_listen c) (listed h)
  /\ (forall l, In l (listed h) -> l_cert l = None /\ ~ In (l_addr l) held).
Proof.
  intros L I E. unfold http_server_setup in E. destruct (c_http_listen c) as [s|].
  - destruct (tcp_bind sys held s) as [b|m|] eqn:B; cbn in E; try discriminate E. injection E as <-.
    destruct (tcp_bind_ok _ _ _ _ L B) as (all & a & R & IA & X1 & X2 & X3 & X4). split.
    + cbn. eexists. split; [reflexivity|]. exists all, a. cbn.
      repeat (split; [assumption|]). exact (fun X => X4 (I _ X)).
    + intros l [<-|[]]. cbn. auto.
  - injection E as <-. split; [reflexivity|]. intros l [].
Qed.

Lemma https_setup_ok sys held c h :
  net_laws sys -> incl (n_held sys) held -> https_server_setup sys held c = Val h ->
  as_told sys (c_https_listen c) (listed h)
  /\ (forall l, In l (listed h) ->
        exists key, n_cert sys (cert_names sys) = inl key /\ l_cert l = Some (cert_names sys, key) /\ ~ In (l_addr l) held).
Proof.
  intros L I E. unfold https_server_setup in E. destruct (c_https_listen c) as [s|].
  - destruct (n_cert sys (cert_names sys)) as [key|m] eqn:K; [|discriminate E].
    destruct (tcp_bind sys held s) as [b|m|] eqn:B; cbn in E; try discriminate E. injection E as <-.
    destruct (tcp_bind_ok _ _ _ _ L B) as (all & a & R & IA & X1 & X2 & X3 & X4). split.
    + cbn. eexists. split; [reflexivity|]. exists all, a. cbn.
      repeat (split; [assumption|]). exact (fun X => X4 (I _ X)).
    + intros l [<-|[]]. cbn. eauto.
  - injection E as <-. split; [reflexivity|]. intros l [].
Qed.

(** * Start-up *)

Lemma setup_parts sys c ls w :
  server_setup sys c = Val (ls, w) ->
  exists h s,
    http_server_setup sys (n_held sys) c = Val h
    /\ https_server_setup sys (map l_addr (listed h) ++ n_held sys) c = Val s
    /\ ls = listed h ++ listed s /\ w = init_world c (port_of h) (port_of s) (key_of s).
Proof.
  unfold server_setup. intros E. destruct (http_server_setup sys (n_held sys) c) as [h|m|]; try discriminate E.
  cbn [bind] in E. destruct (https_server_setup sys (map l_addr (listed h) ++ n_held sys) c) as [s|m|] eqn:S; try discriminate E.
  cbn [bind] in E. exists h, s.
  assert (match n_sock sys with Some m => Err m
          | None => Val (listed h ++ listed s, init_world c (port_of h) (port_of s) (key_of s)) end = Val (ls, w)) as F.
  { destruct s; [|exact E]. destruct (n_tls sys); [discriminate E|exact E]. }
  destruct (n_sock sys); [discriminate F|]. injection F as <- <-. auto.
Qed.

Lemma http_plain sys held c h : http_server_setup sys held c = Val h -> forall l, In l (listed h) -> l_cert l = None.
Proof.
  unfold http_server_setup. destruct (c_http_listen c) as [s|].
  - destruct (tcp_bind sys held s) as [b|m|]; cbn; try discriminate. intros [= <-] l [<-|[]]. reflexivity.
  - intros [= <-] l [].
Qed.

Lemma https_secure sys held c h : https_server_setup sys held c = Val h -> forall l, In l (listed h) -> l_cert l <> None.
Proof.
  unfold https_server_setup. destruct (c_https_listen c) as [s|].
  - destruct (n_cert sys (cert_names sys)) as [key|m]; [|discriminate].
    destruct (tcp_bind sys held s) as [b|m|]; cbn; try discriminate. intros [= <-] l [<-|[]]. discriminate.
  - intros [= <-] l [].
Qed.

Lemma split_kinds a b :
  (forall l, In l a -> l_cert l = None) -> (forall l, In l b -> l_cert l <> None) ->
  plain_ones (a ++ b) = a /\ secure_ones (a ++ b) = b.
Proof.
  intros A B. unfold plain_ones, secure_ones. rewrite !filter_app.
  assert (forall f l, (forall x : listener, In x l -> f x = true) -> filter f l = l) as K.
  { intros f l. induction l as [|x l IH]; intros H; [reflexivity|]. cbn. rewrite (H x (or_introl eq_refl)). f_equal.
    apply IH. intros y I. apply H. right. exact I. }
  assert (forall f l, (forall x : listener, In x l -> f x = false) -> filter f l = []) as Z.
  { intros f l. induction l as [|x l IH]; intros H; [reflexivity|]. cbn. rewrite (H x (or_introl eq_refl)).
    apply IH. intros y I. apply H. right. exact I. }
  rewrite (K _ a), (Z _ b), (Z _ a), (K _ b), app_nil_r; [split; reflexivity| | | |]; intros x I.
  - specialize (B x I). destruct (l_cert x); [reflexivity|congruence].
  - rewrite (A x I). reflexivity.
  - specialize (B x I). destruct (l_cert x); [reflexivity|congruence].
  - rewrite (A x I). reflexivity.
Qed.

Lemma http_on sys held c h : http_server_setup sys held c = Val h ->
  port_shown (listed h) = match c_http_listen c with Some _ => Some (port_of h) | None => None end.
Proof.
  unfold http_server_setup. destruct (c_http_listen c) as [s|].
  - destruct (tcp_bind sys held s) as [b|m|]; cbn; try discriminate. intros [= <-]. reflexivity.
  - intros [= <-]. reflexivity.
Qed.

Lemma https_on sys held c h : https_server_setup sys held c = Val h ->
  port_shown (listed h) = match c_https_listen c with Some _ => Some (port_of h) | None => None end.
Proof.
  unfold https_server_setup. destruct (c_https_listen c) as [s|].
  - destruct (n_cert sys (cert_names sys)) as [key|m]; [|discriminate].
    destruct (tcp_bind sys held s) as [b|m|]; cbn; try discriminate. intros [= <-]. reflexivity.
  - intros [= <-]. reflexivity.
Qed.

Lemma cert_names_in sys x :
  In x (cert_names sys)
  <-> x = $"localhost" \/ x = $"127.0.0.1" \/ x = $"::1" \/ (n_hostname sys = Some x /\ utf8_valid x = true).
Proof.
  unfold cert_names. split.
  - intros I. apply in_app_or in I as [I|I]; [destruct I as [<-|[<-|[<-|[]]]]; auto|].
    destruct (n_hostname sys) as [y|]; [|destruct I]. destruct (utf8_valid y) eqn:U; [|destruct I]. destruct I as [<-|[]]. auto.
  - intros [->|[->|[->|(-> & ->)]]]; apply in_or_app; [left|left|left|right]; cbn; auto.
Qed.

Lemma setup_listens sys c ls w :
  net_laws sys -> server_setup sys c = Val (ls, w) ->
  as_told sys (c_http_listen c) (plain_ones ls) /\ as_told sys (c_https_listen c) (secure_ones ls)
  /\ NoDup (map l_addr ls)
  /\ (forall l cert, In l ls -> l_cert l = Some cert -> certified sys cert)
  /\ n_sock sys = None /\ (secure_ones ls <> [] -> n_tls sys = None).
Proof.
  intros L E. assert (E0 := E). destruct (setup_parts _ _ _ _ E) as (h & s & H & S & -> & ->).
  destruct (http_setup_ok _ _ _ _ L (incl_refl _) H) as (H1 & H2).
  destruct (https_setup_ok _ _ _ _ L (incl_appr _ (incl_refl _)) S) as (S1 & S2).
  destruct (split_kinds (listed h) (listed s)) as (-> & ->);
    [exact (http_plain _ _ _ _ H)|exact (https_secure _ _ _ _ S)|].
  split; [exact H1|]. split; [exact S1|]. split.
  - destruct h as [l1|], s as [l2|]; cbn.
    + constructor; [|constructor; [intros []|constructor]]. intros [X|[]].
      destruct (S2 l2 (or_introl eq_refl)) as (key & _ & _ & NI). apply NI. cbn. left. symmetry. exact X.
    + constructor; [intros []|constructor].
    + constructor; [intros []|constructor].
    + constructor.
  - split.
    + intros l cert I K. apply in_app_or in I as [I|I].
      * rewrite (http_plain _ _ _ _ H l I) in K. discriminate K.
      * destruct (S2 l I) as (key & K1 & K2 & _). rewrite K2 in K. injection K as <-. split; [exact K1|exact (cert_names_in sys)].
    + unfold server_setup in E0. rewrite H in E0. cbn [bind] in E0. rewrite S in E0. cbn [bind] in E0.
      destruct (n_sock sys); [destruct s; [destruct (n_tls sys)|]; discriminate E0|]. split; [reflexivity|].
      destruct s; [|intros []; reflexivity]. destruct (n_tls sys); [discriminate E0|reflexivity].
Qed.

Lemma setup_ports sys c ls w :
  server_setup sys c = Val (ls, w) ->
  w_http w = port_shown (plain_ones ls) /\ w_https w = port_shown (secure_ones ls)
  /\ (forall l names key, In l ls -> l_cert l = Some (names, key) -> w_pubkey w = Some (key_text key)).
Proof.
  intros E. destruct (setup_parts _ _ _ _ E) as (h & s & H & S & -> & ->).
  destruct (split_kinds (listed h) (listed s)) as (-> & ->);
    [exact (http_plain _ _ _ _ H)|exact (https_secure _ _ _ _ S)|].
  rewrite (http_on _ _ _ _ H), (https_on _ _ _ _ S). split; [reflexivity|]. split; [reflexivity|].
  intros l names key I K. apply in_app_or in I as [I|I].
  - rewrite (http_plain _ _ _ _ H l I) in K. discriminate K.
  - destruct s as [l2|]; [|destruct I]. destruct I as [->|[]]. pose proof (https_on _ _ _ _ S) as P. cbn in P.
    cbn. destruct (c_https_listen c); [|discriminate P]. destruct l as [a ce]. cbn in *. rewrite K. reflexivity.
Qed.

Lemma bind_or_not sys held told :
  can_listen sys held told -> match told with None => True | Some s => exists b, tcp_bind sys held s = Val b end.
Proof.
  intros C. destruct told as [s|]; [|exact I]. destruct (C s eq_refl) as (all & a & p & R & IA & B).
  unfold tcp_bind. rewrite R. eapply bind_first_some; eassumption.
Qed.

Lemma setup_succeeds sys c :
  (forall held, incl (n_held sys) held -> can_listen sys held (c_http_listen c) /\ can_listen sys held (c_https_listen c)) ->
  (c_https_listen c <> None -> n_tls sys = None /\ exists key, n_cert sys (cert_names sys) = inl key) ->
  n_sock sys = None ->
  exists ls w, server_setup sys c = Val (ls, w).
Proof.
  intros CL CT NS. unfold server_setup.
  assert (exists h, http_server_setup sys (n_held sys) c = Val h) as (h & ->).
  { pose proof (bind_or_not _ _ _ (proj1 (CL _ (incl_refl _)))) as B. unfold http_server_setup.
    destruct (c_http_listen c); [|eauto]. destruct B as (b & ->). cbn. eauto. }
  cbn [bind].
  assert (exists s, https_server_setup sys (map l_addr (listed h) ++ n_held sys) c = Val s
                    /\ (s <> None -> n_tls sys = None)) as (s & -> & T).
  { pose proof (bind_or_not _ _ _ (proj2 (CL _ (incl_appr (map l_addr (listed h)) (incl_refl _))))) as B. unfold https_server_setup.
    destruct (c_https_listen c) as [x|].
    - destruct (CT ltac:(discriminate)) as (T & key & ->). destruct B as (b & ->). cbn. eauto.
    - exists None. split; [reflexivity|congruence]. }
  cbn [bind]. rewrite NS. destruct s as [l|]; [|eauto]. rewrite (T ltac:(discriminate)). eauto.
Qed.

Lemma setup_never_panics sys c : server_setup sys c <> Panic.
Proof.
  assert (forall held l last, bind_first sys held l last <> Panic) as B.
  { intros held l. induction l as [|a l IH]; intros last; cbn; [discriminate|]. destruct (n_bind sys held a); [discriminate|apply IH]. }
  assert (forall held s, tcp_bind sys held s <> Panic) as TB.
  { intros held s. unfold tcp_bind. destruct (n_resolve sys s); [apply B|discriminate]. }
  assert (http_server_setup sys (n_held sys) c <> Panic) as H1.
  { unfold http_server_setup. destruct (c_http_listen c) as [s|]; [|discriminate].
    specialize (TB (n_held sys) s). destruct (tcp_bind sys (n_held sys) s); cbn; congruence. }
  assert (forall held, https_server_setup sys held c <> Panic) as H2.
  { intros held. unfold https_server_setup. destruct (c_https_listen c) as [s|]; [|discriminate].
    destruct (n_cert sys (cert_names sys)); [|discriminate].
    specialize (TB held s). destruct (tcp_bind sys held s); cbn; congruence. }
  unfold server_setup. destruct (http_server_setup sys (n_held sys) c) as [h|m|]; cbn [bind]; [|discriminate|congruence].
  specialize (H2 (map l_addr (listed h) ++ n_held sys)).
  destruct (https_server_setup sys (map l_addr (listed h) ++ n_held sys) c) as [s|m|]; cbn [bind]; [|discriminate|congruence].
  destruct s; [destruct (n_tls sys); [discriminate|]|]; destruct (n_sock sys); discriminate.
Qed.

Lemma setup_reachable O sys e c ls w :
  config_from_path O e = Val c -> server_setup sys c = Val (ls, w) -> reachable O w.
Proof. intros C E. destruct (setup_parts _ _ _ _ E) as (h & s & _ & _ & _ & ->). eapply reach_init. exact C. Qed.

(** * Later *)

Lemma run_ports O ls : forall w w', reachable O w -> run O w ls = Some (SNext w') ->
  w_http w' = w_http w /\ w_https w' = w_https w /\ w_pubkey w' = w_pubkey w.
Proof.
  induction ls as [|l ls IH]; intros w w' R E; cbn in E; [injection E as <-; auto|].
  destruct (step O w l) as [| |w1] eqn:S; try discriminate E.
  assert (w_http w1 = w_http w /\ w_https w1 = w_https w /\ w_pubkey w1 = w_pubkey w) as (P1 & P2 & P3).
  { destruct (step_ok _ _ _ _ (reach_inv _ _ R) S) as (_ & _ & T & _).
    destruct T as [tid e p lk' p' os N C|tid e p w1 N SY|https bytes P]; try (repeat split; reflexivity).
    destruct SY; try (repeat split; reflexivity). destruct a; repeat split; reflexivity. }
  destruct (IH w1 w' (reach_step _ _ _ _ R S) E) as (Q1 & Q2 & Q3). repeat split; congruence.
Qed.

Lemma port_shown_in f ls p : port_shown (filter f ls) = Some p -> exists l, In l ls /\ f l = true /\ ad_port (l_addr l) = p.
Proof.
  intros E. destruct (filter f ls) as [|l r] eqn:F; [discriminate E|]. injection E as <-.
  exists l. destruct (proj1 (filter_In f l ls)) as (I & X); [rewrite F; left; reflexivity|]. auto.
Qed.

Lemma port_shown_some f ls l : In l ls -> f l = true -> exists p, port_shown (filter f ls) = Some p.
Proof.
  intros I X. assert (In l (filter f ls)) as J by (apply filter_In; auto).
  destruct (filter f ls) as [|l' r]; [destruct J|]. cbn. eauto.
Qed.

Lemma written_effective sch p p' u :
  u_scheme u = sch -> u_port u = p' -> written_port sch (Some p) p' -> effective_port u = Some p.
Proof.
  intros E1 E2 W. unfold effective_port. rewrite E2.
  destruct W as [(-> & [(-> & [= ->])|(-> & [= ->])])|(-> & _)]; [rewrite E1; reflexivity|rewrite E1; reflexivity|reflexivity].
Qed.

Lemma link_comes_back O act ls r :
  scheme_law O -> redirect_link O act (port_shown (plain_ones ls)) (port_shown (secure_ones ls)) r ->
  plainly (a_redirect_uri act) -> kind_on ls (u_scheme r) -> comes_back ls r.
Proof.
  intros SL (conf & p & P & RP & E1 & _ & _ & WP & _) PL (l0 & I0 & K0).
  destruct (SL _ _ P PL) as (_ & BW).
  destruct K0 as [(S0 & Q)|(S0 & Q)]; rewrite E1 in Q; rewrite Q in BW.
  - destruct (port_shown_some (fun l => match l_cert l with None => false | Some _ => true end) ls l0 I0) as (q & F).
    { unfold is_https in S0. destruct (l_cert l0); [reflexivity|congruence]. }
    fold (secure_ones ls) in F.
    assert (begins_with $"https" (a_redirect_uri act)) as BH.
    { destruct BW as (rest & BW). exists ($":" ++ rest). rewrite BW, <- app_assoc. reflexivity. }
    assert (p = Some q) as ->.
    { destruct RP as [(_ & _ & ->)|(N & _)]; [exact F|]. exfalso. apply N. split; [exact BH|congruence]. }
    destruct (port_shown_in _ _ _ F) as (l & I & X & <-). exists l. split; [exact I|]. split.
    + eapply written_effective; [|reflexivity|exact WP]. congruence.
    + split; [intros _; congruence|intros _]. unfold is_https. destruct (l_cert l); [discriminate|discriminate X].
  - destruct (port_shown_some (fun l => match l_cert l with None => true | Some _ => false end) ls l0 I0) as (q & F).
    { destruct (l_cert l0) eqn:C; [|reflexivity]. exfalso. apply S0. unfold is_https. congruence. }
    fold (plain_ones ls) in F.
    assert (p = Some q) as ->.
    { destruct RP as [(BH & _ & _)|(_ & ->)]; [|exact F]. exfalso. destruct BW as (r1 & B1), BH as (r2 & B2).
      rewrite B1 in B2. discriminate B2. }
    destruct (port_shown_in _ _ _ F) as (l & I & X & <-). exists l. split; [exact I|]. split.
    + eapply written_effective; [|reflexivity|exact WP]. congruence.
    + split; [|rewrite E1, Q; discriminate]. unfold is_https. destruct (l_cert l); [discriminate X|intros NX; congruence].
Qed.

Lemma url_comes_back O sys e c ls w0 lbs w t1 n u t2 :
  scheme_law O -> config_from_path O e = Val c -> server_setup sys c = Val (ls, w0) ->
  run O w0 lbs = Some (SNext w) -> w_trace w = t1 ++ OAuthUrl n u :: t2 ->
  exists c' act r,
    config_at t1 = Some c' /\ lookup n (c_accounts c') = Some act
    /\ redirect_link O act (port_shown (plain_ones ls)) (port_shown (secure_ones ls)) r
    /\ In ($"redirect_uri", url_to_str r) (raw_pairs u)
    /\ (plainly (a_redirect_uri act) -> kind_on ls (u_scheme r) -> comes_back ls r).
Proof.
  intros SL C SE RN T.
  assert (reachable O w0) as R0 by (eapply setup_reachable; eassumption).
  destruct (run_ports _ _ _ _ R0 RN) as (P1 & P2 & _). destruct (setup_ports _ _ _ _ SE) as (Q1 & Q2 & _).
  destruct (issued_link O w t1 n u t2 (run_reachable _ _ _ _ R0 RN) T)
    as (t0 & req & wu & c' & act & bs & bv & -> & _ & CA & LK & conf & r & _ & RL & _ & _ & _ & _ & _ & _ & RP).
  rewrite P1, P2, Q1, Q2 in RL. exists c', act, r. split; [rewrite config_at_app; cbn; exact CA|]. split; [exact LK|].
  split; [exact RL|]. split; [rewrite RP; apply in_or_app; right; apply in_or_app; left; cbn; auto 8|].
  intros PL K. eapply link_comes_back; eassumption.
Qed.

Lemma before_colon (a x b y : str) :
  ~ In ":"%char a -> ~ In ":"%char b -> a ++ ":"%char :: x = b ++ ":"%char :: y -> a = b.
Proof.
  revert b. induction a as [|c a IH]; intros [|d b] NA NB E; cbn in *.
  - reflexivity.
  - exfalso. apply NB. left. congruence.
  - exfalso. apply NA. left. congruence.
  - injection E as -> E. f_equal. apply IH; auto.
Qed.

(** As long as the configuration is the one the server was started with. *)
Lemma started_kind_on O sys e c ls w n act conf :
  scheme_law O -> config_from_path O e = Val c -> server_setup sys c = Val (ls, w) ->
  lookup n (c_accounts c) = Some act -> o_url_parse O (a_redirect_uri act) = Some conf ->
  (exists rest, a_redirect_uri act = $"http:" ++ rest \/ a_redirect_uri act = $"https:" ++ rest) ->
  plainly (a_redirect_uri act) -> kind_on ls (u_scheme conf).
Proof.
  intros SL C SE LK P (rest & RS) PL.
  destruct (SL _ _ P PL) as (NC & r1 & B1).
  assert (map ascii_lower (a_redirect_uri act) = u_scheme conf ++ ":"%char :: r1) as B2 by (rewrite B1, <- app_assoc; reflexivity).
  unfold config_from_path in C. destruct (e_file e) as [s|]; [|discriminate C].
  destruct (utf8_valid s); [|discriminate C]. apply from_str_val in C.
  destruct (accepted_servers _ _ _ _ C) as (_ & _ & AS). specialize (AS n act (lookup_in _ _ _ LK)). destruct AS as (AS1 & AS2).
  destruct (setup_parts _ _ _ _ SE) as (h & s' & H & S & -> & _).
  destruct RS as [RS|RS].
  - assert (u_scheme conf = $"http") as E. { apply (before_colon _ r1 _ (map ascii_lower rest) NC); [|rewrite <- B2, RS; reflexivity].
      intros X. repeat (destruct X as [X|X]; [discriminate X|]). exact X. }
    pose proof (http_on _ _ _ _ H) as ON. destruct (c_http_listen c); [|destruct (AS2 _ RS eq_refl)].
    destruct h as [l|]; [|discriminate ON]. exists l. split; [left; reflexivity|]. right. split; [|exact E].
    unfold is_https. rewrite (http_plain _ _ _ _ H l (or_introl eq_refl)). congruence.
  - assert (u_scheme conf = $"https") as E. { apply (before_colon _ r1 _ (map ascii_lower rest) NC); [|rewrite <- B2, RS; reflexivity].
      intros X. repeat (destruct X as [X|X]; [discriminate X|]). exact X. }
    pose proof (https_on _ _ _ _ S) as ON. destruct (c_https_listen c); [|destruct (AS1 _ RS eq_refl)].
    destruct s' as [l|]; [|discriminate ON]. exists l. split; [apply in_or_app; right; left; reflexivity|]. left. split; [|exact E].
    exact (https_secure _ _ _ _ S l (or_introl eq_refl)).
Qed.

Lemma only_listeners O sys e c ls w0 lbs w https bytes :
  config_from_path O e = Val c -> server_setup sys c = Val (ls, w0) -> run O w0 lbs = Some (SNext w) -> w_alive w = true ->
  (exists w', step O w (LHttpConn https bytes) = SNext w') <-> exists l, In l ls /\ (is_https l <-> https = true).
Proof.
  intros C SE RN A.
  assert (reachable O w0) as R0 by (eapply setup_reachable; eassumption).
  destruct (run_ports _ _ _ _ R0 RN) as (P1 & P2 & _). destruct (setup_ports _ _ _ _ SE) as (Q1 & Q2 & _).
  rewrite Q1 in P1. rewrite Q2 in P2. unfold step. rewrite A, P1, P2. split.
  - intros (w' & S). destruct https.
    + destruct (port_shown (secure_ones ls)) as [p|] eqn:F; [|discriminate S].
      destruct (port_shown_in _ _ _ F) as (l & I & X & _). exists l. split; [exact I|]. split; [reflexivity|intros _].
      unfold is_https. destruct (l_cert l); [discriminate|discriminate X].
    + destruct (port_shown (plain_ones ls)) as [p|] eqn:F; [|discriminate S].
      destruct (port_shown_in _ _ _ F) as (l & I & X & _). exists l. split; [exact I|]. split; [|discriminate].
      unfold is_https. destruct (l_cert l); [discriminate X|intros NX; congruence].
  - intros (l & I & K). destruct https.
    + destruct (port_shown_some (fun l => match l_cert l with None => false | Some _ => true end) ls l I) as (q & F).
      { assert (is_https l) as S0 by (apply K; reflexivity). unfold is_https in S0. destruct (l_cert l); congruence. }
      fold (secure_ones ls) in F. rewrite F. cbn. eauto.
    + destruct (port_shown_some (fun l => match l_cert l with None => true | Some _ => false end) ls l I) as (q & F).
      { destruct (l_cert l) eqn:E; [|reflexivity]. assert (is_https l) as S0 by (unfold is_https; congruence). apply K in S0. discriminate S0. }
      fold (plain_ones ls) in F. rewrite F. cbn. eauto.
Qed.

Lemma started_comes_back O sys e c ls w0 lbs w t1 n u t2 act :
  scheme_law O -> config_from_path O e = Val c -> server_setup sys c = Val (ls, w0) ->
  run O w0 lbs = Some (SNext w) -> w_trace w = t1 ++ OAuthUrl n u :: t2 ->
  config_at t1 = Some c -> lookup n (c_accounts c) = Some act ->
  (exists rest, a_redirect_uri act = $"http:" ++ rest \/ a_redirect_uri act = $"https:" ++ rest) ->
  plainly (a_redirect_uri act) ->
  exists r, In ($"redirect_uri", url_to_str r) (raw_pairs u) /\ comes_back ls r.
Proof.
  intros SL C SE RN T CA LK RS PL.
  destruct (url_comes_back _ _ _ _ _ _ _ _ _ _ _ _ SL C SE RN T) as (c' & act' & r & CA' & LK' & RL & I & CB).
  assert (c' = c) as -> by congruence. assert (act' = act) as -> by congruence.
  exists r. split; [exact I|]. destruct RL as (conf & p & P & _ & E & _). apply (CB PL). rewrite E.
  eapply started_kind_on; eassumption.
Qed.
