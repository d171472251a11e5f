(** Client secrets and the log, the dumps, and the configuration file. *)
From Verif Require Import Base BaseLemmas Time Utf8 Base64 Url Json Oracles ConfigLex ConfigParse Config Located Dump State Http
  Timers Server Startup Log SpecServer SpecRestore SpecSecrets Secrets SpecClients Clients DumpLemmas.

(** * The log *)

Lemma sw_log s O w1 w2 l1 l2 x :
  one_to_one s -> cipher_uniform O -> other_clients s w1 w2 -> other_label s O l1 l2 -> log_of O w1 l1 x = log_of O w2 l2 x.
Proof.
  intros INJ CU W A. pose proof W as W'. destruct W' as (WL & WH & WS & WK & WQ & WE & WN & WR & WT & WA & WO).
  destruct A as [tid e1 e2 A|]; [|reflexivity]. unfold log_of.
  assert (option_map hide_pc (nth_error (w_threads w2) tid)
          = option_map (fun p => hide_pc (swap_pc s p)) (nth_error (w_threads w1) tid)) as T
    by (rewrite <- !nth_error_map, WT, map_map; reflexivity).
  destruct (nth_error (w_threads w1) tid) as [p|], (nth_error (w_threads w2) tid) as [q|]; try discriminate T; [|reflexivity].
  injection T as T. apply (sw_pc_inv s p q) in T.
  assert (forall c1 c2, orel (sw_cs s) c1 c2 -> http_log c1 = http_log c2) as KH.
  { intros [a|m|] [b|n|]; cbn [orel http_log]; try contradiction; try reflexivity. intros ->. reflexivity. }
  destruct p; try (rewrite T; cbn [swap_pc]); try reflexivity; cbn [thread_log]; rewrite ?WL; try reflexivity.
  - destruct a; (destruct T as (k' & -> & _) || destruct T as (o' & k' & -> & TO & _)); try reflexivity.
    assert (forall o : obs, match hide_obs o with
                      | OAuthCmd c n u => o = OAuthCmd c n u
                      | _ => match o with OAuthCmd _ _ _ => False | _ => True end end) as HI.
    { intros z. destruct z; try exact Logic.I; [|reflexivity]. cbn [hide_obs]. destruct (str_eqb req $"dump:"); exact Logic.I. }
    pose proof (HI o') as H2. rewrite TO in H2. cbn [thread_log].
    destruct o; cbn [swap_obs hide_obs] in H2;
      try (destruct (str_eqb req $"dump:")); try (destruct o'; try contradiction; reflexivity).
    rewrite H2. reflexivity.
  - pose proof (oe_client _ _ _ _ A) as C.
    destruct (e_client e1) as [r1|] eqn:E1, (e_client e2) as [r2|] eqn:E2.
    + destruct (sw_request s INJ O e1 e2 A w1 w2 W CU _ _ r1 r2 C eq_refl eq_refl) as [_ RQ].
      unfold client_log.
      assert (match split_first ":"%char r1 with
              | Some (cmd, rest) => if unknown_command cmd rest then [(LWarn, $"Invalid command")] else []
              | None => []
              end = match split_first ":"%char r2 with
              | Some (cmd, rest) => if unknown_command cmd rest then [(LWarn, $"Invalid command")] else []
              | None => []
              end) as U.
      { destruct C as [[C _]|(b1 & b2 & C1 & C2 & _)]; [injection C as ->; reflexivity|].
        injection C1 as ->. injection C2 as ->. reflexivity. }
      destruct (request O e1 w1 r1) as [a1|m1|], (request O e2 w2 r2) as [a2|m2|]; cbn [orel] in RQ; try contradiction; try exact U.
      rewrite RQ. reflexivity.
    + destruct C as [[C _]|(b1 & b2 & _ & C & _)]; discriminate C.
    + destruct C as [[C _]|(b1 & b2 & C & _ & _)]; discriminate C.
    + reflexivity.
  - unfold got_log. rewrite sw_expiry. reflexivity.
  - apply KH. apply sw_http_start. exact W.
  - apply KH. apply (sw_http_body s O e1 e2 A).
Qed.

Lemma sw_run_log s O : one_to_one s -> cipher_uniform O -> forall ls1 ls2 w1 w2,
  other_clients s w1 w2 ->
  Forall2 (fun a b => other_label s O (fst a) (fst b) /\ snd a = snd b) ls1 ls2 ->
  run_log O w1 ls1 = run_log O w2 ls2.
Proof.
  intros INJ CU. induction ls1 as [|[l1 x1] ls1 IH]; intros ls2 w1 w2 W F; inversion F as [|a b la lb [AL EX] F']; subst; [reflexivity|].
  destruct b as [l2 x2]. cbn [fst snd] in AL, EX. subst x2. cbn [run_log].
  pose proof (sw_step s INJ O w1 w2 l1 l2 CU AL W) as SS.
  destruct (step O w1 l1) as [| |w1'], (step O w2 l2) as [| |w2']; cbn in SS; try contradiction; try reflexivity.
  rewrite (sw_log s O w1 w2 l1 l2 x1 INJ CU W AL). f_equal. apply IH; assumption.
Qed.

(** * Dumps *)

Lemma sw_dumps s O w1 w2 e1 e2 txt1 txt2 :
  cipher_law O -> List.length (e_nonce e1) = 12%nat -> texts w1 -> texts w2 -> wall_ok e1 ->
  reachable O w1 -> reachable O w2 -> other_clients s w1 w2 -> other_env s O e1 e2 ->
  asked w1 e1 $"dump:" -> asked w2 e2 $"dump:" ->
  just_answers O w1 e1 $"dump:" txt1 -> just_answers O w2 e2 $"dump:" txt2 ->
  other_dump s O txt1 txt2.
Proof.
  intros CL NL T1 T2 WO R1 R2 (WL & _) A A1 A2 J1 J2.
  assert (List.length (e_nonce e2) = 12%nat) as NL2 by (rewrite <- (oe_nonce _ _ _ _ A); exact NL).
  assert (wall_ok e2) as WO2 by (unfold wall_ok; rewrite <- (oe_clk _ _ _ _ A); exact WO).
  destruct (dump_carries_list O w1 e1 txt1 CL NL T1 WO R1 A1 J1) as (d1 & ((L1 & p1 & D1 & S1 & _) & _) & l1 & E1 & ->).
  destruct (dump_carries_list O w2 e2 txt2 CL NL2 T2 WO2 R2 A2 J2) as (d2 & ((L2 & p2 & D2 & S2 & _) & _) & l2 & E2 & ->).
  pose proof (sw_dump_entries s (lconfig (w_lk w1)) (e_clk e1) (details (w_lk w1)) 0) as X.
  rewrite WL, <- (oe_clk _ _ _ _ A) in E2. cbn [swap_locked lconfig details] in E2.
  rewrite E1, E2 in X. cbn [orel] in X. rewrite X in S2. rewrite <- (oe_hash _ _ _ _ A), hsort_de in S2.
  split.
  - unfold nonce_len. rewrite !(proj2 (Nat.ltb_ge _ _)) by assumption. reflexivity.
  - unfold nonce_len. rewrite D1, D2, S1, S2. reflexivity.
Qed.

(** * Files *)

Section File.
Variable s : str -> str.

Definition swap_facc (a : field_acc) : field_acc :=
  mkFacc (f_auth_uri a) (f_auth_uri_fields a) (f_client_id a) (option_map s (f_client_secret a)) (f_login_hint a)
    (f_redirect_uri a) (f_refresh_at_least a) (f_refresh_before_expiry a) (f_refresh_retry a) (f_scopes a) (f_token_uri a).

Definition swap_accs (l : list (str * account)) : list (str * account) :=
  map (fun p => (fst p, swap_account s (snd p))) l.

Definition swap_tacc (a : top_acc) : top_acc :=
  mkTacc (swap_accs (t_accounts a)) (t_auth_notify_cmd a) (t_auth_notify_interval a) (t_error_notify_cmd a)
    (t_http_listen a) (t_https_listen a) (t_transient_error_if_cmd a) (t_refresh_at_least a)
    (t_refresh_before_expiry a) (t_refresh_retry a) (t_token_event_cmd a).

Lemma at_span_val {A} t sp (o : outcome A) x : at_span t sp o = Val x -> o = Val x.
Proof. destruct o; cbn; congruence. Qed.

Lemma val_at_span {A} t sp (x : A) : at_span t sp (Val x) = Val x.
Proof. reflexivity. Qed.

Ltac inv_bind H := let x := fresh "x" in let E := fresh "E" in
  match type of H with
  | bind (at_span _ _ ?o) _ = Val _ => destruct o as [x|x|] eqn:E; cbn [at_span bind] in H; [|discriminate H|discriminate H]
  | bind ?o _ = Val _ => destruct o as [x|x|] eqn:E; cbn [bind] in H; [|discriminate H|discriminate H]
  end.

Lemma sw_field_step O t1 t2 a p q a' :
  other_field s (fst p) (fst q) -> l_field_step O t1 a p = Val a' -> l_field_step O t2 (swap_facc a) q = Val (swap_facc a').
Proof.
  intros F H. destruct a as [au auf ci cs lh ru ral rbe rr sc tu].
  destruct p as [f ls], q as [g ls']. cbn [fst] in F. unfold l_field_step in *. cbn [fst] in *.
  destruct f; cbn [other_field] in F; try subst g; cbn [swap_facc f_auth_uri f_auth_uri_fields f_client_id f_client_secret f_login_hint
    f_redirect_uri f_refresh_at_least f_refresh_before_expiry f_refresh_retry f_scopes f_token_uri];
    try (destruct F as (y & -> & U); unfold check_not_assigned_str in *; destruct cs as [z|]; cbn [at_span bind option_map] in *;
         [discriminate H|injection H as <-; rewrite U; reflexivity]);
    repeat inv_bind H; injection H as <-;
    repeat match goal with E : _ = Val _ |- _ => rewrite E; clear E end; cbn [at_span bind]; try reflexivity;
    repeat match goal with E : _ = Val _ |- _ => rewrite E; clear E end; cbn [at_span bind]; reflexivity.
Qed.

Lemma sw_fields_loop O t1 t2 fs gs a a' :
  Forall2 (fun f g => other_field s (fst f) (fst g)) fs gs ->
  l_fields_loop O t1 a fs = Val a' -> l_fields_loop O t2 (swap_facc a) gs = Val (swap_facc a').
Proof.
  intros F. revert a. induction F as [|f g fs gs FG F IH]; intros a H; cbn [l_fields_loop] in *; [congruence|].
  inv_bind H. rewrite (sw_field_step O t1 t2 _ _ _ _ FG E). cbn [bind]. apply IH. exact H.
Qed.

Lemma sw_finish n a act : fields_finish n a = Val act -> fields_finish n (swap_facc a) = Val (swap_account s act).
Proof.
  unfold fields_finish. destruct a as [au auf ci cs lh ru ral rbe rr sc tu]. cbn [swap_facc f_auth_uri f_auth_uri_fields f_client_id f_client_secret f_login_hint
    f_redirect_uri f_refresh_at_least f_refresh_before_expiry f_refresh_retry f_scopes f_token_uri].
  intros H. repeat inv_bind H. cbn [bind].
  match goal with |- (if ?b then _ else _) = _ => destruct b end; [discriminate H|]. injection H as <-. reflexivity.
Qed.

Lemma sw_map_insert n act l : map_insert n (swap_account s act) (swap_accs l) = swap_accs (map_insert n act l).
Proof.
  induction l as [|[k a] l IH]; [reflexivity|]. cbn [swap_accs map fst snd map_insert]. destruct (str_eqb n k); [reflexivity|].
  cbn [map fst snd]. f_equal. exact IH.
Qed.

Lemma sw_top_step O t1 t2 a p q a' :
  other_top s p q -> l_top_step O t1 a p = Val a' -> l_top_step O t2 (swap_tacc a) q = Val (swap_tacc a').
Proof.
  intros [F T] H. destruct a as [acts anc ani enc hl hsl tei ral rbe rr tec]. unfold l_top_step in *.
  cbn [swap_tacc t_accounts t_auth_notify_cmd t_auth_notify_interval t_error_notify_cmd t_http_listen t_https_listen
    t_transient_error_if_cmd t_refresh_at_least t_refresh_before_expiry t_refresh_retry t_token_event_cmd].
  destruct (lt_top p) as [n fs| | | | | | | | | | | | |]; [destruct T as [gs T]|..]; rewrite T; cbv zeta in *.
  { unfold l_from_fields in *. destruct (l_fields_loop O t1 facc0 (lt_fields p)) as [fa|m|] eqn:E; cbn [bind] in H; try discriminate H.
    pose proof (sw_fields_loop O t1 t2 _ _ _ _ F E) as E2. change (swap_facc facc0) with facc0 in E2. rewrite E2. cbn [bind].
    destruct (fields_finish (unescape_str n) fa) as [act|m|] eqn:E3; cbn [at_span bind] in H; try discriminate H.
    rewrite (sw_finish _ _ _ E3). cbn [at_span bind]. injection H as <-. rewrite sw_map_insert. reflexivity. }
  all: try discriminate H; repeat inv_bind H; injection H as <-;
    repeat match goal with E : _ = Val _ |- _ => rewrite E; clear E end; cbn [at_span bind]; try reflexivity;
    repeat match goal with E : _ = Val _ |- _ => rewrite E; clear E end; cbn [at_span bind]; reflexivity.
Qed.

Lemma sw_tops_loop O t1 t2 ps qs a a' :
  Forall2 (other_top s) ps qs -> l_tops_loop O t1 a ps = Val a' -> l_tops_loop O t2 (swap_tacc a) qs = Val (swap_tacc a').
Proof.
  intros F. revert a. induction F as [|f g fs gs FG F IH]; intros a H; cbn [l_tops_loop] in *; [congruence|].
  destruct (l_top_step O t1 a f) as [b|m|] eqn:E; cbn [bind] in H; try discriminate H.
  rewrite (sw_top_step O t1 t2 _ _ _ _ FG E). cbn [bind]. apply IH. exact H.
Qed.

Lemma hinsert_accs (h : str -> N) x l :
  hinsert (fun p => h (fst p)) (fst x, swap_account s (snd x)) (swap_accs l) = swap_accs (hinsert (fun p => h (fst p)) x l).
Proof.
  induction l as [|y l IH]; [reflexivity|]. cbn [swap_accs map hinsert fst snd].
  destruct (_ <=? _)%N; [reflexivity|]. cbn [map]. f_equal. exact IH.
Qed.

Lemma hsort_accs (h : str -> N) l : hsort (fun p => h (fst p)) (swap_accs l) = swap_accs (hsort (fun p => h (fst p)) l).
Proof. induction l as [|x l IH]; [reflexivity|]. cbn [swap_accs map hsort]. fold (swap_accs l). rewrite IH. apply hinsert_accs. Qed.

Lemma sw_redirect_checks hl hsl l : redirect_checks hl hsl (swap_accs l) = redirect_checks hl hsl l.
Proof. induction l as [|[n a] l IH]; [reflexivity|]. cbn [swap_accs map redirect_checks fst snd]. fold (swap_accs l). rewrite IH. reflexivity. Qed.

Lemma sw_tops_finish h a c : tops_finish h a = Val c -> tops_finish h (swap_tacc a) = Val (swap_config s c).
Proof.
  unfold tops_finish. destruct a as [acts anc ani enc hl hsl tei ral rbe rr tec].
  cbn [swap_tacc t_accounts t_auth_notify_cmd t_auth_notify_interval t_error_notify_cmd t_http_listen t_https_listen
    t_transient_error_if_cmd t_refresh_at_least t_refresh_before_expiry t_refresh_retry t_token_event_cmd].
  rewrite hsort_accs. set (l := hsort (fun p => h (fst p)) acts). cbv zeta.
  intros H.
  assert (match l with
          | [] => Err $"Must specify at least one account"
          | _ :: _ => _ <- redirect_checks hl hsl l;;
              Val (mkConfig l anc (opt_default auth_notify_interval_default ani) enc (opt_default (Some listen_default) hl)
                     (opt_default (Some listen_default) hsl) tei ral rbe rr tec)
          end = Val c
          /\ forall X : outcome config, match hl, hsl with Some None, Some None => Err $"Cannot set both http_listen and https_listen to 'none'" | _, _ => X end = X) as [H1 H2].
  { destruct hl as [[|]|], hsl as [[|]|]; try discriminate H; (split; [exact H|reflexivity]). }
  rewrite H2. clear H H2. rewrite sw_redirect_checks. destruct l as [|x l']; [discriminate H1|].
  destruct (redirect_checks hl hsl (x :: l')) as [u|m|]; cbn [bind] in *; try discriminate H1.
  injection H1 as <-. reflexivity.
Qed.

Lemma sw_file O h t1 t2 c : other_file s t1 t2 -> from_str O h t1 = Val c -> from_str O h t2 = Val (swap_config s c).
Proof.
  intros (ls1 & ls2 & ts1 & ts2 & L1 & L2 & T1 & T2 & F). unfold from_str. rewrite L1, L2, T1, T2.
  destruct (l_tops_loop O t1 tacc0 ts1) as [a|m|] eqn:E; cbn [bind]; try discriminate.
  intros H. pose proof (sw_tops_loop O t1 t2 _ _ _ _ F E) as E2. change (swap_tacc tacc0) with tacc0 in E2. rewrite E2. cbn [bind].
  apply sw_tops_finish. exact H.
Qed.

End File.
