(** Client secrets influence nothing but the posts that carry them (SpecClients.v). *)
From Verif Require Import Base BaseLemmas Time Utf8 Base64 Url Json Oracles Config Located Dump State Http
  Timers Server SpecSecrets Secrets SpecClients.

Section Swap.
Variable s : str -> str.
Hypothesis INJ : one_to_one s.

Notation swa := (swap_account s).
Notation swc := (swap_config s).
Notation swl := (swap_locked s).

Lemma swap_lookup n c : lookup n (c_accounts (swc c)) = option_map swa (lookup n (c_accounts c)).
Proof.
  cbn [swap_config c_accounts]. induction (c_accounts c) as [|[k a] l IH]; [reflexivity|]. cbn [map lookup fst snd].
  destruct (str_eqb n k); [reflexivity|exact IH].
Qed.

Lemma swap_keys c : keys (c_accounts (swc c)) = keys (c_accounts c).
Proof. cbn [swap_config c_accounts]. unfold keys. rewrite map_map. reflexivity. Qed.

Lemma str_eqb_inj x y : str_eqb (s x) (s y) = str_eqb x y.
Proof.
  destruct (str_eqb x y) eqn:E; [apply str_eqb_eq in E; subst; apply str_eqb_eq; reflexivity|].
  destruct (str_eqb (s x) (s y)) eqn:E2; [|reflexivity]. apply str_eqb_eq, INJ in E2. subst.
  rewrite (proj2 (str_eqb_eq y y) eq_refl) in E. discriminate E.
Qed.

Lemma opt_eqb_inj x y : opt_eqb str_eqb (option_map s x) (option_map s y) = opt_eqb str_eqb x y.
Proof. destruct x, y; try reflexivity. cbn. apply str_eqb_inj. Qed.

Lemma swap_secure_eq a b : secure_eq (swa a) (swa b) = secure_eq a b.
Proof.
  unfold secure_eq. cbn [swap_account a_name a_auth_uri a_auth_uri_fields a_client_id a_client_secret a_redirect_uri a_scopes a_token_uri].
  rewrite opt_eqb_inj. reflexivity.
Qed.

Lemma swap_restorable a d : secure_restorable (swa a) (swap_account_dump s d) = secure_restorable a d.
Proof.
  unfold secure_restorable. cbn. rewrite opt_eqb_inj. reflexivity.
Qed.

Definition is_swap (a b : account) : Prop := b = swa a.
Definition swapped {A} (x y : locked * A) : Prop := y = (swl (fst x), snd x).

Lemma sw_account lk i : orel is_swap (ct_account lk i) (ct_account (swl lk) i).
Proof.
  unfold ct_account. cbn [swap_locked details lconfig]. destruct (find_id i (details lk)) as [e|]; [|exact I].
  cbn [unwrap bind]. rewrite swap_lookup. destruct (lookup _ _); [reflexivity|exact I].
Qed.

Lemma sw_replace lk i t : orel swapped (tokenstate_replace lk i t) (tokenstate_replace (swl lk) i t).
Proof.
  unfold tokenstate_replace. cbn [swap_locked details lconfig account_count].
  destruct (update_first _ _ _); [reflexivity|exact I].
Qed.

Lemma sw_set_ongoing lk i b :
  orel swapped (tokenstate_set_ongoing_refresh lk i b) (tokenstate_set_ongoing_refresh (swl lk) i b).
Proof.
  unfold tokenstate_set_ongoing_refresh. cbn [swap_locked details].
  destruct (find_id i (details lk)) as [e|]; [|exact I]. cbn [unwrap bind].
  destruct (d_ts e); try exact I. apply sw_replace.
Qed.

Lemma sw_expiry lk i now exs : expiry_instant (swl lk) i now exs = expiry_instant lk i now exs.
Proof.
  unfold expiry_instant. destruct (checked_add _ _); [reflexivity|]. pose proof (sw_account lk i) as X.
  destruct (ct_account lk i), (ct_account (swl lk) i); cbn in X; try contradiction; cbn [bind]; [|congruence|reflexivity].
  rewrite X. reflexivity.
Qed.

Lemma sw_refresh_at lk now i : refresh_at (swl lk) now i = refresh_at lk now i.
Proof.
  unfold refresh_at. change (ct_tokenstate (swl lk) i) with (ct_tokenstate lk i).
  destruct (ct_tokenstate lk i) as [[| |a]|m|]; cbn [bind]; try reflexivity. destruct (ongoing a) eqn:OG; [reflexivity|].
  pose proof (sw_account lk i) as X.
  destruct (ct_account lk i), (ct_account (swl lk) i); cbn in X; try contradiction; cbn [bind]; [|congruence|reflexivity].
  rewrite X. reflexivity.
Qed.

Lemma sw_notify_at lk now i : notify_at (swl lk) now i = notify_at lk now i.
Proof. reflexivity. Qed.

Lemma sw_collect f lk clk : (forall now i, f (swl lk) now i = f lk now i) ->
  forall ids j, collect_at f (swl lk) clk j ids = collect_at f lk clk j ids.
Proof. intros F. induction ids as [|i ids IH]; intros j; cbn [collect_at]; [reflexivity|]. rewrite F, IH. reflexivity. Qed.

Lemma sw_next_wakeup f lk clk : (forall now i, f (swl lk) now i = f lk now i) -> next_wakeup f (swl lk) clk = next_wakeup f lk clk.
Proof. intros F. unfold next_wakeup. rewrite (sw_collect f lk clk F). reflexivity. Qed.

Lemma sw_due_ids lk clk ids j : due_ids (swl lk) clk j ids = due_ids lk clk j ids.
Proof.
  revert j. induction ids as [|i ids IH]; intros j; cbn [due_ids]; [reflexivity|]. rewrite sw_refresh_at, IH. reflexivity.
Qed.

Lemma sw_status_lines O lk clk ids j : status_lines O (swl lk) clk j ids = status_lines O lk clk j ids.
Proof.
  revert j. induction ids as [|i ids IH]; intros j; cbn [status_lines]; [reflexivity|].
  pose proof (sw_account lk i) as X.
  destruct (ct_account lk i), (ct_account (swl lk) i); cbn in X; try contradiction; cbn [bind]; [|congruence|reflexivity].
  rewrite X, IH. reflexivity.
Qed.

(** ** Reload *)

Lemma sw_update_details lk c names count : update_details (swl lk) (swc c) names count = update_details lk c names count.
Proof.
  revert count. induction names as [|n names IH]; intros count; cbn [update_details]; [reflexivity|].
  cbn [swap_locked lconfig details]. rewrite !swap_lookup.
  destruct (lookup n (c_accounts (lconfig lk))) as [old|]; cbn [option_map]; [|rewrite IH; reflexivity].
  destruct (lookup n (c_accounts c)) as [new|]; cbn [option_map unwrap bind]; [|reflexivity].
  rewrite swap_secure_eq. destruct (secure_eq new old); rewrite ?IH; reflexivity.
Qed.

Lemma sw_update_conf lk c : orel (fun a b => b = swl a) (update_conf lk c) (update_conf (swl lk) (swc c)).
Proof.
  unfold update_conf. rewrite swap_keys, sw_update_details. cbn [swap_locked account_count].
  destruct (update_details lk c _ _) as [[ds k]|m|]; cbn [bind]; reflexivity || exact I.
Qed.

(** ** Restore *)

Lemma swap_dump_lookup n d :
  lookup n (d_accounts (swap_dump s d))
  = option_map (fun p => (swap_account_dump s (fst p), snd p)) (lookup n (d_accounts d)).
Proof.
  cbn [swap_dump d_accounts]. induction (d_accounts d) as [|[k a] l IH]; [reflexivity|]. cbn [map lookup fst snd].
  destruct (str_eqb n k); [reflexivity|exact IH].
Qed.

Lemma sw_candidates c d clk ds i :
  restore_candidates (swc c) (swap_dump s d) clk i ds = restore_candidates c d clk i ds.
Proof.
  revert i. induction ds as [|e ds IH]; intros i; cbn [restore_candidates]; [reflexivity|].
  rewrite swap_lookup, IH, swap_dump_lookup.
  destruct (lookup (d_name e) (c_accounts c)) as [a|]; cbn [option_map unwrap bind]; [|reflexivity].
  destruct (restore_candidates c d clk (S i) ds); cbn [bind]; try reflexivity.
  destruct (lookup (d_name e) (d_accounts d)) as [[ad td]|]; cbn [option_map fst snd]; [|reflexivity].
  rewrite swap_restorable. reflexivity.
Qed.

Lemma sw_locked_restore lk p1 p2 clk h :
  deserialize p2 = option_map (swap_dump s) (deserialize p1) ->
  orel (fun a b => b = swl a) (locked_restore lk p1 clk h) (locked_restore (swl lk) p2 clk h).
Proof.
  intros D. unfold locked_restore. rewrite D. destruct (deserialize p1) as [d|]; cbn [option_map ok_or bind]; [|cbn [orel]; reflexivity].
  change (d_version (swap_dump s d)) with (d_version d). destruct (negb _); [cbn [orel]; reflexivity|].
  cbn [swap_locked lconfig details account_count]. rewrite sw_candidates.
  destruct (restore_candidates _ d clk 0 (details lk)) as [rs|m|]; cbn [bind]; [|cbn [orel]; reflexivity|exact I].
  destruct (restore_apply _ _ _) as [[ds k]|m|]; cbn [bind]; reflexivity || exact I.
Qed.

Lemma sw_auth_restore O lk b1 b2 clk h : other_dump s O b1 b2 ->
  orel (fun a b => b = swl a) (auth_restore O lk b1 clk h) (auth_restore O (swl lk) b2 clk h).
Proof.
  intros [L D]. unfold auth_restore. rewrite L. destruct (List.length b1 <? nonce_len)%nat; [cbn [orel]; reflexivity|].
  destruct (o_decrypt O (firstn nonce_len b1) _) as [p1|], (o_decrypt O (firstn nonce_len b2) _) as [p2|];
    try contradiction; [|cbn [orel]; reflexivity].
  pose proof (sw_locked_restore lk p1 p2 clk h D) as X.
  destruct (locked_restore lk p1 clk h), (locked_restore (swl lk) p2 clk h); cbn in X; try contradiction; cbn; auto.
Qed.

(** ** Dump *)

Definition sw_de (p : str * (account_dump * tokenstate_dump)) : str * (account_dump * tokenstate_dump) :=
  (fst p, (swap_account_dump s (fst (snd p)), snd (snd p))).

Lemma sw_dump_entries c clk ds i :
  orel (fun a b => b = map sw_de a) (dump_entries c clk i ds) (dump_entries (swc c) clk i ds).
Proof.
  revert i. induction ds as [|e ds IH]; intros i; cbn [dump_entries]; [cbn [orel]; reflexivity|].
  rewrite swap_lookup. destruct (lookup (d_name e) (c_accounts c)) as [a|]; cbn [option_map unwrap bind]; [|exact I].
  eapply orel_bind; [apply IH|]. intros x y ->. reflexivity.
Qed.

Lemma hinsert_de (h : str -> N) x l :
  hinsert (fun p => h (fst p)) (sw_de x) (map sw_de l) = map sw_de (hinsert (fun p => h (fst p)) x l).
Proof.
  induction l as [|y l IH]; [cbn [orel]; reflexivity|]. cbn [map hinsert]. change (fst (sw_de x)) with (fst x).
  change (fst (sw_de y)) with (fst y). destruct (_ <=? _)%N; [cbn [orel]; reflexivity|]. cbn [map]. rewrite IH. reflexivity.
Qed.

Lemma hsort_de (h : str -> N) l : hsort (fun p => h (fst p)) (map sw_de l) = map sw_de (hsort (fun p => h (fst p)) l).
Proof. induction l as [|x l IH]; [cbn [orel]; reflexivity|]. cbn [map hsort]. rewrite IH. apply hinsert_de. Qed.

Lemma sw_enc_entries l : orel (fun _ _ => True) (enc_entries l) (enc_entries (map sw_de l)).
Proof.
  induction l as [|[n [ad td]] l IH]; [exact I|]. cbn [map enc_entries sw_de fst snd].
  eapply orel_bind; [apply orel_eq|]. intros t ? <-. eapply orel_bind; [apply IH|]. intros a b _. exact I.
Qed.

Lemma sw_locked_dump lk clk h : orel (fun _ _ => True) (locked_dump lk clk h) (locked_dump (swl lk) clk h).
Proof.
  unfold locked_dump. cbn [swap_locked lconfig details]. eapply orel_bind; [apply sw_dump_entries|].
  intros l ? ->. rewrite hsort_de. unfold serialize. cbn [d_accounts].
  eapply orel_bind; [apply sw_enc_entries|]. intros a b _. exact I.
Qed.

Lemma sw_auth_dump O lk clk h nonce : cipher_uniform O ->
  orel (fun _ _ => True) (auth_dump O lk clk h nonce) (auth_dump O (swl lk) clk h nonce).
Proof.
  intros CU. unfold auth_dump. eapply orel_bind; [apply sw_locked_dump|]. intros p1 p2 _.
  destruct (o_encrypt O nonce p1) eqn:E1, (o_encrypt O nonce p2) eqn:E2; try exact I; try (cbn [orel]; reflexivity).
  - pose proof (CU nonce p2 p1 E2). congruence.
  - pose proof (CU nonce p1 p2 E1). congruence.
Qed.

(** * Critical sections *)

Definition sw_pc (p q : pc) : Prop := hide_pc q = hide_pc (swap_pc s p).
Definition sw_obs (o1 o2 : list obs) : Prop := map hide_obs o2 = map hide_obs (map (swap_obs s) o1).

Definition sw_cs (x y : locked * pc * list obs) : Prop :=
  let '(k1, p1, o1) := x in
  let '(k2, p2, o2) := y in
  k2 = swl k1 /\ sw_pc p1 p2 /\ sw_obs o1 o2.

Ltac same := split; [reflexivity|split; reflexivity].
Ltac bindr L := eapply orel_bind; [apply L|]; cbv beta.

Lemma swap_pairs_refresh act r : refresh_pairs (swa act) r = map (swap_pair s) (refresh_pairs act r).
Proof. unfold refresh_pairs. rewrite map_app. cbn [swap_account a_client_secret]. destruct (a_client_secret act); reflexivity. Qed.

Lemma swap_pairs_code act c v u : code_pairs (swa act) c v u = map (swap_pair s) (code_pairs act c v u).
Proof. unfold code_pairs. rewrite map_app. cbn [swap_account a_client_secret]. destruct (a_client_secret act); reflexivity. Qed.

Section CS.
Variables (O : oracles) (e1 e2 : env).
Hypothesis A : other_env s O e1 e2.

Lemma sw_now : env_now e2 = env_now e1.
Proof. unfold env_now. rewrite (oe_clk _ _ _ _ A). reflexivity. Qed.

Lemma sw_ref_start lk i : orel sw_cs (ref_start e1 lk i) (ref_start e2 (swl lk) i).
Proof.
  unfold ref_start. rewrite sw_now. change (is_act_id_valid (swl lk) i) with (is_act_id_valid lk i).
  change (ct_tokenstate (swl lk) i) with (ct_tokenstate lk i).
  destruct (is_act_id_valid lk i); [|same].
  destruct (ct_tokenstate lk i) as [[| |a]|m|]; cbn [bind]; try same; try (cbn [orel]; reflexivity); try exact I.
  destruct (ongoing a); [same|].
  bindr sw_replace. intros [k1 i1] y ->. cbn [fst snd].
  bindr sw_account. intros act1 ? ->.
  change (ct_tokenstate (swl k1) i1) with (ct_tokenstate k1 i1).
  destruct (ct_tokenstate k1 i1) as [[| |a1]|m|]; cbn [bind]; try exact I; try (cbn [orel]; reflexivity).
  destruct (refresh_token a1) as [r|].
  - bindr sw_replace. intros [k2 i2] y ->. cbn [fst snd]. bindr sw_account. intros act ? ->.
    split; [cbn [orel]; reflexivity|]. split; [|cbn [orel]; reflexivity]. unfold sw_pc. cbn [swap_pc hide_pc]. rewrite swap_pairs_refresh. reflexivity.
  - bindr sw_replace. intros [k2 i2] y ->. same.
Qed.

Lemma sw_ref_perm lk i n : orel sw_cs (ref_perm lk i n) (ref_perm (swl lk) i n).
Proof.
  unfold ref_perm. change (is_act_id_valid (swl lk) i) with (is_act_id_valid lk i). destruct (is_act_id_valid lk i); [|same].
  bindr sw_replace. intros [k1 i1] y ->. cbn [fst snd]. bindr sw_account. intros act ? ->. same.
Qed.

Lemma sw_ref_got lk i n tok exs rt now : orel sw_cs (ref_got lk i n tok exs rt now) (ref_got (swl lk) i n tok exs rt now).
Proof.
  unfold ref_got. change (is_act_id_valid (swl lk) i) with (is_act_id_valid lk i). destruct (is_act_id_valid lk i); [|same].
  rewrite sw_expiry. destruct (expiry_instant lk i now exs); [| |exact I];
    (bindr sw_replace; intros [k1 i1] y ->; same).
Qed.

Lemma sw_ref_transient lk i n : orel sw_cs (ref_transient e1 lk i n) (ref_transient e2 (swl lk) i n).
Proof.
  unfold ref_transient. rewrite sw_now. change (is_act_id_valid (swl lk) i) with (is_act_id_valid lk i).
  change (ct_tokenstate (swl lk) i) with (ct_tokenstate lk i).
  destruct (is_act_id_valid lk i); [|same].
  destruct (ct_tokenstate lk i) as [[| |a]|m|]; cbn [bind]; try exact I; try (cbn [orel]; reflexivity). cbv zeta.
  bindr sw_replace. intros [k1 i1] y ->. cbn [fst snd].
  change (c_transient_error_if_cmd (lconfig (swl k1))) with (c_transient_error_if_cmd (lconfig k1)).
  destruct (_ =? 0)%N; [destruct (c_transient_error_if_cmd (lconfig k1)); [same|]|];
    (bindr sw_set_ongoing; intros [k2 i2] y ->; same).
Qed.

Lemma sw_ref_cmd_done lk i n ok : orel sw_cs (ref_cmd_done lk i n ok) (ref_cmd_done (swl lk) i n ok).
Proof.
  unfold ref_cmd_done. change (is_act_id_valid (swl lk) i) with (is_act_id_valid lk i).
  destruct ok; (destruct (is_act_id_valid lk i); [|same]).
  - bindr sw_set_ongoing. intros [k2 i2] y ->. same.
  - bindr sw_replace. intros [k2 i2] y ->. same.
Qed.

Lemma sw_http_body lk i b : orel sw_cs (http_body O e1 lk i b) (http_body O e2 (swl lk) i b).
Proof.
  unfold http_body. change (is_act_id_valid (swl lk) i) with (is_act_id_valid lk i).
  destruct (o_json O b) as [v|m]; [|same]. destruct (is_act_id_valid lk i); [|same].
  destruct (json_str $"error" v); [same|].
  destruct (json_str $"token_type" v) as [ty|]; [|same]. destruct (json_u64 $"expires_in" v) as [exs|]; [|same].
  destruct (json_str $"access_token" v) as [tok|]; [|same]. destruct (str_eqb ty $"Bearer"); [|same].
  cbv zeta. rewrite sw_now, sw_expiry. bindr @orel_eq. intros ex ? <-.
  bindr sw_account. intros act ? ->. bindr sw_replace. intros [k2 i2] y ->. same.
Qed.

Lemma sw_http_fail lk i m : orel sw_cs (http_fail lk i m) (http_fail (swl lk) i m).
Proof.
  unfold http_fail. change (is_act_id_valid (swl lk) i) with (is_act_id_valid lk i).
  change (ct_tokenstate (swl lk) i) with (ct_tokenstate lk i).
  destruct (is_act_id_valid lk i); [|same]. bindr @orel_eq. intros t ? <-. cbv zeta.
  bindr sw_replace. intros [k2 i2] y ->. cbn [fst snd]. bindr sw_account. intros act ? ->. same.
Qed.

Lemma sw_http_notify lk n m wa : orel sw_cs (http_notify lk n m wa) (http_notify (swl lk) n m wa).
Proof.
  unfold http_notify. change (c_error_notify_cmd (lconfig (swl lk))) with (c_error_notify_cmd (lconfig lk)).
  destruct (c_error_notify_cmd (lconfig lk)), wa; same.
Qed.

Lemma sw_request_token hp hsp lk i :
  orel swapped (request_token O e1 hp hsp lk i) (request_token O e2 hp hsp (swl lk) i).
Proof.
  unfold request_token. change (ct_tokenstate (swl lk) i) with (ct_tokenstate lk i).
  rewrite (oe_state _ _ _ _ A), (oe_verifier _ _ _ _ A). bindr @orel_eq. intros t ? <-.
  destruct t; try exact I;
    (bindr sw_account; intros act ? ->;
     change (account_redirect_uri O (swa act) hp hsp) with (account_redirect_uri O act hp hsp); cbv zeta;
     bindr @orel_eq; intros ru ? <-;
     bindr @orel_eq; intros base ? <-;
     bindr sw_replace; intros [k2 i2] y ->; reflexivity).
Qed.

Lemma sw_notify_scan now ids lk : orel swapped (notify_scan lk now ids) (notify_scan (swl lk) now ids).
Proof.
  revert lk. induction ids as [|i ids IH]; intros lk; cbn [notify_scan]; [cbn [orel]; reflexivity|].
  change (ct_tokenstate (swl lk) i) with (ct_tokenstate lk i). bindr @orel_eq. intros t ? <-.
  destruct t as [|c ln st u|a]; try apply IH.
  change (c_auth_notify_interval (lconfig (swl lk))) with (c_auth_notify_interval (lconfig lk)).
  match goal with |- context [if ?b then _ else _] => destruct b end; [apply IH|].
  bindr sw_account. intros act ? ->. bindr sw_replace. intros [k2 i2] y ->. cbn [fst snd].
  bindr IH. intros [k3 l] y ->. reflexivity.
Qed.

Lemma emit_cmds_same l : hide_pc (emit_cmds l PNtTop) = hide_pc (swap_pc s (emit_cmds l PNtTop)).
Proof. induction l as [|[[n c] u] l IH]; [cbn [orel]; reflexivity|]. cbn [emit_cmds swap_pc hide_pc swap_obs]. rewrite IH. reflexivity. Qed.

Lemma sw_nt_scan lk : orel sw_cs (nt_scan e1 lk) (nt_scan e2 (swl lk)).
Proof.
  unfold nt_scan. rewrite sw_now. change (act_ids (swl lk)) with (act_ids lk).
  bindr sw_notify_scan. intros [k l] y ->. split; [cbn [orel]; reflexivity|]. split; [apply emit_cmds_same|reflexivity].
Qed.

Lemma spawn_all_same l : hide_pc (spawn_all l PRfTop) = hide_pc (swap_pc s (spawn_all l PRfTop)).
Proof. induction l as [|i l IH]; [cbn [orel]; reflexivity|]. cbn [spawn_all swap_pc hide_pc]. rewrite IH. reflexivity. Qed.

Lemma sw_rf_scan lk : orel sw_cs (rf_scan e1 lk) (rf_scan e2 (swl lk)).
Proof.
  unfold rf_scan. rewrite (oe_clk _ _ _ _ A), (oe_idhash _ _ _ _ A), sw_due_ids. change (act_ids (swl lk)) with (act_ids lk).
  bindr @orel_eq. intros l ? <-. split; [cbn [orel]; reflexivity|]. split; [apply spawn_all_same|reflexivity].
Qed.

(** ** Requests *)

Section Requests.
Variables (w1 w2 : world).
Hypothesis W : other_clients s w1 w2.
Hypothesis CU : cipher_uniform O.

Let WL : w_lk w2 = swl (w_lk w1).
Proof. apply W. Qed.
Let WH : w_http w2 = w_http w1.
Proof. apply W. Qed.
Let WS : w_https w2 = w_https w1.
Proof. apply W. Qed.
Let WK : w_pubkey w2 = w_pubkey w1.
Proof. apply W. Qed.

Lemma sw_request_and_reply req wu n i :
  orel sw_cs (request_and_reply O e1 w1 req wu n i) (request_and_reply O e2 w2 req wu n i).
Proof.
  unfold request_and_reply. rewrite WL, WH, WS. bindr sw_request_token. intros [k u] y ->. same.
Qed.

Lemma sw_req_refresh req rest : orel sw_cs (req_refresh O e1 w1 req rest) (req_refresh O e2 w2 req rest).
Proof.
  unfold req_refresh. cbv zeta. bindr @orel_eq. intros r ? <-.
  destruct (split_first " "%char r) as [[wu n]|]; [|cbn [orel]; reflexivity]. rewrite WL.
  change (validate_act_name (swl (w_lk w1)) n) with (validate_act_name (w_lk w1) n).
  destruct (validate_act_name (w_lk w1) n) as [i|]; [|same].
  change (ct_tokenstate (swl (w_lk w1)) i) with (ct_tokenstate (w_lk w1) i).
  bindr @orel_eq. intros t ? <-. destruct t; try apply sw_request_and_reply. same.
Qed.

Lemma sw_req_showtoken req rest : orel sw_cs (req_showtoken O e1 w1 req rest) (req_showtoken O e2 w2 req rest).
Proof.
  unfold req_showtoken. cbv zeta. bindr @orel_eq. intros r ? <-.
  destruct (split_first " "%char r) as [[wu n]|]; [|cbn [orel]; reflexivity]. rewrite WL.
  change (validate_act_name (swl (w_lk w1)) n) with (validate_act_name (w_lk w1) n).
  destruct (validate_act_name (w_lk w1) n) as [i|]; [|same].
  change (ct_tokenstate (swl (w_lk w1)) i) with (ct_tokenstate (w_lk w1) i).
  bindr @orel_eq. intros t ? <-. destruct t; try apply sw_request_and_reply; [same|].
  rewrite sw_now. destruct (_ <? _)%Z; [same|]. destruct (ongoing _); same.
Qed.

Lemma sw_req_revoke req rest : orel sw_cs (req_revoke w1 req rest) (req_revoke w2 req rest).
Proof.
  unfold req_revoke. cbv zeta. bindr @orel_eq. intros r ? <-. rewrite WL.
  change (validate_act_name (swl (w_lk w1)) r) with (validate_act_name (w_lk w1) r).
  destruct (validate_act_name (w_lk w1) r) as [i|]; [|same]. bindr sw_replace. intros [k i2] y ->. same.
Qed.

Lemma sw_req_reload req : orel sw_cs (req_reload O e1 w1 req) (req_reload O e2 w2 req).
Proof.
  unfold req_reload. rewrite WL. pose proof (oe_file _ _ _ _ A) as F. unfold other_config in F.
  destruct (config_from_path O e1) as [c|m|]; rewrite F; [|same|exact I].
  bindr sw_update_conf. intros k ? ->. same.
Qed.

Lemma starts_app2 p t : starts_with p (p ++ t) = true.
Proof. induction p as [|c p IH]; [cbn [orel]; reflexivity|]. cbn [app starts_with]. rewrite Ascii.eqb_refl. exact IH. Qed.

Lemma hide_restore b : hide_req ($"restore:" ++ b) = $"restore:".
Proof. reflexivity. Qed.

Lemma sw_restore_reply b1 b2 t : hide_pc (reply ($"restore:" ++ b2) t) = hide_pc (swap_pc s (reply ($"restore:" ++ b1) t)).
Proof. reflexivity. Qed.

Lemma sw_req_restore b1 b2 : other_dump s O b1 b2 ->
  orel sw_cs (req_restore O e1 w1 ($"restore:" ++ b1) b1) (req_restore O e2 w2 ($"restore:" ++ b2) b2).
Proof.
  intros D. unfold req_restore. rewrite WL, (oe_clk _ _ _ _ A), (oe_hash _ _ _ _ A).
  pose proof (sw_auth_restore O (w_lk w1) b1 b2 (e_clk e2) (e_hash e2) D) as X.
  destruct (auth_restore O (w_lk w1) b1 _ _) as [k1|m1|], (auth_restore O (swl (w_lk w1)) b2 _ _) as [k2|m2|]; cbn in X;
    try contradiction.
  - rewrite X. same.
  - rewrite X. same.
  - exact I.
Qed.

Lemma sw_req_status req : orel sw_cs (req_status O e1 w1 req) (req_status O e2 w2 req).
Proof.
  unfold req_status. rewrite WL, (oe_clk _ _ _ _ A), sw_status_lines.
  change (act_ids (swl (w_lk w1))) with (act_ids (w_lk w1)). bindr @orel_eq. intros l ? <-. same.
Qed.

Lemma sw_dispatch cmd rest : str_eqb cmd $"restore" = false ->
  orel sw_cs (dispatch O e1 w1 (cmd ++ $":" ++ rest) cmd rest) (dispatch O e2 w2 (cmd ++ $":" ++ rest) cmd rest).
Proof.
  intros NR. unfold dispatch. cbv zeta.
  destruct (str_eqb cmd $"dump" && match rest with [] => true | _ => false end) eqn:C1.
  { apply andb_true_iff in C1 as [C1 C2]. apply str_eqb_eq in C1. subst cmd. destruct rest; [|discriminate].
    rewrite WL, (oe_clk _ _ _ _ A), (oe_hash _ _ _ _ A), (oe_nonce _ _ _ _ A).
    eapply orel_bind; [apply (sw_auth_dump O (w_lk w1) _ _ _ CU)|]. intros d1 d2 _. same. }
  rewrite NR.
  destruct (str_eqb cmd $"info" && _); [|destruct (str_eqb cmd $"reload" && _); [|destruct (str_eqb cmd $"refresh");
    [|destruct (str_eqb cmd $"revoke"); [|destruct (str_eqb cmd $"showtoken");
    [|destruct (str_eqb cmd $"shutdown" && _); [|destruct (str_eqb cmd $"status" && _)]]]]]].
  - assert (info_reply w2 = info_reply w1) as -> by (unfold info_reply; rewrite WH, WS, WK; reflexivity).
    rewrite WL. same.
  - apply sw_req_reload.
  - apply sw_req_refresh.
  - apply sw_req_revoke.
  - apply sw_req_showtoken.
  - rewrite WL. same.
  - apply sw_req_status.
  - rewrite WL. same.
Qed.

Lemma not_restore req cmd rest : starts_with $"restore:" req = false -> split_first ":"%char req = Some (cmd, rest) ->
  str_eqb cmd $"restore" = false.
Proof.
  intros NR SF. destruct (str_eqb cmd $"restore") eqn:E; [|cbn [orel]; reflexivity]. apply str_eqb_eq in E. subst cmd.
  apply split_first_app in SF. subst req. discriminate NR.
Qed.

Lemma sw_request r1 r2 req1 req2 :
  other_request s O r1 r2 -> r1 = Some req1 -> r2 = Some req2 ->
  hide_req req2 = hide_req req1 /\ orel sw_cs (request O e1 w1 req1) (request O e2 w2 req2).
Proof.
  intros [[E NR]|(b1 & b2 & E1 & E2 & D)] R1 R2.
  - assert (req2 = req1) as -> by congruence. split; [cbn [orel]; reflexivity|]. specialize (NR req1 R1).
    unfold request. destruct (split_first ":"%char req1) as [[cmd rest]|] eqn:SF; [|cbn [orel]; reflexivity].
    pose proof (not_restore _ _ _ NR SF) as NC. apply split_first_app in SF. subst req1.
    unfold from_utf8. destruct (utf8_valid cmd); cbn [bind]; [|cbn [orel]; reflexivity]. apply (sw_dispatch cmd rest NC).
  - assert (req1 = $"restore:" ++ b1) as -> by congruence. assert (req2 = $"restore:" ++ b2) as -> by congruence.
    split; [cbn [orel]; reflexivity|]. exact (sw_req_restore b1 b2 D).
Qed.

Lemma sw_http_start https bytes : orel sw_cs (http_start O w1 https bytes) (http_start O w2 https bytes).
Proof.
  unfold http_start. cbv zeta. rewrite WL, WH, WS. destruct (parse_get O https bytes) as [uri|]; [|same].
  destruct (find_pair $"state" (query_pairs uri)) as [st|]; [|same].
  change (act_id_matching_token_state (swl (w_lk w1)) st) with (act_id_matching_token_state (w_lk w1) st).
  destruct (act_id_matching_token_state (w_lk w1) st) as [i|]; [|same].
  bindr sw_account. intros act ? ->.
  change (account_redirect_uri O (swa act) (w_http w1) (w_https w1)) with (account_redirect_uri O act (w_http w1) (w_https w1)).
  bindr @orel_eq. intros ru ? <-. destruct (negb _); [same|].
  destruct (find_pair $"error" (query_pairs uri)) as [reason|].
  - bindr sw_replace. intros [k i2] y ->. cbn [fst snd]. bindr sw_account. intros act1 ? ->. same.
  - destruct (find_pair $"code" (query_pairs uri)) as [code|]; [|same].
    change (ct_tokenstate (swl (w_lk w1)) i) with (ct_tokenstate (w_lk w1) i). bindr @orel_eq. intros t ? <-.
    destruct t; try exact I. split; [cbn [orel]; reflexivity|]. split; [|cbn [orel]; reflexivity]. unfold sw_pc.
    cbn [respond swap_pc hide_pc swap_obs]. rewrite swap_pairs_code. reflexivity.
Qed.

End Requests.

End CS.

(** * Steps *)

Definition sw_res (x y : sres) : Prop :=
  match x, y with
  | SNext a, SNext b => other_clients s a b
  | SStuck, SStuck | SPanic, SPanic => True
  | _, _ => False
  end.

Ltac open W := destruct W as (WL & WH & WS & WK & WQ & WE & WN & WR & WT & WA & WO).
Ltac close := repeat split; cbn [set_thread set_lk emit add_thread set_evq set_ev set_nt set_rf halt w_lk w_http w_https
  w_pubkey w_evq w_ev w_nt w_rf w_threads w_alive w_trace]; try assumption; try reflexivity.

Lemma sw_set_thread x y tid p q : other_clients s x y -> sw_pc p q -> other_clients s (set_thread x tid p) (set_thread y tid q).
Proof. intros W P. open W. unfold sw_pc in P. close. rewrite !map_list_set, WT, P. reflexivity. Qed.

Lemma sw_emit x y o1 o2 : other_clients s x y -> sw_obs o1 o2 -> other_clients s (emit x o1) (emit y o2).
Proof. intros W P. open W. unfold sw_obs in P. close. rewrite !map_app, WO, P. reflexivity. Qed.

Lemma sw_set_lk x y k : other_clients s x y -> other_clients s (set_lk x k) (set_lk y (swl k)).
Proof. intros W. open W. close. Qed.
Lemma sw_set_ev x y c : other_clients s x y -> other_clients s (set_ev x c) (set_ev y c).
Proof. intros W. open W. close. Qed.
Lemma sw_set_nt x y c : other_clients s x y -> other_clients s (set_nt x c) (set_nt y c).
Proof. intros W. open W. close. Qed.
Lemma sw_set_rf x y c : other_clients s x y -> other_clients s (set_rf x c) (set_rf y c).
Proof. intros W. open W. close. Qed.
Lemma sw_set_evq x y c : other_clients s x y -> other_clients s (set_evq x c) (set_evq y c).
Proof. intros W. open W. close. Qed.
Lemma sw_add_thread x y p q : other_clients s x y -> sw_pc p q -> other_clients s (add_thread x p) (add_thread y q).
Proof. intros W P. open W. unfold sw_pc in P. close. rewrite !map_app, WT. cbn [map]. rewrite P. reflexivity. Qed.
Lemma sw_halt x y : other_clients s x y -> other_clients s (halt x) (halt y).
Proof. intros W. open W. close. rewrite !map_app, WO. reflexivity. Qed.

Lemma sw_run_cs x y tid f c1 c2 :
  other_clients s x y -> hide_pc f = hide_pc (swap_pc s f) -> orel sw_cs c1 c2 -> sw_res (run_cs x tid f c1) (run_cs y tid f c2).
Proof.
  intros W F C. destruct c1 as [[[k1 p1] o1]|m1|], c2 as [[[k2 p2] o2]|m2|]; cbn in C; try contradiction; cbn [run_cs sw_res].
  - destruct C as (-> & P & E). apply sw_emit; [|exact E]. apply sw_set_thread; [|exact P]. apply sw_set_lk. exact W.
  - apply sw_set_thread; [exact W|exact F].
  - exact I.
Qed.

(** A thread of the second server is where that of the first is. *)
Lemma sw_pc_inv p q : sw_pc p q ->
  match p with
  | PDo (AEmit o) k => exists o' k', q = PDo (AEmit o') k' /\ hide_obs o' = hide_obs (swap_obs s o) /\ sw_pc k k'
  | PDo a k => exists k', q = PDo a k' /\ sw_pc k k'
  | _ => q = swap_pc s p
  end.
Proof.
  unfold sw_pc. intros E. destruct p; try match goal with X : action |- _ => destruct X end;
    destruct q; try match goal with X : action |- _ => destruct X end;
    cbn [swap_pc hide_pc] in E; try discriminate E; try exact E;
    injection E; intros; subst; eauto.
Qed.

Lemma sw_step_thread O x y tid p q e1 e2 :
  cipher_uniform O -> other_env s O e1 e2 -> other_clients s x y -> sw_pc p q ->
  sw_res (step_thread O x tid p e1) (step_thread O y tid q e2).
Proof.
  intros CU A W P. pose proof W as W'. open W'. pose proof (sw_now O e1 e2 A) as NOW.
  assert (forall a, hide_pc a = hide_pc (swap_pc s a) -> other_clients s (set_thread x tid a) (set_thread y tid a)) as ST
    by (intros a E; apply sw_set_thread; assumption).
  apply sw_pc_inv in P.
  destruct p; try (rewrite P; cbn [swap_pc step_thread]).
  - exact I.
  - destruct a; (destruct P as (k' & -> & PK) || destruct P as (o' & k' & -> & PO & PK)); cbn [step_thread sw_res do_action].
    + apply sw_set_nt, sw_set_thread; assumption.
    + apply sw_set_rf, sw_set_thread; assumption.
    + apply sw_emit; [|reflexivity]. cbn [set_thread w_evq]. rewrite WQ. apply sw_set_evq, sw_set_thread; assumption.
    + apply sw_set_ev, sw_set_thread; assumption.
    + apply sw_add_thread; [|reflexivity]. apply sw_set_thread; assumption.
    + apply sw_emit; [apply sw_set_thread; assumption|]. unfold sw_obs. cbn [map]. rewrite PO. reflexivity.
    + apply sw_halt, sw_set_thread; assumption.
  - pose proof (oe_client _ _ _ _ A) as C.
    destruct (e_client e1) as [r1|] eqn:E1, (e_client e2) as [r2|] eqn:E2.
    + destruct (sw_request O e1 e2 A x y W CU _ _ r1 r2 C eq_refl eq_refl) as [HR RQ].
      apply sw_run_cs; [|reflexivity|exact RQ]. apply sw_emit; [exact W|]. unfold sw_obs. cbn [map hide_obs swap_obs].
      rewrite HR. reflexivity.
    + destruct C as [[C _]|(b1 & b2 & _ & C & _)]; discriminate C.
    + destruct C as [[C _]|(b1 & b2 & C & _ & _)]; discriminate C.
    + exact I.
  - rewrite WL. apply sw_run_cs; [exact W|reflexivity|]. apply (sw_ref_start O e1 e2 A).
  - rewrite (oe_post _ _ _ _ A). apply sw_emit; [|reflexivity]. apply ST. destruct (e_post e2); try reflexivity.
    cbn [ref_post_next]. destruct (is_transient k); reflexivity.
  - assert (ref_body_next O e2 i name rtok body = ref_body_next O e1 i name rtok body) as ->
      by (unfold ref_body_next; rewrite NOW; reflexivity).
    apply ST. unfold ref_body_next. destruct (o_json O body) as [v|m]; [|reflexivity].
    destruct (json_str $"error" v); [reflexivity|]. destruct (json_str $"access_token" v); [|reflexivity].
    destruct (json_u64 $"expires_in" v); [|reflexivity]. destruct (json_str $"token_type" v) as [ty|]; [|reflexivity].
    destruct (str_eqb ty $"Bearer"); reflexivity.
  - rewrite WL. apply sw_run_cs; [exact W|reflexivity|]. apply sw_ref_got.
  - rewrite WL. apply sw_run_cs; [exact W|reflexivity|]. apply sw_ref_perm.
  - rewrite WL. apply sw_run_cs; [exact W|reflexivity|]. apply (sw_ref_transient O e1 e2 A).
  - rewrite (oe_cmd _ _ _ _ A). apply sw_emit; [apply ST; reflexivity|reflexivity].
  - rewrite WL. apply sw_run_cs; [exact W|reflexivity|]. apply sw_ref_cmd_done.
  - apply sw_run_cs; [exact W|reflexivity|]. apply sw_http_start. exact W.
  - rewrite (oe_post _ _ _ _ A). apply sw_emit; [|reflexivity]. apply sw_set_thread; [exact W|]. unfold sw_pc.
    destruct (e_post e2); try reflexivity.
    cbn [http_post_next]. destruct tries as [|[|n]]; reflexivity.
  - rewrite WL. apply sw_run_cs; [exact W|reflexivity|]. apply (sw_http_body O e1 e2 A).
  - rewrite WL. apply sw_run_cs; [exact W|reflexivity|]. apply sw_http_fail.
  - rewrite WL. apply sw_run_cs; [exact W|reflexivity|]. apply sw_http_notify.
  - rewrite WE. destruct (cv_pred (w_ev x)); apply sw_set_ev, ST; reflexivity.
  - rewrite WE, (oe_wake _ _ _ _ A). destruct (negb _ || _); [apply sw_set_ev, ST; reflexivity|exact I].
  - rewrite WQ. destruct (w_evq x) as [|[n ev] qq]; [apply ST; reflexivity|apply sw_set_evq, ST; reflexivity].
  - rewrite WL. change (c_token_event_cmd (lconfig (swl (w_lk x)))) with (c_token_event_cmd (lconfig (w_lk x))).
    destruct (c_token_event_cmd (lconfig (w_lk x))); apply ST; reflexivity.
  - apply sw_emit; [apply ST; reflexivity|reflexivity].
  - apply sw_emit; [apply ST; reflexivity|reflexivity].
  - rewrite WL, (oe_clk _ _ _ _ A), (sw_next_wakeup notify_at) by reflexivity.
    destruct (next_wakeup notify_at (w_lk x) (e_clk e2)); [apply ST; reflexivity|exact I|exact I].
  - rewrite WN. unfold wait_or_go. rewrite NOW. destruct (cv_pred (w_nt x) || _); apply sw_set_nt, ST; reflexivity.
  - rewrite WN, (oe_wake _ _ _ _ A). destruct (negb _ || _); [apply sw_set_nt, ST; reflexivity|exact I].
  - rewrite WL. apply sw_run_cs; [exact W|reflexivity|]. apply (sw_nt_scan O e1 e2 A).
  - rewrite WL, (oe_clk _ _ _ _ A), (sw_next_wakeup refresh_at) by (intros; apply sw_refresh_at).
    destruct (next_wakeup refresh_at (w_lk x) (e_clk e2)); [apply ST; reflexivity|exact I|exact I].
  - rewrite WR. unfold wait_or_go. rewrite NOW. destruct (cv_pred (w_rf x) || _); apply sw_set_rf, ST; reflexivity.
  - rewrite WR, (oe_wake _ _ _ _ A). destruct (negb _ || _); [apply sw_set_rf, ST; reflexivity|exact I].
  - rewrite WL. apply sw_run_cs; [exact W|reflexivity|]. apply (sw_rf_scan O e1 e2 A).
Qed.

Lemma sw_step O x y l1 l2 :
  cipher_uniform O -> other_label s O l1 l2 -> other_clients s x y -> sw_res (step O x l1) (step O y l2).
Proof.
  intros CU A W. pose proof W as W'. open W'. unfold step. rewrite WA. destruct (negb (w_alive x)); [exact I|].
  destruct A as [tid e1 e2 A|https bytes].
  - assert (option_map hide_pc (nth_error (w_threads y) tid)
            = option_map (fun p => hide_pc (swap_pc s p)) (nth_error (w_threads x) tid)) as T
      by (rewrite <- !nth_error_map, WT, map_map; reflexivity).
    destruct (nth_error (w_threads x) tid) as [p|], (nth_error (w_threads y) tid) as [q|]; try discriminate T; [|exact I].
    injection T as T. apply sw_step_thread; assumption.
  - rewrite WH, WS. destruct (is_some _); [|exact I].
    apply sw_emit; [|reflexivity]. apply sw_add_thread; [exact W|reflexivity].
Qed.

Lemma sw_run O ls1 ls2 : cipher_uniform O -> Forall2 (other_label s O) ls1 ls2 -> forall x y,
  other_clients s x y ->
  match run O x ls1, run O y ls2 with
  | Some a, Some b => sw_res a b
  | None, None => True
  | _, _ => False
  end.
Proof.
  intros CU F. induction F as [|l1 l2 ls1 ls2 A F IH]; intros x y W; cbn [run]; [exact W|].
  pose proof (sw_step O x y l1 l2 CU A W) as SS.
  destruct (step O x l1) as [| |x'], (step O y l2) as [| |y']; cbn in SS; try contradiction; try exact I.
  exact (IH x' y' SS).
Qed.

Lemma sw_start c hp hsp pk : other_clients s (init_world c hp hsp pk) (init_world (swc c) hp hsp pk).
Proof.
  unfold init_world, locked_new. repeat split. cbn [w_lk]. unfold swap_locked.
  rewrite swap_keys. reflexivity.
Qed.

End Swap.
