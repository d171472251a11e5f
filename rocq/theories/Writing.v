(** Every writable configuration can be written down (C79). *)
From Verif Require Import Base BaseLemmas Time Utf8 Utf8Lemmas Url Oracles ConfigLex ConfigParse Config SpecConfig SpecGrammar SpecLex
  LexLemmas ConfigParseProofs ConfigLemmas Lexing SpecBlocks Blocks Tops Reads SpecLayout Layout Dump State Http Timers Server SpecServer SpecDump SpecText TextConfig Located Locate.
From Coq Require Import Permutation.
Local Open Scope list_scope.

(** * The tree of a configuration *)

Definition opt {V E} (K : V -> E) (o : option V) : list E := match o with Some v => [K v] | None => [] end.

Definition time_text (v : Z) : str := dec_of_N (Z.to_N (v / 10 ^ 9)) ++ $"s".

Definition block_of (act : account) : list field :=
  [FAuthUri (quote_string (a_auth_uri act)); FClientId (quote_string (a_client_id act)); FTokenUri (quote_string (a_token_uri act))]
  ++ opt (fun v => FClientSecret (quote_string v)) (a_client_secret act)
  ++ (if str_eqb (a_redirect_uri act) $"http://localhost/" then [] else [FRedirectUri (quote_string (a_redirect_uri act))])
  ++ opt (fun v => FRefreshAtLeast (time_text v)) (a_refresh_at_least act)
  ++ opt (fun v => FRefreshBeforeExpiry (time_text v)) (a_refresh_before_expiry act)
  ++ opt (fun v => FRefreshRetry (time_text v)) (a_refresh_retry act)
  ++ [FScopes (map quote_string (a_scopes act));
      FAuthUriFields (map (fun kv => (quote_string (fst kv), quote_string (snd kv))) (a_auth_uri_fields act))].

Definition listen_of (K : str -> toplevel) (none : toplevel) (o : option str) : toplevel :=
  match o with Some a => K (quote_string a) | None => none end.

Definition options_of (c : config) : list toplevel :=
  opt (fun v => TLAuthNotifyCmd (quote_string v)) (c_auth_notify_cmd c)
  ++ [TLAuthNotifyInterval (time_text (c_auth_notify_interval c))]
  ++ opt (fun v => TLErrorNotifyCmd (quote_string v)) (c_error_notify_cmd c)
  ++ [listen_of TLHttpListen TLHttpListenNone (c_http_listen c)]
  ++ [listen_of TLHttpsListen TLHttpsListenNone (c_https_listen c)]
  ++ opt (fun v => TLTransientErrorIfCmd (quote_string v)) (c_transient_error_if_cmd c)
  ++ opt (fun v => TLRefreshAtLeast (time_text v)) (c_refresh_at_least c)
  ++ opt (fun v => TLRefreshBeforeExpiry (time_text v)) (c_refresh_before_expiry c)
  ++ opt (fun v => TLRefreshRetry (time_text v)) (c_refresh_retry c)
  ++ opt (fun v => TLTokenEventCmd (quote_string v)) (c_token_event_cmd c).

Definition account_of (p : str * account) : toplevel := TLAccount (quote_string (fst p)) (block_of (snd p)).

Definition tree_of (c : config) : list toplevel := map account_of (c_accounts c) ++ options_of c.

(** * It means the configuration *)

Lemma in_opt {V E} (K : V -> E) o x : In x (opt K o) <-> exists v, o = Some v /\ x = K v.
Proof.
  destruct o as [v|]; cbn; split.
  - intros [<-|[]]. eauto.
  - intros (v' & [= <-] & ->). left. reflexivity.
  - intros [].
  - intros (v' & H & _). discriminate.
Qed.

Lemma time_text_value v : whole_time v -> time_value (time_text v) v.
Proof.
  intros (n & B & ->). unfold time_text, time_value. exists (dec_of_N (Z.to_N (n * 10 ^ 9 / 10 ^ 9))), n, "s"%char, 1%Z.
  split; [reflexivity|]. rewrite Z.div_mul by lia.
  split; [pose proof (dec_of_N_spec (Z.to_N n)) as D; rewrite Z2N.id in D by lia; exact D|]. split; [constructor|]. lia.
Qed.

Lemma nodup_chunks (cs : list (list str)) ns :
  Forall2 (fun c n => c = [n] \/ c = []) cs ns -> NoDup ns -> NoDup (List.concat cs).
Proof.
  intros F N. assert (forall x, In x (List.concat cs) -> In x ns) as SUB.
  { induction F as [|c n cs ns H F IH]; [intros x []|]. inversion N as [|? ? NI N']. subst. intros x I. cbn [List.concat] in I. apply in_app_iff in I as [I|I].
    - destruct H as [->| ->]; [destruct I as [<-|[]]; left; reflexivity|destruct I].
    - right. exact (IH N' x I). }
  revert SUB N. induction F as [|c n cs ns H F IH]; intros SUB N; [constructor|]. inversion N as [|? ? NI N']. subst.
  assert (forall x, In x (List.concat cs) -> In x ns) as SUB'.
  { clear - F. induction F as [|c n cs ns H F IH]; [intros x []|]. intros x I. cbn [List.concat] in I. apply in_app_iff in I as [I|I]; [|right; auto].
    destruct H as [->| ->]; [destruct I as [<-|[]]; left; reflexivity|destruct I]. }
  specialize (IH SUB' N'). cbn [List.concat]. destruct H as [->| ->]; [|exact IH]. constructor; [|exact IH]. intros I. apply NI, SUB', I.
Qed.

Lemma nodup_check (l : list str) : (fix go l := match l with [] => true | x :: l' => negb (existsb (str_eqb x) l') && go l' end) l = true -> NoDup l.
Proof.
  induction l as [|x l IH]; intros H; [constructor|]. apply andb_true_iff in H as [H1 H2]. constructor; [|exact (IH H2)].
  intros I. apply negb_true_iff in H1. assert (existsb (str_eqb x) l = true) as E; [|congruence].
  apply existsb_exists. exists x. split; [exact I|]. apply str_eqb_refl.
Qed.

Ltac in_block :=
  repeat match goal with
    | H : In _ (_ ++ _) |- _ => apply in_app_iff in H as [H|H]
    | H : In _ (opt _ _) |- _ => apply in_opt in H as (? & ? & H)
    | H : In _ (_ :: _) |- _ => destruct H as [H|H]
    | H : In _ [] |- _ => destruct H
    | H : In _ (if ?b then _ else _) |- _ => destruct b eqn:?
    end; try discriminate.

Lemma block_of_once act : NoDup (map field_name (block_of act)).
Proof.
  unfold block_of. rewrite !map_app.
  match goal with |- NoDup (?a ++ ?b ++ ?c ++ ?d ++ ?e ++ ?f ++ ?g) =>
    change a with ([$"auth_uri"] ++ [$"client_id"] ++ [$"token_uri"]);
    change g with ([$"scopes"] ++ [$"auth_uri_fields"]);
    set (x1 := b); set (x2 := c); set (x3 := d); set (x4 := e); set (x5 := f) end.
  rewrite <- !app_assoc. rewrite <- (app_nil_r [$"auth_uri_fields"]).
  apply (nodup_chunks [[$"auth_uri"]; [$"client_id"]; [$"token_uri"]; x1; x2; x3; x4; x5; [$"scopes"]; [$"auth_uri_fields"]]
    [$"auth_uri"; $"client_id"; $"token_uri"; $"client_secret"; $"redirect_uri"; $"refresh_at_least"; $"refresh_before_expiry"; $"refresh_retry"; $"scopes"; $"auth_uri_fields"]);
    [|apply nodup_check; reflexivity].
  unfold x1, x2, x3, x4, x5.
  apply Forall2_cons; [left; reflexivity|]. apply Forall2_cons; [left; reflexivity|]. apply Forall2_cons; [left; reflexivity|].
  apply Forall2_cons; [destruct (a_client_secret act); [left|right]; reflexivity|].
  apply Forall2_cons; [destruct (str_eqb _ _); [right|left]; reflexivity|].
  apply Forall2_cons; [destruct (a_refresh_at_least act); [left|right]; reflexivity|].
  apply Forall2_cons; [destruct (a_refresh_before_expiry act); [left|right]; reflexivity|].
  apply Forall2_cons; [destruct (a_refresh_retry act); [left|right]; reflexivity|].
  apply Forall2_cons; [left; reflexivity|]. apply Forall2_cons; [left; reflexivity|]. apply Forall2_nil.
Qed.

Lemma block_of_means O name act : writable_account O name act -> block_means O name (block_of act) act.
Proof.
  intros W. destruct W as [WN WA WT WR W1 W2 W3]. constructor.
  - apply block_of_once.
  - exact WN.
  - split; [left; reflexivity|exact WA].
  - right; left; reflexivity.
  - split; [right; right; left; reflexivity|exact WT].
  - unfold optional. destruct (a_client_secret act) as [v|] eqn:E.
    + exists (quote_string v). split; [|reflexivity]. unfold block_of. rewrite E, !in_app_iff, !in_opt. right. left. exists v. auto.
    + intros (t & I). unfold block_of in I. in_block. congruence.
  - unfold default. destruct (str_eqb (a_redirect_uri act) $"http://localhost/") eqn:E.
    + right. apply str_eqb_eq in E. split; [|exact E]. intros (t & I). unfold block_of in I. rewrite E, str_eqb_refl in I. in_block.
    + left. exists (quote_string (a_redirect_uri act)). split.
      * unfold block_of. rewrite E, !in_app_iff. right. right. left. left. reflexivity.
      * split; [reflexivity|]. destruct WR as [WR|WR]; [|exact WR]. rewrite WR in E. discriminate.
  - unfold optional. destruct (a_refresh_at_least act) as [v|] eqn:E.
    + exists (time_text v). split; [|apply time_text_value, W1; reflexivity]. unfold block_of. rewrite E, !in_app_iff, !in_opt. do 3 right. left. exists v. auto.
    + intros (t & I). unfold block_of in I. in_block. congruence.
  - unfold optional. destruct (a_refresh_before_expiry act) as [v|] eqn:E.
    + exists (time_text v). split; [|apply time_text_value, W2; reflexivity]. unfold block_of. rewrite E, !in_app_iff, !in_opt. do 4 right. left. exists v. auto.
    + intros (t & I). unfold block_of in I. in_block. congruence.
  - unfold optional. destruct (a_refresh_retry act) as [v|] eqn:E.
    + exists (time_text v). split; [|apply time_text_value, W3; reflexivity]. unfold block_of. rewrite E, !in_app_iff, !in_opt. do 5 right. left. exists v. auto.
    + intros (t & I). unfold block_of in I. in_block. congruence.
  - left. eexists. split; [|reflexivity]. unfold block_of. rewrite !in_app_iff. do 6 right. left. reflexivity.
  - left. eexists. split; [|reflexivity]. unfold block_of. rewrite !in_app_iff. do 6 right. right. left. reflexivity.
  - intros ((t & I) & _). unfold block_of in I. in_block.
Qed.

Lemma qs v : is_qstring (quote_string v).
Proof. exists v. reflexivity. Qed.

Lemma time_text_lexeme v : time_lexeme (time_text v).
Proof.
  unfold time_text, time_lexeme. eexists _, _, _, _. split; [reflexivity|]. split; [apply dec_of_N_spec|constructor].
Qed.

Lemma block_of_ok act : Forall field_ok (block_of act).
Proof.
  apply Forall_forall. intros f I. unfold block_of in I. in_block; subst f; cbn [field_ok]; try apply qs; try apply time_text_lexeme.
  - apply Forall_forall. intros t IT. apply in_map_iff in IT as (v & <- & _). apply qs.
  - apply Forall_forall. intros t IT. apply in_map_iff in IT as (v & <- & _). split; apply qs.
Qed.

Lemma block_of_unique O name act act' : block_means O name (block_of act) act' -> writable_account O name act -> act' = act.
Proof.
  intros M W. apply block_of_means in W. apply from_fields_iff in M; [|apply block_of_ok]. apply from_fields_iff in W; [|apply block_of_ok]. congruence.
Qed.

Lemma in_accounts c x : In x (map account_of (c_accounts c)) <-> exists name act, In (name, act) (c_accounts c) /\ x = TLAccount (quote_string name) (block_of act).
Proof.
  rewrite in_map_iff. split.
  - intros ((n, a) & <- & I). exists n, a. auto.
  - intros (n & a & I & ->). exists (n, a). auto.
Qed.

Lemma options_no_account c n fs : ~ In (TLAccount n fs) (options_of c).
Proof.
  intros I. unfold options_of in I. in_block; unfold listen_of in *.
  - destruct (c_http_listen c); discriminate.
  - destruct (c_https_listen c); discriminate.
Qed.

Lemma block_in_tree c n fs : In (TLAccount n fs) (tree_of c) <->
  exists name act, In (name, act) (c_accounts c) /\ n = quote_string name /\ fs = block_of act.
Proof.
  unfold tree_of. rewrite in_app_iff, in_accounts. split.
  - intros [(name & act & I & E)|I]; [injection E as -> ->; eauto|destruct (options_no_account c n fs I)].
  - intros (name & act & I & -> & ->). left. eauto.
Qed.

Lemma last_in c name fs : last_block name (tree_of c) fs -> exists act, In (name, act) (c_accounts c) /\ fs = block_of act.
Proof.
  intros (before & after & E & _). assert (In (TLAccount (quote_string name) fs) (tree_of c)) as I by (rewrite E; apply in_or_app; right; left; reflexivity).
  apply block_in_tree in I as (name' & act & I & EN & ->). apply quote_inj in EN. subst. eauto.
Qed.

Lemma in_last c name act : NoDup (map fst (c_accounts c)) -> In (name, act) (c_accounts c) -> last_block name (tree_of c) (block_of act).
Proof.
  intros N I. apply in_split in I as (l1 & l2 & E). exists (map account_of l1), (map account_of l2 ++ options_of c).
  unfold tree_of. rewrite E, map_app, <- app_assoc. split; [reflexivity|]. intros (fs' & I). apply in_app_iff in I as [I|I]; [|exact (options_no_account c _ _ I)].
  apply in_map_iff in I as ((n, a) & EA & I). assert (quote_string n = quote_string name) as EN by (unfold account_of in EA; cbn [fst snd] in EA; congruence).
  apply quote_inj in EN. subst n.
  rewrite E, map_app in N. cbn [map fst] in N. apply NoDup_remove_2 in N. apply N. apply in_or_app. right. apply in_map_iff. exists (name, a). auto.
Qed.

Lemma accounts_no_option c : flat_map option_names (map account_of (c_accounts c)) = [].
Proof. induction (c_accounts c) as [|p l IH]; [reflexivity|exact IH]. Qed.

Lemma options_once c : NoDup (flat_map option_names (tree_of c)).
Proof.
  unfold tree_of. rewrite flat_map_app, accounts_no_option. cbn [app]. unfold options_of. rewrite !flat_map_app.
  match goal with |- NoDup (?x1 ++ ?x2 ++ ?x3 ++ ?x4 ++ ?x5 ++ ?x6 ++ ?x7 ++ ?x8 ++ ?x9 ++ ?xa) =>
    rewrite <- (app_nil_r xa);
    apply (nodup_chunks [x1; x2; x3; x4; x5; x6; x7; x8; x9; xa]
    [$"auth_notify_cmd"; $"auth_notify_interval"; $"error_notify_cmd"; $"http_listen"; $"https_listen"; $"transient_error_if_cmd";
     $"refresh_at_least"; $"refresh_before_expiry"; $"refresh_retry"; $"token_event_cmd"]) end; [|apply nodup_check; reflexivity].
  apply Forall2_cons; [destruct (c_auth_notify_cmd c); [left|right]; reflexivity|].
  apply Forall2_cons; [left; reflexivity|].
  apply Forall2_cons; [destruct (c_error_notify_cmd c); [left|right]; reflexivity|].
  apply Forall2_cons; [destruct (c_http_listen c); left; reflexivity|].
  apply Forall2_cons; [destruct (c_https_listen c); left; reflexivity|].
  apply Forall2_cons; [destruct (c_transient_error_if_cmd c); [left|right]; reflexivity|].
  apply Forall2_cons; [destruct (c_refresh_at_least c); [left|right]; reflexivity|].
  apply Forall2_cons; [destruct (c_refresh_before_expiry c); [left|right]; reflexivity|].
  apply Forall2_cons; [destruct (c_refresh_retry c); [left|right]; reflexivity|].
  apply Forall2_cons; [destruct (c_token_event_cmd c); [left|right]; reflexivity|]. apply Forall2_nil.
Qed.

Ltac in_tree :=
  match goal with
  | I : In _ (tree_of _) |- _ =>
      unfold tree_of in I; apply in_app_iff in I as [I|I];
      [apply in_accounts in I as (? & ? & ? & I); try discriminate
      |unfold options_of in I; in_block; unfold listen_of in *;
       try (match goal with H : match ?o with Some _ => _ | None => _ end = _ |- _ => destruct o eqn:?; try discriminate end)]
  end.

Lemma in_options c x : In x (options_of c) -> In x (tree_of c).
Proof. intros I. apply in_or_app. right. exact I. Qed.

Lemma tree_means O c : writable_config O c -> config_means O (tree_of c) c.
Proof.
  intros W. destruct W as [WU WS WA WI W1 W2 W3 WL WR]. constructor.
  - intros I. in_tree.
  - apply options_once.
  - intros n fs I. apply block_in_tree in I as (name & act & I & -> & ->). exists name, act. split; [reflexivity|]. apply block_of_means, WA, I.
  - exact WU.
  - intros name act. split.
    + intros I. exists (block_of act). split; [apply in_last; assumption|apply block_of_means, WA, I].
    + intros (fs & L & M). apply last_in in L as (act' & I & ->). rewrite (block_of_unique O name act' act M (WA _ _ I)). exact I.
  - destruct (c_accounts c) as [|(n, a) l] eqn:E; [congruence|]. exists (quote_string n), (block_of a). apply block_in_tree.
    exists n, a. rewrite E. split; [left; reflexivity|auto].
  - unfold optional. destruct (c_auth_notify_cmd c) as [v|] eqn:E.
    + exists (quote_string v). split; [|reflexivity]. apply in_options. unfold options_of. rewrite E, !in_app_iff, !in_opt. left. eauto.
    + intros (t & I). in_tree. congruence.
  - left. exists (time_text (c_auth_notify_interval c)). split; [|apply time_text_value, WI].
    apply in_options. unfold options_of. rewrite !in_app_iff. right. left. left. reflexivity.
  - unfold optional. destruct (c_error_notify_cmd c) as [v|] eqn:E.
    + exists (quote_string v). split; [|reflexivity]. apply in_options. unfold options_of. rewrite E, !in_app_iff, !in_opt. do 2 right. left. eauto.
    + intros (t & I). in_tree. congruence.
  - assert (In (listen_of TLHttpListen TLHttpListenNone (c_http_listen c)) (tree_of c)) as I.
    { apply in_options. unfold options_of. rewrite !in_app_iff. do 3 right. left. left. reflexivity. }
    unfold listen_means. destruct (c_http_listen c); [left|]; exact I.
  - assert (In (listen_of TLHttpsListen TLHttpsListenNone (c_https_listen c)) (tree_of c)) as I.
    { apply in_options. unfold options_of. rewrite !in_app_iff. do 4 right. left. left. reflexivity. }
    unfold listen_means. destruct (c_https_listen c); [left|]; exact I.
  - exact WL.
  - unfold optional. destruct (c_transient_error_if_cmd c) as [v|] eqn:E.
    + exists (quote_string v). split; [|reflexivity]. apply in_options. unfold options_of. rewrite E, !in_app_iff, !in_opt. do 5 right. left. eauto.
    + intros (t & I). in_tree. congruence.
  - unfold optional. destruct (c_refresh_at_least c) as [v|] eqn:E.
    + exists (time_text v). split; [|apply time_text_value, W1; reflexivity]. apply in_options. unfold options_of. rewrite E, !in_app_iff, !in_opt. do 6 right. left. eauto.
    + intros (t & I). in_tree. congruence.
  - unfold optional. destruct (c_refresh_before_expiry c) as [v|] eqn:E.
    + exists (time_text v). split; [|apply time_text_value, W2; reflexivity]. apply in_options. unfold options_of. rewrite E, !in_app_iff, !in_opt. do 7 right. left. eauto.
    + intros (t & I). in_tree. congruence.
  - unfold optional. destruct (c_refresh_retry c) as [v|] eqn:E.
    + exists (time_text v). split; [|apply time_text_value, W3; reflexivity]. apply in_options. unfold options_of. rewrite E, !in_app_iff, !in_opt. do 8 right. left. eauto.
    + intros (t & I). in_tree. congruence.
  - unfold optional. destruct (c_token_event_cmd c) as [v|] eqn:E.
    + exists (quote_string v). split; [|reflexivity]. apply in_options. unfold options_of. rewrite E, !in_app_iff, !in_opt. do 9 right. eauto.
    + intros (t & I). in_tree. congruence.
  - exact WR.
Qed.

(** * Its tokens and its text *)

Definition tokens_of_field (f : field) : list token :=
  let str k s := [TkKw k; TkEq; TkString s; TkSemi] in
  let time k t := [TkKw k; TkEq; TkTime t; TkSemi] in
  match f with
  | FAuthUri s => str KwAuthUri s
  | FAuthUriFields l => [TkKw KwAuthUriFields; TkEq; TkLBrace] ++ comma_pairs l ++ [TkRBrace; TkSemi]
  | FClientId s => str KwClientId s
  | FClientSecret s => str KwClientSecret s
  | FLoginHint s => str KwLoginHint s
  | FRedirectUri s => str KwRedirectUri s
  | FRefreshAtLeast t => time KwRefreshAtLeast t
  | FRefreshBeforeExpiry t => time KwRefreshBeforeExpiry t
  | FRefreshRetry t => time KwRefreshRetry t
  | FScopes l => [TkKw KwScopes; TkEq; TkLBrack] ++ commas l ++ [TkRBrack; TkSemi]
  | FTokenUri s => str KwTokenUri s
  end.

Definition tokens_of_top (x : toplevel) : list token :=
  let str k s := [TkKw k; TkEq; TkString s; TkSemi] in
  let time k t := [TkKw k; TkEq; TkTime t; TkSemi] in
  match x with
  | TLAccount n fs => [TkKw KwAccount; TkString n; TkLBrace] ++ flat_map tokens_of_field fs ++ [TkRBrace]
  | TLAuthErrorCmd => str KwAuthErrorCmd (quote_string [])
  | TLAuthNotifyCmd s => str KwAuthNotifyCmd s
  | TLAuthNotifyInterval t => time KwAuthNotifyInterval t
  | TLErrorNotifyCmd s => str KwErrorNotifyCmd s
  | TLHttpListen s => str KwHttpListen s
  | TLHttpListenNone => [TkKw KwHttpListen; TkEq; TkKw KwNone; TkSemi]
  | TLHttpsListen s => str KwHttpsListen s
  | TLHttpsListenNone => [TkKw KwHttpsListen; TkEq; TkKw KwNone; TkSemi]
  | TLTransientErrorIfCmd s => str KwTransientErrorIfCmd s
  | TLRefreshAtLeast t => time KwRefreshAtLeast t
  | TLRefreshBeforeExpiry t => time KwRefreshBeforeExpiry t
  | TLRefreshRetry t => time KwRefreshRetry t
  | TLTokenEventCmd s => str KwTokenEventCmd s
  end.

Lemma field_grammar f : g_field (tokens_of_field f) f.
Proof.
  destruct f; cbn [tokens_of_field]; try constructor.
  - apply g_uri_fields_iff. left. reflexivity.
  - apply g_scopes_iff. left. reflexivity.
Qed.

Lemma fields_grammar fs : g_fields (flat_map tokens_of_field fs) fs.
Proof. induction fs as [|f fs IH]; [constructor|]. cbn [flat_map]. apply g_fields_cons; [apply field_grammar|exact IH]. Qed.

Lemma top_grammar x : g_toplevel (tokens_of_top x) x.
Proof. destruct x; cbn [tokens_of_top]; constructor. apply fields_grammar. Qed.

Lemma tops_grammar l : g_toplevels (flat_map tokens_of_top l) l.
Proof. induction l as [|x l IH]; [constructor|]. cbn [flat_map]. apply g_toplevels_cons; [apply top_grammar|exact IH]. Qed.

Definition token_text (t : token) : str :=
  match t with
  | TkTime s | TkInt s | TkString s => s
  | TkEq => $"=" | TkComma => $"," | TkLBrace => $"{" | TkRBrace => $"}" | TkLBrack => $"[" | TkRBrack => $"]"
  | TkSemi => $";" | TkColon => $":"
  | TkKw k => kw_text k
  | TkUnmatched => $"?"
  end.

Definition text_of (ts : list token) : str := List.concat (map (fun t => token_text t ++ $" ") ts).

Definition spellable (t : token) : Prop := spelled t (token_text t).

Lemma kw_spelled k : spelled (TkKw k) (kw_text k).
Proof. constructor. destruct k; cbn [In kw_text]; auto 25. Qed.

Lemma text_layout ts : Forall spellable ts -> laid_out ts (text_of ts).
Proof.
  induction 1 as [|t ts S _ IH]; [apply lo_end; left; constructor|].
  unfold text_of. cbn [map List.concat]. rewrite <- app_assoc. apply (lo_token [] t (token_text t) _ ts fl_none S).
  - intros _ r E. discriminate E.
  - apply (layout_front $" "); [|exact IH]. constructor; [left; reflexivity|constructor].
Qed.

Lemma escape_text v : utf8 v -> utf8 (escape v).
Proof.
  intros U. apply utf8_valid_iff in U. unfold utf8. induction U as [|p s C U IH]; [reflexivity|].
  unfold escape. rewrite flat_map_app. apply utf8_app; [|exact IH].
  destruct C as (NE & L & [(c & -> & A)|N]).
  - cbn [flat_map]. rewrite app_nil_r. unfold escape_char. destruct (Ascii.eqb c dquote || Ascii.eqb c bslash).
    + apply utf8_cons; [reflexivity|]. apply utf8_cons; [exact A|reflexivity].
    + apply utf8_cons; [exact A|reflexivity].
  - assert (flat_map escape_char p = p) as ->.
    { clear NE L. induction N as [|c p NC _ IHN]; [reflexivity|]. cbn [flat_map]. rewrite IHN. unfold escape_char.
      destruct (Ascii.eqb_spec c dquote) as [->|_]; [destruct NC; reflexivity|].
      destruct (Ascii.eqb_spec c bslash) as [->|_]; [destruct NC; reflexivity|]. reflexivity. }
    apply utf8_valid_iff. rewrite <- (app_nil_r p). constructor; [split; [exact NE|split; [exact L|right; exact N]]|constructor].
Qed.

Lemma quote_text v : utf8 v -> utf8 (quote_string v).
Proof.
  intros U. unfold quote_string. apply utf8_cons; [reflexivity|]. apply utf8_app; [apply escape_text, U|reflexivity].
Qed.

Definition good (t : token) : Prop := spellable t /\ utf8 (token_text t).

Lemma good_kw k : good (TkKw k).
Proof. split; [apply kw_spelled|]. destruct k; reflexivity. Qed.

Lemma good_string v : utf8 v -> good (TkString (quote_string v)).
Proof. intros U. split; [constructor|apply quote_text, U]. Qed.

Lemma good_time v : good (TkTime (time_text v)).
Proof.
  split; [constructor; apply time_text_lexeme|]. unfold time_text. cbn [token_text]. apply utf8_app; [|reflexivity].
  eapply decimal_utf8, dec_of_N_spec.
Qed.

Ltac good := repeat (apply Forall_cons; [first [apply good_kw|apply good_string; assumption|apply good_time|split; [constructor|reflexivity]]|]); try apply Forall_nil.

Lemma opt_utf8 (o : option str) v : opt_all utf8 o -> o = Some v -> utf8 v.
Proof. intros H E. exact (H v E). Qed.

Lemma good_block act : utf8_account act -> Forall good (flat_map tokens_of_field (block_of act)).
Proof.
  intros U. destruct U as [U1 U2 U3 U4 U5 U6 U7 U8]. apply Forall_flat_map, Forall_forall. intros f I. unfold block_of in I.
  in_block; subst f; cbn [tokens_of_field]; good.
  - assert (utf8 x) by (eapply opt_utf8; eassumption). good.
  - apply Forall_app. split; [|good]. unfold commas. apply Forall_flat_map, Forall_forall.
    intros s IS. apply in_map_iff in IS as (v & <- & IV). rewrite Forall_forall in U7. assert (utf8 v) by (apply U7, IV). good.
  - apply Forall_app. split; [|good]. unfold comma_pairs. apply Forall_flat_map, Forall_forall.
    intros s IS. apply in_map_iff in IS as ((k, v) & <- & IV). unfold utf8_pairs in U3. rewrite Forall_forall in U3.
    destruct (U3 _ IV). cbn [fst snd] in *. good.
Qed.

Lemma good_tree c : utf8_config c -> Forall good (flat_map tokens_of_top (tree_of c)).
Proof.
  intros U. destruct U as [U1 U2 U3 U4 U5 U6 U7]. unfold tree_of. rewrite flat_map_app. apply Forall_app. split.
  - apply Forall_flat_map, Forall_forall. intros x I. apply in_accounts in I as (name & act & I & ->).
    rewrite Forall_forall in U1. destruct (U1 _ I) as [UN UA]. cbn [fst snd] in *. cbn [tokens_of_top].
    apply Forall_app. split; [good|]. apply Forall_app. split; [apply good_block, UA|good].
  - apply Forall_flat_map, Forall_forall. intros x I. unfold options_of in I.
    in_block; subst x; try (match goal with H : ?o = Some ?v, U : opt_all utf8 ?o |- _ => pose proof (U v H) end); cbn [tokens_of_top]; good.
    + unfold listen_of. destruct (c_http_listen c) as [v|]; cbn [tokens_of_top]; [assert (utf8 v) by (apply U4; reflexivity)|]; good.
    + unfold listen_of. destruct (c_https_listen c) as [v|]; cbn [tokens_of_top]; [assert (utf8 v) by (apply U5; reflexivity)|]; good.
Qed.

Lemma text_of_utf8 ts : Forall good ts -> utf8 (text_of ts).
Proof.
  unfold utf8, text_of. induction 1 as [|t ts (_ & U) _ IH]; [reflexivity|]. cbn [map List.concat].
  apply utf8_app; [|exact IH]. apply utf8_app; [exact U|reflexivity].
Qed.

Lemma written O c : writable_config O c -> utf8_config c -> exists s, utf8 s /\ reads_as O s c.
Proof.
  intros W U. pose proof (good_tree c U) as G. exists (text_of (flat_map tokens_of_top (tree_of c))).
  split; [apply text_of_utf8, G|]. exists (flat_map tokens_of_top (tree_of c)), (tree_of c).
  split; [|split; [apply tops_grammar|apply tree_means, W]].
  apply lex_iff, layout_lex, text_layout. eapply Forall_impl; [|exact G]. intros t (S & _). exact S.
Qed.

(** * Only writable configurations are read *)

Lemma time_value_whole t v : time_value t v -> whole_time v.
Proof.
  intros (s & n & c & u & -> & D & U & L & ->). exists (n * u)%Z. split; [|reflexivity].
  assert (0 <= n)%Z by (clear - D; induction D as [c v (B & _)|s n c v D IH (B & _)]; lia). destruct U; lia.
Qed.

Lemma optional_whole {E} (K : str -> E) l o : optional K time_value l o -> opt_whole o.
Proof. intros H v ->. destruct H as (t & _ & T). eapply time_value_whole, T. Qed.

Lemma means_writable_account O name fs act : block_means O name fs act -> writable_account O name act.
Proof.
  intros M. constructor.
  - exact (bm_name _ _ _ _ M).
  - exact (proj2 (bm_auth_uri _ _ _ _ M)).
  - exact (proj2 (bm_token_uri _ _ _ _ M)).
  - destruct (bm_redirect _ _ _ _ M) as [(t & _ & (_ & H))|(_ & H)]; [right; exact H|left; exact H].
  - exact (optional_whole _ _ _ (bm_at_least _ _ _ _ M)).
  - exact (optional_whole _ _ _ (bm_before _ _ _ _ M)).
  - exact (optional_whole _ _ _ (bm_retry _ _ _ _ M)).
Qed.

Lemma last_block_exists name ts :
  (exists fs, last_block name ts fs) \/ forall fs, ~ In (TLAccount (quote_string name) fs) ts.
Proof.
  induction ts as [|x ts [(fs & before & after & E & N)|NI]]; [right; intros fs []| |].
  - left. exists fs, (x :: before), after. rewrite E. auto.
  - destruct x as [n l| | | | | | | | | | | | |]; try (right; intros fs [E|I]; [discriminate|exact (NI fs I)]).
    destruct (str_eqb n (quote_string name)) eqn:Q.
    + apply str_eqb_eq in Q. subst n. left. exists l, [], ts. split; [reflexivity|]. intros (fs' & I). exact (NI fs' I).
    + right. intros fs [E|I]; [|exact (NI fs I)]. assert (n = quote_string name) by congruence. subst n. rewrite str_eqb_refl in Q. discriminate.
Qed.

Lemma means_writable O ts c : config_means O ts c -> writable_config O c.
Proof.
  intros M. constructor.
  - exact (cm_unique _ _ _ M).
  - intros E. destruct (cm_some_account _ _ _ M) as (n & fs & I).
    destruct (cm_blocks _ _ _ M n fs I) as (name & act & -> & BM).
    destruct (last_block_exists name ts) as [(fs' & LB)|NI]; [|exact (NI fs I)].
    assert (In (TLAccount (quote_string name) fs') ts) as I' by (destruct LB as (b & a & -> & _); apply in_or_app; right; left; reflexivity).
    destruct (cm_blocks _ _ _ M _ _ I') as (name' & act' & EN & BM'). apply quote_inj in EN. subst name'.
    assert (In (name, act') (c_accounts c)) as IA by (apply (cm_accounts _ _ _ M); eauto). rewrite E in IA. destruct IA.
  - intros name act I. apply (cm_accounts _ _ _ M) in I as (fs & _ & BM). exact (means_writable_account _ _ _ _ BM).
  - destruct (cm_auth_notify_interval _ _ _ M) as [(t & _ & T)|(_ & ->)]; [exact (time_value_whole _ _ T)|].
    exists (15 * 60)%Z. split; [lia|reflexivity].
  - exact (optional_whole _ _ _ (cm_at_least _ _ _ M)).
  - exact (optional_whole _ _ _ (cm_before _ _ _ M)).
  - exact (optional_whole _ _ _ (cm_retry _ _ _ M)).
  - exact (cm_some_listen _ _ _ M).
  - exact (cm_redirects _ _ _ M).
Qed.

Lemma read_writable O e c : config_from_path O e = Val c -> writable_config O c /\ utf8_config c.
Proof.
  intros E. pose proof (config_path_text O e) as U. rewrite E in U. split; [|exact U].
  unfold config_from_path in E. destruct (e_file e) as [s|]; [|discriminate]. destruct (utf8_valid s); [|discriminate].
  apply from_str_val in E. apply reads_sound in E as (toks & tree & _ & _ & M). exact (means_writable _ _ _ M).
Qed.

Lemma written_read O c : writable_config O c -> utf8_config c ->
  exists s, forall e, e_file e = Some s ->
    exists l, Permutation (c_accounts c) l /\ config_from_path O e = Val (with_accounts c l).
Proof.
  intros W U. destruct (written O c W U) as (s & US & R). exists s. intros e E.
  unfold config_from_path. rewrite E. unfold utf8 in US. rewrite US.
  destruct (reads_complete O (e_hash e) s c R) as (l & P & C). exists l. split; [exact P|]. apply from_str_val, C.
Qed.

(** * Layout does not matter *)

Lemma grammar_proper ts l : g_toplevels ts l -> Forall proper ts.
Proof.
  assert (forall ts l, g_scopes ts l -> Forall proper ts) as SC.
  { induction 1 as [ts' l' s G IH|s|]; repeat constructor. apply Forall_app. split; [exact IH|repeat constructor]. }
  assert (forall ts l, g_uri_fields ts l -> Forall proper ts) as UF.
  { induction 1 as [ts' l' k v G IH|k v|]; repeat constructor. apply Forall_app. split; [exact IH|repeat constructor]. }
  assert (forall ts f, g_field ts f -> Forall proper ts) as GF.
  { intros ts' f G. destruct G; try (repeat constructor); apply Forall_app; (split; [eauto|repeat constructor]). }
  assert (forall ts fs, g_fields ts fs -> Forall proper ts) as GFS.
  { induction 1 as [ts' fs ts2 f G IH G2|]; [|constructor]. apply Forall_app. split; [exact IH|eapply GF, G2]. }
  induction 1 as [ts' l' ts2 t G IH G2|]; [|constructor]. apply Forall_app. split; [exact IH|].
  destruct G2; try (repeat constructor). apply Forall_app. split; [eauto|repeat constructor].
Qed.

Lemma reads_layout O s c :
  reads_as O s c <-> exists toks tree, laid_out toks s /\ g_toplevels toks tree /\ config_means O tree c.
Proof.
  split; intros (toks & tree & L & G & M); exists toks, tree; (split; [|split; assumption]);
    apply (layout_iff s toks (grammar_proper _ _ G)); exact L.
Qed.

Lemma layout_irrelevant O h toks s s' :
  laid_out toks s -> laid_out toks s' -> config_from_str O h s = config_from_str O h s'.
Proof. intros L L'. unfold config_from_str. rewrite (layout_lex _ _ L), (layout_lex _ _ L'). reflexivity. Qed.

Lemma layout_irrelevant_val O e e' toks s s' c :
  e_file e = Some s -> e_file e' = Some s' -> e_hash e = e_hash e' -> utf8 s' ->
  laid_out toks s -> laid_out toks s' -> config_from_path O e = Val c -> config_from_path O e' = Val c.
Proof.
  intros E E' H U L L'. unfold config_from_path. rewrite E, E'. rewrite U. destruct (utf8_valid s); [|discriminate].
  rewrite !from_str_val, H. rewrite (layout_irrelevant O (e_hash e') toks s s' L L'). auto.
Qed.
