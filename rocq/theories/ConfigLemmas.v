(** Facts about configuration files: accepted configurations are well formed,
    and no input makes the parser panic. *)
From Verif Require Import Base BaseLemmas Time Url Oracles ConfigLex ConfigParse Config State
  SpecConfig SpecGrammar LexLemmas ConfigParseProofs StateLemmas.

(** * Time literals *)

Lemma digits_val_app a : forall acc b,
  digits_val acc (a ++ b) = match digits_val acc a with Some n => digits_val n b | None => None end.
Proof.
  induction a as [|c a IH]; intros acc b; [reflexivity|]. simpl.
  destruct (is_digit c); [apply IH|reflexivity].
Qed.

Lemma decimal_val s n : decimal s n -> digits_val 0 s = Some n.
Proof.
  intros D. induction D as [c v H|s n c v D IH H].
  - apply digit_of_is_digit in H as [Hd Hv]. cbn [digits_val]. rewrite Hd, Hv. f_equal; lia.
  - apply digit_of_is_digit in H as [Hd Hv]. rewrite digits_val_app, IH. cbn [digits_val]. rewrite Hd, Hv. f_equal; lia.
Qed.

Lemma decimal_nonneg s n : decimal s n -> (0 <= n)%Z.
Proof. intros D. induction D as [c v [H _]|s n c v D IH [H _]]; lia. Qed.

Lemma filter_all {A} (f : A -> bool) l : Forall (fun x => f x = true) l -> filter f l = l.
Proof. intros F. induction F as [|x l H F IH]; simpl; [reflexivity|]. rewrite H, IH. reflexivity. Qed.

Lemma time_str_value s n c u :
  decimal s n -> time_unit c u ->
  time_str_to_duration (s ++ [c])
  = (if (n * u <? two64)%Z then Val (from_secs (n * u))
     else if (n <? two64)%Z then Err $"Invalid time: Number too big"
     else Err $"Invalid time: number too large to fit in target type").
Proof.
  intros D U. pose proof (decimal_nonneg _ _ D) as NN. pose proof (decimal_val _ _ D) as DV.
  pose proof (decimal_digits _ _ D) as [NE F].
  unfold time_str_to_duration, time_inner. rewrite filter_app, (filter_all _ _ F). simpl filter.
  rewrite (unit_not_digit _ _ U), app_nil_r, (firstn_exact s [c] _ eq_refl).
  unfold parse_u64. destruct s as [|c0 s]; [congruence|]. rewrite DV.
  rewrite rev_app_distr. cbn [rev app].
  assert (1 <= u)%Z as U1 by (destruct U; lia).
  destruct (Z.ltb_spec n two64) as [L|L].
  - cbn [bind]. unfold checked_mul.
    destruct U; cbn -[Z.mul Z.ltb two64 from_secs].
    + rewrite Z.mul_1_r. apply Z.ltb_lt in L. rewrite L. reflexivity.
    + destruct (n * 60 <? two64)%Z; reflexivity.
    + change (60 * 60)%Z with 3600%Z. destruct (n * 3600 <? two64)%Z; reflexivity.
    + change (24 * (60 * 60))%Z with 86400%Z. destruct (n * 86400 <? two64)%Z; reflexivity.
  - cbn [bind]. destruct (Z.ltb_spec (n * u) two64); [nia|reflexivity].
Qed.

Lemma time_lexeme_no_panic t : time_lexeme t -> time_str_to_duration t <> Panic.
Proof.
  intros (s & n & c & u & -> & D & U). rewrite (time_str_value s n c u D U).
  destruct (n * u <? two64)%Z; [discriminate|]. destruct (n <? two64)%Z; discriminate.
Qed.

Lemma time_lexeme_range t d :
  time_lexeme t -> time_str_to_duration t = Val d -> (0 <= d < two64 * nanos)%Z.
Proof.
  intros (s & n & c & u & -> & D & U). rewrite (time_str_value s n c u D U).
  pose proof (decimal_nonneg _ _ D) as NN. assert (1 <= u)%Z as U1 by (destruct U; lia).
  destruct (Z.ltb_spec (n * u) two64); [|destruct (n <? two64)%Z; discriminate].
  intros [= <-]. unfold from_secs, nanos in *. nia.
Qed.

(** * What the parsed structure inherits from the lexemes *)

Definition is_qstring (s : str) : Prop := exists v, s = quote_string v.

Definition field_ok (f : field) : Prop :=
  match f with
  | FRefreshAtLeast t | FRefreshBeforeExpiry t | FRefreshRetry t => time_lexeme t
  | FAuthUri s | FClientId s | FClientSecret s | FLoginHint s | FRedirectUri s | FTokenUri s =>
      is_qstring s
  | FScopes l => Forall is_qstring l
  | FAuthUriFields l => Forall (fun kv => is_qstring (fst kv) /\ is_qstring (snd kv)) l
  end.

Definition top_ok (t : toplevel) : Prop :=
  match t with
  | TLAccount n fs => is_qstring n /\ Forall field_ok fs
  | TLAuthNotifyInterval t | TLRefreshAtLeast t | TLRefreshBeforeExpiry t | TLRefreshRetry t =>
      time_lexeme t
  | TLAuthNotifyCmd s | TLErrorNotifyCmd s | TLHttpListen s | TLHttpsListen s
  | TLTransientErrorIfCmd s | TLTokenEventCmd s => is_qstring s
  | TLAuthErrorCmd | TLHttpListenNone | TLHttpsListenNone => True
  end.

Lemma g_scopes_ok ts l : g_scopes ts l -> Forall token_ok ts -> Forall is_qstring l.
Proof.
  intros G. induction G as [ts l s G IH|s|]; intros F.
  - apply Forall_app in F as [F1 F2]. apply Forall_app. split; [auto|].
    inversion F2 as [|? ? _ F3]; subst. inversion F3; subst. constructor; [assumption|constructor].
  - inversion F; subst. constructor; [assumption|constructor].
  - constructor.
Qed.

Lemma g_uri_fields_ok ts l :
  g_uri_fields ts l -> Forall token_ok ts ->
  Forall (fun kv => is_qstring (fst kv) /\ is_qstring (snd kv)) l.
Proof.
  intros G. induction G as [ts l k v G IH|k v|]; intros F.
  - apply Forall_app in F as [F1 F2]. apply Forall_app. split; [auto|].
    rewrite Forall_forall in F2. constructor; [|constructor]. split.
    + apply (F2 (TkString k)). simpl. auto.
    + apply (F2 (TkString v)). simpl. auto.
  - rewrite Forall_forall in F. constructor; [|constructor]. split.
    + apply (F (TkString k)). simpl. auto.
    + apply (F (TkString v)). simpl. auto.
  - constructor.
Qed.

Lemma g_field_ok ts f : g_field ts f -> Forall token_ok ts -> field_ok f.
Proof.
  intros G F. destruct G as [s|ts l G|s|s|s|s|t|t|t|ts l G|s]; simpl;
    try (rewrite Forall_forall in F; match goal with
         | s : str |- is_qstring ?s => apply (F (TkString s)); simpl; auto
         | t : str |- time_lexeme ?t => apply (F (TkTime t)); simpl; auto
         end).
  - apply Forall_app in F as [_ F]. apply Forall_app in F as [F _]. eapply g_uri_fields_ok; eassumption.
  - apply Forall_app in F as [_ F]. apply Forall_app in F as [F _]. eapply g_scopes_ok; eassumption.
Qed.

Lemma g_fields_ok ts fs : g_fields ts fs -> Forall token_ok ts -> Forall field_ok fs.
Proof.
  intros G. induction G as [ts fs ts' f G IH G'|]; intros F; [|constructor].
  apply Forall_app in F as [F1 F2]. apply Forall_app. split; [auto|].
  constructor; [|constructor]. eapply g_field_ok; eassumption.
Qed.

Lemma g_toplevel_ok ts t : g_toplevel ts t -> Forall token_ok ts -> top_ok t.
Proof.
  intros G F. destruct G as [n ts fs G| | | | | | | | | | | | |]; simpl; try exact I;
    try (rewrite Forall_forall in F; match goal with
         | s : str |- is_qstring ?s => apply (F (TkString s)); simpl; auto
         | t : str |- time_lexeme ?t => apply (F (TkTime t)); simpl; auto
         end).
  split.
  - rewrite Forall_forall in F. apply (F (TkString n)). simpl. auto.
  - apply Forall_app in F as [_ F]. apply Forall_app in F as [F _]. eapply g_fields_ok; eassumption.
Qed.

Lemma g_toplevels_ok ts l : g_toplevels ts l -> Forall token_ok ts -> Forall top_ok l.
Proof.
  intros G. induction G as [ts fs ts' f G IH G'|]; intros F; [|constructor].
  apply Forall_app in F as [F1 F2]. apply Forall_app. split; [auto|].
  constructor; [|constructor]. eapply g_toplevel_ok; eassumption.
Qed.

Lemma config_parsed s c O h :
  config_from_str O h s = Val c ->
  exists ts, Forall top_ok ts /\ config_of_toplevels O h ts = Val c.
Proof.
  unfold config_from_str. destruct (lex s) as [toks|] eqn:L; [|discriminate].
  destruct (parse_tokens toks) as [ts|] eqn:P; [|discriminate]. intros E. exists ts. split; [|exact E].
  apply parse_tokens_grammar in P. eapply g_toplevels_ok; [exact P|]. eapply lex_ok; exact L.
Qed.

(** * No panics *)

Lemma bind_no_panic {A B} (m : outcome A) (f : A -> outcome B) :
  m <> Panic -> (forall x, m = Val x -> f x <> Panic) -> (x <- m ;; f x) <> Panic.
Proof. intros N F. destruct m; simpl; [apply F; reflexivity|discriminate|congruence]. Qed.

Lemma cna_no_panic {T} n (v : option T) : check_not_assigned n v <> Panic.
Proof. destruct v; discriminate. Qed.
Lemma cnas_no_panic {T} n l (v : option T) : check_not_assigned_str n l v <> Panic.
Proof. destruct v; discriminate. Qed.
Lemma cnat_no_panic {T} n l (v : option T) : check_not_assigned_time n l v <> Panic.
Proof. destruct v; discriminate. Qed.
Lemma cnat_val {T} n l (v : option T) x : check_not_assigned_time n l v = Val x -> x = l /\ v = None.
Proof. destruct v; simpl; [discriminate|]. intros [= <-]. auto. Qed.
Lemma cnau_no_panic {T} O n l (v : option T) : check_not_assigned_uri O n l v <> Panic.
Proof.
  unfold check_not_assigned_uri. destruct v; [discriminate|].
  destruct (o_url_parse O (unescape_str l)); [|discriminate].
  destruct (str_eqb _ _ || str_eqb _ _); discriminate.
Qed.

Ltac np :=
  first [ discriminate
        | apply cna_no_panic | apply cnas_no_panic | apply cnat_no_panic | apply cnau_no_panic
        | apply bind_no_panic; [np|let x := fresh "x" in let E := fresh "E" in intros x E; np]
        | match goal with
          | E : check_not_assigned_time _ ?l _ = Val ?x |- time_str_to_duration ?x <> Panic =>
              apply cnat_val in E as [-> _]; apply time_lexeme_no_panic; assumption
          end ].

Lemma field_step_no_panic O a f : field_ok f -> field_step O a f <> Panic.
Proof. intros F. destruct a. destruct f; simpl in *; np. Qed.

Lemma fields_loop_no_panic O fs : forall a, Forall field_ok fs -> fields_loop O a fs <> Panic.
Proof.
  induction fs as [|f fs IH]; intros a F; simpl; [discriminate|].
  inversion F; subst. apply bind_no_panic; [apply field_step_no_panic; assumption|auto].
Qed.

Lemma check_assigned_no_panic {T} n (v : option T) : check_assigned n v <> Panic.
Proof. destruct v; discriminate. Qed.

Lemma from_fields_no_panic O n fs : Forall field_ok fs -> from_fields O n fs <> Panic.
Proof.
  intros F. unfold from_fields. apply bind_no_panic; [apply fields_loop_no_panic; exact F|].
  intros a _. unfold fields_finish.
  do 3 (apply bind_no_panic; [apply check_assigned_no_panic|intros ? _]).
  match goal with |- (if ?b then _ else _) <> _ => destruct b end; discriminate.
Qed.

Lemma top_step_no_panic O a t : top_ok t -> top_step O a t <> Panic.
Proof.
  intros F. destruct a. destruct t; simpl in *; try np.
  apply bind_no_panic; [apply from_fields_no_panic; tauto|discriminate].
Qed.

Lemma tops_loop_no_panic O ts : forall a, Forall top_ok ts -> tops_loop O a ts <> Panic.
Proof.
  induction ts as [|f fs IH]; intros a F; simpl; [discriminate|].
  inversion F; subst. apply bind_no_panic; [apply top_step_no_panic; assumption|auto].
Qed.

Lemma redirect_check_no_panic hl hsl p : redirect_check hl hsl p <> Panic.
Proof.
  unfold redirect_check. destruct p as [n act].
  destruct (starts_with $"https" _); [destruct hsl as [[|]|]; discriminate|].
  destruct (starts_with $"http" _); [destruct hl as [[|]|]; discriminate|discriminate].
Qed.

Lemma redirect_checks_no_panic hl hsl l : redirect_checks hl hsl l <> Panic.
Proof.
  induction l as [|p l IH]; simpl; [discriminate|].
  apply bind_no_panic; [apply redirect_check_no_panic|auto].
Qed.

Lemma tops_finish_no_panic h a : tops_finish h a <> Panic.
Proof.
  unfold tops_finish.
  assert (forall X : outcome config, X <> Panic ->
    match t_http_listen a, t_https_listen a with
    | Some None, Some None => Err $"Cannot set both http_listen and https_listen to 'none'"
    | _, _ => X end <> Panic) as K.
  { intros X N. destruct (t_http_listen a) as [[|]|], (t_https_listen a) as [[|]|]; try exact N; discriminate. }
  apply K. destruct (hsort _ _) as [|p l]; [discriminate|].
  apply bind_no_panic; [apply redirect_checks_no_panic|discriminate].
Qed.

Lemma config_from_str_no_panic O h s : config_from_str O h s <> Panic.
Proof.
  unfold config_from_str. destruct (lex s) as [toks|] eqn:L; [|discriminate].
  destruct (parse_tokens toks) as [ts|] eqn:P; [|discriminate].
  apply parse_tokens_grammar in P. apply g_toplevels_ok in P; [|eapply lex_ok; exact L].
  unfold config_of_toplevels. apply bind_no_panic; [apply tops_loop_no_panic; exact P|].
  intros a _. apply tops_finish_no_panic.
Qed.

(** * Accepted configurations are well formed *)

Lemma bind_inv {A B} (m : outcome A) (f : A -> outcome B) y :
  (x <- m ;; f x) = Val y -> exists x, m = Val x /\ f x = Val y.
Proof. destruct m; simpl; [eauto|discriminate|discriminate]. Qed.

Definition dur_ok (o : option Z) : Prop :=
  forall d, o = Some d -> (0 <= d < two64 * nanos)%Z.

Definition uri_ok (O : oracles) (o : option str) : Prop := forall s, o = Some s -> http_uri O s.

(** What config.rs guarantees about an account it accepted. *)
Record account_ok (O : oracles) (a : account) : Prop := {
  ao_auth : http_uri O (a_auth_uri a);
  ao_token : http_uri O (a_token_uri a);
  ao_redirect : http_uri O (a_redirect_uri a) \/ a_redirect_uri a = default_redirect_uri;
  ao_at_least : dur_ok (a_refresh_at_least a);
  ao_before : dur_ok (a_refresh_before_expiry a);
  ao_retry : dur_ok (a_refresh_retry a);
}.

Record facc_ok (O : oracles) (a : field_acc) : Prop := {
  fo_auth : uri_ok O (f_auth_uri a);
  fo_token : uri_ok O (f_token_uri a);
  fo_redirect : uri_ok O (f_redirect_uri a);
  fo_at_least : dur_ok (f_refresh_at_least a);
  fo_before : dur_ok (f_refresh_before_expiry a);
  fo_retry : dur_ok (f_refresh_retry a);
}.

Lemma cnau_val {T} O n l (v : option T) s :
  check_not_assigned_uri O n l v = Val s -> s = unescape_str l /\ v = None /\ http_uri O s.
Proof.
  unfold check_not_assigned_uri. destruct v; [discriminate|].
  destruct (o_url_parse O (unescape_str l)) as [u|] eqn:P; [|discriminate].
  destruct (str_eqb (u_scheme u) $"http" || str_eqb (u_scheme u) $"https") eqn:S; [|discriminate].
  intros [= <-]. split; [reflexivity|]. split; [reflexivity|]. exists u. split; [exact P|].
  apply orb_true_iff in S as [S|S]; apply str_eqb_eq in S; auto.
Qed.

Lemma field_step_ok O a f a' :
  field_ok f -> facc_ok O a -> field_step O a f = Val a' -> facc_ok O a'.
Proof.
  intros F [H1 H2 H3 H4 H5 H6] E. destruct a as [au auf ci cs lh ru ral rbe rr sc tu]; simpl in *.
  destruct f; simpl in E;
    repeat match type of E with
           | bind _ _ = Val _ => apply bind_inv in E as [? [? E]]
           end; injection E as <-; constructor; simpl; try assumption;
    intros z [= <-];
    match goal with
    | H : check_not_assigned_uri _ _ _ _ = Val _ |- http_uri _ _ => apply cnau_val in H; tauto
    | H : check_not_assigned_time _ _ _ = Val _, H' : time_str_to_duration _ = Val _ |- _ =>
        apply cnat_val in H as [-> _]; eapply time_lexeme_range; eassumption
    end.
Qed.

Lemma fields_loop_ok O fs : forall a a',
  Forall field_ok fs -> facc_ok O a -> fields_loop O a fs = Val a' -> facc_ok O a'.
Proof.
  induction fs as [|f fs IH]; intros a a' F H E; simpl in E.
  - injection E as <-. exact H.
  - inversion F; subst. apply bind_inv in E as (a1 & E1 & E). eapply IH; [eassumption| |exact E].
    eapply field_step_ok; eassumption.
Qed.

Lemma facc0_ok O : facc_ok O facc0.
Proof. constructor; intros x E; discriminate E. Qed.

Lemma from_fields_ok O n fs act :
  Forall field_ok fs -> from_fields O n fs = Val act -> a_name act = n /\ account_ok O act.
Proof.
  intros F E. unfold from_fields in E. apply bind_inv in E as (a & E1 & E).
  apply fields_loop_ok in E1; [|exact F|apply facc0_ok]. destruct E1 as [H1 H2 H3 H4 H5 H6].
  unfold fields_finish in E.
  apply bind_inv in E as (au & A1 & E). apply bind_inv in E as (ci & A2 & E).
  apply bind_inv in E as (tu & A3 & E).
  destruct (f_auth_uri a) as [x1|]; [|discriminate]. injection A1 as ->.
  destruct (f_token_uri a) as [x2|]; [|discriminate]. injection A3 as ->.
  match type of E with (if ?b then _ else _) = _ => destruct b end; [discriminate|].
  injection E as <-. split; [reflexivity|]. constructor; simpl; auto.
  destruct (f_redirect_uri a) as [x3|]; simpl; auto.
Qed.

(** Global settings. *)
Record conf_ok (O : oracles) (c : config) : Prop := {
  co_wf : wf_conf c;
  co_accounts : Forall (fun p => account_ok O (snd p)) (c_accounts c);
  co_interval : (0 <= c_auth_notify_interval c < two64 * nanos)%Z;
  co_at_least : dur_ok (c_refresh_at_least c);
  co_before : dur_ok (c_refresh_before_expiry c);
  co_retry : dur_ok (c_refresh_retry c);
}.

Record tacc_ok (O : oracles) (a : top_acc) : Prop := {
  to_nodup : NoDup (keys (t_accounts a));
  to_names : Forall (fun p => fst p = a_name (snd p) /\ account_ok O (snd p)) (t_accounts a);
  to_interval : dur_ok (t_auth_notify_interval a);
  to_at_least : dur_ok (t_refresh_at_least a);
  to_before : dur_ok (t_refresh_before_expiry a);
  to_retry : dur_ok (t_refresh_retry a);
}.

Lemma map_insert_forall {A} (P : str * A -> Prop) k v m :
  P (k, v) -> Forall P m -> Forall P (map_insert k v m).
Proof.
  intros H F. induction F as [|[k' v'] m Hx F IH]; simpl; [auto|].
  destruct (str_eqb_spec k k') as [->|N]; constructor; auto.
Qed.

Lemma top_step_ok O a t a' :
  top_ok t -> tacc_ok O a -> top_step O a t = Val a' -> tacc_ok O a'.
Proof.
  intros F [H1 H2 H3 H4 H5 H6] E. destruct a as [acts anc ani enc hl hsl tei ral rbe rr tec]; simpl in *.
  destruct t; simpl in E; try discriminate E;
    repeat match type of E with
           | bind _ _ = Val _ => apply bind_inv in E as [? [? E]]
           end; injection E as <-; constructor; simpl; try assumption;
    try (intros z [= <-];
    match goal with
    | H : check_not_assigned_time _ _ _ = Val _, H' : time_str_to_duration _ = Val _ |- _ =>
        apply cnat_val in H as [-> _]; eapply time_lexeme_range; eassumption
    end).
  - apply keys_map_insert_nodup. exact H1.
  - match goal with H : from_fields _ _ _ = Val _ |- _ => apply from_fields_ok in H; [|apply F] end.
    apply map_insert_forall; [|exact H2]. simpl. intuition.
Qed.

Lemma tops_loop_ok O ts : forall a a',
  Forall top_ok ts -> tacc_ok O a -> tops_loop O a ts = Val a' -> tacc_ok O a'.
Proof.
  induction ts as [|f fs IH]; intros a a' F H E; simpl in E.
  - injection E as <-. exact H.
  - inversion F; subst. apply bind_inv in E as (a1 & E1 & E). eapply IH; [eassumption| |exact E].
    eapply top_step_ok; eassumption.
Qed.

Lemma tacc0_ok O : tacc_ok O tacc0.
Proof. constructor; simpl; try solve [constructor]; intros x E; discriminate E. Qed.

(** The finishing step, opened up. *)
Lemma tops_finish_inv h a c :
  tops_finish h a = Val c ->
  let accounts := hsort (fun p => h (fst p)) (t_accounts a) in
  ~ (t_http_listen a = Some None /\ t_https_listen a = Some None)
  /\ accounts <> []
  /\ redirect_checks (t_http_listen a) (t_https_listen a) accounts = Val tt
  /\ c = mkConfig accounts (t_auth_notify_cmd a)
                 (opt_default auth_notify_interval_default (t_auth_notify_interval a))
                 (t_error_notify_cmd a)
                 (opt_default (Some listen_default) (t_http_listen a))
                 (opt_default (Some listen_default) (t_https_listen a))
                 (t_transient_error_if_cmd a) (t_refresh_at_least a)
                 (t_refresh_before_expiry a) (t_refresh_retry a) (t_token_event_cmd a).
Proof.
  intros E. cbv zeta. unfold tops_finish in E.
  assert (forall X : outcome config,
    match t_http_listen a, t_https_listen a with
    | Some None, Some None => Err $"Cannot set both http_listen and https_listen to 'none'"
    | _, _ => X end = Val c ->
    ~ (t_http_listen a = Some None /\ t_https_listen a = Some None) /\ X = Val c) as K.
  { intros X EX. destruct (t_http_listen a) as [[|]|], (t_https_listen a) as [[|]|]; try discriminate EX;
    (split; [intros [? ?]; discriminate|exact EX]). }
  apply K in E as [N E]. split; [exact N|].
  destruct (hsort (fun p => h (fst p)) (t_accounts a)) as [|p l]; [discriminate|].
  split; [discriminate|]. apply bind_inv in E as ([] & R & E). split; [exact R|]. congruence.
Qed.

Lemma config_of_toplevels_ok O h ts c :
  Forall top_ok ts -> config_of_toplevels O h ts = Val c -> conf_ok O c.
Proof.
  intros F E. unfold config_of_toplevels in E. apply bind_inv in E as (a & E1 & E).
  apply tops_loop_ok in E1; [|exact F|apply tacc0_ok]. destruct E1 as [H1 H2 H3 H4 H5 H6].
  apply tops_finish_inv in E as (N & NE & RC & ->).
  pose proof (hsort_perm (fun p : str * account => h (fst p)) (t_accounts a)) as PM.
  assert (Forall (fun p => fst p = a_name (snd p) /\ account_ok O (snd p))
            (hsort (fun p => h (fst p)) (t_accounts a))) as H2'.
  { apply Forall_forall. intros x Hx. rewrite Forall_forall in H2. apply H2.
    eapply Permutation_in; [exact PM|exact Hx]. }
  constructor; simpl; auto.
  - split; [|split; [|split]]; simpl.
    + eapply Permutation_NoDup; [|exact H1]. apply Permutation_map. symmetry. exact PM.
    + eapply Forall_impl; [|exact H2']. simpl. intros p [X _]. exact X.
    + exact NE.
    + destruct (t_http_listen a) as [[x|]|]; simpl; try (left; discriminate).
      destruct (t_https_listen a) as [[y|]|]; simpl; try (right; discriminate). tauto.
  - eapply Forall_impl; [|exact H2']. simpl. intros p [_ X]. exact X.
  - destruct (t_auth_notify_interval a) as [d|] eqn:D; simpl.
    + apply H3. reflexivity.
    + unfold auth_notify_interval_default, from_secs, two64, nanos. lia.
Qed.

Lemma config_from_str_ok O h s c : config_from_str O h s = Val c -> conf_ok O c.
Proof.
  intros E. apply config_parsed in E as (ts & F & E). eapply config_of_toplevels_ok; eassumption.
Qed.
